(** Property C63: the calls made in a run. *)
From stdpp Require Import prelude gmap strings.
From Coq Require Import ZArith QArith.
From Verif Require Import Num NumQ NumOrd NumAdd Res Store Leaf Sched Stepper Sim SpecHist P_Trace SpecRun P_Log P_Run Ex_Models Ex_Hist Props_Run SpecCalls.
Local Open Scope nat_scope.
Local Open Scope num_scope.

Section pieces.
  Context {D : Type} `{NumOps D} (bs : list nat).
  Lemma calls_app (u v : list (event D)) : calls (u ++ v) = calls u ++ calls v.
  Proof. unfold calls. by rewrite map_app, concat_app. Qed.
  Lemma calls_map {A} (f : A -> event D) (k : A -> call D) l : (forall a, call_of (f a) = [k a]) -> calls (map f l) = map k l.
  Proof. intros Hf. induction l as [|a l IH]; [done|]. unfold calls in *. cbn. by rewrite Hf, IH. Qed.
  Lemma began_calls (t : D) v : began bs t v -> calls v = CInputs t :: map (fun b => CPre b t) bs.
  Proof.
    intros (σ & ms & ->). change (EvInputs t :: map (fun b => EvPre b t) bs ++ [EvBegin t σ ms]) with ([EvInputs t] ++ map (fun b => EvPre b t) bs ++ [EvBegin t σ ms]).
    rewrite !calls_app, (calls_map _ (fun b => CPre b t)) by done. cbn. by rewrite app_nil_r.
  Qed.
  Lemma evaluated_calls (t : D) v : evaluated_at t v -> exists acts, calls v = eval_calls (t, acts).
  Proof.
    intros (acts & σ & ms & ->). exists acts. change (EvInputs t :: map (fun b => EvAct b t) acts ++ [EvEval t σ ms]) with ([EvInputs t] ++ map (fun b => EvAct b t) acts ++ [EvEval t σ ms]).
    rewrite !calls_app, (calls_map _ (fun b => CAct b t)) by done. cbn. by rewrite app_nil_r.
  Qed.
  Lemma ended_calls (t : D) v : ended bs t v -> calls v = map (fun b => CPost b t) bs.
  Proof. intros (σ & ms & ->). rewrite !calls_app, (calls_map _ (fun b => CPost b t)) by done. cbn. by rewrite app_nil_r. Qed.
  Lemma evaluations_calls (v : list (event D)) : evaluations v -> exists es, calls v = concat (map eval_calls es).
  Proof.
    intros (vs & -> & Hv). induction Hv as [|v vs (t & Hx) Hv (es & IH)]; [by exists []|]. cbn [concat]. destruct (evaluated_calls _ _ Hx) as [acts E].
    exists ((t, acts) :: es). by rewrite calls_app, E, IH.
  Qed.
  Lemma attempt_log_calls (t1 t2 h : D) v : attempt_log bs t1 t2 h v -> exists es, forall ok o,
    calls v ++ match o with None => [] | Some e => eval_calls e ++ map (fun b => CPost b e.1) bs end = attempt_calls bs (Attempt t1 t2 h ok) (es, o).
  Proof.
    intros (v1 & vs & x & y & -> & Hb & He). apply evaluations_calls in He as [es E]. exists es. intros ok o. rewrite !calls_app, (began_calls _ _ Hb), E.
    unfold attempt_calls. rewrite <- !app_assoc. done.
  Qed.
End pieces.

Definition part_ok {D} `{NumOps D} (a : attempt D) (p : list (D * list nat) * option (D * list nat)) : Prop :=
  match p.2 with Some e => at_ok a = true /\ same_time e.1 (at_to a) | None => at_ok a = false end.
Section walk.
  Context {D : Type} `{NumAdd D} (bs : list nat) (t lo hi : D).
  Context (tail : list (event D)) (Htail : exists v1 v2, tail = v1 ++ v2 /\ evaluated_at t v1 /\ ended bs t v2).
  Lemma walk_calls t1 t2 force w : walk bs t lo hi t1 t2 force w -> (t1 <? t) = true -> Forall (fun a => (at_to a <=? t) = true) (attempts (w ++ tail)) ->
    exists ps, calls (w ++ tail) = concat (zip_with (attempt_calls bs) (attempts (w ++ tail)) ps) /\ Forall2 part_ok (attempts (w ++ tail)) ps.
  Proof.
    induction 1 as [t1 t2 force Ht|t1 t2 force new_h v v1 v2 rest Ht Ha Hac Ht2 He Hen Hw IH|t1 t2 force new_h v Ht Ha Hac Ht2|t1 t2 force new_h v rest Ht Ha Hac Hw IH];
      intros Hlt Hle; [congruence| | |]; destruct (attempt_log_calls _ _ _ _ _ Ha) as [es Ec].
    - assert (attempts ((v ++ v1 ++ v2 ++ rest) ++ tail) = Attempt t1 t2 new_h true :: attempts (rest ++ tail)) as Eat.
      { rewrite <- !app_assoc. rewrite (attempt_attempts bs _ _ _ _ _ Ha).
        destruct (evaluated_spec _ _ He) as ((σ & ms & E1) & _). destruct (ended_spec _ _ _ Hen) as ((σ' & ms' & E2 & _) & _).
        unfold attempts. rewrite !marks_app, E1, E2. cbn [app is_begin negb attempts_in]. by rewrite <- marks_app. }
      rewrite Eat in *. apply Forall_cons in Hle as [_ Hle]. destruct (IH Ht2 Hle) as (ps & E & Hps).
      destruct (evaluated_calls _ _ He) as [acts E1]. exists ((es, Some (t2, acts)) :: ps). split; [|constructor; [split; [done|split; apply leb_refl]|done]].
      cbn [zip_with concat]. rewrite <- E, <- !app_assoc, !calls_app, E1, (ended_calls _ _ _ Hen), <- (Ec true (Some (t2, acts))), <- !app_assoc. done.
    - rewrite (attempt_attempts bs _ _ _ _ _ Ha), (tail_attempts bs t tail Htail) in *. destruct (tail_marks bs t tail Htail) as (σ & ms & σ' & ms' & E). rewrite E in *. cbn [is_begin negb] in *.
      apply Forall_cons in Hle as [Hle _]. cbn in Hle. destruct Htail as (v1 & v2 & -> & H1' & H2'). destruct (evaluated_calls _ _ H1') as [acts E1].
      exists [(es, Some (t, acts))]. split; [|constructor; [split; [done|split; [by apply ltb_ge|done]]|constructor]].
      cbn [zip_with concat]. rewrite app_nil_r, !calls_app, E1, (ended_calls _ _ _ H2'), <- (Ec true (Some (t, acts))). done.
    - assert (attempts ((v ++ rest) ++ tail) = Attempt t1 t2 new_h false :: attempts (rest ++ tail)) as Eat.
      { rewrite <- app_assoc, (attempt_attempts bs _ _ _ _ _ Ha). destruct (walk_head _ _ _ _ _ _ _ _ Hw Ht) as (σ & ms & r & E). by rewrite marks_app, E. }
      rewrite Eat in *. apply Forall_cons in Hle as [_ Hle]. destruct (IH Ht Hle) as (ps & E & Hps). exists ((es, None) :: ps). split; [|constructor; [done|done]].
      cbn [zip_with concat]. rewrite <- E, <- !app_assoc, !calls_app, <- (Ec false None), app_nil_r. done.
  Qed.
End walk.

Theorem C63_calls : forall D `{NumAdd D} (g : cfg D) s t lo hi s' v, later_run g s t lo hi s' v ->
  g_dbg g = true \/ (n0 <? lo) = true ->
  exists ps, calls v = concat (zip_with (attempt_calls (map l_id (leaves (g_tree g)))) (attempts v) ps) /\
    Forall2 (fun a p => match p.2 with Some e => at_ok a = true /\ same_time e.1 (at_to a) | None => at_ok a = false end) (attempts v) ps.
Proof.
  intros D ? ? ? g s t lo hi s' v Hl Hlo. destruct (C33_ends D g s t lo hi s' v Hl Hlo) as (_ & _ & _ & _ & Hat).
  assert ((s_tprev s <? t) = true) as Ht by apply Hl. destruct (later_walk _ _ _ _ _ _ _ Hl) as (_ & _ & w & tail & -> & Hw & Htl).
  eapply walk_calls; [done|exact Hw|done|]. eapply Forall_impl; [exact Hat|]. by intros a (_ & _ & ?).
Qed.
Print Assumptions C63_calls.

(** Six attempts, four of them accepted, of the model ex6 with nine blocks. *)
Example C63_ex : later_run (ex6_cfg MDefault picky) picky_0 3%Q (1#100)%Q 1%Q picky_1 (new_log picky_0 picky_1) /\ g_dbg (ex6_cfg MDefault picky) = true /\
  length (leaves (g_tree (ex6_cfg MDefault picky))) = 9 /\ map at_ok (attempts (new_log picky_0 picky_1)) = [false; true; true; false; true; true] /\
  length (List.filter (fun c => match c with CPre _ _ => true | _ => false end) (calls (new_log picky_0 picky_1))) = 54 /\
  length (List.filter (fun c => match c with CPost _ _ => true | _ => false end) (calls (new_log picky_0 picky_1))) = 36 /\
  length (List.filter (fun c => match c with CInputs _ => true | _ => false end) (calls (new_log picky_0 picky_1))) = 16.
Proof. split; [exact picky_run|]. split; [reflexivity|]. split; [vm_compute; reflexivity|]. split; [vm_compute; reflexivity|]. split; [vm_compute; reflexivity|]. split; vm_compute; reflexivity. Qed.
