(** What the parts of a simulator append to the log, in any build. *)
From stdpp Require Import prelude gmap.
From Coq Require Import ZArith.
From Verif Require Import Num Res Store Leaf Sched Stepper Sim SpecSched P_Store P_Prog P_Modes P_Eval P_Sim P_Evolve P_Rel SpecHist P_Trace SpecRun.
Local Open Scope num_scope.

Section acted.
  Context {D : Type} `{NumOps D} (t : D).
  (** Only evaluations of blocks at time [t] are recorded. *)
  Definition acted (c c' : core D) : Prop := exists acts, k_log c' = k_log c ++ map (fun b => EvAct b t) acts.
  Local Instance acted_pre : PreOrder acted.
  Proof.
    split; [intros c; exists []; by rewrite app_nil_r|]. intros c1 c2 c3 [a1 E1] [a2 E2]. exists (a1 ++ a2). by rewrite E2, E1, map_app, app_assoc.
  Qed.
  Definition dacted (d d' : dyn D) : Prop := acted (d_core d) (d_core d').
  Local Instance dacted_pre : PreOrder dacted.
  Proof. split; [intros d; unfold dacted; reflexivity|]. intros d1 d2 d3. unfold dacted. apply transitivity. Qed.
  Lemma acted_nil (c c' : core D) : k_log c' = k_log c -> acted c c'.
  Proof. intros E. exists []. by rewrite app_nil_r. Qed.
  Lemma acted_activate dbg l : pres acted (activate dbg l t).
  Proof.
    intros c. unfold activate, run_leaf. destruct (run_prog _ _ _); try done; [by exists [l_id l]|by apply acted_nil].
  Qed.
  Lemma acted_leaf dbg l : pres acted (leaf_process dbg l t).
  Proof.
    intros c. unfold leaf_process. destruct (_ || _); [reflexivity|].
    revert c. change (pres acted (activate dbg l t ;;; set_done (l_id l) ;;; ret 1)).
    apply pres_bnd; [apply _|apply acted_activate|intros _].
    apply pres_bnd; [apply _| |intros _; by apply pres_ret; apply _]. apply pres_modify. intros c. by apply acted_nil.
  Qed.
  Lemma acted_fast_eval dbg order : pres acted (fast_eval dbg order t).
  Proof. unfold fast_eval. apply pres_forM; [apply _|]. intros ls. apply pres_forM; [apply _|]. intros l. apply acted_activate. Qed.
  Lemma acted_fast_pass dbg po n : pres acted (fast_pass dbg po t n).
  Proof.
    revert n. induction po as [|l po IH]; intros n; cbn [fast_pass]; [apply pres_ret, _|].
    destruct n as [|n]; [apply pres_ret, _|].
    apply pres_bnd; [apply _|apply pres_gets, _|intros []; [apply IH|]].
    apply pres_bnd; [apply _|apply acted_leaf|intros _].
    apply pres_bnd; [apply _|apply pres_gets, _|intros []; [|apply pres_ret, _]].
    apply pres_bnd; [apply _|apply IH|intros ?; apply pres_ret, _].
  Qed.
  Lemma acted_fast_loop dbg fuel po acc n : pres acted (fast_loop dbg fuel po t acc n).
  Proof.
    revert acc n. induction fuel as [|fuel IH]; intros acc n; cbn [fast_loop]; [apply pres_oof|].
    apply pres_bnd; [apply _|apply pres_gets, _|intros [|k]; [apply pres_ret, _|]].
    apply pres_bnd; [apply _|apply acted_fast_pass|intros r].
    apply pres_if; [apply IH|apply pres_ret, _].
  Qed.
  Lemma dacted_core {A} (m : M (core D) A) : pres acted m -> pres dacted (on_core m).
  Proof. apply pres_lift. intros c σ Hs. exact Hs. Qed.
  Lemma dacted_same (d : dyn D) x : dacted d (Dyn (d_core d) x).
  Proof. unfold dacted. reflexivity. Qed.
  Lemma dacted_process dbg : forall tr, pres dacted (process dbg tr t).
  Proof.
    fix IH 1. intros [l|b k ch]; cbn [process]; [apply dacted_core, acted_leaf|].
    apply pres_bnd; [apply _|apply pres_gets, _|intros []; [apply pres_ret, _|]].
    apply pres_bnd; [apply _|apply pres_modify; intros d; apply dacted_same|intros _].
    generalize 0. induction ch as [|c ch IHc]; intros n; [apply pres_ret, _|].
    apply pres_bnd; [apply _|apply IH|intros kk].
    apply pres_bnd; [apply _|apply pres_gets, _|intros q].
    apply pres_bnd; [apply _| |intros _; apply IHc].
    apply pres_if; [apply pres_ret, _|]. apply pres_modify. intros d. apply dacted_same.
  Qed.
  Lemma dacted_process_loop dbg fuel tr : pres dacted (process_loop dbg fuel tr t).
  Proof.
    induction fuel as [|fuel IH]; cbn [process_loop]; [apply pres_oof|].
    apply pres_bnd; [apply _|apply dacted_process|intros [|k]; [apply pres_ret, _|done]].
  Qed.
  Lemma dacted_mark : forall (tr : tree D) d, dacted d (mark_unprocessed tr d).
  Proof.
    fix IH 1. intros [l|b k ch] d; cbn [mark_unprocessed]; [by apply acted_nil|].
    transitivity (Dyn (d_core d) (d_sdone d ∖ {[b]})); [apply dacted_same|].
    generalize (Dyn (d_core d) (d_sdone d ∖ {[b]})). induction ch as [|c ch IHc]; intros d'; [reflexivity|].
    cbn [fold_left]. etrans; [apply (IH c)|apply IHc].
  Qed.
  Lemma dacted_reuse_pass dbg po : pres dacted (reuse_pass dbg po t).
  Proof.
    induction po as [|n po IH]; cbn [reuse_pass]; [apply pres_ret, _|].
    apply pres_bnd; [apply _|apply pres_gets, _|intros []; [done|]].
    apply pres_bnd; [apply _| |intros _].
    { destruct n as [l|b k]; cbn [node_process].
      - apply pres_bnd; [apply _|apply dacted_core, acted_leaf|intros ?; apply pres_ret, _].
      - apply pres_modify. intros d. apply dacted_same. }
    apply pres_bnd; [apply _|apply pres_gets, _|intros q].
    apply pres_bnd; [apply _|done|intros r; apply pres_ret, _].
  Qed.
  Lemma dacted_reuse_loop dbg fuel po acc : pres dacted (reuse_loop dbg fuel po t acc).
  Proof.
    revert acc. induction fuel as [|fuel IH]; intros acc; cbn [reuse_loop]; [apply pres_oof|].
    apply pres_bnd; [apply _|apply dacted_reuse_pass|intros [|? ?]; [apply pres_ret, _|apply IH]].
  Qed.
  Lemma dacted_reuse_all dbg po : pres dacted (reuse_all dbg po t).
  Proof.
    unfold reuse_all. apply pres_bnd; [apply _|apply dacted_reuse_loop|intros acc].
    apply pres_bnd; [apply _|apply pres_gets, _|intros rest].
    apply pres_bnd; [apply _|apply pres_debug, _|intros _; apply pres_ret, _].
  Qed.
  Definition sacted (s s' : simst D) : Prop := dacted (s_dyn s) (s_dyn s').
  Local Instance sacted_pre : PreOrder sacted.
  Proof. split; [intros d; unfold sacted; reflexivity|]. intros d1 d2 d3. unfold sacted. apply transitivity. Qed.
  Lemma sacted_dyn {A} (m : M (dyn D) A) : pres dacted m -> pres sacted (on_dyn m).
  Proof. apply pres_lift. intros c σ Hs. exact Hs. Qed.
  Lemma sacted_put s p1 p2 c : sacted s (put_po p1 p2 c s).
  Proof. unfold sacted. reflexivity. Qed.
  Lemma sacted_eval g : pres sacted (eval_model g t).
  Proof.
    unfold eval_model. destruct (g_mode g).
    - apply pres_bnd; [apply _|apply sacted_dyn, pres_modify, dacted_mark|intros _]. apply sacted_dyn, dacted_process_loop.
    - apply pres_bnd; [apply _|apply sacted_dyn, pres_modify, dacted_mark|intros _].
      apply pres_bnd; [apply _|apply pres_gets, _|intros [[]|]]; [..|apply pres_undef].
      all: apply pres_bnd; [apply _|apply pres_gets, _|intros po]; apply pres_bnd; [apply _|apply sacted_dyn, dacted_reuse_all|intros po'].
      all: apply pres_modify; intros s; apply sacted_put.
    - apply pres_bnd; [apply _|apply pres_gets, _|intros o]. apply sacted_dyn, dacted_core, acted_fast_eval.
  Qed.
End acted.

Section adds.
  Context {D : Type} `{NumOps D}.
  (** When [m] returns, what it recorded satisfies [L]. *)
  Definition adds {A} (L : list (event D) -> Prop) (m : M (simst D) A) : Prop :=
    forall s a s', m s = Ok a s' -> exists v, s_log s' = s_log s ++ v /\ L v.
  Definition nothing (v : list (event D)) : Prop := v = [].
  Lemma adds_weak {A} (L L' : list (event D) -> Prop) (m : M (simst D) A) : (forall v, L v -> L' v) -> adds L m -> adds L' m.
  Proof. intros Hl Hm s a s' Hr. destruct (Hm _ _ _ Hr) as (v & E & Hv). exists v. auto. Qed.
  Lemma adds_bnd {A B} (L1 L2 L : list (event D) -> Prop) (m : M (simst D) A) (k : A -> M (simst D) B) :
    adds L1 m -> (forall a, adds L2 (k a)) -> (forall v1 v2, L1 v1 -> L2 v2 -> L (v1 ++ v2)) -> adds L (bnd m k).
  Proof.
    intros Hm Hk HL s b s'. unfold bnd. destruct (m s) as [a s1| | |] eqn:E; try done. intros Hr.
    destruct (Hm _ _ _ E) as (v1 & E1 & H1), (Hk _ _ _ _ Hr) as (v2 & E2 & H2). exists (v1 ++ v2). split; [by rewrite E2, E1, app_assoc|auto].
  Qed.
  Lemma adds_skip {A B} (L : list (event D) -> Prop) (m : M (simst D) A) (k : A -> M (simst D) B) :
    adds nothing m -> (forall a, adds L (k a)) -> adds L (bnd m k).
  Proof. intros Hm Hk. eapply adds_bnd; [exact Hm|exact Hk|]. by intros v1 v2 -> Hv. Qed.
  Lemma adds_ret {A} (a : A) : adds nothing (ret a).
  Proof. intros s a' s' [= <- <-]. exists []. by rewrite app_nil_r. Qed.
  Lemma adds_ret' {A} (L : list (event D) -> Prop) (a : A) : L [] -> adds L (ret a).
  Proof. intros HL s a' s' [= <- <-]. exists []. by rewrite app_nil_r. Qed.
  Lemma adds_gets {A} (f : simst D -> A) : adds nothing (gets f).
  Proof. intros s a' s' [= <- <-]. exists []. by rewrite app_nil_r. Qed.
  Lemma adds_modify f : (forall s, s_dyn (f s) = s_dyn s) -> adds nothing (modify f).
  Proof. intros Hf s a' s' [= <- <-]. exists []. rewrite app_nil_r. split; [|done]. unfold s_log, s_core. by rewrite Hf. Qed.
  Lemma adds_throw {A} L e : adds L (throw (A:=A) e).
  Proof. done. Qed.
  Lemma adds_undef {A} L u : adds L (undef (A:=A) u).
  Proof. done. Qed.
  Lemma adds_verify c e : adds nothing (verify c e).
  Proof. unfold verify. destruct c; [apply adds_ret|apply adds_throw]. Qed.
  Lemma adds_debug dbg c e : adds nothing (debug_verify dbg c e).
  Proof. unfold debug_verify. destruct dbg; [apply adds_verify|apply adds_ret]. Qed.
  Lemma adds_if {A} L (b : bool) (m1 m2 : M (simst D) A) : adds L m1 -> adds L m2 -> adds L (if b then m1 else m2).
  Proof. by destruct b. Qed.
  Lemma adds_store {A} (m : M (store D) A) : adds nothing (on_store' m).
  Proof.
    intros s a s'. unfold on_store', on_core', on_dyn, on_core, on_store, lift. destruct (m _); try done. intros [= <- <-].
    exists []. by rewrite app_nil_r.
  Qed.
  Lemma adds_core {A} (m : M (core D) A) L :
    (forall c a c', m c = Ok a c' -> exists v, k_log c' = k_log c ++ v /\ L v) -> adds L (on_core' m).
  Proof.
    intros Hm s a s'. unfold on_core', on_dyn, on_core, lift. specialize (Hm (d_core (s_dyn s))). destruct (m _); try done.
    intros [= <- <-]. by eapply Hm.
  Qed.
  Context (g : cfg D).
  Notation ids := (map l_id (leaves (g_tree g))).
  Lemma each_log dbg ev p ls (c c' : core D) : each dbg ev p ls c = Ok tt c' -> k_log c' = k_log c ++ map ev (map l_id ls).
  Proof.
    revert c. induction ls as [|l ls IH]; intros c; cbn; [intros [= <-]; by rewrite app_nil_r|].
    unfold bnd. destruct (run_leaf dbg (ev (l_id l)) l (p l) c) as [[] c1| | |] eqn:E; try done. intros Hr. rewrite (IH _ Hr).
    unfold run_leaf in E. destruct (run_prog _ _ _); try done. injection E as <-. cbn. by rewrite <- app_assoc.
  Qed.
  Lemma adds_inputs t : adds (fun v => v = [EvInputs t]) (on_core' (inputs g t)).
  Proof.
    apply adds_core. intros c a c' Hr. exists [EvInputs t]. split; [|done]. revert Hr. unfold inputs, bnd, emit, modify.
    destruct (g_inputs g) as [f|]; unfold on_store, lift; cbn [k_store].
    - destruct (run_prog _ _ _); try done. cbn. destruct (run_prog _ _ _); try done. by intros [= <- <-].
    - unfold ret. cbn. destruct (run_prog _ _ _); try done. by intros [= <- <-].
  Qed.
  Lemma adds_pre t : adds (fun v => exists σ ms, v = map (fun b => EvPre b t) ids ++ [EvBegin t σ ms])
    (on_core' (pre_step (g_dbg g) (g_tree g) t ;;; snap (EvBegin t))).
  Proof.
    apply adds_core. intros c [] c'. unfold bnd. rewrite pre_each. destruct (each _ _ _ _ c) as [[] c1| | |] eqn:Ee; try done.
    intros [= <-]. apply each_log in Ee. cbn. rewrite Ee, <- app_assoc. eexists. split; [done|]. by eexists _, _.
  Qed.
  Lemma adds_post t : adds (ended ids t) (on_core' (post_step (g_dbg g) (g_tree g) t ;;; snap (EvStep t))).
  Proof.
    apply adds_core. intros c [] c'. unfold bnd. rewrite post_each. destruct (each _ _ _ _ c) as [[] c1| | |] eqn:Ee; try done.
    intros [= <-]. apply each_log in Ee. cbn. rewrite Ee, <- app_assoc. eexists. split; [done|]. by eexists _, _.
  Qed.
  Lemma adds_eval t : adds (fun v => exists acts, v = map (fun b => EvAct b t) acts) (eval_model g t).
  Proof.
    intros s a s' Hr. pose proof (sacted_eval t g s) as Hp. rewrite Hr in Hp. destruct Hp as [acts E]. exists (map (fun b => EvAct b t) acts). eauto.
  Qed.
  Lemma adds_snap ev : adds (fun v => exists σ ms, v = [ev σ ms]) (on_core' (snap ev)).
  Proof. apply adds_core. intros c a c' [= <- <-]. cbn. eexists. split; [done|]. by eexists _, _. Qed.
  Lemma adds_clear : adds nothing (clear_all (D:=D)).
  Proof. apply adds_skip; [apply adds_gets|intros vs]. apply adds_store. Qed.
  Lemma adds_begin t : adds (began ids t) (begin_step g t).
  Proof.
    unfold begin_step. apply adds_skip; [apply adds_clear|intros _].
    eapply adds_bnd; [apply adds_inputs|intros _; apply adds_pre|]. intros v1 v2 -> (σ & ms & ->). by exists σ, ms.
  Qed.
  Lemma adds_minor_eval t : adds (evaluated_at t) (process_model g t false false).
  Proof.
    unfold process_model. eapply adds_bnd; [apply adds_inputs| |].
    - intros _. apply adds_skip; [apply adds_ret|intros _].
      eapply (adds_bnd _ (fun v => exists σ ms, v = [EvEval t σ ms]) (fun v => exists acts σ ms, v = map (fun b => EvAct b t) acts ++ [EvEval t σ ms]));
        [apply adds_eval| |].
      + intros _. eapply (adds_bnd _ nothing); [apply (adds_snap (EvEval t))|intros _; apply adds_ret|].
        intros v1 v2 Hv ->. by rewrite app_nil_r.
      + intros v1 v2 (acts & ->) (σ & ms & ->). by exists acts, σ, ms.
    - intros v1 v2 -> (acts & σ & ms & ->). by exists acts, σ, ms.
  Qed.
  Definition major_at (t : D) (v : list (event D)) : Prop := exists v1 v2, v = v1 ++ v2 /\ evaluated_at t v1 /\ ended ids t v2.
  Lemma adds_major t : adds (major_at t) (process_model g t false true).
  Proof.
    unfold process_model. eapply adds_bnd; [apply adds_inputs| |].
    - intros _. apply adds_skip; [apply adds_ret|intros _].
      eapply (adds_bnd _ (fun v => exists σ ms v2, v = EvEval t σ ms :: v2 /\ ended ids t v2)
        (fun v => exists acts σ ms v2, v = (map (fun b => EvAct b t) acts ++ [EvEval t σ ms]) ++ v2 /\ ended ids t v2));
        [apply adds_eval| |].
      + intros _. eapply adds_bnd; [apply (adds_snap (EvEval t))|intros _; apply adds_post|].
        intros v1 v2 (σ & ms & ->) Hv. by exists σ, ms, v2.
      + intros v1 v2 (acts & ->) (σ & ms & v3 & -> & Hv). exists acts, σ, ms, v3. by rewrite <- app_assoc.
    - intros v1 v2 -> (acts & σ & ms & v3 & -> & Hv). exists (EvInputs t :: map (fun b => EvAct b t) acts ++ [EvEval t σ ms]), v3.
      split; [done|]. split; [by exists acts, σ, ms|done].
  Qed.
  (** With pre_step, as in initialisation. *)
  Definition first_at (t : D) (v : list (event D)) : Prop :=
    exists v1 acts σ ms v2, v = v1 ++ (map (fun b => EvAct b t) acts ++ [EvEval t σ ms]) ++ v2 /\ began ids t v1 /\ ended ids t v2.
  Lemma adds_first t : adds (first_at t) (process_model g t true true).
  Proof.
    unfold process_model. eapply adds_bnd; [apply adds_inputs| |].
    - intros _. eapply (adds_bnd _ _ (fun v => exists σ0 ms0 acts σ ms v2, v = (map (fun b => EvPre b t) ids ++ [EvBegin t σ0 ms0]) ++ (map (fun b => EvAct b t) acts ++ [EvEval t σ ms]) ++ v2 /\ ended ids t v2)).
      + apply adds_pre.
      + intros _. eapply (adds_bnd _ (fun v => exists σ ms v2, v = EvEval t σ ms :: v2 /\ ended ids t v2)
        (fun v => exists acts σ ms v2, v = (map (fun b => EvAct b t) acts ++ [EvEval t σ ms]) ++ v2 /\ ended ids t v2));
        [apply adds_eval| |].
        * intros _. eapply adds_bnd; [apply (adds_snap (EvEval t))|intros _; apply adds_post|].
          intros v1 v2 (σ & ms & ->) Hv. by exists σ, ms, v2.
        * intros v1 v2 (acts & ->) (σ & ms & v3 & -> & Hv). exists acts, σ, ms, v3. by rewrite <- app_assoc.
      + intros v1 v2 (σ0 & ms0 & ->) (acts & σ & ms & v3 & -> & Hv). by exists σ0, ms0, acts, σ, ms, v3.
    - intros v1 v2 -> (σ0 & ms0 & acts & σ & ms & v3 & -> & Hv).
      exists (EvInputs t :: map (fun b => EvPre b t) ids ++ [EvBegin t σ0 ms0]), acts, σ, ms, v3. split; [done|]. split; [by exists σ0, ms0|done].
  Qed.
  Lemma adds_reset sv : adds nothing (reset_sv g sv).
  Proof.
    unfold reset_sv. apply adds_skip; [apply adds_clear|intros _]. apply adds_skip; [apply adds_gets|intros ss].
    apply adds_skip; [apply adds_gets|intros aa]. apply adds_store.
  Qed.
  Lemma adds_get_sv arr : adds nothing (get_sv g arr).
  Proof.
    unfold get_sv. apply adds_skip; [apply adds_gets|intros n]. apply adds_skip; [apply adds_debug|intros _].
    apply adds_skip; [apply adds_gets|intros ss]. apply adds_skip; [apply adds_gets|intros aa].
    apply adds_skip; [apply adds_store|intros x]. destruct (write_prefix x arr); [apply adds_ret|apply adds_undef].
  Qed.
  Lemma adds_minor t sv : adds (evaluated_at t) (minor_cb g t sv).
  Proof.
    unfold minor_cb. apply adds_skip; [apply adds_reset|intros _].
    eapply (adds_bnd _ nothing); [apply adds_minor_eval| |intros v1 v2 Hv ->; by rewrite app_nil_r]. intros _.
    apply adds_skip; [apply adds_gets|intros ss]. apply adds_skip; [apply adds_gets|intros aa].
    apply adds_skip; [apply adds_store|intros x]. apply adds_skip; [apply adds_gets|intros dv].
    destruct (write_prefix x dv); [|apply adds_undef]. apply adds_skip; [by apply adds_modify|intros _; apply adds_ret].
  Qed.
  (** Some evaluations, each at some time. *)
  Definition evaluations (v : list (event D)) : Prop := exists vs, v = concat vs /\ Forall (fun v => exists t, evaluated_at t v) vs.
  Lemma adds_stepper stp t1 x t2 : stepper_rel stp -> adds evaluations (stp _ (minor_cb g) t1 x t2).
  Proof.
    intros Hs s a s' Hr.
    assert (exists v, s_log s' = s_log s ++ v /\ evaluations v) as Hx; [|exact Hx].
    revert a s' Hr. assert (keep (fun s1 => exists v, s_log s1 = s_log s ++ v /\ evaluations v) (stp _ (minor_cb g) t1 x t2)) as Hk.
    { apply stepper_keep; [done|]. intros t v s1 a s2 (v1 & E1 & vs & -> & Hvs) Hr. destruct (adds_minor _ _ _ _ _ Hr) as (v2 & E2 & H2).
      exists (concat vs ++ v2). split; [by rewrite E2, E1, app_assoc|]. exists (vs ++ [v2]). split; [by rewrite concat_app; cbn; rewrite app_nil_r|].
      apply Forall_app. split; [done|]. apply Forall_cons. split; [by eexists|constructor]. }
    intros a s' Hr. eapply Hk; [|exact Hr]. exists []. split; [by rewrite app_nil_r|]. by exists [].
  Qed.
End adds.

(** Everything that the loop of run records. *)
Section walk.
  Context {D : Type} `{NumOps D} (bs : list nat) (t lo hi : D).
  Definition attempt_log (t1 t2 new_h : D) (v : list (event D)) : Prop :=
    exists v1 vs x y, v = v1 ++ vs ++ [EvTry t1 x t2 y new_h] /\ began bs t1 v1 /\ evaluations vs.
  Definition accepts (force : bool) (h new_h : D) : bool := force || (h <=? new_h) || (h <=? lo).
  Inductive walk : D -> D -> bool -> list (event D) -> Prop :=
  | walk_end t1 t2 force : (t1 <? t) = false -> walk t1 t2 force []
  | walk_accept t1 t2 force new_h v v1 v2 rest : (t1 <? t) = true -> attempt_log t1 t2 new_h v ->
      accepts force (t2 - t1) new_h = true -> (t2 <? t) = true -> evaluated_at t2 v1 -> ended bs t2 v2 ->
      walk t2 (nmin (t2 + clip lo hi new_h) t) false rest -> walk t1 t2 force (v ++ v1 ++ v2 ++ rest)
  | walk_last t1 t2 force new_h v : (t1 <? t) = true -> attempt_log t1 t2 new_h v ->
      accepts force (t2 - t1) new_h = true -> (t2 <? t) = false -> walk t1 t2 force v
  | walk_redo t1 t2 force new_h v rest : (t1 <? t) = true -> attempt_log t1 t2 new_h v ->
      accepts force (t2 - t1) new_h = false -> walk t1 (t1 + clip lo hi new_h) (new_h <=? lo) rest -> walk t1 t2 force (v ++ rest).
End walk.

Section run.
  Context {D : Type} `{NumOps D} (g : cfg D).
  Context (Hs : forall stp, g_stepper g = Some stp -> stepper_rel stp).
  Notation ids := (map l_id (leaves (g_tree g))).
  Lemma adds_loop fuel t lo hi t1 t2 force : adds (walk ids t lo hi t1 t2 force) (run_loop g fuel t lo hi t1 t2 force).
  Proof.
    revert t1 t2 force. induction fuel as [|fuel IH]; intros t1 t2 force; cbn [run_loop].
    { destruct (t1 <? t) eqn:Et; [done|]. apply adds_ret'. by constructor. }
    destruct (t1 <? t) eqn:Et; [|apply adds_ret'; by constructor].
    eapply (adds_bnd _ (fun v => exists x y new_h vs rest, v = (vs ++ [EvTry t1 x t2 y new_h]) ++ rest /\ evaluations vs /\
      forall v1, began ids t1 v1 -> walk ids t lo hi t1 t2 force ((v1 ++ vs ++ [EvTry t1 x t2 y new_h]) ++ rest)));
      [apply adds_begin| |intros v1 v2 Hv (x & y & h & vs & rest & -> & He & Hw); rewrite app_assoc; apply Hw, Hv]. intros _.
    apply adds_skip; [apply adds_gets|intros o]. apply adds_skip; [apply adds_get_sv|intros x]. apply adds_skip; [by apply adds_modify|intros _].
    destruct (g_stepper g) as [stp|] eqn:Es; [|apply adds_undef].
    intros s a s'. unfold bnd at 1. destruct (stp _ (minor_cb g) t1 x t2 s) as [[y new_h] s1| | |] eqn:E1; try done.
    destruct (adds_stepper g stp t1 x t2 (Hs _ eq_refl) _ _ _ E1) as (vs & Evs & Hvs). cbn [fst snd].
    intros Hr.
    assert (adds (fun v => exists rest, v = [EvTry t1 x t2 y new_h] ++ rest /\ (forall v1, began ids t1 v1 -> walk ids t lo hi t1 t2 force ((v1 ++ vs ++ [EvTry t1 x t2 y new_h]) ++ rest)))
      (modify (put_sv y) ;;; on_core' (emit (EvTry t1 x t2 y new_h)) ;;;
              let new_h := new_h in
              let h := t2 - t1 in
              if force || (h <=? new_h) || (h <=? lo) then
                let new_h' := clip lo hi new_h in
                let t1' := t2 in
                let t2' := nmin (t1' + new_h') t in
                (if t1' <? t then
                   sv <~ gets s_sv ;; reset_sv g sv ;;; process_model g t1' false true
                 else ret tt) ;;;
                run_loop g fuel t lo hi t1' t2' false
              else
                let force' := new_h <=? lo in
                let new_h' := clip lo hi new_h in
                run_loop g fuel t lo hi t1 (t1 + new_h') force')) as Hrest.
    { apply adds_skip; [by apply adds_modify|intros _].
      assert (forall v1, began ids t1 v1 -> attempt_log ids t1 t2 new_h (v1 ++ vs ++ [EvTry t1 x t2 y new_h])) as Hat.
      { intros v1 Hv1. by exists v1, vs, x, y. }
      eapply (adds_bnd (fun v => v = [EvTry t1 x t2 y new_h]) (fun rest => forall v1, began ids t1 v1 -> walk ids t lo hi t1 t2 force ((v1 ++ vs ++ [EvTry t1 x t2 y new_h]) ++ rest)));
        [apply adds_core; intros c a0 c' [= <- <-]; by eexists| |intros v1 v2 -> Hv; by eauto].
      intros _. cbv zeta. destruct (force || (t2 - t1 <=? new_h) || (t2 - t1 <=? lo)) eqn:Ea.
      - destruct (t2 <? t) eqn:Et2.
        + eapply (adds_bnd (major_at g t2)); [|intros _; apply IH|].
          { apply adds_skip; [apply adds_gets|intros sv]. apply adds_skip; [apply adds_reset|intros _]. apply adds_major. }
          intros w1 w2 (m1 & m2 & -> & He & Hen) Hw v1 Hv1. replace ((v1 ++ vs ++ [EvTry t1 x t2 y new_h]) ++ (m1 ++ m2) ++ w2) with ((v1 ++ vs ++ [EvTry t1 x t2 y new_h]) ++ m1 ++ m2 ++ w2) by (by rewrite <- !app_assoc).
          eapply walk_accept; [done|by apply Hat|done..].
        + apply adds_skip; [apply adds_ret|intros _]. eapply adds_weak; [|apply IH]. intros v Hv v1 Hv1.
          inversion Hv as [? ? ? E| | |]; subst; try congruence. rewrite app_nil_r. eapply walk_last; [done|by apply Hat|done|done].
      - eapply adds_weak; [|apply IH]. intros v Hv v1 Hv1. eapply walk_redo; [done|by apply Hat|done|done]. }
    destruct (Hrest _ _ _ Hr) as (v & Ev & rest & -> & Hw). exists (vs ++ [EvTry t1 x t2 y new_h] ++ rest). split; [by rewrite Ev, Evs, <- app_assoc|].
    exists x, y, new_h, vs, rest. split; [by rewrite <- app_assoc|]. split; [done|exact Hw].
  Qed.
  (** A run of an initialised simulator whose model has states, to a later time. *)
  Lemma run_later fuel t lo hi s s' : run g fuel t lo hi s = Ok tt s' -> s_init s = true -> s_sv s ≠ [] ->
    (t <? s_tprev s) = false -> (t =? s_tprev s) = false ->
    (g_dbg g = true -> (n0 <? lo) = true /\ (lo <? hi) = true) /\
    exists w v1 v2, s_log s' = s_log s ++ w ++ v1 ++ v2 /\ walk ids t lo hi (s_tprev s) t false w /\ evaluated_at t v1 /\ ended ids t v2 /\ s_tprev s' = t.
  Proof.
    intros Hr Hi Hn Hb He. unfold run in Hr. unfold bnd at 1, gets at 1 in Hr. rewrite Hi in Hr. cbn [negb] in Hr.
    unfold bnd at 1, gets at 1 in Hr. unfold bnd at 1, gets at 1 in Hr.
    destruct (length (s_sv s)) as [|n] eqn:En; [by destruct (s_sv s)|]. rewrite Hb, He in Hr.
    unfold bnd at 1 in Hr.
    match type of Hr with (match ?m s with _ => _ end) = _ => destruct (m s) as [[] s1| | |] eqn:E1; try done end.
    split.
    { intros Hg. rewrite Hg in E1. unfold bnd, debug_verify, verify in E1. destruct (g_stepper g); [|done]. unfold ret, throw in E1.
      destruct (n0 <? lo); [|done]. by destruct (lo <? hi). }
    assert (adds (walk ids t lo hi (s_tprev s) t false) (
      (debug_verify (g_dbg g) (match g_stepper g with Some _ => true | None => false end) EAssert ;;;
             debug_verify (g_dbg g) (n0 <? lo) EAssert ;;;
             debug_verify (g_dbg g) (lo <? hi) EAssert ;;;
             run_loop g fuel t lo hi (s_tprev s) t false))) as Ha.
    { apply adds_skip; [apply adds_debug|intros _]. apply adds_skip; [apply adds_debug|intros _]. apply adds_skip; [apply adds_debug|intros _]. apply adds_loop. }
    destruct (Ha _ _ _ E1) as (w & Ew & Hw). clear Ha E1.
    assert (adds (major_at g t) (sv <~ gets s_sv ;; reset_sv g sv ;;; process_model g t false true ;;; modify (put_tprev t))) as Ha.
    { apply adds_skip; [apply adds_gets|intros sv]. apply adds_skip; [apply adds_reset|intros _].
      eapply (adds_bnd _ nothing); [apply adds_major|intros _; by apply adds_modify|]. intros u1 u2 Hu ->. by rewrite app_nil_r. }
    destruct (Ha _ _ _ Hr) as (v & Ev & v1 & v2 & -> & H1 & H2). exists w, v1, v2. split_and!; try done; [by rewrite Ev, Ew, <- app_assoc|].
    unfold bnd, gets in Hr. destruct (reset_sv g (s_sv s1) s1) as [[] s2| | |]; try done. destruct (process_model g t false true s2) as [[] s3| | |]; try done.
    by injection Hr as <-.
  Qed.
End run.

(** Initialisation. *)
Section init.
  Context {D : Type} `{NumOps D} (g : cfg D).
  Definition no_try (e : event D) : bool := match e with EvTry _ _ _ _ _ => false | _ => true end.
  Definition untried (v : list (event D)) : Prop := forallb no_try v = true.
  Lemma untried_app u v : untried u -> untried v -> untried (u ++ v).
  Proof. unfold untried. rewrite forallb_app. by intros -> ->. Qed.
  Lemma untried_map {A} (f : A -> event D) l : (forall a, no_try (f a) = true) -> untried (map f l).
  Proof. intros Hf. induction l as [|a l IH]; [done|]. unfold untried in *. cbn. by rewrite Hf. Qed.
  Lemma untried_attempts v : untried v -> attempts v = [].
  Proof.
    unfold untried, attempts. induction v as [|e v IH]; [done|]. cbn [forallb]. intros [He Hv]%andb_true_iff.
    unfold marks. cbn [List.filter]. change (List.filter is_mark v) with (marks v). destruct (is_mark e); [|by apply IH]. destruct e; try done; cbn; by apply IH.
  Qed.
  Lemma first_untried t v : first_at g t v -> untried v.
  Proof.
    intros (v1 & acts & σ & ms & v2 & -> & (σ0 & ms0 & ->) & (σ2 & ms2 & ->)).
    apply untried_app; [|apply untried_app; apply untried_app; try done; by apply untried_map].
    change (untried ([EvInputs t] ++ map (fun b => EvPre b t) (map l_id (leaves (g_tree g))) ++ [EvBegin t σ0 ms0])).
    repeat apply untried_app; try done; by apply untried_map.
  Qed.
  Lemma adds_base t : adds nothing (base_init g t).
  Proof.
    unfold base_init. apply adds_skip; [by apply adds_modify|intros _]. apply adds_skip; [apply adds_clear|intros _]. by apply adds_modify.
  Qed.
  Lemma adds_init t : adds (fun v => attempts v = [] /\ (g_mode g ≠ MFast -> first_at g t v)) (init g t).
  Proof.
    eapply (adds_weak (fun v => untried v /\ (g_mode g ≠ MFast -> first_at g t v))).
    { intros v [H1 H2]. split; [by apply untried_attempts|done]. }
    assert (adds (fun v => untried v /\ (g_mode g ≠ MFast -> first_at g t v)) (simulator_init g t)) as Hsim.
    { unfold simulator_init. apply adds_skip; [apply adds_base|intros _]. apply adds_skip; [apply adds_gets|intros n].
      apply adds_skip.
      - destruct (g_mode g); try apply adds_ret. destruct n; [apply adds_ret|].
        apply adds_skip; [apply adds_gets|intros p1]. apply adds_skip; [apply adds_gets|intros p2].
        apply adds_skip; [apply adds_debug|intros _]. apply adds_skip; [apply adds_debug|intros _]. by apply adds_modify.
      - intros _. eapply adds_weak; [|apply adds_first]. intros v Hv. split; [by eapply first_untried|done]. }
    unfold init. destruct (g_mode g); [exact Hsim|exact Hsim|].
    eapply (adds_weak untried); [by intros v Hv|].
    unfold fast_init. apply adds_skip; [apply adds_base|intros _]. apply adds_skip; [apply adds_gets|intros n].
    apply adds_skip; [apply adds_debug|intros _].
    eapply adds_bnd; [apply adds_inputs| |intros v1 v2 -> Hv; by apply (untried_app [_])]. intros _.
    eapply adds_bnd; [apply adds_pre| |intros v1 v2 (σ & ms & ->) Hv; apply untried_app; [apply untried_app; [by apply untried_map|done]|exact Hv]]. intros _.
    eapply (adds_bnd (fun v => exists acts, v = map (fun b => EvAct b t) acts)).
    - apply adds_core. intros c r c' Hr. pose proof (acted_fast_loop t (g_dbg g) (S (length (leaves (g_tree g)))) (leaves (g_tree g)) [] 0 c) as Hp.
      unfold fast_schedule in Hr. rewrite Hr in Hp. destruct Hp as [acts E]. eexists. split; [exact E|]. by exists acts.
    - intros r. apply adds_skip; [by apply adds_modify|intros _]. apply adds_skip; [apply adds_verify|intros _].
      eapply adds_bnd; [apply (adds_snap (EvEval t))| |intros v1 v2 (σ & ms & ->) Hv; by apply (untried_app [_]); [|exact Hv]]. intros _.
      apply adds_skip; [apply adds_clear|intros _]. eapply adds_weak; [apply first_untried|apply adds_first].
    - intros v1 v2 (acts & ->) Hv. apply untried_app; [by apply untried_map|done].
  Qed.
  Lemma init_flags t s s' : init g t s = Ok tt s' -> s_init s' = true /\ s_tprev s' = t.
  Proof.
    assert (forall s s1, base_init g t s = Ok tt s1 -> s_init s1 = true /\ s_tprev s1 = t) as Hb.
    { intros x s1. unfold base_init, bnd, modify. set (x1 := Simst _ _ _ _ _ _ _ _ _ _ _ _ _). pose proof (pres_clear_all g x1) as Hp.
      destruct (clear_all x1) as [[] x2| | |]; try done. intros [= <-]. cbn. split; [done|]. by rewrite (ev_tprev _ _ _ Hp). }
    assert (forall {A} (m : M (simst D) A) s a s1, pres (evo g) m -> m s = Ok a s1 -> s_init s = true /\ s_tprev s = t -> s_init s1 = true /\ s_tprev s1 = t) as Hk.
    { intros A m x a x1 Hm Hx [H1 H2]. specialize (Hm x). rewrite Hx in Hm. by rewrite (ev_init _ _ _ Hm), (ev_tprev _ _ _ Hm). }
    unfold init. destruct (g_mode g) eqn:Em.
    1,2: unfold simulator_init; unfold bnd at 1; destruct (base_init g t s) as [[] s1| | |] eqn:E1; try done; apply Hb in E1; unfold bnd at 1, gets at 1; rewrite Em; unfold bnd at 1.
    - intros Hr. by eapply Hk; [apply pres_process_model|exact Hr|].
    - destruct (length (s_sv s1)); [intros Hr; by eapply Hk; [apply pres_process_model|exact Hr|]|].
      unfold bnd at 1, gets at 1. unfold bnd at 1, gets at 1. unfold bnd at 1. destruct (debug_verify _ _ _ s1) as [[] s2| | |] eqn:E2; try done.
      unfold bnd at 1. destruct (debug_verify _ (match s_po2 s1 with _ => _ end) _ s2) as [[] s3| | |] eqn:E3; try done.
      assert (s2 = s1 /\ s3 = s2) as [-> ->].
      { unfold debug_verify, verify in *. destruct (g_dbg g); [destruct (s_po1 s1); [|done]; destruct (s_po2 s1); [|done]|];
          injection E2 as <-; injection E3 as <-; done. }
      unfold modify. intros Hr. eapply Hk; [apply pres_process_model|exact Hr|done].
    - unfold fast_init. unfold bnd at 1. destruct (base_init g t s) as [[] s1| | |] eqn:E1; try done. apply Hb in E1. unfold bnd at 1, gets at 1. unfold bnd at 1.
      destruct (debug_verify _ _ _ s1) as [[] s2| | |] eqn:E2; try done.
      apply (Hk _ _ _ _ _ (pres_debug _ _ _ _)) in E2; [|done]. unfold bnd at 1.
      destruct (on_core' (inputs g t) s2) as [[] s3| | |] eqn:E3; try done. apply Hk in E3; [|apply pres_on_core', pres_inputs|done]. unfold bnd at 1.
      destruct (on_core' _ s3) as [[] s4| | |] eqn:E4; try done. apply Hk in E4; [|apply pres_on_core', pres_pre_snap|done]. unfold bnd at 1.
      destruct (on_core' _ s4) as [r s5| | |] eqn:E5; try done. apply Hk in E5; [|apply pres_on_core', pres_fast_loop|done]. unfold bnd at 1, modify at 1. unfold bnd at 1.
      destruct (verify _ _ _) as [[] s6| | |] eqn:E6; try done.
      apply (Hk _ _ _ _ _ (pres_verify _ _ _)) in E6; [|done]. unfold bnd at 1.
      destruct (on_core' _ s6) as [[] s7| | |] eqn:E7; try done. apply Hk in E7; [|apply pres_on_core', pres_snap|done]. unfold bnd at 1.
      destruct (clear_all s7) as [[] s8| | |] eqn:E8; try done. apply (Hk _ _ _ _ _ (pres_clear_all g)) in E8; [|done].
      intros Hr. by eapply Hk; [apply pres_process_model|exact Hr|].
  Qed.
End init.
