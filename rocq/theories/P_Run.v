(** What the loop of run does, read from the log. *)
From stdpp Require Import prelude gmap.
From Coq Require Import ZArith.
From Verif Require Import Num NumOrd NumAdd Res Store Leaf Sched Stepper Sim SpecHist P_Trace P_Delay SpecRun P_Log.
Local Open Scope nat_scope.
Local Open Scope num_scope.

(** A sequence of attempts, by itself. *)
Section plan.
  Context {D : Type} `{NumOps D} (t lo hi : D).
  Inductive plan : D -> D -> bool -> list (attempt D) -> Prop :=
  | plan_end t1 t2 force : (t1 <? t) = false -> plan t1 t2 force []
  | plan_accept t1 t2 force new_h rest : (t1 <? t) = true -> accepts lo force (t2 - t1) new_h = true ->
      plan t2 (nmin (t2 + clip lo hi new_h) t) false rest -> plan t1 t2 force (Attempt t1 t2 new_h true :: rest)
  | plan_redo t1 t2 force new_h rest : (t1 <? t) = true -> accepts lo force (t2 - t1) new_h = false ->
      plan t1 (t1 + clip lo hi new_h) (new_h <=? lo) rest -> plan t1 t2 force (Attempt t1 t2 new_h false :: rest).
  Definition ends (A : list (attempt D)) : list D := map at_to (List.filter at_ok A).
End plan.

Section pieces.
  Context {D : Type} `{NumOps D} (bs : list nat).
  Definition no_try (e : event D) : bool := match e with EvTry _ _ _ _ _ => false | _ => true end.
  Lemma attempts_skip (u rest : list (event D)) : forallb no_try u = true -> attempts_in (u ++ rest) = attempts_in rest.
  Proof.
    induction u as [|e u IH]; [done|]. cbn [forallb app]. intros [He Hu]%andb_true_iff. by destruct e; try done; cbn; apply IH.
  Qed.
  Lemma steps_app (u v : list (event D)) : steps (u ++ v) = steps u ++ steps v.
  Proof. unfold steps. by rewrite map_app, concat_app. Qed.
  Lemma posts_app (u v : list (event D)) : posts (u ++ v) = posts u ++ posts v.
  Proof. apply List.filter_app. Qed.
  Lemma pres_app (u v : list (event D)) : pres_of (u ++ v) = pres_of u ++ pres_of v.
  Proof. apply List.filter_app. Qed.
  Lemma posts_map {A} (f : A -> event D) l : (forall a, is_post (f a) = false) -> posts (map f l) = [].
  Proof. intros Hf. induction l as [|a l IH]; [done|]. unfold posts in *. cbn. by rewrite Hf. Qed.
  Lemma posts_all (f : nat -> event D) l : (forall a, is_post (f a) = true) -> posts (map f l) = map f l.
  Proof. intros Hf. induction l as [|a l IH]; [done|]. unfold posts in *. cbn. by rewrite Hf, IH. Qed.
  Lemma steps_map {A} (f : A -> event D) l : (forall a, step_of (f a) = []) -> steps (map f l) = [].
  Proof. intros Hf. induction l as [|a l IH]; [done|]. unfold steps in *. cbn. by rewrite Hf. Qed.
  Lemma began_spec (t : D) v : began bs t v -> (exists σ ms, marks v = [EvBegin t σ ms]) /\ posts v = [] /\ steps v = [].
  Proof.
    intros (σ & ms & ->). change (EvInputs t :: map (fun b => EvPre b t) bs ++ [EvBegin t σ ms]) with ([EvInputs t] ++ map (fun b => EvPre b t) bs ++ [EvBegin t σ ms]).
    rewrite !marks_app, !posts_app, !steps_app, marks_quiet, posts_map, steps_map by done. split; [by eexists _, _|done].
  Qed.
  Lemma evaluated_spec (t : D) v : evaluated_at t v -> (exists σ ms, marks v = [EvEval t σ ms]) /\ posts v = [] /\ steps v = [].
  Proof.
    intros (acts & σ & ms & ->). change (EvInputs t :: map (fun b => EvAct b t) acts ++ [EvEval t σ ms]) with ([EvInputs t] ++ map (fun b => EvAct b t) acts ++ [EvEval t σ ms]).
    rewrite !marks_app, !posts_app, !steps_app, marks_quiet, posts_map, steps_map by done. split; [by eexists _, _|done].
  Qed.
  Definition post_round (t : D) : list (event D) := map (fun b => EvPost b t) bs.
  Lemma ended_spec (t : D) v : ended bs t v -> (exists σ ms, marks v = [EvStep t σ ms] /\ steps v = [(t, σ)]) /\ posts v = post_round t.
  Proof.
    intros (σ & ms & ->). rewrite !marks_app, !posts_app, !steps_app, marks_quiet, posts_all, steps_map by done.
    split; [by eexists _, _|]. by rewrite app_nil_r.
  Qed.
  Lemma evaluations_spec (v : list (event D)) : evaluations v -> forallb no_try (marks v) = true /\ posts v = [] /\ steps v = [] .
  Proof.
    intros (vs & -> & Hv). induction Hv as [|v vs (t & Hx) Hv IH]; [done|]. cbn [concat]. rewrite marks_app, posts_app, steps_app.
    destruct (evaluated_spec _ _ Hx) as ((σ & ms & ->) & -> & ->). done.
  Qed.
  Lemma attempt_spec (t1 t2 h : D) v : attempt_log bs t1 t2 h v -> posts v = [] /\ steps v = [] /\
    (exists σ ms w x y, marks v = EvBegin t1 σ ms :: w ++ [EvTry t1 x t2 y h] /\ forallb no_try w = true).
  Proof.
    intros (v1 & vs & x & y & -> & Hb & He). apply began_spec in Hb as ((σ & ms & E1) & E2 & E3). apply evaluations_spec in He as (F1 & F2 & F3).
    rewrite !marks_app, !posts_app, !steps_app, E1, E2, E3, F2, F3. split_and!; [done|done|]. by exists σ, ms, (marks vs), x, y.
  Qed.
  Lemma attempt_attempts (t1 t2 h : D) v rest : attempt_log bs t1 t2 h v ->
    attempts (v ++ rest) = Attempt t1 t2 h (match marks rest with e :: _ => negb (is_begin e) | [] => true end) :: attempts rest.
  Proof.
    intros Ha. destruct (attempt_spec _ _ _ _ Ha) as (_ & _ & σ & ms & w & x & y & E & Hw). unfold attempts. rewrite marks_app, E. cbn [app attempts_in].
    rewrite <- app_assoc, attempts_skip by done. done.
  Qed.
End pieces.

Section walk.
  Context {D : Type} `{NumOps D} (bs : list nat) (t lo hi : D).
  Lemma walk_posts t1 t2 force w : walk bs t lo hi t1 t2 force w -> posts w = concat (map (post_round bs) (map fst (steps w))).
  Proof.
    induction 1 as [|t1 t2 force new_h v v1 v2 rest Ht Ha Hac Ht2 He Hen Hw IH|t1 t2 force new_h v Ht Ha Hac Ht2|t1 t2 force new_h v rest Ht Ha Hac Hw IH]; [done| | |].
    all: destruct (attempt_spec _ _ _ _ _ Ha) as (A1 & A2 & _).
    - apply evaluated_spec in He as (_ & E2 & E3). apply ended_spec in Hen as ((σ & ms & _ & F1) & F2).
      rewrite !posts_app, !steps_app, A1, A2, E2, E3, F1, F2, IH. done.
    - by rewrite A1, A2.
    - by rewrite posts_app, steps_app, A1, A2, IH.
  Qed.
  (** What follows the loop. *)
  Context (tail : list (event D)) (Htail : exists v1 v2, tail = v1 ++ v2 /\ evaluated_at t v1 /\ ended bs t v2).
  Lemma tail_marks : exists σ ms σ' ms', marks tail = [EvEval t σ ms; EvStep t σ' ms'].
  Proof.
    destruct Htail as (v1 & v2 & -> & H1 & H2). apply evaluated_spec in H1 as ((σ & ms & E1) & _). apply ended_spec in H2 as ((σ' & ms' & E2 & _) & _).
    exists σ, ms, σ', ms'. by rewrite marks_app, E1, E2.
  Qed.
  Lemma tail_attempts : attempts tail = [].
  Proof. destruct tail_marks as (σ & ms & σ' & ms' & E). unfold attempts. by rewrite E. Qed.
  Lemma walk_head t1 t2 force w : walk bs t lo hi t1 t2 force w -> (t1 <? t) = true ->
    exists σ ms r, marks w = EvBegin t1 σ ms :: r.
  Proof.
    destruct 1 as [|t1 t2 force new_h v v1 v2 rest Ht Ha Hac Ht2 He Hen Hw|t1 t2 force new_h v Ht Ha Hac Ht2|t1 t2 force new_h v rest Ht Ha Hac Hw]; [congruence| | |];
      intros _; destruct (attempt_spec _ _ _ _ _ Ha) as (_ & _ & σ & ms & u & x & y & E & _); rewrite ?marks_app, E; by eexists _, _, _.
  Qed.
  Lemma walk_plan t1 t2 force w : walk bs t lo hi t1 t2 force w -> plan t lo hi t1 t2 force (attempts (w ++ tail)).
  Proof.
    induction 1 as [t1 t2 force Ht|t1 t2 force new_h v v1 v2 rest Ht Ha Hac Ht2 He Hen Hw IH|t1 t2 force new_h v Ht Ha Hac Ht2|t1 t2 force new_h v rest Ht Ha Hac Hw IH].
    - cbn. rewrite tail_attempts. by constructor.
    - rewrite <- !app_assoc. rewrite (attempt_attempts bs _ _ _ _ _ Ha).
      destruct (evaluated_spec _ _ He) as ((σ & ms & E1) & _). destruct (ended_spec _ _ _ Hen) as ((σ' & ms' & E2 & _) & _).
      unfold attempts at 1. rewrite !marks_app, E1, E2. cbn [app is_begin negb attempts_in]. constructor; [done|done|].
      rewrite <- marks_app. exact IH.
    - rewrite (attempt_attempts bs _ _ _ _ _ Ha), tail_attempts. destruct tail_marks as (σ & ms & σ' & ms' & ->). cbn. constructor; [done|done|]. by constructor.
    - rewrite <- app_assoc, (attempt_attempts bs _ _ _ _ _ Ha). destruct (walk_head _ _ _ _ Hw Ht) as (σ & ms & r & E).
      rewrite marks_app, E. cbn. constructor; done.
  Qed.
  Lemma walk_ends t1 t2 force w : walk bs t lo hi t1 t2 force w -> (t1 <? t) = true ->
    exists e, ends (attempts (w ++ tail)) = map fst (steps w) ++ [e] /\ (e <? t) = false.
  Proof.
    induction 1 as [t1 t2 force Ht|t1 t2 force new_h v v1 v2 rest Ht Ha Hac Ht2 He Hen Hw IH|t1 t2 force new_h v Ht Ha Hac Ht2|t1 t2 force new_h v rest Ht Ha Hac Hw IH];
      intros Hlt; [congruence| | |]; destruct (attempt_spec _ _ _ _ _ Ha) as (A1 & A2 & _).
    - rewrite <- !app_assoc. rewrite (attempt_attempts bs _ _ _ _ _ Ha).
      destruct (evaluated_spec _ _ He) as ((σ & ms & E1) & _ & E3). destruct (ended_spec _ _ _ Hen) as ((σ' & ms' & E2 & F1) & _).
      rewrite !steps_app, A2, E3, F1. unfold attempts at 1. rewrite !marks_app, E1, E2. cbn [app is_begin negb attempts_in]. rewrite <- marks_app.
      change (attempts_in (marks (rest ++ tail))) with (attempts (rest ++ tail)). destruct (IH Ht2) as (e & E & Hge). exists e. split; [|done].
      unfold ends in *. cbn [List.filter at_ok map at_to fst]. by rewrite E.
    - rewrite (attempt_attempts bs _ _ _ _ _ Ha), tail_attempts. destruct tail_marks as (σ & ms & σ' & ms' & ->). rewrite A2. cbn. by exists t2.
    - rewrite <- app_assoc, (attempt_attempts bs _ _ _ _ _ Ha). destruct (walk_head _ _ _ _ Hw Ht) as (σ & ms & r & E).
      rewrite steps_app, A2. cbn [app]. rewrite marks_app, E. cbn [app is_begin negb]. unfold ends. cbn [List.filter at_ok]. by apply IH.
  Qed.
End walk.

Section facts.
  Context {D : Type} `{NumAdd D} (t lo hi : D).
  Lemma clip_ge x : (lo <=? clip lo hi x) = true.
  Proof. apply max_ge_l. Qed.
  Lemma clip_le x : (lo <=? hi) = true -> (clip lo hi x <=? hi) = true.
  Proof. intros Hl. apply max_lub; [done|apply min_le_r]. Qed.
  Lemma clip_lt x h : (lo <? h) = true -> (x <? h) = true -> (clip lo hi x <? h) = true.
  Proof. intros Hl Hx. apply max_lub_lt; [done|]. eapply ltb_trans_r; [apply min_le_l|done]. Qed.
  Lemma reject_lt force h x : accepts lo force h x = false -> force = false /\ (x <? h) = true /\ (lo <? h) = true.
  Proof.
    unfold accepts. intros [[-> E1]%orb_false_iff E2]%orb_false_iff. split; [done|]. by rewrite !ltb_lt.
  Qed.
  (** The planned end of an attempt. *)
  Definition planned (t1 t2 : D) : Prop := (t1 <? t) = true -> (t1 <? t2) = true /\ (t2 <=? t) = true.
  Lemma planned_accept t2 x : (n0 <? lo) = true -> planned t2 (nmin (t2 + clip lo hi x) t).
  Proof.
    intros Hlo Ht. split; [|apply min_le_r]. destruct (min_cases (t2 + clip lo hi x) t) as [-> | ->]; [|done].
    apply add_pos. eapply ltb_trans_l; [done|apply clip_ge].
  Qed.
  Lemma planned_redo t1 t2 force x : (n0 <? lo) = true -> accepts lo force (t2 - t1) x = false -> planned t1 t2 -> planned t1 (t1 + clip lo hi x).
  Proof.
    intros Hlo Ha Hp Ht. destruct (Hp Ht) as [H1' H2']. apply reject_lt in Ha as (_ & Hx & Hl). split.
    - apply add_pos. eapply ltb_trans_l; [done|apply clip_ge].
    - eapply ord_trans; [|exact H2']. apply ltb_le, add_lt. by apply clip_lt.
  Qed.
  Lemma plan_bounds t1 t2 force A : (n0 <? lo) = true -> plan t lo hi t1 t2 force A -> planned t1 t2 ->
    Forall (fun a => (t1 <=? at_from a) = true /\ (at_from a <? at_to a) = true /\ (at_to a <=? t) = true) A.
  Proof.
    intros Hlo. induction 1 as [|t1 t2 force x rest Ht Ha Hp IH|t1 t2 force x rest Ht Ha Hp IH]; intros Hpl; [constructor|..].
    - destruct (Hpl Ht) as [H1' H2']. constructor; [by split; [apply leb_refl|]|].
      eapply Forall_impl; [apply IH, planned_accept, Hlo|]. intros a (B1 & B2 & B3). split; [|done]. eapply ord_trans; [|exact B1]. by apply ltb_le.
    - destruct (Hpl Ht) as [H1' H2']. constructor; [by split; [apply leb_refl|]|]. by eapply IH, planned_redo.
  Qed.
  Lemma incr_cons a (l : list D) : Forall (fun b => (a <? b) = true) l -> incr l -> incr (a :: l).
  Proof.
    intros Hf Hi i j x y Hij Ex Ey. destruct j as [|j]; [lia|]. cbn in Ey. destruct i as [|i]; cbn in Ex.
    - injection Ex as <-. rewrite Forall_lookup in Hf. by eapply Hf.
    - eapply (Hi i j); try done. lia.
  Qed.
  Lemma plan_incr t1 t2 force A : (n0 <? lo) = true -> plan t lo hi t1 t2 force A -> planned t1 t2 -> incr (t1 :: ends A).
  Proof.
    intros Hlo. induction 1 as [t1 t2 force Ht|t1 t2 force x rest Ht Ha Hp IH|t1 t2 force x rest Ht Ha Hp IH]; intros Hpl.
    - intros i j a b Hij Ea Eb. destruct j as [|j]; [lia|]. done.
    - destruct (Hpl Ht) as [H1' H2']. unfold ends. cbn [List.filter at_ok map at_to]. specialize (IH (planned_accept _ _ Hlo)).
      apply incr_cons; [|exact IH]. constructor; [done|]. apply Forall_lookup. intros i y Ey.
      eapply ltb_trans_l; [exact H1'|]. apply ltb_le. apply (IH 0 (S i)); [lia|done|exact Ey].
    - unfold ends. cbn [List.filter at_ok]. by eapply IH, planned_redo.
  Qed.
  Definition long_enough (t1 t2 : D) : Prop := (lo <=? t2 - t1) = true \/ t2 = t.
  Lemma plan_min t1 t2 force A : plan t lo hi t1 t2 force A -> long_enough t1 t2 -> Forall (fun a => long_enough (at_from a) (at_to a)) A.
  Proof.
    assert (forall a x, (lo <=? a + clip lo hi x - a) = true) as Hc.
    { intros a x. eapply ord_trans; [apply clip_ge|apply add_sub_ge]. }
    induction 1 as [|t1 t2 force x rest Ht Ha Hp IH|t1 t2 force x rest Ht Ha Hp IH]; intros Hl; constructor; try done; apply IH.
    - destruct (min_cases (t2 + clip lo hi x) t) as [-> | ->]; [left; apply Hc|by right].
    - left. apply Hc.
  Qed.
  Lemma plan_max t1 t2 force A : (lo <=? hi) = true -> plan t lo hi t1 t2 force A ->
    (forall a, a ∈ tail A -> (at_to a - at_from a <=? hi) = true).
  Proof.
    intros Hlh.
    assert (forall a x, (a + clip lo hi x - a <=? hi) = true) as Hc.
    { intros a x. eapply ord_trans; [apply add_sub_le|by apply clip_le]. }
    assert (forall t1 t2 force A, plan t lo hi t1 t2 force A -> (t2 - t1 <=? hi) = true -> Forall (fun a => (at_to a - at_from a <=? hi) = true) A) as Hall.
    { induction 1 as [|u1 u2 f x rest Ht Ha Hp IH|u1 u2 f x rest Ht Ha Hp IH]; intros Hl; constructor; try done; apply IH; [|apply Hc].
      eapply ord_trans; [apply ord_sub_l, min_le_l|apply Hc]. }
    intros Hp a Hin. destruct Hp as [|t1 t2 force x rest Ht Ha Hp|t1 t2 force x rest Ht Ha Hp]; cbn [tail] in Hin; [by apply elem_of_nil in Hin|..].
    - apply Hall in Hp; [|eapply ord_trans; [apply ord_sub_l, min_le_l|apply Hc]]. rewrite Forall_forall in Hp. by apply Hp.
    - apply Hall in Hp; [|apply Hc]. rewrite Forall_forall in Hp. by apply Hp.
  Qed.
End facts.
