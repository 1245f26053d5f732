(** What one call of run does: C33, C35, C36, C37, C38, C43. *)
From stdpp Require Import prelude gmap strings.
From Coq Require Import ZArith QArith Reals.
From Verif Require Import Num NumR NumQ NumOrd NumAdd Res Name Store Leaf Sched Stepper Sim World Api P_Rel P_Rel2 SpecHist P_Trace P_Delay SpecRun P_Log P_Run Ex_Models Ex_Hist.
Local Open Scope nat_scope.
Local Open Scope num_scope.

(** A run of an initialised simulator of a model with states to a later time: all
    that it records is [v]. *)
Definition later_run {D} `{NumOps D} (g : cfg D) (s : simst D) (t lo hi : D) (s' : simst D) (v : list (event D)) : Prop :=
  (forall stp, g_stepper g = Some stp -> stepper_rel stp) /\ s_init s = true /\ s_sv s ≠ [] /\ (s_tprev s <? t) = true /\
  (exists fuel, run g fuel t lo hi s = Ok tt s') /\ s_log s' = s_log s ++ v.
Definition same_time {D} `{NumOps D} (a b : D) : Prop := (a <=? b) = true /\ (b <=? a) = true.

Lemma later_walk {D} `{NumAdd D} (g : cfg D) s t lo hi s' v : later_run g s t lo hi s' v ->
  (g_dbg g = true -> (n0 <? lo) = true /\ (lo <? hi) = true) /\ s_tprev s' = t /\
  exists w tail, v = w ++ tail /\ walk (map l_id (leaves (g_tree g))) t lo hi (s_tprev s) t false w /\
    exists v1 v2, tail = v1 ++ v2 /\ evaluated_at t v1 /\ ended (map l_id (leaves (g_tree g))) t v2.
Proof.
  intros (Hs & Hi & Hn & Ht & (fuel & Hr) & Ev).
  destruct (run_later g Hs fuel t lo hi s s' Hr Hi Hn) as (Hd & w & v1 & v2 & El & Hw & H1' & H2' & Ep).
  - rewrite ltb_ge. by apply ltb_le.
  - destruct (t =? s_tprev s) eqn:E; [|done]. apply eqb_ge in E. rewrite ltb_lt in Ht. congruence.
  - split; [done|]. split; [done|]. exists w, (v1 ++ v2). rewrite Ev in El. apply app_inv_head in El. split; [done|]. split; [done|]. by exists v1, v2.
Qed.

(** ** C33. The ends of the accepted sub-steps increase strictly from the previous
    time on, none is after the requested time, and the last one is that time. *)
Theorem C33_ends : forall D `{NumAdd D} (g : cfg D) s t lo hi s' v, later_run g s t lo hi s' v ->
  g_dbg g = true \/ (n0 <? lo) = true ->
  incr (s_tprev s :: accepted_ends v) /\ Forall (fun e => (e <=? t) = true) (accepted_ends v) /\
  (exists e, last (accepted_ends v) = Some e /\ same_time e t) /\ s_tprev s' = t /\
  (** Attempts, accepted or not, stay between the two times, too. *)
  Forall (fun a => (s_tprev s <=? at_from a) = true /\ (at_from a <? at_to a) = true /\ (at_to a <=? t) = true) (attempts v).
Proof.
  intros D ? ? ? g s t lo hi s' v Hl Hlo. assert ((s_tprev s <? t) = true) as Ht by apply Hl.
  destruct (later_walk _ _ _ _ _ _ _ Hl) as (Hd & Ep & w & tail & -> & Hw & Htl).
  assert ((n0 <? lo) = true) as Hp by (destruct Hlo as [Hg|]; [by apply Hd|done]). clear Hlo.
  pose proof (walk_plan _ _ _ _ tail Htl _ _ _ _ Hw) as Hpl.
  assert (planned t (s_tprev s) t) as Hpl0 by (intros _; split; [done|apply leb_refl]).
  pose proof (plan_bounds _ _ _ _ _ _ _ Hp Hpl Hpl0) as Hb.
  assert (Forall (fun e => (e <=? t) = true) (accepted_ends (w ++ tail))) as Hle.
  { apply Forall_forall. intros e He. apply elem_of_list_fmap in He as (a & -> & Ha). apply elem_of_list_In, filter_In in Ha as [Ha _].
    rewrite Forall_forall in Hb. apply elem_of_list_In in Ha. by destruct (Hb a Ha) as (_ & _ & ?). }
  split_and!; [by eapply plan_incr|done| |done|done].
  destruct (walk_ends _ _ _ _ tail Htl _ _ _ _ Hw Ht) as (e & Ee & Hge). change (ends (attempts (w ++ tail))) with (accepted_ends (w ++ tail)) in Ee.
  exists e. rewrite Ee in Hle |- *. split; [by rewrite last_snoc|]. split; [|by apply ltb_ge].
  apply Forall_app in Hle as [_ Hle]. by inversion Hle.
Qed.
(** Over the reals the last sub-step ends exactly there. *)
Theorem C33_exact : forall (g : cfg R) s t lo hi s' v, later_run g s t lo hi s' v ->
  g_dbg g = true \/ (n0 <? lo) = true -> last (accepted_ends v) = Some t.
Proof.
  intros g s t lo hi s' v Hl Hlo. destruct (C33_ends R g s t lo hi s' v Hl Hlo) as (_ & _ & (e & -> & H1 & H2) & _).
  cbn in H1, H2. rewrite Rleb_true in H1, H2. f_equal. by apply Rle_antisym.
Qed.

(** ** C35. Every sub-step, tried or accepted, is at least min_time_step long unless
    it ends at the requested time. *)
Theorem C35_min : forall D `{NumAdd D} (g : cfg D) s t lo hi s' v, later_run g s t lo hi s' v ->
  Forall (fun a => (lo <=? at_to a - at_from a) = true \/ at_to a = t) (attempts v).
Proof.
  intros D ? ? ? g s t lo hi s' v Hl. destruct (later_walk _ _ _ _ _ _ _ Hl) as (Hd & Ep & w & tail & -> & Hw & Htl).
  eapply plan_min; [by eapply walk_plan|by right].
Qed.

(** ** C36. Every sub-step but the first attempt of a run is at most max_time_step long. *)
Theorem C36_max : forall D `{NumAdd D} (g : cfg D) s t lo hi s' v, later_run g s t lo hi s' v ->
  g_dbg g = true \/ (lo <=? hi) = true ->
  forall a, a ∈ tail (attempts v) -> (at_to a - at_from a <=? hi) = true.
Proof.
  intros D ? ? ? g s t lo hi s' v Hl Hlo. destruct (later_walk _ _ _ _ _ _ _ Hl) as (Hd & Ep & w & tl & -> & Hw & Htl).
  eapply plan_max; [|by eapply walk_plan]. destruct Hlo as [Hg|]; [by apply ltb_le, Hd|done].
Qed.
(** The first attempt takes the whole interval, whatever max_time_step is. *)
Theorem C36_first : forall D `{NumAdd D} (g : cfg D) s t lo hi s' v, later_run g s t lo hi s' v ->
  exists h ok, head (attempts v) = Some (Attempt (s_tprev s) t h ok).
Proof.
  intros D ? ? ? g s t lo hi s' v Hl. assert ((s_tprev s <? t) = true) as Ht by apply Hl.
  destruct (later_walk _ _ _ _ _ _ _ Hl) as (Hd & Ep & w & tl & -> & Hw & Htl).
  pose proof (walk_plan _ _ _ _ tl Htl _ _ _ _ Hw) as Hpl. inversion Hpl; subst; [congruence|by eexists _, _..].
Qed.

(** ** C43. During a run, post_step is called in rounds, one round for each accepted
    sub-step, at the end of that sub-step; within a round once for each block, in
    the order of the model. *)
Theorem C43_rounds : forall D `{NumAdd D} (g : cfg D) s t lo hi s' v, later_run g s t lo hi s' v ->
  g_dbg g = true \/ (n0 <? lo) = true ->
  exists times, posts v = concat (map (fun τ => map (fun l => EvPost (l_id l) τ) (leaves (g_tree g))) times) /\
    times = map fst (steps v) /\ Forall2 same_time times (accepted_ends v) /\ incr (s_tprev s :: times) /\ last times = Some t.
Proof.
  intros D ? ? ? g s t lo hi s' v Hl Hlo.
  destruct (C33_ends D g s t lo hi s' v Hl Hlo) as (Hin & Hle & (e' & Hlast & He') & _).
  assert ((s_tprev s <? t) = true) as Ht by apply Hl.
  destruct (later_walk _ _ _ _ _ _ _ Hl) as (Hd & Ep & w & tail & -> & Hw & Htl).
  destruct (walk_ends _ _ _ _ tail Htl _ _ _ _ Hw Ht) as (e & Ee & Hge). change (ends (attempts (w ++ tail))) with (accepted_ends (w ++ tail)) in Ee.
  pose proof (walk_posts _ _ _ _ _ _ _ _ Hw) as Hp. destruct Htl as (v1 & v2 & -> & He1 & He2).
  apply evaluated_spec in He1 as (_ & E2 & E3). apply ended_spec in He2 as ((σ & ms & _ & F1) & F2).
  assert (map fst (steps (w ++ v1 ++ v2)) = map fst (steps w) ++ [t]) as Es.
  { by rewrite !steps_app, E3, F1, map_app. }
  rewrite Ee, last_snoc in Hlast. injection Hlast as <-.
  eexists. split_and!; [|done|..]; rewrite ?Es.
  - rewrite !posts_app, E2, F2, Hp, map_app, concat_app. cbn. rewrite app_nil_r. unfold post_round. f_equal.
    + f_equal. apply map_ext. intros τ. by rewrite map_map.
    + by rewrite map_map.
  - rewrite Ee. apply Forall2_app; [|constructor; [split; by destruct He'|constructor]].
    apply Forall_Forall2_diag. apply Forall_forall. intros x _. split; apply leb_refl.
  - rewrite Ee in Hin. intros i j a b Hij Ha Hb.
    assert (forall k c, (s_tprev s :: map fst (steps w) ++ [t]) !! k = Some c ->
      exists c', (s_tprev s :: map fst (steps w) ++ [e]) !! k = Some c' /\ same_time c c') as Hsame.
    { intros k c Hk. destruct k as [|k]; [injection Hk as <-; eexists; split; [done|]; split; apply leb_refl|].
      change ((map fst (steps w) ++ [t]) !! k = Some c) in Hk. change (exists c', (map fst (steps w) ++ [e]) !! k = Some c' /\ same_time c c').
      destruct (decide (k < length (map fst (steps w)))) as [Hlt|Hnlt].
      - rewrite lookup_app_l in Hk by done. exists c. split; [by rewrite lookup_app_l|]. split; apply leb_refl.
      - rewrite lookup_app_r in Hk by lia. exists e. split; [rewrite lookup_app_r by lia|];
          (destruct (k - length (map fst (steps w)))%nat; [|done]); [done|]. cbn in Hk. injection Hk as <-. split; by destruct He'. }
    destruct (Hsame _ _ Ha) as (a' & Ha' & Sa1 & Sa2), (Hsame _ _ Hb) as (b' & Hb' & Sb1 & Sb2).
    eapply ltb_trans_r; [exact Sa1|]. eapply ltb_trans_l; [|exact Sb2]. by eapply (Hin i j).
  - by rewrite last_snoc.
Qed.

(** ** C37. Running backwards throws and changes nothing at all, if the model has states. *)
Theorem C37_back : forall D `{NumOps D} (g : cfg D) fuel t lo hi s, s_init s = true -> s_sv s ≠ [] -> (t <? s_tprev s) = true ->
  run g fuel t lo hi s = Exn EBackInTime s.
Proof.
  intros D ? g fuel t lo hi s Hi Hn Ht. unfold run. unfold bnd at 1, gets at 1. rewrite Hi. cbn [negb].
  unfold bnd at 1, gets at 1. unfold bnd at 1, gets at 1. destruct (length (s_sv s)) eqn:E; [by destruct (s_sv s)|]. rewrite Ht. done.
Qed.

(** ** C38. The first run initialises: it is init; the stepper is not called; Simulator
    calls pre_step, evaluates and calls post_step once, all at that time. *)
Theorem C38_first : forall D `{NumOps D} (g : cfg D) fuel t lo hi s, s_init s = false ->
  run g fuel t lo hi s = init g t s /\
  forall s', init g t s = Ok tt s' -> s_init s' = true /\ s_tprev s' = t /\
    exists v, s_log s' = s_log s ++ v /\ attempts v = [] /\
      (g_mode g ≠ MFast -> exists acts σ0 ms0 σ1 ms1 σ2 ms2,
        v = EvInputs t :: map (fun l => EvPre (l_id l) t) (leaves (g_tree g)) ++ EvBegin t σ0 ms0 ::
            map (fun b => EvAct b t) acts ++ EvEval t σ1 ms1 ::
            map (fun l => EvPost (l_id l) t) (leaves (g_tree g)) ++ [EvStep t σ2 ms2]).
Proof.
  intros D ? g fuel t lo hi s Hi. split.
  { unfold run. unfold bnd at 1, gets at 1. by rewrite Hi. }
  intros s' Hr. destruct (init_flags g t s s' Hr) as [H1 H2]. split; [done|]. split; [done|].
  destruct (adds_init g t _ _ _ Hr) as (v & Ev & Hno & Hv). exists v. split; [done|]. split; [done|].
  intros Hm. destruct (Hv Hm) as (v1 & acts & σ1 & ms1 & v2 & -> & (σ0 & ms0 & ->) & (σ2 & ms2 & ->)).
  exists acts, σ0, ms0, σ1, ms1, σ2, ms2. rewrite !map_map. cbn. rewrite <- !app_assoc. cbn. done.
Qed.

(** ** Examples *)
(** A stepper that takes Euler steps, asks to redo steps longer than 1 and suggests
    at most 1/2 after time 1. *)
Definition picky : stepper Q := fun S f t0 v0 t1 =>
  let h := t1 - t0 in
  k <~ call f (length v0) t0 v0 ;;
  ret (va v0 (vk h k), if 1%Q <? h then h / 2%Q else if (1%Q <? t0) && ((1#2)%Q <? h) then (1#2)%Q else h).
Lemma picky_rel : stepper_rel picky.
Proof. intros S1 S2 R f1 f2 t0 v0 t1 Hf. unfold picky. apply mrel_bnd; [by apply mrel_call|intros k]. apply mrel_ret. Qed.
(** Model ex6, initialised at time 0, then run to time 3 with steps between 1/100 and 1. *)
Definition picky_0 : simst Q := ex6_end MDefault picky [0%Q].
Definition picky_1 : simst Q := st_of picky_0 (run (ex6_cfg MDefault picky) 20 3%Q (1#100)%Q 1%Q picky_0).
Definition new_log (s s' : simst Q) : list (event Q) := drop (length (s_log s)) (s_log s').
Lemma is_ok_run g fuel t lo hi (s : simst Q) : is_ok (run g fuel t lo hi s) = true -> run g fuel t lo hi s = Ok tt (st_of s (run g fuel t lo hi s)).
Proof. destruct (run g fuel t lo hi s) as [[] s'| | |]; intros Hr; (discriminate Hr || reflexivity). Qed.
Lemma later_example stp g fuel t lo hi s : g_stepper g = Some stp -> stepper_rel stp -> s_init s = true -> s_sv s ≠ [] -> (s_tprev s <? t) = true ->
  is_ok (run g fuel t lo hi s) = true -> later_run g s t lo hi (st_of s (run g fuel t lo hi s)) (new_log s (st_of s (run g fuel t lo hi s))).
Proof.
  intros Es Hs Hi Hn Ht Hok. apply is_ok_run in Hok. split_and!; [intros x E; rewrite Es in E; by injection E as <-|done|done|done|by eexists|].
  pose proof (P_Evolve.pres_run g) as Hp. unfold new_log. remember (st_of s (run g fuel t lo hi s)) as s' eqn:Es'. clear Es'.
  assert (exists v, s_log s' = s_log s ++ v) as [v ->]; [|by rewrite drop_app].
  unfold run in Hok. unfold bnd at 1, gets at 1 in Hok. rewrite Hi in Hok. cbn [negb] in Hok.
  assert (s_log s `prefix_of` s_log s') as [v Hv]; [|by exists v]. clear Hp.
  destruct (t <? s_tprev s) eqn:Eb.
  - pose proof (C37_back Q g fuel t lo hi s Hi Hn Eb) as Hb. unfold run in Hb. unfold bnd at 1, gets at 1 in Hb. rewrite Hi in Hb. cbn [negb] in Hb. congruence.
  - destruct (t =? s_tprev s) eqn:Ee.
    + apply eqb_ge in Ee. apply ltb_lt in Ht. congruence.
    + destruct (run_later g) with (fuel := fuel) (t := t) (lo := lo) (hi := hi) (s := s) (s' := s') as (_ & w & v1 & v2 & -> & _); try done.
      * intros x E. rewrite Es in E. by injection E as <-.
      * unfold run. unfold bnd at 1, gets at 1. rewrite Hi. exact Hok.
      * by eexists.
Qed.
Lemma picky_run : later_run (ex6_cfg MDefault picky) picky_0 3%Q (1#100)%Q 1%Q picky_1 (new_log picky_0 picky_1).
Proof.
  apply (later_example picky); [done|apply picky_rel|vm_compute; reflexivity| |vm_compute; reflexivity|vm_compute; reflexivity].
  intros E. apply (f_equal (@length Q)) in E. revert E. vm_compute. discriminate.
Qed.
Example C33_ex : map (fun a => (at_from a, at_to a, at_ok a)) (attempts (new_log picky_0 picky_1)) =
  [(0, 3, false); (0, 1, true); (1, 2, true); (2, 3, false); (2, 5#2, true); (5#2, 3, true)]%Q.
Proof. vm_compute. reflexivity. Qed.
Example C43_ex : length (posts (new_log picky_0 picky_1)) = 36%nat /\ map fst (steps (new_log picky_0 picky_1)) = [1; 2; 5#2; 3]%Q.
Proof. vm_compute. split; reflexivity. Qed.

(** C36 does not hold of the first attempt: Euler's method is asked for a step of
    length 3 although max_time_step is 1, and it is accepted. *)
Definition long_0 : simst Q := ex6_end MDefault euler [0%Q].
Definition long_1 : simst Q := st_of long_0 (run (ex6_cfg MDefault euler) 20 3%Q (1#100)%Q 1%Q long_0).
Theorem C36_refuted : exists (g : cfg Q) s t lo hi s' v, later_run g s t lo hi s' v /\
  exists a, a ∈ attempts v /\ at_ok a = true /\ (hi <? at_to a - at_from a) = true.
Proof.
  exists (ex6_cfg MDefault euler), long_0, 3%Q, (1#100)%Q, 1%Q, long_1, (new_log long_0 long_1). split.
  - apply (later_example euler); [done|apply euler_rel|vm_compute; reflexivity| |vm_compute; reflexivity|vm_compute; reflexivity].
    intros E. apply (f_equal (@length Q)) in E. revert E. vm_compute. discriminate.
  - exists (Attempt 0%Q 3%Q 3%Q true). assert (attempts (new_log long_0 long_1) = [Attempt 0%Q 3%Q 3%Q true]) as -> by (vm_compute; reflexivity).
    split; [by apply elem_of_list_here|]. split; vm_compute; reflexivity.
Qed.

(** C37 does not hold of models without states: here a Memory of a source. *)
Definition ex8_ops : list (wop Q) :=
  [ ONewSig KScalar "u"; ONewSig KScalar "m"; ONewBus [0] ""; ONewBus [1] ""; ONewBus [] "";
    ONewBlock CSubmodel LNone None "root" NoIOLimit NoIOLimit;
    ONewBlock (CMemory TyD) (LMem (VS 7%Q)) (Some 0) "mem" 1 1;
    ONewBlock (CSource TyD (fun t : Q => PRet (VS (nmul t t)))) LNone (Some 0) "u" NoIOLimit 1;
    OConnect 1 2 3; OConnect 2 4 2 ].
Definition ex8_world : world Q := world_of true ex8_ops.
Definition ex8_cfg (m : mode) : cfg Q := Cfg true m (tree_of ex8_world) None (fun _ => PRet tt) None (fun x => x) 0%Q.
Definition ex8_0 : simst Q := new_sim (initial_dyn ex8_world).
Definition ex8_1 : simst Q := st_of ex8_0 (run (ex8_cfg MDefault) 20 5%Q (1#100)%Q 1%Q ex8_0).
Definition ex8_2 : simst Q := st_of ex8_1 (run (ex8_cfg MDefault) 20 3%Q (1#100)%Q 1%Q ex8_1).
Lemma ex8_reach : wreach true ex8_world.
Proof. reach_ops ex8_world ex8_ops. Qed.
Lemma ex8_run1 : run (ex8_cfg MDefault) 20 5%Q (1#100)%Q 1%Q ex8_0 = Ok tt ex8_1.
Proof. unfold ex8_1. apply is_ok_run. vm_compute. reflexivity. Qed.
Lemma ex8_run2 : run (ex8_cfg MDefault) 20 3%Q (1#100)%Q 1%Q ex8_1 = Ok tt ex8_2.
Proof. unfold ex8_2. apply is_ok_run. vm_compute. reflexivity. Qed.
Lemma ex8_sim : simulation_of ex8_world 0 (ex8_cfg MDefault) ex8_1.
Proof.
  split; [exists true; exact ex8_reach|]. exists (tree_of ex8_world). split; [vm_compute; reflexivity|].
  eapply so_run; [apply so_first; [reflexivity|reflexivity|intros x E; discriminate E]|exact ex8_run1].
Qed.
Theorem C37_refuted : exists w b (g : cfg Q) s fuel t lo hi s', simulation_of w b g s /\ s_init s = true /\ (t <? s_tprev s) = true /\
  run g fuel t lo hi s = Ok tt s' /\ s_tprev s' = t /\ lst_of (s_core s) 1 = LMem (VS 25%Q) /\ lst_of (s_core s') 1 = LMem (VS 9%Q).
Proof.
  exists ex8_world, 0%nat, (ex8_cfg MDefault), ex8_1, 20%nat, 3%Q, (1#100)%Q, 1%Q, ex8_2. split; [exact ex8_sim|].
  split; [vm_compute; reflexivity|]. split; [vm_compute; reflexivity|]. split; [exact ex8_run2|].
  split; [vm_compute; reflexivity|]. split; vm_compute; reflexivity.
Qed.
Example C37_ex : run (ex6_cfg MDefault picky) 20 2%Q (1#100)%Q 1%Q picky_1 = Exn EBackInTime picky_1.
Proof.
  apply C37_back; [vm_compute; reflexivity| |vm_compute; reflexivity].
  intros E. apply (f_equal (@length Q)) in E. revert E. vm_compute. discriminate.
Qed.
Example C38_ex : s_init ex8_0 = false /\ is_ok (init (ex8_cfg MDefault) 5%Q ex8_0) = true /\ is_ok (init (ex6_cfg MFast picky) 0%Q (new_sim (initial_dyn ex6_world))) = true.
Proof. vm_compute. split_and!; reflexivity. Qed.
Print Assumptions C33_ends. Print Assumptions C33_exact. Print Assumptions C35_min. Print Assumptions C36_max. Print Assumptions C36_refuted.
Print Assumptions C37_back. Print Assumptions C37_refuted. Print Assumptions C38_first. Print Assumptions C43_rounds.
