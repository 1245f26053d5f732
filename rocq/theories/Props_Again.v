(** Doing an evaluation again: C42. *)
From stdpp Require Import prelude gmap strings.
From Coq Require Import ZArith QArith.
From Verif Require Import Num NumQ Res Name Store Leaf Sched Stepper Sim World Api SpecSched P_Store P_Prog P_Modes P_World P_Compile P_Sched P_Eval P_Fast P_Sim P_Evolve SpecSim P_Simulated P_Rel P_Rel2
  SpecHist P_Trace P_Life Ex_Models Ex_Hist Props_Sched Props_Sched2 Props_Sched3 Props_Block SpecRun P_Log Props_Run P_Pack P_Grow P_Again P_Repeat Props_Pack SpecAgain P_Over P_Redo.

Local Open Scope nat_scope.
Local Open Scope num_scope.

Section ready.
  Context {D : Type} `{NumOps D} (g : cfg D) (Hw : wf_tree (g_tree g)) (Hg : g_dbg g = true).
  Context (Hstp : forall stp, g_stepper g = Some stp -> stepper_ok stp).
  Lemma ready_init t d0 s : init g t (new_sim d0) = Ok tt s -> ready g s.
  Proof.
    unfold ready. destruct (g_mode g) eqn:Em; [done| |].
    - intros Hi. pose proof (order_init g Hw Hg t (new_sim d0)) as Ho. rewrite Hi in Ho.
      destruct (Ho (fun _ => or_introl (conj eq_refl (conj eq_refl eq_refl))) Em) as [(? & _)|?]; [by left|by right].
    - rewrite C23_init by done. unfold bnd at 1. destruct (search g t (new_sim d0)) as [[] s2| | |] eqn:E; try done. intros Hr.
      assert (evo g s2 s) as Hev.
      { assert (pres (evo g) (on_core' (snap (EvEval t)) ;;; clear_all ;;; process_model g t true true)) as Hp.
        { apply pres_bnd; [apply _|apply pres_on_core', pres_snap|intros _]. apply pres_bnd; [apply _|apply pres_clear_all|intros _]. apply pres_process_model. }
        specialize (Hp s2). by rewrite Hr in Hp. }
      rewrite (ev_fast _ _ _ Hev). rewrite search_setup in E by done. unfold bnd at 1 in E.
      destruct (setup g t (new_sim d0)) as [[] s1| | |] eqn:Hs; try done.
      apply setup_spec in Hs as (Hk & Hf1 & _). unfold bnd, on_core', on_dyn, on_core, lift in E.
      destruct (fast_schedule (g_dbg g) (leaves (g_tree g)) t (d_core (s_dyn s1))) as [[o n] c'|e c'|u|] eqn:Es; try done.
      cbn in E. unfold verify in E. destruct (Nat.eqb_spec n (length (leaves (g_tree g)))) as [Hn|Hn]; [|done].
      injection E as <-. cbn. rewrite Hf1. cbn. eapply fast_complete; [by apply wf_leaves|exact Es|done].
  Qed.
  Lemma ready_keep {A} (m : M (simst D) A) : pres (evo g) m -> keep (ready g) m.
  Proof. intros Hm s a s' Hr E. specialize (Hm s). rewrite E in Hm. by eapply ready_evo. Qed.
  Lemma ready_run fuel t lo hi s s' : ready g s -> s_init s = true -> run g fuel t lo hi s = Ok tt s' -> ready g s'.
  Proof.
    intros Hrd Hi Hr. unfold run in Hr. unfold bnd at 1, gets at 1 in Hr. rewrite Hi in Hr. cbn [negb] in Hr.
    revert Hr. match goal with |- ?m s = _ -> _ => apply (fun K : keep (ready g) m => K s tt s' Hrd) end.
    apply keep_bnd; [apply keep_gets|intros n]. apply keep_bnd; [apply keep_gets|intros tp]. apply keep_bnd.
    - destruct n; [apply keep_ret|]. apply keep_if; [apply keep_throw|]. apply keep_if.
      + apply keep_bnd; [apply ready_keep, pres_begin_step|intros _]. apply keep_bnd; [apply keep_gets|intros o].
        apply keep_bnd; [apply ready_keep, pres_get_sv|intros x]. apply ready_keep, pres_modify. intros x'. by split.
      + apply keep_bnd; [apply keep_debug|intros _]. apply keep_bnd; [apply keep_debug|intros _]. apply keep_bnd; [apply keep_debug|intros _].
        apply ready_keep. by apply pres_run_loop.
    - intros _. apply keep_bnd; [apply keep_gets|intros sv]. apply keep_bnd; [apply ready_keep, pres_reset_sv|intros _].
      apply keep_bnd; [apply ready_keep, pres_process_model|intros _]. apply keep_modify. intros x. done.
  Qed.
End ready.
Lemma session_wf {D} `{NumOps D} w b (g : cfg D) s : session_of w b g s -> wf_tree (g_tree g).
Proof. intros ((dbg & Hr) & Hc & _). by eapply reach_wf. Qed.
Lemma session_ready {D} `{NumOps D} w b (g : cfg D) s : session_of w b g s -> g_dbg g = true -> ready g s.
Proof.
  intros Hs Hg. pose proof (session_wf _ _ _ _ Hs) as Hw. pose proof Hs as (Hr & Hc & Hi & Hstp & g0 & s0 & Hs0 & Hses).
  assert (forall stp, g_stepper g = Some stp -> stepper_ok stp) as Hst by (intros stp E; by destruct (Hstp stp E)).
  assert (g_dbg g = true -> store_ok (k_store (d_core (s_dyn s0)))) as Hok.
  { intros _. rewrite Hg in Hs0. destruct Hr as [dbg Hr]. destruct (simulated_comes _ _ _ _ _ Hs0) as [_ Hd]. by eapply reach_store_ok. }
  clear Hs. induction Hses as [t s Hin|s fuel t lo hi s' Hses IH Hrun]; [by eapply ready_init|].
  eapply ready_run; [done|done|exact IH| |exact Hrun]. by eapply (session_packed g Hst Hi (s_dyn s0)).
Qed.
Lemma linked_vsigs {D} `{NumOps D} (tr : tree D) x : linked tr x <-> x ∈ linked_signals tr.
Proof.
  unfold linked, linked_signals. rewrite elem_of_remove_dups, elem_of_list_In, in_concat. split.
  - intros (n & f & Hn & Hf). exists (map fst (node_linked n)). split; apply in_map_iff; [exists n|exists (x, f)]; (split; [done|]); by apply elem_of_list_In.
  - intros (l & Hl & Hx). apply in_map_iff in Hl as (n & <- & Hn). apply in_map_iff in Hx as ([y f] & <- & Hf). exists n, f. by split; apply elem_of_list_In.
Qed.

Lemma untried_starts {D} (v : list (event D)) b : untried v -> starts_in b (marks v) = [].
Proof.
  unfold untried. revert b. induction v as [|e v IH]; intros b; [done|]. cbn [forallb]. intros [He Hv]%andb_true_iff.
  unfold marks. cbn [List.filter]. change (List.filter is_mark v) with (marks v). destruct (is_mark e); [|by apply IH]. destruct e; try done; cbn; by apply IH.
Qed.

(** ** C42.  After a rejected attempt, the next one starts from the same time, with the
    same state vector, and all signals linked to blocks of the model and all members
    are as they were when the rejected attempt started. *)
Theorem C42_restart : forall D `{NumOps D} w b (g : cfg D) s fuel t lo hi s',
  session_of w b g s -> g_dbg g = true -> (forall l, l ∈ leaves (g_tree g) -> steady_class l) ->
  run g fuel t lo hi s = Ok tt s' ->
  exists v, s_log s' = s_log s ++ v /\
    forall i a a', starts v !! i = Some a -> starts v !! S i = Some a' -> st_ok a = false -> alike (linked (g_tree g)) a a'.
Proof.
  intros D ? w b g s fuel t lo hi s' Hs Hg Hst Hr. destruct (session_of_packed _ _ _ _ Hs) as [Hp Hi].
  pose proof (session_ready _ _ _ _ Hs Hg) as Hrd. pose proof (session_wf _ _ _ _ Hs) as Hw. pose proof Hs as (_ & _ & _ & Hstp & _).
  assert (forall v : list (event D), untried v -> forall i a a', starts v !! i = Some a -> starts v !! S i = Some a' -> st_ok a = false -> alike (linked (g_tree g)) a a') as Hnil.
  { intros v Hv i a a' E. unfold starts in E. by rewrite untried_starts in E. }
  unfold run in Hr. unfold bnd at 1, gets at 1 in Hr. rewrite Hi in Hr. cbn [negb] in Hr.
  unfold bnd at 1, gets at 1 in Hr. unfold bnd at 1, gets at 1 in Hr. unfold bnd at 1 in Hr.
  destruct (length (s_sv s)) as [|n].
  { unfold ret at 1 in Hr. assert (adds (first_at g t) (sv <~ gets s_sv ;; reset_sv g sv ;;; process_model g t true true ;;; modify (put_tprev t))) as Ha.
    { apply adds_skip; [apply adds_gets|intros sv]. apply adds_skip; [apply adds_reset|intros _].
      eapply (adds_bnd _ nothing); [apply adds_first|intros _; by apply adds_modify|]. intros u1 u2 Hu ->. by rewrite app_nil_r. }
    destruct (Ha _ _ _ Hr) as (v & Ev & Hv). exists v. split; [done|]. apply Hnil. by eapply first_untried. }
  destruct (t <? s_tprev s); [done|].
  assert (adds (major_at g t) (sv <~ gets s_sv ;; reset_sv g sv ;;; process_model g t false true ;;; modify (put_tprev t))) as Ha.
  { apply adds_skip; [apply adds_gets|intros sv]. apply adds_skip; [apply adds_reset|intros _].
    eapply (adds_bnd _ nothing); [apply adds_major|intros _; by apply adds_modify|]. intros u1 u2 Hu ->. by rewrite app_nil_r. }
  destruct (t =? s_tprev s).
  { unfold bnd at 1 in Hr. destruct (begin_step g t s) as [[] s0| | |] eqn:Eb; try done.
    unfold bnd at 1, gets at 1 in Hr. unfold bnd at 1 in Hr. destruct (get_sv g (s_sv s0) s0) as [x s1| | |] eqn:Eg; try done.
    pose proof (get_sv_same _ _ _ _ _ Eg) as ->. unfold modify at 1 in Hr. destruct (Ha _ _ _ Hr) as (v & Ev & v1 & v2 & -> & H1 & H2).
    destruct (adds_begin g t _ _ _ Eb) as (v0 & Ev0 & σ0 & ms0 & ->). eexists. split; [rewrite Ev; change (s_log (put_sv x s0)) with (s_log s0); by rewrite Ev0, <- app_assoc|].
    destruct H1 as (acts & σ1 & ms1 & ->), H2 as (σ2 & ms2 & ->). apply Hnil.
    change (untried (([EvInputs t] ++ map (fun b => EvPre b t) (map l_id (leaves (g_tree g))) ++ [EvBegin t σ0 ms0]) ++
      ([EvInputs t] ++ map (fun b => EvAct b t) acts ++ [EvEval t σ1 ms1]) ++ map (fun b => EvPost b t) (map l_id (leaves (g_tree g))) ++ [EvStep t σ2 ms2])).
    repeat apply untried_app; try done; by apply untried_map. }
  match type of Hr with match ?m s with _ => _ end = _ => destruct (m s) as [[] s1| | |] eqn:E1; try done end.
  assert (exists w, s_log s1 = s_log s ++ w /\ run_loop g fuel t lo hi (s_tprev s) t false s = Ok tt s1) as (lw & Elw & El).
  { unfold bnd, debug_verify, verify, ret, throw in E1. rewrite Hg in E1. destruct (g_stepper g) as [stp|] eqn:Es; [|done]. destruct (n0 <? lo); [|done].
    destruct (lo <? hi); [|done]. destruct (adds_loop g (fun stp0 E => proj2 (Hstp stp0 (eq_trans (eq_sym Es) E))) _ _ _ _ _ _ _ _ _ _ E1) as (w1 & Ew1 & _). by exists w1. }
  destruct (Ha _ _ _ Hr) as (v & Ev & v1 & v2 & -> & H1 & H2). exists (lw ++ v1 ++ v2). split; [by rewrite Ev, Elw, <- app_assoc|].
  destruct (loop_redone g Hw Hg (fun l Hl => steady_library l (Hst l Hl)) Hstp (linked (g_tree g)) fuel t lo hi (s_tprev s) t false s s1) as (u & Eu & _ & _ & Hre); [|done..|].
  { intros x. rewrite linked_vsigs. symmetry. apply (pk_vsigs _ _ Hp). }
  rewrite Elw, marks_app in Eu. apply app_inv_head in Eu. intros i a a'. unfold starts. rewrite marks_app, Eu. apply Hre.
  destruct H1 as (acts & σ1 & ms1 & ->), H2 as (σ2 & ms2 & ->).
  change (EvInputs t :: map (fun b => EvAct b t) acts ++ [EvEval t σ1 ms1]) with ([EvInputs t] ++ map (fun b => EvAct b t) acts ++ [EvEval t σ1 ms1]).
  rewrite !marks_app, !marks_one, !marks_quiet by done. done.
Qed.

(** ** Examples *)
Lemma session_init {D} `{NumOps D} w b (g : cfg D) stp t0 s : wreach true w -> compile_model w b = Some (g_tree g) -> (forall l, g_iter g l ≡ₚ l) ->
  g_stepper g = Some stp -> stepper_ok stp -> stepper_rel stp -> init g t0 (new_sim (initial_dyn w)) = Ok tt s -> session_of w b g s.
Proof.
  intros Hr Hc Hi Es Ho Hs E. split; [by exists true|]. split; [exact Hc|]. split; [exact Hi|].
  split. { intros stp' E'. rewrite Es in E'. injection E' as <-. done. }
  exists g, (new_sim (initial_dyn w)). split; [|by apply (se_init _ _ t0)].
  apply so_first; [done|done|]. intros stp' E'. rewrite Es in E'. by injection E' as <-.
Qed.

(** A stepper that takes steps of Heun's method (it evaluates the model at both
    ends) and asks to redo steps longer than 1/2. *)
Definition wary : stepper Q := fun S f t0 v0 t1 =>
  let h := t1 - t0 in
  k1 <~ call f (length v0) t0 v0 ;;
  k2 <~ call f (length v0) t1 (va v0 (vk h k1)) ;;
  ret (va v0 (vk (h / 2%Q) (va k1 k2)), if (1#2)%Q <? h then h / 2%Q else h).
Lemma wary_rel : stepper_rel wary.
Proof.
  intros S1 S2 R f1 f2 t0 v0 t1 Hf. unfold wary. apply mrel_bnd; [by apply mrel_call|intros k1].
  apply mrel_bnd; [by apply mrel_call|intros k2]. apply mrel_ret.
Qed.
Lemma wary_ok : stepper_ok wary.
Proof.
  split.
  - intros S R f t0 v0 t1 HR Hf. unfold wary. cbv zeta. repeat (apply pres_bnd; [apply _|by apply pres_call|intros ?]). apply pres_ret, _.
  - intros S f t0 v0 t1 x r x'. unfold wary. cbv zeta. unfold bnd at 1. destruct (call f _ t0 v0 x) as [k1 x1| | |] eqn:E1; try done. apply call_len in E1.
    unfold bnd at 1. destruct (call f _ t1 _ x1) as [k2 x2| | |] eqn:E2; try done. apply call_len in E2.
    intros He. injection He as <- <-. cbn [fst]. unfold va, vk. rewrite !zip_with_length, !map_length, !zip_with_length. lia.
Qed.

(** A model with an integrator in a loop, a Memory, a Derivative and a Delay. *)
Definition ex13_ops : list (wop Q) :=
  [ ONewSig KScalar "x"; ONewSig KScalar "dx"; ONewSig KScalar "m"; ONewSig KScalar "y"; ONewSig KScalar "d"; ONewSig KScalar "i"; ONewSig KScalar "z";
    ONewBus [0] ""; ONewBus [1] ""; ONewBus [2] ""; ONewBus [3] ""; ONewBus [4] ""; ONewBus [5] "";
    ONewBusL [("in", 0); ("delay", 4); ("initial", 5)]%string ""; ONewBus [6] ""; ONewBus [] "";
    ONewBlock CSubmodel LNone None "root" NoIOLimit NoIOLimit;
    ONewBlock (CGain TyD (VS (-2)%Q)) LNone (Some 0) "gain" 1 1;
    ONewBlock (CInteg TyD) (LInteg (VS 5%Q) false) (Some 0) "int" 1 1;
    ONewBlock (CMemory TyD) (LMem (VS 7%Q)) (Some 0) "mem" 1 1;
    ONewBlock CDeriv (LDeriv true None None 9%Q) (Some 0) "der" 1 1;
    ONewBlock (CDelay TyD 10%Q) (LDelay [] []) (Some 0) "delay" 3 1;
    ONewBlock (CConst TyD (VS (3#2)%Q)) LNone (Some 0) "d" 0 1;
    ONewBlock (CConst TyD (VS (-1)%Q)) LNone (Some 0) "i" 0 1;
    OConnect 1 7 8; OConnect 2 8 7; OConnect 3 7 9; OConnect 4 7 10; OConnect 5 13 14; OConnect 6 15 11; OConnect 7 15 12 ]%nat.
Definition ex13_world : world Q := world_of true ex13_ops.
Definition ex13_tree : tree Q := tree_of ex13_world.
Definition ex13_cfg (m : mode) : cfg Q := Cfg true m ex13_tree None (fun _ => PRet tt) (Some wary) (fun x => reverse x) 0%Q.
Lemma ex13_reach : wreach true ex13_world.
Proof. reach_ops ex13_world ex13_ops. Qed.
Lemma ex13_model : compile_model ex13_world 0 = Some ex13_tree.
Proof. vm_compute. reflexivity. Qed.
Definition ex13_new : simst Q := new_sim (initial_dyn ex13_world).
Definition ex13_0 (m : mode) : simst Q := st_of ex13_new (init (ex13_cfg m) 0%Q ex13_new).
Definition ex13_1 (m : mode) : simst Q := st_of (ex13_0 m) (run (ex13_cfg m) 20 2%Q (1#100)%Q 10%Q (ex13_0 m)).
Lemma ex13_session m : is_ok (init (ex13_cfg m) 0%Q ex13_new) = true -> session_of ex13_world 0 (ex13_cfg m) (ex13_0 m).
Proof.
  intros E. apply is_ok_init in E. eapply (session_init _ _ _ wary); [exact ex13_reach|exact ex13_model|intros l; apply reverse_Permutation|reflexivity|exact wary_ok|exact wary_rel|].
  exact E.
Qed.
Definition steadyb {D} (l : leaf D) : bool := match l_cls l with CTrig _ | CUser _ _ _ => false | _ => true end.
Lemma steadyb_ok {D} (ls : list (leaf D)) : forallb steadyb ls = true -> forall l, l ∈ ls -> steady_class l.
Proof.
  rewrite forallb_forall. intros Hf l Hl. apply elem_of_list_In in Hl. specialize (Hf l Hl). unfold steadyb in Hf. unfold steady_class. by destruct (l_cls l).
Qed.
(** The run from 0 to 2 tries the steps 2, 1, 1/2, ...; the attempts from time 0
    start with x = 5. *)
Example C42_ex m : m = MDefault \/ m = MFast ->
  session_of ex13_world 0 (ex13_cfg m) (ex13_0 m) /\ g_dbg (ex13_cfg m) = true /\
  (forall l, l ∈ leaves (g_tree (ex13_cfg m)) -> steady_class l) /\
  is_ok (run (ex13_cfg m) 20 2%Q (1#100)%Q 10%Q (ex13_0 m)) = true /\
  map (fun a => (st_ok a, st_state a)) (take 3 (starts (new_log (ex13_0 m) (ex13_1 m)))) = [(false, [5%Q]); (false, [5%Q]); (true, [5%Q])].
Proof.
  intros Hm. split_and!; [apply ex13_session| | | |]; destruct Hm as [-> | ->];
    try (apply steadyb_ok); vm_compute; reflexivity.
Qed.
Print Assumptions C42_restart.

(** Not so with a TriggeredIntegrator.  The trigger of model ex9 is true at time 1
    only.  The attempt from 0 to 1 evaluates the model at time 1, which sets
    [_triggered]; the attempt is rejected; when the step begins again at time 0,
    pre_step resets the integrator to zero although the trigger was not true in
    [0, 1/2]. *)
Definition ex9w_cfg : cfg Q := Cfg true MDefault ex9_tree None (fun _ => PRet tt) (Some wary) (fun x => reverse x) 0%Q.
Definition ex9w_0 : simst Q := st_of ex9_new (init ex9w_cfg 0%Q ex9_new).
Definition ex9w_1 : simst Q := st_of ex9w_0 (run ex9w_cfg 20 1%Q (1#100)%Q 10%Q ex9w_0).
Lemma two_starts (ls : list (start Q)) x y : map (fun a => (st_ok a, st_state a)) (take 2 ls) = [(false, x); y] -> y.2 ≠ x ->
  exists i a a', ls !! i = Some a /\ ls !! S i = Some a' /\ st_ok a = false /\ st_state a' ≠ st_state a.
Proof.
  destruct ls as [|a [|a' ls]]; [intros Em; discriminate Em..|]. cbn [take map]. intros Em Hy. injection Em as E1 E2 <-.
  exists 0, a, a'. rewrite E2. done.
Qed.
Lemma ex9w_later : later_run ex9w_cfg ex9w_0 1%Q (1#100)%Q 10%Q ex9w_1 (new_log ex9w_0 ex9w_1).
Proof.
  apply (later_example wary); [reflexivity|exact wary_rel|vm_compute; reflexivity| |vm_compute; reflexivity|vm_compute; reflexivity].
  intros E. apply (f_equal (@length Q)) in E. revert E. vm_compute. discriminate.
Qed.
Lemma ex9w_session : session_of ex9_world 0 ex9w_cfg ex9w_0.
Proof.
  assert (is_ok (init ex9w_cfg 0%Q ex9_new) = true) as E by (vm_compute; reflexivity). apply is_ok_init in E.
  eapply (session_init _ _ _ wary); [exact ex9_reach|exact ex9_model|intros l; apply reverse_Permutation|reflexivity|exact wary_ok|exact wary_rel|].
  exact E.
Qed.
Theorem C42_refuted : exists (w : world Q) b g s fuel t lo hi s' v,
  session_of w b g s /\ g_dbg g = true /\ run g fuel t lo hi s = Ok tt s' /\ s_log s' = s_log s ++ v /\
  exists i a a', starts v !! i = Some a /\ starts v !! S i = Some a' /\ st_ok a = false /\ st_state a' ≠ st_state a.
Proof.
  destruct ex9w_later as (_ & _ & _ & _ & [fuel Hr] & Hv).
  exists ex9_world, 0, ex9w_cfg, ex9w_0, fuel, 1%Q, (1#100)%Q, 10%Q, ex9w_1, (new_log ex9w_0 ex9w_1).
  split; [exact ex9w_session|]. split; [reflexivity|]. split; [exact Hr|]. split; [exact Hv|].
  apply (two_starts _ [6; 5; 3; 4]%Q (true, [0; 5; 3; 4]%Q)); [vm_compute; reflexivity|]. intros E. discriminate E.
Qed.
Print Assumptions C42_refuted.
