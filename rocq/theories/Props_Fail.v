(** What a run that throws leaves behind: C67. *)
From stdpp Require Import prelude gmap strings.
From Coq Require Import ZArith QArith.
From Verif Require Import Num NumQ Res Name Store Leaf Sched Stepper Sim World Api SpecSched P_Store P_Prog P_Modes P_World P_Compile P_Sched P_Eval P_Fast P_Sim P_Evolve SpecSim P_Simulated P_Rel P_Rel2
  SpecHist P_Trace P_Life Ex_Models Ex_Hist Props_Sched Props_Sched2 Props_Sched3 Props_Block SpecRun P_Log Props_Run P_Pack P_Grow P_Again P_Repeat Props_Pack SpecAgain P_Over P_Redo Props_Again SpecFail P_Fail.

Local Open Scope nat_scope.
Local Open Scope num_scope.

(** ** C67.  After a run that threw, the simulator has its time and its lists of signals
    as before and is still initialised, and the members of every block are those the
    last completed sub-step of that run left, or those from before the run if it
    completed none. *)
Theorem C67_left : forall D `{NumOps D} w b (g : cfg D) s fuel t lo hi e s',
  session_of w b g s -> g_dbg g = true -> (forall l, l ∈ leaves (g_tree g) -> steady_class l) ->
  run g fuel t lo hi s = Exn e s' ->
  s_tprev s' = s_tprev s /\ s_init s' = true /\ s_vsigs s' = s_vsigs s /\ s_scal s' = s_scal s /\ s_arr s' = s_arr s /\ s_fast s' = s_fast s /\
  exists v, s_log s' = s_log s ++ v /\
    forall m, last_members (lst_of (s_core s)) v m -> forall i, same_member (m i) (lst_of (s_core s') i).
Proof.
  intros D ? w b g s fuel t lo hi e s' Hs Hg Hst Hr. destruct (session_of_packed _ _ _ _ Hs) as [Hp Hi].
  pose proof (session_ready _ _ _ _ Hs Hg) as Hrd. pose proof (session_wf _ _ _ _ Hs) as Hw. pose proof Hs as (_ & _ & _ & Hstp & _).
  destruct (run_throws g Hw (fun l Hl => steady_library l (Hst l Hl)) (fun stp E => proj1 (Hstp stp E)) fuel t lo hi s e s' Hi Hr) as [He Hk].
  split; [apply (ev_tprev _ _ _ He)|]. split; [by rewrite (ev_init _ _ _ He)|]. split; [apply (ev_vsigs _ _ _ He)|].
  split; [apply (ev_scal _ _ _ He)|]. split; [apply (ev_arr _ _ _ He)|]. split; [apply (ev_fast _ _ _ He)|].
  destruct (Hk Hrd) as (v & Ev & H1 & H2). exists v. split; [exact Ev|]. intros m [[Hn ->]|(v1 & t' & σ & ms & v2 & -> & Hn & ->)] i.
  - by apply H1.
  - by eapply H2.
Qed.

(** Model ex13 with inputs that throw between 5/4 and 7/4.  The run to 2 completes
    sub-steps at 1/2 and 1 before it throws in the evaluation at 3/2; the run to 3/2
    throws in its first attempt. *)
Definition ex67_inputs (t : Q) : prog Q unit := if (5#4)%Q <? t then (if t <? (7#4)%Q then PThrow (EUser 1) else PRet tt) else PRet tt.
Definition ex67_cfg (m : mode) : cfg Q := Cfg true m ex13_tree (Some ex67_inputs) (fun _ => PRet tt) (Some wary) (fun x => reverse x) 0%Q.
Definition ex67_0 (m : mode) : simst Q := st_of ex13_new (init (ex67_cfg m) 0%Q ex13_new).
Definition ex67_1 (m : mode) (t : Q) : simst Q := st_of (ex67_0 m) (run (ex67_cfg m) 20 t (1#100)%Q 10%Q (ex67_0 m)).
Definition threw {S A} (r : res S A) (n : nat) : bool := match r with Exn (EUser k) _ => Nat.eqb k n | _ => false end.
Lemma threw_run g fuel t lo hi (s : simst Q) n : threw (run g fuel t lo hi s) n = true ->
  run g fuel t lo hi s = Exn (EUser n) (st_of s (run g fuel t lo hi s)).
Proof.
  destruct (run g fuel t lo hi s) as [[] s'|[| | | | | | | | | | | | | |k] s'| |]; intros Hr; try discriminate Hr.
  apply Nat.eqb_eq in Hr as ->. reflexivity.
Qed.
Lemma ex67_session m : is_ok (init (ex67_cfg m) 0%Q ex13_new) = true -> session_of ex13_world 0 (ex67_cfg m) (ex67_0 m).
Proof.
  intros E. apply is_ok_init in E. eapply (session_init _ _ _ wary); [exact ex13_reach|exact ex13_model|intros l; apply reverse_Permutation|reflexivity|exact wary_ok|exact wary_rel|].
  exact E.
Qed.
Definition steps_of (v : list (event Q)) : list Q := omap (fun e => match e with EvStep t _ _ => Some t | _ => None end) v.
Example C67_ex m : m = MDefault \/ m = MFast ->
  session_of ex13_world 0 (ex67_cfg m) (ex67_0 m) /\
  (forall l, l ∈ leaves (g_tree (ex67_cfg m)) -> steady_class l) /\
  run (ex67_cfg m) 20 2%Q (1#100)%Q 10%Q (ex67_0 m) = Exn (EUser 1) (ex67_1 m 2%Q) /\
  steps_of (new_log (ex67_0 m) (ex67_1 m 2%Q)) = [(1#2)%Q; 1%Q] /\
  run (ex67_cfg m) 20 (3#2)%Q (1#100)%Q 10%Q (ex67_0 m) = Exn (EUser 1) (ex67_1 m (3#2)%Q) /\
  forallb (fun e => negb (is_post e)) (new_log (ex67_0 m) (ex67_1 m (3#2)%Q)) = true.
Proof.
  intros Hm. split_and!; [apply ex67_session| |apply threw_run| |apply threw_run|]; destruct Hm as [-> | ->];
    try (apply steadyb_ok); vm_compute; reflexivity.
Qed.
Print Assumptions C67_left.

(** The integrators are then ahead of the simulator's time.  A client that catches the
    exception and runs to an earlier time gets the sub-steps that were completed added
    once more: the states at 1/2 are not what a run to 1/2 gives.  (In model ex13 the run
    to 1/2 would throw instead, as the Delay has already stored the inputs at 1/2 and 1.) *)
Definition ex67o_cfg : cfg Q := Cfg true MDefault ex2_tree (Some ex67_inputs) (fun _ => PRet tt) (Some wary) (fun x => reverse x) 0%Q.
Definition ex67o_new : simst Q := new_sim (initial_dyn ex2_world).
Definition ex67o_0 : simst Q := st_of ex67o_new (init ex67o_cfg 0%Q ex67o_new).
Definition ex67o_1 : simst Q := st_of ex67o_0 (run ex67o_cfg 20 2%Q (1#100)%Q 10%Q ex67o_0).
Definition ex67o_direct : simst Q := st_of ex67o_0 (run ex67o_cfg 20 (1#2)%Q (1#100)%Q 10%Q ex67o_0).
Definition ex67o_again : simst Q := st_of ex67o_1 (run ex67o_cfg 20 (1#2)%Q (1#100)%Q 10%Q ex67o_1).
Lemma ex67o_reach : wreach true ex2_world.
Proof. reach_ops ex2_world ex2_ops. Qed.
Lemma ex67o_model : compile_model ex2_world 0 = Some ex2_tree.
Proof. vm_compute. reflexivity. Qed.
Theorem C67_refuted : exists (w : world Q) b g s fuel t lo hi e s' t' s1 s2,
  session_of w b g s /\ g_dbg g = true /\ (forall l, l ∈ leaves (g_tree g) -> steady_class l) /\
  run g fuel t lo hi s = Exn e s' /\ s_tprev s' = s_tprev s /\
  run g fuel t' lo hi s = Ok tt s1 /\ run g fuel t' lo hi s' = Ok tt s2 /\ s_sv s1 ≠ s_sv s2.
Proof.
  exists ex2_world, 0, ex67o_cfg, ex67o_0, 20, 2%Q, (1#100)%Q, 10%Q, (EUser 1), ex67o_1, (1#2)%Q, ex67o_direct, ex67o_again.
  split. { assert (is_ok (init ex67o_cfg 0%Q ex67o_new) = true) as E by (vm_compute; reflexivity). apply is_ok_init in E.
    eapply (session_init _ _ _ wary); [exact ex67o_reach|exact ex67o_model|intros l; apply reverse_Permutation|reflexivity|exact wary_ok|exact wary_rel|]. exact E. }
  split; [reflexivity|]. split; [apply steadyb_ok; vm_compute; reflexivity|]. split; [apply threw_run; vm_compute; reflexivity|]. split; [vm_compute; reflexivity|].
  split; [apply is_ok_run; vm_compute; reflexivity|]. split; [apply is_ok_run; vm_compute; reflexivity|].
  intros E. assert (map Qred (s_sv ex67o_direct) = map Qred (s_sv ex67o_again)) as F by (by rewrite E).
  revert F. vm_compute. discriminate.
Qed.
Print Assumptions C67_refuted.

(** An initialisation that throws leaves the simulator initialised.  FastSimulator
    refuses a model with an algebraic loop, but a client that goes on gets runs that
    return, in which the blocks of the loop are never evaluated.
      blocks 0 root, 1 Const -> 0, 2 Gain 1 -> 1 *)
Definition ex67f_ops : list (wop Q) :=
  [ ONewSig KScalar "c"; ONewSig KScalar "x"; ONewBus [0] ""; ONewBus [1] ""; ONewBus [] "";
    ONewBlock CSubmodel LNone None "root" NoIOLimit NoIOLimit;
    ONewBlock (CConst TyD (VS 5%Q)) LNone (Some 0) "const" 0 1;
    ONewBlock (CGain TyD (VS 2%Q)) LNone (Some 0) "gain" 1 1;
    OConnect 1 4 2; OConnect 2 3 3 ]%nat.
Definition ex67f_world : world Q := world_of true ex67f_ops.
Definition ex67f_tree : tree Q := tree_of ex67f_world.
Lemma ex67f_reach : wreach true ex67f_world.
Proof. reach_ops ex67f_world ex67f_ops. Qed.
Lemma ex67f_model : compile_model ex67f_world 0 = Some ex67f_tree.
Proof. vm_compute. reflexivity. Qed.
Definition ex67f_cfg : cfg Q := Cfg true MFast ex67f_tree None (fun _ => PRet tt) None (fun x => reverse x) 0%Q.
Definition ex67f_new : simst Q := new_sim (initial_dyn ex67f_world).
Definition ex67f_0 : simst Q := st_of ex67f_new (run ex67f_cfg 20 0%Q (1#100)%Q 10%Q ex67f_new).
Definition ex67f_1 : simst Q := st_of ex67f_0 (run ex67f_cfg 20 1%Q (1#100)%Q 10%Q ex67f_0).
Theorem C67_init_refuted : exists (w : world Q) b g s0 s1 t0 t1 fuel lo hi l,
  wreach true w /\ compile_model w b = Some (g_tree g) /\ g_dbg g = true /\
  run g fuel t0 lo hi (new_sim (initial_dyn w)) = Exn EFast s0 /\
  run g fuel t1 lo hi s0 = Ok tt s1 /\
  l ∈ leaves (g_tree g) /\ is_builder (l_cls l) = false /\ forall t, EvAct (l_id l) t ∉ s_log s1.
Proof.
  exists ex67f_world, 0, ex67f_cfg, ex67f_0, ex67f_1, 0%Q, 1%Q, 20, (1#100)%Q, 10%Q.
  assert (exists l, leaves ex67f_tree !! 1 = Some l /\ l_id l = 2 /\ is_builder (l_cls l) = false) as (l & El & Hl & Hb).
  { eexists. split; [vm_compute; reflexivity|]. split; reflexivity. }
  exists l. split; [exact ex67f_reach|]. split; [exact ex67f_model|]. split; [reflexivity|].
  split. { assert (forall s : simst Q, match run ex67f_cfg 20 0%Q (1#100)%Q 10%Q s with Exn EFast _ => true | _ => false end = true ->
             run ex67f_cfg 20 0%Q (1#100)%Q 10%Q s = Exn EFast (st_of s (run ex67f_cfg 20 0%Q (1#100)%Q 10%Q s))) as Hx.
           { intros s. destruct (run _ _ _ _ _ s) as [|[] s'| |]; intros F; (discriminate F || reflexivity). }
           apply Hx. vm_compute. reflexivity. }
  split; [apply is_ok_run; vm_compute; reflexivity|]. split; [by eapply elem_of_list_lookup_2|]. split; [exact Hb|].
  rewrite Hl. assert (forallb (fun e => match e with EvAct b _ => negb (Nat.eqb b 2) | _ => true end) (s_log ex67f_1) = true) as F by (vm_compute; reflexivity).
  intros t Hi%elem_of_list_In. rewrite forallb_forall in F. specialize (F _ Hi). discriminate F.
Qed.
Print Assumptions C67_init_refuted.
