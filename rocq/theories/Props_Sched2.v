(** Simulator with reuse_order, FastSimulator, block equations, algebraic loops,
    debug and release builds: C21 to C27. *)
From stdpp Require Import prelude gmap strings.
From Coq Require Import ZArith QArith.
From Verif Require Import Num NumQ Res Store Leaf Sched Stepper Sim SpecSched Util P_Store P_Prog P_Sched P_Modes P_Conf P_Eval P_Fast
  P_Sim P_Evolve SpecSim P_Simulated World Api P_World P_Compile SpecBlock P_Lib P_Refine P_Rel P_Rel2 Ex_Models Props_Sched.

Local Open Scope nat_scope.

(** ** C21.  Remembered orders. *)
Definition no_builders {D} (tr : tree D) : Prop := forall l, l ∈ leaves tr -> is_builder (l_cls l) = false.

(** Whatever has happened before, the order to be used next is a permutation of
    all blocks of the model. *)
Theorem C21_order : forall D `{NumOps D} w b (g : cfg D) s,
  drives w b g s -> g_mode g = MReuse -> has_order g s -> no_builders (g_tree g) ->
  exists po, remembered s = Some po /\ po ≡ₚ nodes (g_tree g).
Proof.
  intros D ? w b g s Hd Hm Ho Hb. pose proof (drives_wf _ _ _ _ Hd) as Hw.
  pose proof (drives_ordered _ _ _ _ Hd Ho) as Hor. unfold ordered in Hor. rewrite Hm in Hor.
  destruct Hor as (po & Hp & Hn & Hin & Hall). exists po. split; [done|].
  apply NoDup_Permutation; [by eapply NoDup_fmap_1|by eapply NoDup_fmap_1|].
  intros n. split; [apply Hin|]. intros Hx. destruct (Hall n Hx) as [?|(l & -> & Hl)]; [done|].
  apply nodes_leaves in Hx. by rewrite Hb in Hl.
Qed.
(** One evaluation with whatever order is remembered. *)
Theorem C21_evaluation : forall D `{NumOps D} w b (g : cfg D) s t,
  drives w b g s -> g_dbg g = true -> g_mode g = MReuse -> has_order g s -> no_builders (g_tree g) ->
  (forall l, l ∈ leaves (g_tree g) -> user_reads (dom (initial_store w)) l) ->
  (forall d1, evaluate true (g_tree g) t (s_dyn s) = Ok tt d1 ->
     exists s', eval_model g t s = Ok tt s' /\ same_state (d_core d1) (s_core s')) /\
  (forall s', eval_model g t s = Ok tt s' ->
     exists d1, evaluate true (g_tree g) t (s_dyn s) = Ok tt d1 /\ same_state (d_core d1) (s_core s')).
Proof.
  intros D ? w b g s t Hd Hg Hm Ho Hb Hu. pose proof (drives_wf _ _ _ _ Hd) as Hw.
  pose proof (drives_ordered _ _ _ _ Hd Ho) as Hor. unfold ordered in Hor. rewrite Hm in Hor.
  destruct Hor as (po & Hp & Hcov). rewrite (eval_reuse g t s po Hm Hp). rewrite Hg.
  assert (forall l, l ∈ leaves (g_tree g) -> local (dom (k_store (d_core (s_dyn s)))) l) as Hloc.
  { intros l Hl. eapply drives_local; eauto. }
  pose proof (drives_store_ok _ _ _ _ Hd Hg) as Hok.
  assert (forall c c' : core D, k_store c = k_store c' -> k_lst c = k_lst c' -> same_state c c') as Hss.
  { intros c c' H1 H2. split; [done|]. intros x. unfold lst_of. by rewrite H2. }
  split.
  - intros d1 He. destruct (reuse_confluent_from (g_tree g) po t (s_dyn s) d1 Hw Hcov Hloc Hok Hb He)
      as (po' & d2 & ls1 & ls2 & -> & H1 & H2 & _). eexists. split; [done|]. rewrite remember_core. by apply Hss.
  - intros s' He. destruct (evaluate_reuse true (g_tree g) po t (s_dyn s)) as [po' d2| | |] eqn:E; try done.
    injection He as <-. destruct (reuse_confluent_to (g_tree g) po t (s_dyn s) po' d2 Hw Hcov Hloc Hok E)
      as (d1 & H0 & H1 & H2 & _). exists d1. split; [done|]. rewrite remember_core. by apply Hss.
Qed.

(** Whole sequences of run calls: both simulators return, with the same signals,
    block members, state vectors and times, the same input reads, pre_step and
    post_step calls, and the same attempted steps. *)
Definition same_sim {D} `{NumOps D} (s1 s2 : simst D) : Prop :=
  same_state (s_core s1) (s_core s2) /\ s_sv s1 = s_sv s2 /\ s_tprev s1 = s_tprev s2 /\
  List.filter quiet (s_log s1) = List.filter quiet (s_log s2).
Lemma agree_same_sim {D} `{NumOps D} (P1 P2 : simst D -> Prop) X (s1 s2 : simst D) : agree P1 P2 X [] [] s1 s2 -> same_sim s1 s2.
Proof. intros [(? & (v & H1 & H2) & _) ? ? ? ? ? ? ? ? ? ?]. split_and!; [done..|]. unfold s_log. by rewrite H1, H2. Qed.
Lemma new_agree {D} `{NumOps D} (P1 P2 : simst D -> Prop) (d : dyn D) : store_ok (k_store (d_core d)) ->
  P1 (new_sim d) -> P2 (new_sim d) -> agree P1 P2 (dom (k_store (d_core d))) [] [] (new_sim d) (new_sim d).
Proof. intros Hok H1 H2. split; try done. split; [done|]. split; [|done]. by eexists. Qed.

Theorem C21_runs : forall D `{NumOps D} w b (g : cfg D) d fuel ops,
  drives w b g (new_sim d) -> g_dbg g = true -> no_builders (g_tree g) ->
  (forall l, l ∈ leaves (g_tree g) -> user_reads (dom (initial_store w)) l) ->
  (forall stp, g_stepper g = Some stp -> stepper_rel stp) ->
  n_states (g_tree g) (k_store (d_core d)) ≠ 0 -> ops ≠ [] ->
  (forall s1, runs (with_mode MDefault g) fuel ops (new_sim d) = Ok tt s1 ->
     exists s2, runs (with_mode MReuse g) fuel ops (new_sim d) = Ok tt s2 /\ same_sim s1 s2) /\
  (forall s2, runs (with_mode MReuse g) fuel ops (new_sim d) = Ok tt s2 ->
     exists s1, runs (with_mode MDefault g) fuel ops (new_sim d) = Ok tt s1 /\ same_sim s1 s2).
Proof.
  intros D ? w b g d fuel ops Hd Hg Hb Hu Hstp Hn Ho. pose proof (drives_wf _ _ _ _ Hd) as Hw.
  assert (forall l, l ∈ leaves (g_tree g) -> local (dom (k_store (d_core d))) l) as Hloc.
  { intros l Hl. change (local (dom (s_store (new_sim d))) l). eapply drives_local; eauto. }
  pose proof (drives_store_ok _ _ _ _ Hd Hg) as Hok. cbn in Hok.
  pose proof (simulated_cfg _ _ _ _ (dr_sim _ _ _ _ Hd)) as [_ Hso].
  split; intros s Hr.
  - destruct (runs_dr g Hg (dom (k_store (d_core d))) [] [] Hw Hloc Hb Hstp Hso fuel ops (new_sim d) (new_sim d) s) as (s2 & H2 & Ha);
      [by apply new_agree|done|done|done|done|]. exists s2. split; [done|]. by eapply agree_same_sim.
  - destruct (runs_rd g Hg (dom (k_store (d_core d))) [] [] Hw Hloc Hstp Hso fuel ops (new_sim d) (new_sim d) s) as (s1 & H2 & Ha);
      [by apply new_agree|done|done|done|]. exists s1. split; [done|]. apply agree_same_sim in Ha as ([Ha1 Ha2] & Ha3 & Ha4 & Ha5).
    split; [|split_and!; by symmetry]. split; [by symmetry|]. intros x. by symmetry.
Qed.

(** x' = x + 2 x, the blocks in an unfavourable order: Add, Gain, Integrator.
      signals 0 = x, 1 = 2x, 2 = x + 2x
      blocks  0 root, 1 Add, 2 Gain, 3 Integrator *)
Definition ex5_ops : list (wop Q) :=
  [ ONewSig KScalar "x"; ONewSig KScalar "g"; ONewSig KScalar "s";
    ONewBus [0; 1] ""; ONewBus [0] ""; ONewBus [1] ""; ONewBus [2] "";
    ONewBlock CSubmodel LNone None "root" NoIOLimit NoIOLimit;
    ONewBlock (CAdd TyD (VS 0%Q)) LNone (Some 0) "add" NoIOLimit 1;
    ONewBlock (CGain TyD (VS 2%Q)) LNone (Some 0) "gain" 1 1;
    ONewBlock (CInteg TyD) (LInteg (VS 1%Q) false) (Some 0) "int" 1 1;
    OConnect 1 3 6; OConnect 2 4 5; OConnect 3 6 4 ].
Definition ex5_world : world Q := world_of true ex5_ops.
Definition ex5_tree : tree Q := tree_of ex5_world.
Definition ex5_dyn : dyn Q := initial_dyn ex5_world.
Definition ex5_cfg (m : mode) : cfg Q := Cfg true m ex5_tree None (fun _ => PRet tt) (Some rk4) (fun x => x) 0%Q.
Lemma ex5_reach : wreach true ex5_world.
Proof. reach_ops ex5_world ex5_ops. Qed.
Lemma ex5_model : compile_model ex5_world 0 = Some ex5_tree.
Proof. vm_compute. reflexivity. Qed.
Lemma ex5_drives m : drives ex5_world 0 (ex5_cfg m) (new_sim ex5_dyn).
Proof.
  split; [exists true; exact ex5_reach|exact ex5_model|]. apply sm_first; [done|].
  intros stp [= <-]. apply rk4_ok.
Qed.
Lemma ex5_leaves : Forall (fun l => match l_cls l with CInteg _ | CGain _ _ | CAdd _ _ => True | _ => False end) (leaves ex5_tree).
Proof. vm_compute. repeat constructor. Qed.
Lemma ex5_user l : l ∈ leaves ex5_tree -> user_reads (dom (initial_store ex5_world)) l.
Proof.
  revert l. apply forall_leaves. eapply Forall_impl; [exact ex5_leaves|]. cbn beta. intros l Hl. unfold user_reads. by destruct (l_cls l).
Qed.
Lemma ex5_nob : no_builders ex5_tree.
Proof. unfold no_builders. apply forall_leaves. eapply Forall_impl; [exact ex5_leaves|]. cbn beta. intros l Hl. by destruct (l_cls l). Qed.
Definition ex5_ops' : list (Q * Q * Q) := [(0, 1#100, 10); (1#2, 1#100, 10); (1, 1#100, 10)]%Q.
Definition ex5_after (m : mode) : simst Q := st_of (new_sim ex5_dyn) (runs (ex5_cfg m) 10 ex5_ops' (new_sim ex5_dyn)).
Example C21_ex :
  drives ex5_world 0 (ex5_cfg MReuse) (new_sim ex5_dyn) /\ no_builders ex5_tree /\
  (forall l, l ∈ leaves ex5_tree -> user_reads (dom (initial_store ex5_world)) l) /\
  (forall stp, g_stepper (ex5_cfg MReuse) = Some stp -> stepper_rel stp) /\
  n_states ex5_tree (k_store (d_core ex5_dyn)) = 1 /\
  is_ok (runs (ex5_cfg MReuse) 10 ex5_ops' (new_sim ex5_dyn)) = true /\
  map node_id (nodes ex5_tree) = [0; 1; 2; 3] /\
  option_map (map node_id) (remembered (ex5_after MReuse)) = Some [0; 2; 3; 1].
Proof.
  split; [apply ex5_drives|]. split; [exact ex5_nob|]. split; [exact ex5_user|].
  split; [intros stp [= <-]; apply rk4_rel|].
  split; [vm_compute; reflexivity|]. split; [vm_compute; reflexivity|]. split; vm_compute; reflexivity.
Qed.
Print Assumptions C21_order.
Print Assumptions C21_evaluation.
Print Assumptions C21_runs.

(** A bus builder (here a BusPipe) is marked processed from the start, is never
    added to the new order, and the debug check on the size of the new order
    (simulator.cpp:76) fails.
      signals 0 = x, 1 = copy of x;  blocks 0 root, 1 Integrator, 2 BusPipe, 3 the Pipe it makes *)
Definition ex6_ops : list (wop Q) :=
  [ ONewSig KScalar "x"; ONewSig KScalar "y";
    ONewBus [0] ""; ONewBus [1] "";
    ONewBlock CSubmodel LNone None "root" NoIOLimit NoIOLimit;
    ONewBlock (CInteg TyD) (LInteg (VS 1%Q) false) (Some 0) "int" 1 1;
    ONewBlock (CBusPipe []) LNone (Some 0) "pipes" NoIOLimit NoIOLimit;
    OConnect 2 2 3; OConnect 1 3 2 ].
Definition ex6_world : world Q := world_of true ex6_ops.
Definition ex6_tree : tree Q := tree_of ex6_world.
Definition ex6_dyn : dyn Q := initial_dyn ex6_world.
Definition ex6_cfg (m : mode) (dbg : bool) : cfg Q := Cfg dbg m ex6_tree None (fun _ => PRet tt) (Some rk4) (fun x => x) 0%Q.
Lemma ex6_reach : wreach true ex6_world.
Proof. reach_ops ex6_world ex6_ops. Qed.
Theorem C21_builder_refuted :
  exists (w : world Q) (tr : tree Q) (g : mode -> cfg Q),
    wreach true w /\ compile_model w 0 = Some tr /\
    (forall m, g_mode (g m) = m /\ g_tree (g m) = tr /\ g_dbg (g m) = true) /\
    is_ok (init (g MDefault) 0%Q (new_sim (initial_dyn w))) = true /\
    exists s, init (g MReuse) 0%Q (new_sim (initial_dyn w)) = Exn EAssert s.
Proof.
  exists ex6_world, ex6_tree, (fun m => ex6_cfg m true). split; [exact ex6_reach|]. split; [vm_compute; reflexivity|].
  split; [done|]. split; [vm_compute; reflexivity|]. eexists. vm_compute. reflexivity.
Qed.
Print Assumptions C21_builder_refuted.

(** ** C22.  Initialising with reuse_order. *)
(** For a model with a state variable, initialisation with reuse_order returns
    exactly when it does without, with the same result. *)
Theorem C22_stateful : forall D `{NumOps D} w b (g : cfg D) d t,
  drives w b g (new_sim d) -> g_dbg g = true -> no_builders (g_tree g) ->
  (forall l, l ∈ leaves (g_tree g) -> user_reads (dom (initial_store w)) l) ->
  n_states (g_tree g) (k_store (d_core d)) ≠ 0 ->
  (forall s1, init (with_mode MDefault g) t (new_sim d) = Ok tt s1 ->
     exists s2, init (with_mode MReuse g) t (new_sim d) = Ok tt s2 /\ same_sim s1 s2) /\
  (forall s2, init (with_mode MReuse g) t (new_sim d) = Ok tt s2 ->
     exists s1, init (with_mode MDefault g) t (new_sim d) = Ok tt s1 /\ same_sim s1 s2).
Proof.
  intros D ? w b g d t Hd Hg Hb Hu Hn. pose proof (drives_wf _ _ _ _ Hd) as Hw.
  assert (forall l, l ∈ leaves (g_tree g) -> local (dom (k_store (d_core d))) l) as Hloc.
  { intros l Hl. change (local (dom (s_store (new_sim d))) l). eapply drives_local; eauto. }
  pose proof (drives_store_ok _ _ _ _ Hd Hg) as Hok. cbn in Hok.
  split; intros s Hr.
  - destruct (init_dr g Hg (dom (k_store (d_core d))) [] [] Hw Hloc Hb t (new_sim d) (new_sim d) s) as (s2 & H2 & Ha);
      [by apply new_agree|done|done|]. exists s2. split; [done|]. by eapply agree_same_sim.
  - destruct (init_rd g Hg (dom (k_store (d_core d))) [] [] Hw Hloc t (new_sim d) (new_sim d) s) as (s1 & H2 & Ha);
      [by apply new_agree|done|]. exists s1. split; [done|]. apply agree_same_sim in Ha as ([Ha1 Ha2] & Ha3 & Ha4 & Ha5).
    split; [|split_and!; by symmetry]. split; [by symmetry|]. intros x. by symmetry.
Qed.
Example C22_ex : n_states ex5_tree (k_store (d_core ex5_dyn)) = 1 /\
  is_ok (init (ex5_cfg MDefault) 0%Q (new_sim ex5_dyn)) = true /\ is_ok (init (ex5_cfg MReuse) 0%Q (new_sim ex5_dyn)) = true.
Proof. split; [vm_compute; reflexivity|]. split; vm_compute; reflexivity. Qed.
(** Without one, _current_po stays null and is dereferenced, in every build: no
    stateless model can be initialised with reuse_order. *)
Theorem C22_stateless_refuted :
  exists (w : world Q) (tr : tree Q) (g : mode -> cfg Q),
    wreach true w /\ compile_model w 0 = Some tr /\
    (forall m, g_mode (g m) = m /\ g_tree (g m) = tr) /\
    is_ok (init (g MDefault) 0%Q (new_sim (initial_dyn w))) = true /\
    init (g MReuse) 0%Q (new_sim (initial_dyn w)) = UB UNull.
Proof.
  exists ex1_world, ex1_tree, ex1_cfg. split; [exact ex1_reach|]. split; [exact ex1_model|].
  split; [done|]. split; vm_compute; reflexivity.
Qed.
Theorem C22_stateless : forall D `{NumOps D} (g : cfg D) d t,
  g_mode g = MReuse -> n_states (g_tree g) (k_store (d_core d)) = 0 ->
  forall u s', init g t (new_sim d) ≠ Ok u s'.
Proof.
  intros D ? g d t Hm Hn u s'. unfold init, simulator_init. rewrite Hm. unfold bnd, gets.
  destruct (base_init g t (new_sim d)) as [[] s1| | |] eqn:E; try done.
  apply base_init_sv in E as (El & E1 & E2 & E3 & E4). unfold s_store, s_core in El. cbn [s_dyn new_sim] in El. rewrite Hn in El. rewrite El.
  cbn [ret]. unfold process_model. unfold bnd at 1.
  assert (forall {A} (m : M (core D) A) s a s', on_core' m s = Ok a s' -> s_cur s' = s_cur s) as Hcur.
  { intros A m s a s2. unfold on_core', on_dyn, on_core, lift. destruct (m _); try done. by intros [= <- <-]. }
  destruct (on_core' (inputs g t) s1) as [[] s2| | |] eqn:E5; try done. apply Hcur in E5.
  unfold bnd at 1. destruct (on_core' (pre_step (g_dbg g) (g_tree g) t ;;; snap (EvBegin t)) s2) as [[] s3| | |] eqn:E6; try done. apply Hcur in E6.
  assert (s_cur s3 = None) as Hc by (rewrite E6, E5, E3; done).
  unfold eval_model. rewrite Hm. unfold bnd, gets, undef. cbn. by rewrite Hc.
Qed.
Print Assumptions C22_stateful.
Print Assumptions C22_stateless_refuted.
Print Assumptions C22_stateless.
