(** Property C77: neither the kind of simulator, nor the iteration order of its hash sets,
    nor the build shows in the results for a checked model. *)
From stdpp Require Import prelude gmap strings.
From Coq Require Import ZArith QArith.
From Verif Require Import Num NumQ NumOrd NumAdd Res Store Leaf Sched Stepper Sim World Api P_Store P_Sched P_World P_Compile P_Modes P_Log SpecSched SpecSim SpecSafe P_Evolve P_Rel P_Rel2 P_Trace P_Run P_Perm P_Refine
  SpecRun SpecHist SpecAgain SpecSized SpecOrder SpecGoes SpecGoes2 SpecLint P_Goes P_Goes2 P_Goes6 P_Fast2 Props_Fast Props_Sched3 Props_Order Props_Pack Props_Again Props_Goes P_Same P_Same2 P_Same3 P_Sized Props_Sized P_Goes4 Ex_Models.
Local Open Scope nat_scope.

(** The simulator for the same model, callbacks and stepper of another kind, in another
    build, with another iteration order. *)
Definition variant {D} (dbg : bool) (m : mode) (it : list nat -> list nat) (g : cfg D) : cfg D :=
  Cfg dbg m (g_tree g) (g_inputs g) (g_icb g) (g_stepper g) it (g_junk g).
(** What a client sees: the signals, the members of the blocks and the time. *)
Definition same_results {D} (s1 s2 : simst D) : Prop :=
  s_store s2 = s_store s1 /\ (forall l, lst_of (s_core s2) l = lst_of (s_core s1) l) /\ s_tprev s2 = s_tprev s1.

(** Two kinds of simulators and the same calls: either both programs return, with the
    same results and state variables, and with the same reads of inputs, pre_step and
    post_step calls, finished evaluations and attempted steps in the same order since
    init; or neither returns within [fuel] attempts. *)
Theorem C77_kinds : forall D `{NumOps D} `{!NumOrd D} `{!NumAdd D} w b (g : cfg D) ins1 ins2 m1 m2 fuel t0 calls,
  checked w b (with_mode m1 g) ins1 ins2 -> checked w b (with_mode m2 g) ins1 ins2 -> permitted g t0 calls ->
  (forall stp, g_stepper g = Some stp -> stepper_rel stp) -> (m1 ≠ m2 -> m1 = MFast \/ m2 = MFast -> calm w g) ->
  exists i1 i2, init (with_mode m1 g) t0 (new_sim (initial_dyn w)) = Ok tt i1 /\ init (with_mode m2 g) t0 (new_sim (initial_dyn w)) = Ok tt i2 /\ alike i1 i2 i1 i2 /\
    match drive (with_mode m1 g) fuel calls i1, drive (with_mode m2 g) fuel calls i2 with
    | Ok _ s1, Ok _ s2 => alike i1 i2 s1 s2
    | OOF, OOF => True
    | _, _ => False
    end.
Proof.
  intros D ? ? ? w b g ins1 ins2 m1 m2 fuel t0 calls H1 H2 Hp Hstp Hcalm.
  destruct (init_both w b g ins1 ins2 m1 m2 H1 H2 Hcalm t0) as (i1 & i2 & E1 & E2 & Hm & Et). exists i1, i2. split; [done|]. split; [done|].
  assert (forall s1 s2, matches w g ins1 ins2 m1 m2 i1 i2 s1 s2 -> alike i1 i2 s1 s2) as Hal.
  { intros s1 s2 [[[([S1 S2] & (v & V1 & V2) & _) ? ? ? ? ? ? ? ? _ _] _ _ _] _]. split_and!; [by symmetry|intros l; by symmetry|done|done|]. by exists v. }
  split; [by apply Hal|]. rewrite <- Et in Hp.
  pose proof (drive_both w b g ins1 ins2 m1 m2 H1 H2 Hstp i1 i2 fuel calls i1 i2 Hm Hp) as Hd.
  destruct (init_both w b g ins1 ins2 m2 m1 H2 H1 (fun Hn Hf => Hcalm (fun e => Hn (eq_sym e)) (proj1 (or_comm _ _) Hf)) t0) as (j2 & j1 & F2 & F1 & Hm' & Et').
  rewrite E1 in F1. injection F1 as <-. rewrite E2 in F2. injection F2 as <-. rewrite Et in Hp. rewrite <- Et' in Hp.
  pose proof (drive_both w b g ins1 ins2 m2 m1 H2 H1 Hstp i2 i1 fuel calls i2 i1 Hm' Hp) as Hd'.
  destruct (drive (with_mode m1 g) fuel calls i1) as [[] s1| | |]; try done.
  - destruct Hd as (s2 & -> & Hx). by apply Hal.
  - destruct (drive (with_mode m2 g) fuel calls i2) as [[] s2| | |]; try done. destruct Hd' as (? & [=] & _).
Qed.
Print Assumptions C77_kinds.

Lemma program_replay {D} `{NumOps D} (g : cfg D) fuel t0 calls s : program g fuel t0 calls s = replay g t0 (map (fun '(t, lo, hi) => (fuel, t, lo, hi)) calls) s.
Proof.
  unfold program, replay, bnd. destruct (init g t0 s) as [[] s1| | |]; try done. revert s1. induction calls as [|[[t lo] hi] cs IH]; intros s1; [done|]. cbn. unfold bnd.
  destruct (run g fuel t lo hi s1) as [[] s2| | |]; try done.
Qed.
Lemma program_release {D} `{NumOps D} (g : cfg D) fuel t0 calls s u s' : (forall stp, g_stepper g = Some stp -> stepper_mono stp) ->
  program (with_dbg true g) fuel t0 calls s = Ok u s' -> program (with_dbg false g) fuel t0 calls s = Ok u s'.
Proof.
  intros Hm. unfold program, bnd. destruct (init (with_dbg true g) t0 s) as [[] s1| | |] eqn:E; try done. rewrite (init_mle g t0 s tt s1 E).
  intros Hd. clear E. revert s1 Hd. induction calls as [|[[t lo] hi] cs IH]; intros s1; [done|]. cbn [drive]. unfold bnd. destruct (run (with_dbg true g) fuel t lo hi s1) as [[] s2| | |] eqn:E; try done.
  intros Hr. rewrite (run_mle g fuel t lo hi Hm s1 tt s2 E). by apply IH.
Qed.

(** Any kind, build and iteration order: what the debug build of one of them returns, all
    the others return. *)
Theorem C77_same : forall D `{NumOps D} `{!NumOrd D} `{!NumAdd D} w b (g : cfg D) ins1 ins2 dbg m it fuel t0 calls s,
  built true w -> checked w b g ins1 ins2 -> checked w b (with_mode m g) ins1 ins2 -> permitted g t0 calls -> (forall l, it l ≡ₚ l) ->
  (forall stp, g_stepper g = Some stp -> stepper_rel stp /\ stepper_ok stp /\ stepper_perm stp /\ stepper_mono stp) -> (g_mode g ≠ m -> g_mode g = MFast \/ m = MFast -> calm w g) ->
  program g fuel t0 calls (new_sim (initial_dyn w)) = Ok tt s ->
  exists s', program (variant dbg m it g) fuel t0 calls (new_sim (initial_dyn w)) = Ok tt s' /\ same_results s s'.
Proof.
  intros D ? ? ? w b g ins1 ins2 dbg m it fuel t0 calls s Hb H1 H2 Hp Hit Hstp Hcalm E.
  assert (with_mode (g_mode g) g = g) as Eg by by destruct g.
  destruct (C77_kinds D w b g ins1 ins2 (g_mode g) m fuel t0 calls) as (i1 & i2 & E1 & E2 & _ & Hd); [by rewrite Eg|done|done|by intros stp Es; apply Hstp|done|].
  unfold program at 1, bnd at 1 in E. rewrite Eg in E1, Hd. rewrite E1 in E. rewrite E in Hd. destruct (drive (with_mode m g) fuel calls i2) as [[] s2| | |] eqn:E3; try done.
  assert (program (with_mode m g) fuel t0 calls (new_sim (initial_dyn w)) = Ok tt s2) as E4 by (unfold program, bnd; by rewrite E2).
  destruct Hd as (A1 & A2 & _ & A3 & _). rewrite program_replay in E4.
  pose proof (cd_dbg _ _ _ _ _ H2) as Hdbg.
  destruct (C65_order D true w b (with_mode m g) it (with_mode m g) (new_sim (initial_dyn w)) t0 (map (fun '(t, lo, hi) => (fuel, t, lo, hi)) calls) s2 Hb (cd_tree _ _ _ _ _ H2) (cd_iter _ _ _ _ _ H2) Hit) as (s3 & E5 & [S1 S2 S3 _ _ _]);
    [by intros stp Es; split; apply Hstp|by apply so_first; [..|intros stp Es; apply Hstp]|exact E4|].
  rewrite <- program_replay in E5. exists s3. split.
  - assert (with_dbg true (with_iter it (with_mode m g)) = with_iter it (with_mode m g)) as Ed. { unfold with_dbg, with_iter, with_mode in *. cbn in *. by rewrite Hdbg. }
    destruct dbg; [rewrite <- Ed in E5; exact E5|]. rewrite <- Ed in E5. apply program_release in E5; [exact E5|]. intros stp Es. by apply Hstp.
  - split_and!; [congruence|intros l; unfold lst_of in *; rewrite S2; apply A2|congruence].
Qed.
Print Assumptions C77_same.

(** The steppers of the library qualify (the RKF45 one with a totally ordered time, C46). *)
Theorem C77_steppers : forall D `{NumOps D} (stp : stepper D), stp = euler \/ stp = rk4 -> stepper_rel stp /\ stepper_ok stp /\ stepper_perm stp /\ stepper_mono stp.
Proof.
  intros D ? stp [->| ->].
  - split_and!; [apply euler_rel|apply euler_ok|apply euler_perm|apply euler_mono].
  - split_and!; [apply rk4_rel|apply rk4_ok|apply rk4_perm|apply rk4_mono].
Qed.
Print Assumptions C77_steppers.

(** The model of C75 (an integrator, a Memory, a Derivative and a Delay) in twelve
    simulators: the hypotheses hold and the results are the same. *)
Lemma plain_calm {D} `{NumOps D} (w : world D) g : forallb plainb (leaves (g_tree g)) = true -> calm w g.
Proof. intros Hb l Hl. by apply (plainb_reads _ _ Hb). Qed.
Lemma ex13_built : built true ex13_world.
Proof.
  unfold ex13_world, world_of. destruct (exec_all true ex13_ops empty_world) as [u w| | |] eqn:E; [|constructor..].
  eapply built_all; [constructor| |exact E]. unfold ex13_ops. repeat (apply Forall_cons; split; [cbn; eauto|]); apply Forall_nil; done.
Qed.
Definition seen77 (g : cfg Q) : option (list (option (val Q)) * Q) :=
  match program g 50 0%Q ex75_calls ex13_new with Ok _ s => Some (map (fun x => value (s_store s) x) (seq 0 7), s_tprev s) | _ => None end.
Example C77_ex : forall m m', built true ex13_world /\ checked ex13_world 0 (ex75_cfg m) [] [] /\ checked ex13_world 0 (with_mode m' (ex75_cfg m)) [] [] /\
  permitted (ex75_cfg m) 0%Q ex75_calls /\ (forall stp, g_stepper (ex75_cfg m) = Some stp -> stepper_rel stp /\ stepper_ok stp /\ stepper_perm stp /\ stepper_mono stp) /\ calm ex13_world (ex75_cfg m).
Proof.
  intros m m'. split; [exact ex13_built|]. split; [apply C75_ex|]. split; [apply (C75_ex m')|]. split; [apply C75_ex|].
  assert (forallb plainb (leaves ex13_tree) = true) as Hb by (vm_compute; reflexivity). split; [|by apply plain_calm].
  intros stp Es. apply C77_steppers. right. unfold ex75_cfg in Es. cbn in Es. by injection Es.
Qed.
Example C77_ex_runs : forall m dbg, is_Some (seen77 (ex75_cfg MDefault)) /\ seen77 (variant dbg m (fun x => x) (ex75_cfg m)) = seen77 (ex75_cfg MDefault) /\ seen77 (variant dbg m (fun x => reverse x) (ex75_cfg m)) = seen77 (ex75_cfg MDefault).
Proof. intros [] []; (split; [vm_compute; eauto|split; vm_compute; reflexivity]). Qed.

(** A TriggeredIntegrator is not calm, and then the kinds differ: a checked model with one,
    initialised by a Simulator and by a FastSimulator, has different values. *)
Definition ex77_ops : list (wop Q) :=
  [ ONewSig KScalar "w"; ONewSig KBool "g"; ONewSig KScalar "y"; ONewBus [0] ""; ONewBus [1] "";
    ONewBusL [("in", 0); ("trigger", 1)]%string ""; ONewBus [2] ""; ONewBus [] "";
    ONewBlock CSubmodel LNone None "root" NoIOLimit NoIOLimit;
    ONewBlock (CTrig TyD) (LInteg (VS 6%Q) false) (Some 0) "trig" 2 1;
    ONewBlock (CConst TyD (VS 1%Q)) LNone (Some 0) "w" 0 1;
    ONewBlock (CConst TyB (VB true)) LNone (Some 0) "g" 0 1;
    OConnect 1 5 6; OConnect 2 7 3; OConnect 3 7 4 ]%nat.
Definition ex77_world : world Q := world_of true ex77_ops.
Definition ex77_tree : tree Q := tree_of ex77_world.
Definition ex77_cfg (m : mode) : cfg Q := Cfg true m ex77_tree None (fun _ => PRet tt) (Some euler) (fun x => x) 0%Q.
Definition ex77_new : simst Q := new_sim (initial_dyn ex77_world).
Definition ex77_first (m : mode) : simst Q := st_of ex77_new (init (ex77_cfg m) 0%Q ex77_new).
Lemma ex77_reach : wreach true ex77_world.
Proof. reach_ops ex77_world ex77_ops. Qed.
Lemma ex77_model : compile_model ex77_world 0 = Some ex77_tree.
Proof. vm_compute. reflexivity. Qed.
Lemma ex77_checked m : checked ex77_world 0 (ex77_cfg m) [] [].
Proof. apply checked_plain; [exact ex77_reach|exact ex77_model|intros l; reflexivity|apply euler_carries|destruct m; vm_compute; reflexivity..]. Qed.
Theorem C77_trig_refuted : exists w b (g : cfg Q) t0 s1 s2 x, checked w b (with_mode MDefault g) [] [] /\ checked w b (with_mode MFast g) [] [] /\ permitted g t0 [] /\
  program (with_mode MDefault g) 0 t0 [] (new_sim (initial_dyn w)) = Ok tt s1 /\ program (with_mode MFast g) 0 t0 [] (new_sim (initial_dyn w)) = Ok tt s2 /\
  value (s_store s1) x = Some (VS 6%Q) /\ value (s_store s2) x = Some (VS 0%Q).
Proof.
  exists ex77_world, 0, (ex77_cfg MFast), 0%Q, (ex77_first MDefault), (ex77_first MFast), 2.
  change (with_mode MDefault (ex77_cfg MFast)) with (ex77_cfg MDefault). change (with_mode MFast (ex77_cfg MFast)) with (ex77_cfg MFast).
  split; [apply ex77_checked|]. split; [apply ex77_checked|]. split; [exact I|].
  assert (forall m, is_ok (init (ex77_cfg m) 0%Q ex77_new) = true -> program (ex77_cfg m) 0 0%Q [] (new_sim (initial_dyn ex77_world)) = Ok tt (ex77_first m)) as Hp.
  { intros m Hm. unfold program, bnd. change (new_sim (initial_dyn ex77_world)) with ex77_new. unfold ex77_first. by rewrite (is_ok_init _ _ _ Hm). }
  split; [apply Hp; vm_compute; reflexivity|]. split; [apply Hp; vm_compute; reflexivity|]. split; vm_compute; reflexivity.
Qed.
Print Assumptions C77_trig_refuted.
