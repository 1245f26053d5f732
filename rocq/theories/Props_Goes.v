(** Property C75: a model that passes a check of its wiring is simulated without
    exceptions and without undefined behaviour. *)
From stdpp Require Import prelude gmap strings.
From Coq Require Import ZArith QArith Reals Lra.
From Verif Require Import Num NumQ NumR NumOrd NumAdd Res Store Leaf Sched Stepper Sim World Api P_Store P_Sched P_World P_Compile P_Modes P_Log SpecSched SpecSim SpecSafe P_Evolve P_Rel P_Run SpecGoes SpecGoes2 SpecLint P_Goes P_Goes2 P_Goes3 P_Goes4 P_Goes5 P_Lint P_Goes6 P_Term Props_Sched Props_Term Ex_Models Props_Again.
Local Open Scope nat_scope.

(** Every program that initialises a simulator for a checked model and makes permitted
    calls: no call throws, none is undefined.  Either it returns, at the time of the last
    call and with a value in every signal that something assigns, or the number of attempts in one of the calls is not limited by [fuel]. *)
Theorem C75_never_fails : forall D `{NumOps D} `{!NumOrd D} `{!NumAdd D} w b (g : cfg D) ins1 ins2 fuel t0 calls,
  checked w b g ins1 ins2 -> permitted g t0 calls ->
  match program g fuel t0 calls (new_sim (initial_dyn w)) with
  | Ok _ s => s_tprev s = end_of t0 calls /\ settled w g ins1 ins2 s
  | OOF => True
  | Exn _ _ | UB _ => False
  end.
Proof.
  intros D ? ? ? w b g ins1 ins2 fuel t0 calls Hc Hp. destruct (checked_init w b g ins1 ins2 Hc t0) as (s & E & Hr & Et). unfold program, bnd. rewrite E.
  rewrite <- Et in Hr, Hp. pose proof (drive_ok w b g ins1 ins2 Hc fuel calls s Hr Hp) as Hd. destruct (drive g fuel calls s) as [[] s'| | |]; try done. destruct Hd as [Hr' Et']. split; [congruence|]. by eapply ready_settled.
Qed.
Print Assumptions C75_never_fails.

(** With a stepper of fixed step (or without states) one attempt suffices: the program
    returns. *)
Theorem C75_fixed : forall D `{NumOps D} `{!NumOrd D} `{!NumAdd D} w b (g : cfg D) ins1 ins2 fuel t0 calls,
  checked w b g ins1 ins2 -> permitted g t0 calls -> (forall stp, g_stepper g = Some stp -> constant stp) ->
  exists s, program g (S fuel) t0 calls (new_sim (initial_dyn w)) = Ok tt s /\ s_tprev s = end_of t0 calls /\ settled w g ins1 ins2 s.
Proof.
  intros D ? ? ? w b g ins1 ins2 fuel t0 calls Hc Hp Hcs. destruct (checked_init w b g ins1 ins2 Hc t0) as (s & E & Hr & Et). unfold program, bnd. rewrite E.
  rewrite <- Et in Hr, Hp. destruct (drive_total w b g ins1 ins2 Hc (fun _ _ _ _ _ => True) (S fuel) calls s) as (s' & -> & Hr' & Et'); [| |done|done|].
  - intros t lo hi s1 Hr1 Ha _. by eapply fixed_total.
  - clear. generalize (s_tprev s). induction calls as [|[[t lo] hi] cs IH]; intros tp; [exact I|]. split; [exact I|apply IH].
  - exists s'. split; [done|]. split; [congruence|]. by eapply ready_settled.
Qed.
Print Assumptions C75_fixed.

(** With a stepper that backs off by a factor: the program returns, for every sufficiently
    large limit on the attempts.  The limit depends on the calls only. *)
Theorem C75_adaptive : forall (c : R) t0 calls, (0 <= c < 1)%R -> exists N : nat, forall w b (g : cfg R) ins1 ins2 stp fuel,
  checked w b g ins1 ins2 -> permitted g t0 calls -> g_stepper g = Some stp -> never_hangs stp -> backs_off c stp -> stepper_ok stp -> N <= fuel ->
  exists s, program g fuel t0 calls (new_sim (initial_dyn w)) = Ok tt s /\ s_tprev s = end_of t0 calls /\ settled w g ins1 ins2 s.
Proof.
  intros c t0 calls Hcc.
  assert (exists N : nat, forall w b (g : cfg R) ins1 ins2 stp fuel s,
    checked w b g ins1 ins2 -> permitted g t0 calls -> g_stepper g = Some stp -> never_hangs stp -> backs_off c stp -> N <= fuel ->
    drives w b g s -> s_tprev s = t0 -> prepared w g ins1 ins2 t0 s ->
    exists s', drive g fuel calls s = Ok tt s' /\ s_tprev s' = end_of t0 calls /\ settled w g ins1 ins2 s') as [N HN].
  { revert t0. induction calls as [|[[t lo] hi] cs IH]; intros t0.
    - exists 0. intros w b g ins1 ins2 stp fuel s Hc Hp Es Hh Hb Hf Hd Et Hr. exists s. split; [done|]. split; [done|]. by eapply ready_settled.
    - destruct (IH t) as [N1 HN1].
      assert (exists N2 : nat, forall w b (g : cfg R) ins1 ins2 stp fuel s,
        checked w b g ins1 ins2 -> allowed g t0 t lo hi -> g_stepper g = Some stp -> never_hangs stp -> backs_off c stp -> N2 <= fuel ->
        drives w b g s -> s_tprev s = t0 -> prepared w g ins1 ins2 t0 s -> run g fuel t lo hi s ≠ OOF) as [N2 HN2].
      { destruct (Rlt_dec 0 lo) as [Hlo|Hlo].
        - destruct (C34_terminates t0 t lo c Hlo Hcc) as [N2 HN2]. exists N2. intros w b g ins1 ins2 stp fuel s Hc Ha Es Hh Hb Hf Hd Et Hr.
          eapply HN2; try done. apply (cd_dbg _ _ _ _ _ Hc).
        - exists 0. intros w b g ins1 ins2 stp fuel s Hc Ha Es Hh Hb Hf Hd Et Hr. subst t0. apply (plain_total w b g ins1 ins2 Hc); [done|done|].
          intros Hst. destruct Ha as [_ Ha]. destruct (Ha Hst) as [_ [Ha'|(_ & Hl & _)]]; [done|]. exfalso. apply Hlo. cbn in Hl. apply Rltb_true in Hl. done. }
      exists (Nat.max N1 N2). intros w b g ins1 ins2 stp fuel s Hc Hp Es Hh Hb Hf Hd Et Hr. cbn [permitted] in Hp. destruct Hp as [Ha Hp].
      assert (run g fuel t lo hi s ≠ OOF) as Hn by (eapply HN2; eauto; lia). subst t0.
      destruct (run_total w b g ins1 ins2 Hc fuel t lo hi s Hr Ha Hn) as (s1 & E1 & Hr1 & Et1).
      destruct (HN1 w b g ins1 ins2 stp fuel s1 Hc Hp Es Hh Hb) as (s2 & E2 & Et2 & Hse2); [lia| |done|done|].
      { destruct Hd as [D1 D2 D3]. split; [done|done|]. eapply sm_run; [exact D3|]. rewrite E1. done. }
      exists s2. cbn [drive]. unfold bnd. rewrite E1. split; [done|]. split; [|done]. rewrite Et2. by rewrite end_cons. }
  exists N. intros w b g ins1 ins2 stp fuel Hc Hp Es Hh Hb Hok Hf. destruct (checked_init w b g ins1 ins2 Hc t0) as (s & E & Hr & Et). unfold program, bnd. rewrite E.
  eapply HN; try done. split; [exists true; apply Hc|apply Hc|]. eapply sm_init; [apply sm_first|]; [done| |by rewrite E]. intros stp' E'. congruence.
Qed.
Print Assumptions C75_adaptive.

(** The steppers of the library qualify. *)
Theorem C75_steppers :
  (forall D `{NumOps D}, carries (D:=D) euler /\ carries (D:=D) rk4 /\ carries (D:=D) rkf45 /\ constant (D:=D) euler /\ constant (D:=D) rk4) /\
  never_hangs (D:=R) rkf45 /\ backs_off (1/2) rkf45 /\ stepper_ok (D:=R) rkf45.
Proof.
  split; [intros D ?; split_and!; [apply euler_carries|apply rk4_carries|apply rkf45_carries|apply euler_constant|apply rk4_constant]|].
  split_and!; [apply C34_steppers|apply C34_steppers|apply rkf45_ok].
Qed.
Print Assumptions C75_steppers.

(** What [lint] accepts and what the simulations do, block by block: a block of the
    library whose wiring suits it reads only the signals it requires, sets its outputs
    once each, passes its checks and keeps its members in order. *)
Theorem C75_blocks : forall D `{NumOps D} `{!NumOrd D} K nxt X (l : leaf D), suitsb K X l = true -> user_ok K nxt l -> dutiful K nxt X (lib K) l.
Proof. intros D ? ? K nxt X l Hs Hu. by apply lib_dutiful, suitsb_ok. Qed.
Print Assumptions C75_blocks.

(** ** Examples *)
Definition user_free {D} (l : leaf D) : bool := match l_cls l with CSource _ _ | CSources _ | CFunction _ | CSISO _ _ | CSO _ _ => false | _ => true end.
Definition no_user {D} (l : leaf D) : bool := match l_cls l with CUser _ _ _ => false | _ => true end.
Lemma no_user_ok {D} `{NumOps D} K (ls : list (leaf D)) : forallb no_user ls = true -> forall l st, l ∈ ls -> user_begins K l st.
Proof. intros Hf l st Hl. pose proof (forallb_elem _ _ Hf l Hl) as Hu. unfold no_user in Hu. unfold user_begins. by destruct (l_cls l). Qed.
Definition reuseb {D} (tr : tree D) : bool := existsb (fun l => match lib_pre l with [] => false | _ => true end) (leaves tr) && forallb (fun l => negb (is_builder (l_cls l))) (leaves tr).
Lemma user_free_ok {D} `{NumOps D} K (ls : list (leaf D)) : forallb user_free ls = true -> forall l, l ∈ ls -> user_ok K (fun a b => nltb a b = true) l.
Proof. intros Hf l Hl. pose proof (forallb_elem _ _ Hf l Hl) as Hu. unfold user_free in Hu. unfold user_ok. by destruct (l_cls l). Qed.
Lemma reuseb_ok {D} (tr : tree D) : reuseb tr = true -> (exists l, l ∈ leaves tr /\ lib_pre l ≠ []) /\ forall l, l ∈ leaves tr -> is_builder (l_cls l) = false.
Proof.
  unfold reuseb. rewrite andb_true_iff, existsb_exists. intros [(l & Hl & Hp) Hf]. split.
  - exists l. split; [by apply elem_of_list_In|]. by destruct (lib_pre l).
  - intros l' Hl'. pose proof (forallb_elem _ _ Hf l' Hl') as Hb. by apply negb_true_iff in Hb.
Qed.
Lemma checked_plain {D} `{NumOps D} w b m (tr : tree D) stp it tol : wreach true w -> compile_model w b = Some tr -> (forall l, it l ≡ₚ l) -> carries stp ->
  lint m w [] [] tr = true -> forallb user_free (leaves tr) = true -> forallb no_user (leaves tr) = true -> reuseb tr = true ->
  checked w b (Cfg true m tr None (fun _ => PRet tt) (Some stp) it tol) [] [].
Proof.
  intros Hw Hm Hi Hst Hl Hu Hnu Hr. split; cbn; try done.
  - by apply user_free_ok.
  - intros l o Hl' _. by eapply no_user_ok.
  - intros stp' [= <-]. done.
  - intros _. by apply reuseb_ok.
Qed.
(** A model with an integrator, a Memory, a Derivative and a Delay (Props_Again). *)
Definition ex75_cfg (m : mode) : cfg Q := Cfg true m ex13_tree None (fun _ => PRet tt) (Some rk4) (fun x => reverse x) 0%Q.
Definition ex75_calls : list (Q * Q * Q) := [(1#2, 1#10, 1); (1, 1#10, 1)]%Q.
Example C75_ex : forall m, checked ex13_world 0 (ex75_cfg m) [] [] /\ permitted (ex75_cfg m) 0%Q ex75_calls /\ has_state (g_tree (ex75_cfg m)) /\ has_delay (g_tree (ex75_cfg m)).
Proof.
  intros m. assert (forallb user_free (leaves ex13_tree) = true) as H1 by (vm_compute; reflexivity).
  assert (forallb no_user (leaves ex13_tree) = true) as H1' by (vm_compute; reflexivity).
  assert (reuseb ex13_tree = true) as H2 by (vm_compute; reflexivity). assert (lint m ex13_world [] [] ex13_tree = true) as H3 by (destruct m; vm_compute; reflexivity).
  assert (existsb (fun l => match l_cls l with CDelay _ _ => true | _ => false end) (leaves ex13_tree) = true) as H4 by (vm_compute; reflexivity).
  assert (forall A B : Prop, permitted (ex75_cfg m) 0%Q ex75_calls) as H5.
  { intros _ _. unfold ex75_calls. cbn [permitted]. assert (g_stepper (ex75_cfg m) ≠ None) as Hn by done. revert Hn. generalize (ex75_cfg m). intros g Hn.
    split; [|split; [|exact I]]; (split; [intros _; vm_compute; reflexivity|intros _; split; [vm_compute; reflexivity|right; split; [exact Hn|split; vm_compute; reflexivity]]]). }
  split; [|split; [by apply (H5 True True)|]].
  - apply checked_plain; [exact ex13_reach|exact ex13_model|intros l; apply reverse_Permutation|apply rk4_carries|exact H3|exact H1|exact H1'|exact H2].
  - change (g_tree (ex75_cfg m)) with ex13_tree. clear H1 H1' H3 H5. revert H2 H4. generalize ex13_tree. intros tr H2 H4. apply reuseb_ok in H2 as [H2 _]. split; [exact H2|].
    apply existsb_exists in H4 as (l & Hl & Hd). apply elem_of_list_In in Hl. unfold has_delay. destruct (l_cls l) as [| | | | | | | | | | | | |T x| | | | | | |] eqn:E; try done. by exists l, T, x.
Qed.
Example C75_ex_runs : forall m, is_ok (program (ex75_cfg m) 50 0%Q ex75_calls ex13_new) = true.
Proof. intros []; vm_compute; reflexivity. Qed.

(** An integrator whose arrays have no elements: built without complaint, and every
    condition of [lint] holds but the one on the sizes.  The first run throws: the state
    is loaded and, because the vector of the states is empty, pre_step is called too
    (simulator_base.cpp: run). *)
Definition ex75z_ops : list (wop Q) :=
  [ ONewSig (KArray 0) "x"; ONewSig (KArray 0) "dx"; ONewBus [0] ""; ONewBus [1] ""; ONewBus [] "";
    ONewBlock CSubmodel LNone None "root" NoIOLimit NoIOLimit;
    ONewBlock (CInteg TyA) (LInteg (VA []) false) (Some 0) "int" 1 1;
    ONewBlock (CConst TyA (VA [])) LNone (Some 0) "dx" 0 1;
    OConnect 1 3 2; OConnect 2 4 3 ]%nat.
Definition ex75z_world : world Q := world_of true ex75z_ops.
Definition ex75z_tree : tree Q := tree_of ex75z_world.
Definition ex75z_cfg : cfg Q := Cfg true MDefault ex75z_tree None (fun _ => PRet tt) (Some rk4) (fun x => reverse x) 0%Q.
Theorem C75_empty_refuted : exists w b (g : cfg Q) calls, wreach true w /\ compile_model w b = Some (g_tree g) /\ g_dbg g = true /\ (forall l, g_iter g l ≡ₚ l) /\
  g_stepper g = Some rk4 /\ permitted g 0%Q calls /\ is_ok (init g 0%Q (new_sim (initial_dyn w))) = true /\
  forall fuel, exists s, program g fuel 0%Q calls (new_sim (initial_dyn w)) = Exn EReassign s.
Proof.
  exists ex75z_world, 0, ex75z_cfg, [(1, 1#10, 2)]%Q. split; [reach_ops ex75z_world ex75z_ops|]. split; [vm_compute; reflexivity|]. split; [reflexivity|].
  split; [intros l; apply reverse_Permutation|]. split; [reflexivity|]. split.
  { cbn [permitted]. assert (g_stepper ex75z_cfg ≠ None) as Hn by done. revert Hn. generalize ex75z_cfg. intros g Hn.
    split; [|exact I]. split; [intros _; vm_compute; reflexivity|intros _; split; [vm_compute; reflexivity|right; split; [exact Hn|split; vm_compute; reflexivity]]]. }
  split; [vm_compute; reflexivity|]. intros fuel. eexists. vm_compute. reflexivity.
Qed.
Print Assumptions C75_empty_refuted.
(** [lint] sees it; and an algebraic loop, two blocks that assign one signal, an input that
    nothing assigns, an array where a scalar should be: each is refused. *)
Definition outcome {S A} (r : res S A) : option err := match r with Exn e _ => Some e | _ => None end.
Definition small (ops : list (wop Q)) : world Q := world_of true (ONewBlock CSubmodel LNone None "root" NoIOLimit NoIOLimit :: ops).
Definition small_cfg (w : world Q) : cfg Q := Cfg true MDefault (tree_of w) None (fun _ => PRet tt) (Some rk4) (fun x => reverse x) 0%Q.
Definition try_small (ops : list (wop Q)) : bool * option err := (lint MDefault (small ops) [] [] (tree_of (small ops)), outcome (program (small_cfg (small ops)) 5 0%Q [(1, 1#10, 2)]%Q (new_sim (initial_dyn (small ops))))).
Definition loop_ops : list (wop Q) := [ ONewSig KScalar "a"; ONewSig KScalar "b"; ONewBus [0] ""; ONewBus [1] "";
  ONewBlock (CGain TyD (VS 2%Q)) LNone (Some 0) "g" 1 1; ONewBlock (CGain TyD (VS 2%Q)) LNone (Some 0) "h" 1 1; OConnect 1 2 3; OConnect 2 3 2 ]%nat.
Definition twice_ops : list (wop Q) := [ ONewSig KScalar "a"; ONewBus [0] ""; ONewBus [] "";
  ONewBlock (CConst TyD (VS 2%Q)) LNone (Some 0) "g" 0 1; ONewBlock (CConst TyD (VS 2%Q)) LNone (Some 0) "h" 0 1; OConnect 1 2 1; OConnect 2 2 1 ]%nat.
Definition open_ops : list (wop Q) := [ ONewSig KScalar "a"; ONewSig KScalar "b"; ONewBus [0] ""; ONewBus [1] "";
  ONewBlock (CGain TyD (VS 2%Q)) LNone (Some 0) "g" 1 1; OConnect 1 2 3 ]%nat.
Definition wide_ops : list (wop Q) := [ ONewSig (KArray 2) "a"; ONewBus [0] ""; ONewBus [] "";
  ONewBlock (CConst TyA (VA [1; 2; 3]%Q)) LNone (Some 0) "g" 0 1; OConnect 1 2 1 ]%nat.
Definition good_ops : list (wop Q) := [ ONewSig (KArray 2) "a"; ONewSig (KArray 2) "b"; ONewBus [0] ""; ONewBus [1] ""; ONewBus [] "";
  ONewBlock (CGain TyA (VS 2%Q)) LNone (Some 0) "g" 1 1; ONewBlock (CConst TyA (VA [1; 2]%Q)) LNone (Some 0) "h" 0 1; OConnect 1 2 3; OConnect 2 4 2 ]%nat.
(** The last two examples throw; in the first two the blocks are left out without an
    exception (the debug build prints their names). *)
Definition left_out (ops : list (wop Q)) (x : nat) : bool :=
  match program (small_cfg (small ops)) 5 0%Q [(1, 1#10, 2)]%Q (new_sim (initial_dyn (small ops))) with Ok _ s => negb (assigned (s_store s) x) | _ => false end.
Example C75_needed : map try_small [loop_ops; open_ops; twice_ops; wide_ops; good_ops] = [(false, None); (false, None); (false, Some EReassign); (false, Some ESize); (true, None)] /\
  left_out loop_ops 0 = true /\ left_out loop_ops 1 = true /\ left_out open_ops 1 = true /\ lint MDefault ex75z_world [] [] ex75z_tree = false.
Proof. by vm_compute. Qed.
