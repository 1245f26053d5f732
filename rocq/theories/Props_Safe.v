(** C68: a simulation of a connected model has no undefined behaviour in a debug build. *)
From stdpp Require Import prelude gmap strings.
From Coq Require Import ZArith QArith.
From Verif Require Import Num NumQ NumOrd Res Name Store Leaf Sched Stepper Sim World Api Steps P_World SpecSized P_Sized Props_Sized SpecSim Ex_Models SpecSafe P_Safe P_Safe3 P_Compile Props_Sched.
Local Open Scope nat_scope.

(** ** C68 *)
Theorem C68_defined D `{NumOps D} `{!NumOrd D} (w : world D) b g s u : driven w b g s ->
  (forall fuel t lo hi, run g fuel t lo hi s = UB u -> u = UArith /\ exists l, l ∈ leaves (g_tree g) /\ misfits (sig_kinds w) l) /\
  (forall t, s_init s = false -> init g t s = UB u -> u = UArith /\ exists l, l ∈ leaves (g_tree g) /\ misfits (sig_kinds w) l).
Proof.
  intros Hd. pose proof (driven_inv w b g s Hd) as Hi. pose proof (p_env w b g (driven_proper w b g s Hd)) as He. split.
  - intros fuel t lo hi Hr. pose proof (inv_run g _ He fuel t lo hi s Hi) as Hx. rewrite Hr in Hx. destruct Hx as (-> & l & Hl & Hm). split; [done|]. exists l. split; [done|by apply misfits_ext].
  - intros t Hs Hr. pose proof (inv_init g _ He t s Hi Hs) as Hx. rewrite Hr in Hx. destruct Hx as (-> & l & Hl & Hm). split; [done|]. exists l. split; [done|by apply misfits_ext].
Qed.
Print Assumptions C68_defined.

(** The steppers of the library are safe. *)
Theorem C68_steppers D `{NumOps D} : stepper_safe (D:=D) euler /\ stepper_safe (D:=D) rk4 /\ stepper_safe (D:=D) rkf45.
Proof. split; [apply euler_safe|split; [apply rk4_safe|apply rkf45_safe]]. Qed.
Print Assumptions C68_steppers.

(** ** Examples *)
(** x' = u with the source u = t, d a Memory of x, f = x * e calculated by a function of
    the user, where the callback of the client assigns e, and a sum of two arrays.
      signals 0 x, 1 u, 2 d, 3 f, 4 e, 5 p, 6 q, 7 sum
      blocks 0 root, 1 Source -> u, 2 Integrator u -> x, 3 Memory x -> d, 4 SOFunction
      (x, e) -> f, 5 Const -> p, 6 Const -> q, 7 AddA (p, q) -> sum *)
Definition ex68_fun (t : Q) (ib : list (string * nat)) : prog Q (val Q) :=
  PGet 0 (fun x => PGet 4 (fun e => PRet (match x, e with VS a, VS c => VS (a * c)%Q | _, _ => VS 0%Q end))).
Definition ex68_ops (m : nat) : list (wop Q) :=
  [ ONewSig KScalar "x"; ONewSig KScalar "u"; ONewSig KScalar "d"; ONewSig KScalar "f"; ONewSig KScalar "e";
    ONewSig (KArray 2) "p"; ONewSig (KArray m) "q"; ONewSig (KArray 2) "sum";
    ONewBus [] ""; ONewBus [0] ""; ONewBus [1] ""; ONewBus [2] ""; ONewBus [0; 4] ""; ONewBus [3] "";
    ONewBus [5] ""; ONewBus [6] ""; ONewBus [5; 6] ""; ONewBus [7] "";
    ONewBlock CSubmodel LNone None "root" NoIOLimit NoIOLimit;
    ONewBlock (CSource TyD (fun t => PRet (VS t))) LNone (Some 0) "src" NoIOLimit 1;
    ONewBlock (CInteg TyD) (LInteg (VS 1%Q) false) (Some 0) "int" 1 1;
    ONewBlock (CMemory TyD) (LMem (VS 7%Q)) (Some 0) "mem" 1 1;
    ONewBlock (CSO TyD ex68_fun) LNone (Some 0) "fun" 2 1;
    ONewBlock (CConst TyA (VA [1; 2]%Q)) LNone (Some 0) "cp" 0 1;
    ONewBlock (CConst TyA (VA (replicate m 3%Q))) LNone (Some 0) "cq" 0 1;
    ONewBlock (CAdd TyA (VA [0; 0]%Q)) LNone (Some 0) "add" NoIOLimit 1;
    OConnect 1 8 10; OConnect 2 10 9; OConnect 3 9 11; OConnect 4 12 13; OConnect 5 8 14; OConnect 6 8 15; OConnect 7 16 17 ].
Definition ex68_world m : world Q := world_of true (ex68_ops m).
Definition ex68_cfg m md : cfg Q :=
  Cfg true md (tree_of (ex68_world m)) (Some (fun t => PSet 4 (VS (t + 1)%Q) (PRet tt))) (fun _ => PRet tt) (Some rkf45) (fun x => reverse x) 0%Q.
Lemma ex68_built m : built true (ex68_world m).
Proof.
  unfold ex68_world, world_of. destruct (exec_all true (ex68_ops m) empty_world) as [u w| | |] eqn:E; [|constructor..].
  eapply built_all; [constructor| |exact E]. unfold ex68_ops. repeat (apply Forall_cons; split; [cbn; eauto|]); apply Forall_nil; done.
Qed.
Lemma ex68_blks m K : (m = 2 \/ m = 3) -> K 0 = Some KScalar -> K 4 = Some KScalar ->
  Forall (fun o : blkobj Q => is_submodel (bo_cls o) = false -> bo_conn o = true /\ ctor_typed (bo_cls o) (bo_st o) /\ user_harmless K (bo_cls o) (bo_st o) (bo_ibus o) (bo_obus o)) (w_blks (ex68_world m)).
Proof.
  intros Hm H0 H4.
  assert (forall t ib, harmless K (has_ty (D:=Q) TyD) (ex68_fun t ib)) as Hf.
  { intros t ib. unfold ex68_fun, harmless. cbn. exists KScalar. split; [exact H0|]. intros x Hx _. exists KScalar. split; [exact H4|]. intros e He _. destruct x, e; exact I. }
  destruct Hm as [-> | ->].
  - set (L := w_blks (ex68_world 2)). vm_compute in L. subst L.
    repeat (apply Forall_cons; split; [intros F; first [discriminate F|split; [reflexivity|split; [cbn; try done; try (by intros ? [= <-]); split; auto; by intros ? ? [= <- <-]|first [exact I|intros t; exact I|exact (fun t => Hf t [])]]]]|]). apply Forall_nil; exact I.
  - set (L := w_blks (ex68_world 3)). vm_compute in L. subst L.
    repeat (apply Forall_cons; split; [intros F; first [discriminate F|split; [reflexivity|split; [cbn; try done; try (by intros ? [= <-]); split; auto; by intros ? ? [= <- <-]|first [exact I|intros t; exact I|exact (fun t => Hf t [])]]]]|]). apply Forall_nil; exact I.
Qed.
Lemma ex68_model m : (m = 2 \/ m = 3) -> compile_model (ex68_world m) 0 = Some (tree_of (ex68_world m)).
Proof. intros [-> | ->]; vm_compute; reflexivity. Qed.
Lemma ex68_kinds m : (m = 2 \/ m = 3) -> sig_kinds (ex68_world m) 0 = Some KScalar /\ sig_kinds (ex68_world m) 4 = Some KScalar.
Proof. intros [-> | ->]; split; vm_compute; reflexivity. Qed.
Lemma ex68_state m : (m = 2 \/ m = 3) -> exists n o, nodes (tree_of (ex68_world m)) !! 2 = Some n /\ node_linked n !! 1 = Some (0, 10%N) /\
  w_sigs (ex68_world m) !! 0 = Some o /\ so_kind o = KScalar /\ so_deriv o = Some 1.
Proof.
  intros [-> | ->]; (eexists _, _; split; [vm_compute; reflexivity|]; split; [vm_compute; reflexivity|]; split; [vm_compute; reflexivity|]; split; reflexivity).
Qed.
Lemma leaf_blk {D} `{NumOps D} (w : world D) b tr (P : blkobj D -> Prop) : compile_model w b = Some tr ->
  Forall (fun o => is_submodel (bo_cls o) = false -> P o) (w_blks w) -> forall l, l ∈ leaves tr -> exists o, w_blks w !! l_id l = Some o /\ P o.
Proof.
  intros Ht HF l Hl. destruct (compile_leaf _ _ _ _ l Ht Hl) as (o & Ho & Hs & _). exists o. split; [exact Ho|]. rewrite Forall_lookup in HF. exact (HF _ o Ho Hs).
Qed.
Lemma ex68_proper m md : (m = 2 \/ m = 3) -> proper (ex68_world m) 0 (ex68_cfg m md).
Proof.
  intros Hm. pose proof (ex68_model m Hm) as Ht. destruct (ex68_kinds m Hm) as [K0 K4].
  split.
  - by apply ex68_built.
  - exact Ht.
  - reflexivity.
  - exact (leaf_blk (ex68_world m) 0 (tree_of (ex68_world m)) _ Ht (ex68_blks m _ Hm K0 K4)).
  - intros f t [= <-]. exists KScalar. split; [exact K4|]. split; [reflexivity|exact I].
  - intros t. exact I.
  - intros stp [= <-]. apply rkf45_safe.
  - intros l. apply reverse_Permutation.
  - intros _. destruct (ex68_state m Hm) as (n & o & Hn & Hl & Ho & Hk & Hd).
    exists n, 0, 10%N, o. split; [by eapply elem_of_list_lookup_2|]. split; [by eapply elem_of_list_lookup_2|]. split; [exact Ho|]. split; [rewrite Hd; by eexists|by left].
Qed.

Definition ex68_new m : simst Q := new_sim (initial_dyn (ex68_world m)).
Definition ex68_0 m md : simst Q := st_of (ex68_new m) (run (ex68_cfg m md) 20 0%Q (1#100)%Q 10%Q (ex68_new m)).
Definition ex68_1 m md : simst Q := st_of (ex68_0 m md) (run (ex68_cfg m md) 20 1%Q (1#100)%Q 10%Q (ex68_0 m md)).
Lemma behind_run {D} `{NumOps D} (g : cfg D) n t lo hi s : is_ok (run g n t lo hi s) = true -> leaves_behind (run g n t lo hi s) (st_of s (run g n t lo hi s)).
Proof. destruct (run g n t lo hi s); cbn; [reflexivity|discriminate..]. Qed.
Lemma ex68_driven md : driven (ex68_world 2) 0 (ex68_cfg 2 md) (ex68_1 2 md).
Proof.
  eapply dr_run; [eapply dr_run; [apply dr_first, ex68_proper; by left|]|]; apply behind_run; destruct md; vm_compute; reflexivity.
Qed.
(** The model computes x(1) = 3/2, f = x (t + 1) and the sum of the arrays; a second
    simulator goes on with the model. *)
Example C68_ex md : driven (ex68_world 2) 0 (ex68_cfg 2 md) (ex68_1 2 md) /\
  driven (ex68_world 2) 0 (ex68_cfg 2 MFast) (new_sim (s_dyn (ex68_1 2 md))) /\
  map (value (s_store (ex68_1 2 md))) [3; 7] = [Some (VS (6#2)%Q); Some (VA [4; 5]%Q)].
Proof.
  split; [apply ex68_driven|]. split; [eapply dr_next; [apply ex68_driven|apply ex68_proper; by left]|]. destruct md; vm_compute; reflexivity.
Qed.

(** The exception is real: AddA of arrays of sizes 2 and 3. *)
Theorem C68_sizes_refuted : exists (w : world Q) b g s, driven w b g s /\ exists fuel t lo hi, run g fuel t lo hi s = UB UArith.
Proof.
  exists (ex68_world 3), 0, (ex68_cfg 3 MDefault), (ex68_new 3). split; [apply dr_first, ex68_proper; by right|]. exists 20, 0%Q, (1#100)%Q, 10%Q. vm_compute. reflexivity.
Qed.
Print Assumptions C68_sizes_refuted.

(** All blocks have to be connected: a Gain in the model that nobody connected is
    activated all the same. *)
Definition ex68u_ops : list (wop Q) :=
  [ ONewBlock CSubmodel LNone None "root" NoIOLimit NoIOLimit; ONewBlock (CGain TyD (VS 2%Q)) LNone (Some 0) "gain" 1 1 ].
Definition ex68u_world : world Q := world_of true ex68u_ops.
Definition ex68u_cfg md : cfg Q := Cfg true md (tree_of ex68u_world) None (fun _ => PRet tt) None (fun x => x) 0%Q.
Theorem C68_connected_refuted : exists (w : world Q) b, built true w /\ forall md, md ≠ MReuse -> exists g fuel t lo hi,
  g_dbg g = true /\ g_mode g = md /\ compile_model w b = Some (g_tree g) /\ run g fuel t lo hi (new_sim (initial_dyn w)) = UB UUnconnected.
Proof.
  exists ex68u_world, 0. split.
  { unfold ex68u_world, world_of. destruct (exec_all true ex68u_ops empty_world) as [u w| | |] eqn:E; [|constructor..].
    eapply built_all; [constructor| |exact E]. unfold ex68u_ops. repeat (apply Forall_cons; split; [cbn; eauto|]); apply Forall_nil; done. }
  intros md Hm. exists (ex68u_cfg md), 20, 0%Q, (1#100)%Q, 10%Q. split; [reflexivity|]. split; [reflexivity|]. split; [vm_compute; reflexivity|].
  destruct md; [vm_compute; reflexivity|done|vm_compute; reflexivity].
Qed.
Print Assumptions C68_connected_refuted.
