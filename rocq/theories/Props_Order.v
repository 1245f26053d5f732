(** The order in which the sets of signals are iterated: C65. *)
From stdpp Require Import prelude gmap strings.
From Coq Require Import ZArith QArith.
From Verif Require Import Num NumQ Res Name Store Leaf Sched Stepper Sim World Api SpecSched P_Store P_Compile P_Simulated P_Evolve P_Rel P_Rel2 SpecHist P_Trace Ex_Models SpecRun P_Run Props_Run
  P_Log P_Perm P_Pack Props_Pack SpecAgain P_Redo Props_Again P_Field P_Path SpecSized P_Sized Props_Sized SpecOrder P_Order P_Order2.
Local Open Scope nat_scope.

Section session.
  Context {D : Type} `{NumOps D} (g : cfg D) (it : list nat -> list nat).
  Context (Hi1 : forall l, g_iter g l ≡ₚ l) (Hi2 : forall l, it l ≡ₚ l).
  Context (Hstp : forall stp, g_stepper g = Some stp -> stepper_ok stp /\ stepper_perm stp).
  Lemma calls_full σ L calls s1 s2 s1' : fully g it σ L s1 s2 -> s_init s1 = true ->
    forM calls (fun '(fuel, t, lo, hi) => run g fuel t lo hi) s1 = Ok tt s1' ->
    exists s2', forM calls (fun '(fuel, t, lo, hi) => run (with_iter it g) fuel t lo hi) s2 = Ok tt s2' /\ fully g it σ L s1' s2'.
  Proof.
    revert s1 s2. induction calls as [|[[[fuel t] lo] hi] calls IH]; intros s1 s2 Hf Hi; cbn [forM]; [intros [= <-]; by exists s2|].
    unfold bnd at 1. destruct (run g fuel t lo hi s1) as [[] s3| | |] eqn:E3; try done. intros Hr.
    destruct (full_run g L _ _ _ _ _ (scals_perm g it Hi1 Hi2 σ) (arrs_perm g it Hi1 Hi2 σ) (states_nodup g Hi1 σ) (scals_one g Hi1 σ)
      (fun stp E => proj2 (Hstp stp E)) _ _ _ _ _ _ _ Hf Hi E3) as (s4 & E4 & Hf4).
    assert (s_init s3 = true) as Hi3. { destruct Hf as [_ [Hp _ _]]. eapply (packed_run g (fun stp E => proj1 (Hstp stp E))); [exact Hp|done|exact E3]. }
    destruct (IH s3 s4 Hf4 Hi3 Hr) as (s2' & E2 & Hf2). exists s2'. split; [|done].
    rewrite (bnd_goes _ _ s2 tt s4); [exact E2|]. rewrite run_iter; [done|]. destruct Hf as [Hr1 _]. by rewrite (rw_init _ _ _ _ _ _ _ _ Hr1).
  Qed.
  Lemma replay_full t0 calls d0 s1 : (g_dbg g = true -> store_ok (k_store (d_core d0))) -> derivs_fit (k_store (d_core d0)) ->
    replay g t0 calls (new_sim d0) = Ok tt s1 ->
    exists s2, replay (with_iter it g) t0 calls (new_sim d0) = Ok tt s2 /\ fully g it (k_store (d_core d0)) (k_log (d_core d0)) s1 s2.
  Proof.
    intros Hok Hfit. unfold replay. unfold bnd at 1. destruct (init g t0 (new_sim d0)) as [[] s3| | |] eqn:E3; try done. intros Hr.
    destruct (init_flags g _ _ _ E3) as [Hi _]. rewrite init_after in E3. unfold bnd in E3. destruct (base_init g t0 (new_sim d0)) as [[] s5| | |] eqn:E5; try done.
    destruct (base_full g it Hi1 Hi2 _ _ _ Hok Hfit E5) as (s6 & E6 & Hf6). set (σ := k_store (d_core d0)) in *.
    pose proof (full_after g (k_log (d_core d0)) _ _ _ _ _ (scals_perm g it Hi1 Hi2 σ) (arrs_perm g it Hi1 Hi2 σ) (states_nodup g Hi1 σ) t0 _ _ Hf6) as Ha.
    rewrite E3 in Ha. destruct Ha as (s4 & E4 & Hf4).
    destruct (calls_full _ _ _ _ _ _ Hf4 Hi Hr) as (s2 & E2 & Hf2). exists s2. split; [|done].
    rewrite (bnd_goes _ _ _ tt s4); [exact E2|]. rewrite init_after. by rewrite (bnd_goes _ _ _ _ _ E6).
  Qed.
  Lemma fully_same σ L s1 s2 : fully g it σ L s1 s2 -> same_simulation L s1 s2.
  Proof.
    intros Hf. pose proof (full_sv _ _ _ _ _ _ _ _ _ Hf) as (Lv & _). destruct Hf as [Hr Hi]. destruct (rw_dyn _ _ _ _ _ _ _ _ Hr) as [(E1 & E2 & E3 & v1 & v2 & L1 & L2 & Hv) _]. split.
    - exact E1.
    - exact E2.
    - apply (rw_tprev _ _ _ _ _ _ _ _ Hr).
    - rewrite (rw_scal1 _ _ _ _ _ _ _ _ Hr), (rw_scal2 _ _ _ _ _ _ _ _ Hr). by apply scals_perm.
    - rewrite (rw_arr1 _ _ _ _ _ _ _ _ Hr), (rw_arr2 _ _ _ _ _ _ _ _ Hr). by apply arrs_perm.
    - eexists _, v1, v2. split_and!; [|apply (rw_sv _ _ _ _ _ _ _ _ Hr)|exact L1|exact L2|exact Hv].
      rewrite Lv. apply pm_perm; [by apply scals_perm|by apply arrs_perm|by apply states_nodup].
  Qed.
End session.

(** ** C65.  The order in which a simulator iterates its hash sets of signals - the order
    of the state variables - does not show: the same init and runs in another order also
    succeed and leave the same signals, block members and times, and make the same
    calls of the blocks at the same times, with the same signals. *)
Theorem C65_order : forall D `{NumOps D} dbg w b (g : cfg D) it g0 s0 t0 calls s1,
  built dbg w -> compile_model w b = Some (g_tree g) -> (forall l, g_iter g l ≡ₚ l) -> (forall l, it l ≡ₚ l) ->
  (forall stp, g_stepper g = Some stp -> stepper_ok stp /\ stepper_perm stp) ->
  simulated_ok (g_dbg g) (g_tree g) (initial_dyn w) g0 s0 ->
  replay g t0 calls (new_sim (s_dyn s0)) = Ok tt s1 ->
  exists s2, replay (with_iter it g) t0 calls (new_sim (s_dyn s0)) = Ok tt s2 /\ same_simulation (s_log s0) s1 s2.
Proof.
  intros D ? dbg w b g it g0 s0 t0 calls s1 Hb Hc Hi1 Hi2 Hstp Hs0 Hr. destruct (simulated_comes _ _ _ _ _ Hs0) as [_ Hd]. pose proof Hd as [Hsh _].
  destruct (replay_full g it Hi1 Hi2 Hstp t0 calls (s_dyn s0) s1) as (s2 & E2 & Hf); [| |done|].
  - intros Hg. rewrite Hg in Hd. by eapply reach_store_ok.
  - eapply fit_shape; [exact Hsh|]. by eapply alike_fit, built_alike.
  - exists s2. split; [done|]. by eapply fully_same.
Qed.

(** The model of Props_Pack.v: two scalar states and one array state, iterated backwards
    and forwards, from 0 to 3 in two runs. *)
Definition ex9_calls : list (nat * Q * Q * Q) := [(20, 1%Q, (1#100)%Q, 10%Q); (20, 3%Q, (1#100)%Q, 10%Q)].
Definition ex9_end (g : cfg Q) : simst Q := st_of ex9_new (replay g 0%Q ex9_calls ex9_new).
Example C65_ex : forall m, m = MDefault \/ m = MReuse \/ m = MFast -> let g := ex9_cfg true m in let g2 := with_iter (fun x => x) g in
  built true ex9_world /\ compile_model ex9_world 0 = Some (g_tree g) /\ (forall l, g_iter g l ≡ₚ l) /\
  (forall stp, g_stepper g = Some stp -> stepper_ok stp /\ stepper_perm stp) /\ simulated_ok true (g_tree g) (initial_dyn ex9_world) g ex9_new /\
  is_ok (replay g 0%Q ex9_calls ex9_new) = true /\
  (s_scal (ex9_end g), s_arr (ex9_end g), map Qred (s_sv (ex9_end g))) = ([5; 3], [1], [2; 8; 6; 10]%Q) /\
  (s_scal (ex9_end g2), s_arr (ex9_end g2), map Qred (s_sv (ex9_end g2))) = ([3; 5], [1], [8; 2; 6; 10]%Q).
Proof.
  intros m Hm g g2. split.
  { unfold ex9_world, world_of. destruct (exec_all true ex9_ops empty_world) as [u w| | |] eqn:E; [|constructor..].
    eapply built_all; [constructor| |exact E]. unfold ex9_ops. repeat (apply Forall_cons; split; [cbn; eauto|]); apply Forall_nil; done. }
  split; [exact ex9_model|]. split; [intros l; apply reverse_Permutation|]. split. { intros stp [= <-]. split; [apply euler_ok|apply euler_perm]. }
  split. { apply so_first; [reflexivity|reflexivity|]. intros stp [= <-]. apply euler_rel. }
  destruct Hm as [->|[->| ->]]; (split; [vm_compute; reflexivity|split; vm_compute; reflexivity]).
Qed.
Print Assumptions C65_order.

(** After a connect that threw, the order can show: here the Integrator of x (2 elements)
    was connected to d (1 element), which threw, and the Integrator of y (2 elements) to
    e.  The derivatives of both fill only three of four elements, and depending on the
    order x or y gets what belongs to the other. *)
Definition ex21_ops1 : list (wop Q) :=
  [ ONewSig (KArray 1) "d"; ONewSig (KArray 2) "x"; ONewSig (KArray 2) "e"; ONewSig (KArray 2) "y";
    ONewBus [0] ""; ONewBus [1] ""; ONewBus [2] ""; ONewBus [3] ""; ONewBus [] "";
    ONewBlock CSubmodel LNone None "root" NoIOLimit NoIOLimit;
    ONewBlock (CInteg TyA) (LInteg (VA [1; 2]%Q) false) (Some 0) "int1" 1 1;
    ONewBlock (CInteg TyA) (LInteg (VA [3; 4]%Q) false) (Some 0) "int2" 1 1;
    ONewBlock (CConst TyA (VA [10]%Q)) LNone (Some 0) "c1" 0 1;
    ONewBlock (CConst TyA (VA [100; 1000]%Q)) LNone (Some 0) "c2" 0 1;
    OConnect 2 6 7; OConnect 3 8 4; OConnect 4 8 6 ].
Definition ex21_world1 : world Q := world_of true ex21_ops1.
Definition ex21_world : world Q := match exec true (OConnect 1 4 5) ex21_world1 with Exn _ w => w | _ => ex21_world1 end.
Definition ex21_tree : tree Q := tree_of ex21_world.
Definition ex21_cfg (dbg : bool) : cfg Q := Cfg dbg MDefault ex21_tree None (fun _ => PRet tt) (Some euler) (fun x => x) 0%Q.
Definition ex21_new : simst Q := new_sim (initial_dyn ex21_world).
Definition ex21_calls : list (nat * Q * Q * Q) := [(20, 1%Q, (1#100)%Q, 10%Q)].
Definition ex21_end (g : cfg Q) : simst Q := st_of ex21_new (replay g 0%Q ex21_calls ex21_new).
Lemma ex21_throws : exec true (OConnect 1 4 5) ex21_world1 = Exn ESize ex21_world.
Proof. vm_compute. reflexivity. Qed.
Lemma ex21_reach1 : wreach true ex21_world1.
Proof. reach_ops ex21_world1 ex21_ops1. Qed.
Lemma ex21_model : compile_model ex21_world 0 = Some ex21_tree.
Proof. vm_compute. reflexivity. Qed.
Lemma replay_ends g t calls (s : simst Q) : is_ok (replay g t calls s) = true -> replay g t calls s = Ok tt (st_of s (replay g t calls s)).
Proof. destruct (replay g t calls s) as [[] s'| | |]; intros E; try discriminate E. reflexivity. Qed.
Theorem C65_refuted : exists (w : world Q) b it t0 calls, wreach true w /\ (forall l, it l ≡ₚ l) /\ forall dbg, exists g s0 s1 s2 z,
  g_dbg g = dbg /\ compile_model w b = Some (g_tree g) /\ (forall l, g_iter g l ≡ₚ l) /\
  (forall stp, g_stepper g = Some stp -> stepper_ok stp /\ stepper_perm stp) /\ simulated_ok dbg (g_tree g) (initial_dyn w) g s0 /\
  replay g t0 calls s0 = Ok tt s1 /\ replay (with_iter it g) t0 calls s0 = Ok tt s2 /\ value (s_store s2) z ≠ value (s_store s1) z.
Proof.
  exists ex21_world, 0, reverse, 0%Q, ex21_calls. split; [eapply wr_exn; [exact ex21_reach1| |exact ex21_throws]; exact I|]. split; [intros l; apply reverse_Permutation|].
  intros dbg. exists (ex21_cfg dbg), ex21_new, (ex21_end (ex21_cfg dbg)), (ex21_end (with_iter reverse (ex21_cfg dbg))), 1.
  split; [reflexivity|]. split; [exact ex21_model|]. split; [intros l; reflexivity|]. split. { intros stp [= <-]. split; [apply euler_ok|apply euler_perm]. }
  split. { apply so_first; [reflexivity|reflexivity|]. intros stp [= <-]. apply euler_rel. }
  split; [apply replay_ends; destruct dbg; vm_compute; reflexivity|]. split; [apply replay_ends; destruct dbg; vm_compute; reflexivity|].
  assert (value (s_store (ex21_end (ex21_cfg dbg))) 1 = Some (VA [11; 102]%Q)) as -> by (destruct dbg; vm_compute; reflexivity).
  assert (value (s_store (ex21_end (with_iter reverse (ex21_cfg dbg)))) 1 = Some (VA [11; 2]%Q)) as -> by (destruct dbg; vm_compute; reflexivity).
  intros E. discriminate E.
Qed.
Print Assumptions C65_refuted.
