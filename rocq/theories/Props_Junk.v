(** Property C78: what freshly allocated arrays of state variables contain does not show. *)
From stdpp Require Import prelude gmap strings.
From Coq Require Import ZArith QArith Reals Lra.
From Coq Require Import SpecFloat.
From Verif Require Import Num NumQ NumR NumF Res Name Store Leaf Sched Stepper Sim World Api SpecSched P_Store P_Compile P_Simulated P_Sim P_Evolve P_Rel P_Rel2 SpecHist P_Trace Ex_Models SpecRun P_Run Props_Run
  P_Log P_Perm P_Pack Props_Pack SpecAgain P_Redo Props_Again P_Field P_Path SpecSized P_Sized Props_Sized SpecOrder P_Order P_Order2 Props_Order NumOrd NumAdd SpecLint P_Refine P_Same3 Props_Same P_Junk.
Local Open Scope nat_scope.

(** The same simulator on a machine where fresh memory holds [j]. *)
Definition with_junk {D} (j : D) (g : cfg D) : cfg D := Cfg (g_dbg g) (g_mode g) (g_tree g) (g_inputs g) (g_icb g) (g_stepper g) (g_iter g) j.
(** Every call goes to a time that can be compared with the time before it (for double:
    neither is NaN). *)
Fixpoint comparable {D} `{NumOps D} (tp : D) (calls : list (nat * D * D * D)) : Prop :=
  match calls with
  | [] => True
  | (_, t, _, _) :: cs => (nltb t tp = true \/ neqb t tp = true \/ nltb tp t = true) /\ comparable t cs
  end.

Section session.
  Context {D : Type} `{NumOps D} (g : cfg D) (j : D).
  Notation g' := (with_junk j g).
  Context (Hi : forall l, g_iter g l ≡ₚ l).
  Lemma run_junk fuel t lo hi s : s_init s = true -> run g' fuel t lo hi s = run g fuel t lo hi s.
  Proof. intros Hs. unfold run. rewrite !(bnd_goes _ _ s true s) by (unfold gets; by rewrite Hs). done. Qed.
  Lemma after_blur t : mrel (blur g) (after g t) (after g t).
  Proof.
    assert (forall A (m : M (simst D) A), unseen m -> pres (both g) m -> mrel (blur g) m m) as Hgo by (intros A m; apply blur_unseen).
    assert (forall b1 b2, mrel (blur g) (process_model g t b1 b2) (process_model g t b1 b2)) as Hpr by (intros; apply Hgo; [apply un_process|apply pres_both; [apply pres_process_model|apply vecs_process_model]]).
    assert (forall A (m : M (core D) A), pres (core_evo (g_dbg g)) m -> mrel (blur g) (on_core' m) (on_core' m)) as Hco by (intros A m Hm; apply Hgo; [apply un_on_core|apply pres_both; [by apply pres_on_core'|apply vecs_on_dyn]]).
    assert (forall s1 s2, blur g s1 s2 -> length (s_sv s1) = length (s_sv s2) /\ s_po1 s1 = s_po1 s2 /\ s_po2 s1 = s_po2 s2 /\ s_fast s1 = s_fast s2) as Heq by (intros s1 s2 (_ & a & b & c & -> & La & _); done).
    unfold after. destruct (g_mode g) eqn:Em.
    - apply mrel_bnd; [apply mrel_gets; intros s1 s2 Hb; by apply Heq|intros n]. apply mrel_bnd; [apply mrel_ret|intros _; apply Hpr].
    - apply mrel_bnd; [apply mrel_gets; intros s1 s2 Hb; by apply Heq|intros n]. apply mrel_bnd; [|intros _; apply Hpr]. destruct n; [apply mrel_ret|].
      apply mrel_bnd; [apply mrel_gets; intros s1 s2 Hb; by apply Heq|intros p1]. apply mrel_bnd; [apply mrel_gets; intros s1 s2 Hb; by apply Heq|intros p2].
      apply mrel_bnd; [apply mrel_debug|intros _]. apply mrel_bnd; [apply mrel_debug|intros _]. apply mrel_modify.
      intros s1 s2 ([Hp Hf] & a & b & c & -> & L). split; [split; [by apply packed_po|done]|]. by exists a, b, c.
    - apply mrel_bnd; [apply mrel_gets; intros s1 s2 Hb; by apply Heq|intros o]. apply mrel_bnd; [apply mrel_debug|intros _].
      apply mrel_bnd; [apply Hco, pres_inputs|intros _]. apply mrel_bnd; [apply Hco, pres_pre_snap|intros _]. apply mrel_bnd; [apply Hco, pres_fast_loop|intros r].
      apply mrel_bnd. { apply mrel_modify. intros s1 s2 ([Hp Hf] & a & b & c & -> & L). split; [split; [by apply packed_fast|done]|]. by exists a, b, c. }
      intros _. apply mrel_bnd; [apply mrel_verify|intros _]. apply mrel_bnd; [apply Hco, pres_snap|intros _].
      apply mrel_bnd; [apply Hgo; [apply un_clear|apply pres_both; [apply pres_clear_all|apply vecs_clear_all]]|intros _]. apply Hpr.
  Qed.
  Lemma init_blur t0 d0 s1 : (g_dbg g = true -> store_ok (k_store (d_core d0))) -> derivs_fit (k_store (d_core d0)) -> init g t0 (new_sim d0) = Ok tt s1 ->
    exists s2, init g' t0 (new_sim d0) = Ok tt s2 /\ blur g s1 s2.
  Proof.
    intros Hok Hfit E. rewrite init_after in E. unfold bnd in E. destruct (base_init g t0 (new_sim d0)) as [[] x| | |] eqn:Eb; try done.
    pose proof (packed_base g Hi t0 d0 x Hok Eb) as Hp.
    assert (exists a b c, base_init g' t0 (new_sim d0) = Ok tt (dress a b c x) /\ length a = length (s_sv x) /\ length b = length (s_svo x) /\ length c = length (s_dv x) /\ derivs_fit (s_store x)) as (a & b & c & Eb' & La & Lb & Lc & Hf).
    { revert Eb. unfold base_init. unfold bnd at 1, modify at 1. cbv zeta. set (k := length _ + _). set (i := Simst _ _ _ _ _ _ _ _ _ _ _ _ _).
      unfold bnd at 1. destruct (clear_all i) as [[] y| | |] eqn:Ec; try done. unfold modify at 1. intros [= <-].
      exists (replicate k j), (replicate k j), (replicate k j).
      unfold bnd at 1, modify at 1. change (g_tree g') with (g_tree g). change (g_iter g') with (g_iter g).
      assert (forall n, resize g' n (s_sv (new_sim d0)) = replicate n j) as Er by (intros n; unfold resize; cbn; destruct n; done).
      match goal with |- bnd clear_all ?q ?z = _ /\ _ => assert (z = dress (replicate k j) (replicate k j) (replicate k j) i) as -> end.
      { unfold dress, i, put_sv, put_svo, put_dv. cbn [s_dyn s_po1 s_po2 s_cur s_fast s_tprev s_vsigs s_scal s_arr s_init]. by rewrite <- (Er k). }
      unfold bnd at 1. rewrite un_clear, Ec. cbn [rmap]. pose proof (vecs_clear_all i) as Hv. rewrite Ec in Hv. destruct Hv as (V1 & V2 & V3).
      assert (forall n, length (resize g n (s_sv (new_sim d0))) = n) as El by (intros n; unfold resize; cbn; destruct n; [done|]; cbn; by rewrite replicate_length).
      split; [done|]. cbn [s_sv s_svo s_dv]. rewrite V1, V2, V3, replicate_length. unfold i. cbn [s_sv s_svo s_dv].
      split_and!; [by rewrite El..|]. pose proof (pres_clear_all g i) as Hev. rewrite Ec in Hev. pose proof (ev_dyn _ _ _ Hev) as [Hs _]. eapply fit_shape; [exact Hs|]. exact Hfit. }
    assert (blur g x (dress a b c x)) as Hb by (split; [by split|]; by exists a, b, c).
    pose proof (after_blur t0 _ _ Hb) as Ha. rewrite E in Ha. destruct Ha as (s2 & E2 & Hb2). exists s2. split; [|done]. rewrite init_after. unfold bnd. by rewrite Eb'.
  Qed.
  Context (Hstp : forall stp, g_stepper g = Some stp -> stepper_rel stp /\ stepper_ok stp).
  Lemma calls_blur calls s1 s2 s1' : blur g s1 s2 -> s_init s1 = true -> comparable (s_tprev s1) calls ->
    forM calls (fun '(fuel, t, lo, hi) => run g fuel t lo hi) s1 = Ok tt s1' ->
    exists s2', forM calls (fun '(fuel, t, lo, hi) => run g' fuel t lo hi) s2 = Ok tt s2' /\ blur g s1' s2' /\ (calls ≠ [] -> s_sv s2' = s_sv s1').
  Proof.
    revert s1 s2. induction calls as [|[[[fuel t] lo] hi] calls IH]; intros s1 s2 Hb Hini Hc; cbn [forM]; [intros [= <-]; by exists s2|].
    unfold bnd at 1. destruct (run g fuel t lo hi s1) as [[] s3| | |] eqn:E3; try done. intros Hr. cbn [comparable] in Hc. destruct Hc as [Hc Hcs].
    destruct (run_blur g Hstp fuel t lo hi s1 s2 s3 Hb Hini Hc E3) as (s4 & E4 & [Hb4 Hv4]). pose proof Hb as ([Hp Hf] & _).
    destruct (packed_run g (fun stp E => proj2 (Hstp stp E)) _ _ _ _ _ _ Hp Hini E3) as [_ Hi3].
    assert (s_tprev s3 = t) as Et.
    { revert E3. unfold run. rewrite (bnd_goes _ _ s1 true s1) by (unfold gets; by rewrite Hini). cbn [negb]. unfold bnd at 1, gets at 1. unfold bnd at 1, gets at 1. unfold bnd at 1.
      lazymatch goal with |- match ?m with _ => _ end = _ -> _ => destruct m as [[] z1| | |] end; try done. unfold bnd at 1, gets at 1. unfold bnd at 1.
      destruct (reset_sv g (s_sv z1) z1) as [[] z2| | |]; try done. unfold bnd at 1. destruct (process_model _ _ _ _ z2) as [[] z3| | |]; try done. by intros [= <-]. }
    rewrite <- Et in Hcs. destruct (IH s3 s4 Hb4 Hi3 Hcs Hr) as (s2' & E2 & Hb2 & Hv2). exists s2'. split_and!; [|done|].
    - rewrite (bnd_goes _ _ s2 tt s4); [exact E2|]. rewrite run_junk; [done|]. destruct Hb as (_ & a & b & c & -> & _). done.
    - intros _. destruct calls as [|q calls]; [|by apply Hv2]. injection Hr as <-. injection E2 as <-. done.
  Qed.
End session.

(** The same model and simulator on two machines: if the program returns on one, it
    returns on the other, and the two simulators are the same, with everything recorded,
    but for the three arrays; and the state variables are the same once run was called. *)
Theorem C78_junk : forall D `{NumOps D} dbg w b (g : cfg D) j g0 s0 t0 calls s1,
  built dbg w -> compile_model w b = Some (g_tree g) -> (forall l, g_iter g l ≡ₚ l) ->
  (forall stp, g_stepper g = Some stp -> stepper_rel stp /\ stepper_ok stp) ->
  simulated_ok (g_dbg g) (g_tree g) (initial_dyn w) g0 s0 -> comparable t0 calls ->
  replay g t0 calls (new_sim (s_dyn s0)) = Ok tt s1 ->
  exists s2 a b c, replay (with_junk j g) t0 calls (new_sim (s_dyn s0)) = Ok tt s2 /\
    s2 = Simst (s_dyn s1) (s_po1 s1) (s_po2 s1) (s_cur s1) (s_fast s1) (s_tprev s1) (s_vsigs s1) (s_scal s1) (s_arr s1) a b c (s_init s1) /\
    (calls ≠ [] -> a = s_sv s1).
Proof.
  intros D ? dbg w b g j g0 s0 t0 calls s1 Hb Hc Hi Hstp Hs0 Hcs Hr. destruct (simulated_comes _ _ _ _ _ Hs0) as [_ Hd]. pose proof Hd as [Hsh _].
  revert Hr. unfold replay. unfold bnd at 1. destruct (init g t0 (new_sim (s_dyn s0))) as [[] s3| | |] eqn:E3; try done. intros Hr.
  destruct (init_flags g _ _ _ E3) as [Hini Ht]. destruct (init_blur g j Hi t0 (s_dyn s0) s3) as (s4 & E4 & Hb4); [| |done|].
  - intros Hg. rewrite Hg in Hd. by eapply reach_store_ok.
  - eapply fit_shape; [exact Hsh|]. by eapply alike_fit, built_alike.
  - rewrite <- Ht in Hcs. destruct (calls_blur g j Hstp calls s3 s4 s1 Hb4 Hini Hcs Hr) as (s2 & E2 & (_ & a & b' & c & -> & _) & Hv).
    exists (dress a b' c s1), a, b', c. split_and!; [|done|exact Hv]. rewrite (bnd_goes _ _ _ tt s4); [exact E2|exact E4].
Qed.
Print Assumptions C78_junk.

(** Over the reals all times can be compared. *)
Theorem C78_reals : forall (t0 : R) calls, comparable t0 calls.
Proof.
  intros t0 calls. revert t0. induction calls as [|[[[fuel t] lo] hi] cs IH]; intros t0; [exact I|]. split; [|apply IH]. cbn.
  destruct (Rtotal_order t t0) as [Hl|[He|Hl]].
  - left. by apply Rltb_true.
  - right. left. unfold Reqb. by destruct (Req_EM_T t t0).
  - right. right. by apply Rltb_true.
Qed.
Print Assumptions C78_reals.

Example C78_ex : forall m, let g := ex9_cfg true m in built true ex9_world /\ compile_model ex9_world 0 = Some (g_tree g) /\ (forall l, g_iter g l ≡ₚ l) /\
  (forall stp, g_stepper g = Some stp -> stepper_rel stp /\ stepper_ok stp) /\ simulated_ok (g_dbg g) (g_tree g) (initial_dyn ex9_world) g ex9_new /\ comparable 0%Q ex9_calls /\
  is_ok (replay g 0%Q ex9_calls ex9_new) = true /\ map (fun z => value (s_store (ex9_end g)) z) (seq 0 6) = map (fun z => value (s_store (ex9_end (with_junk 77%Q g))) z) (seq 0 6) /\
  s_sv (ex9_0 true m) ≠ s_sv (st_of ex9_new (init (with_junk 77%Q g) 0%Q ex9_new)).
Proof.
  intros m g. split.
  { unfold ex9_world, world_of. destruct (exec_all true ex9_ops empty_world) as [u w| | |] eqn:E; [|constructor..].
    eapply built_all; [constructor| |exact E]. unfold ex9_ops. repeat (apply Forall_cons; split; [cbn; eauto|]); apply Forall_nil; done. }
  split; [exact ex9_model|]. split; [intros l; apply reverse_Permutation|]. split. { intros stp [= <-]. split; [apply euler_rel|apply euler_ok]. }
  split. { apply so_first; [reflexivity|reflexivity|]. intros stp [= <-]. apply euler_rel. }
  split. { cbn [comparable ex9_calls]. split; [right; right; vm_compute; reflexivity|split; [right; right; vm_compute; reflexivity|exact I]]. }
  unfold g. destruct m; (split; [vm_compute; reflexivity|split; [vm_compute; reflexivity|]]); intros E; vm_compute in E; discriminate E.
Qed.

(** With a time that is NaN it shows: the first call of run after init, with NaN, loads
    the states with what the fresh array contains (no comparison with NaN holds, so neither
    the exception nor the loop of run is reached). *)
Definition ex78_ops : list (wop spec_float) :=
  [ ONewSig KScalar "x"; ONewSig KScalar "dx"; ONewBus [0] ""; ONewBus [1] ""; ONewBus [] "";
    ONewBlock CSubmodel LNone None "root" NoIOLimit NoIOLimit;
    ONewBlock (CInteg TyD) (LInteg (VS (nofZ 5)) false) (Some 0) "int" 1 1;
    ONewBlock (CConst TyD (VS (nofZ 1))) LNone (Some 0) "dx" 0 1;
    OConnect 1 3 2; OConnect 2 4 3 ]%nat.
Definition ex78_world : world spec_float := world_of true ex78_ops.
Definition ex78_cfg (m : mode) (j : spec_float) : cfg spec_float := Cfg true m (default (TSub 0 [] []) (compile_model ex78_world 0)) None (fun _ => PRet tt) (Some euler) (fun x => x) j.
Definition ex78_new : simst spec_float := new_sim (initial_dyn ex78_world).
Definition ex78_calls : list (nat * spec_float * spec_float * spec_float) := [(20, S754_nan, nofZ 1, nofZ 2)].
Definition ex78_end (m : mode) (j : spec_float) : simst spec_float := match replay (ex78_cfg m j) (nofZ 0) ex78_calls ex78_new with Ok _ s => s | _ => ex78_new end.
Lemma ex78_built : built true ex78_world.
Proof.
  unfold ex78_world, world_of. destruct (exec_all true ex78_ops empty_world) as [u w| | |] eqn:E; [|constructor..].
  eapply built_all; [constructor| |exact E]. unfold ex78_ops. repeat (apply Forall_cons; split; [cbn; eauto|]); apply Forall_nil; done.
Qed.
Theorem C78_nan_refuted : exists (w : world spec_float) b t0 calls, built true w /\ forall m j, exists g s,
  g = ex78_cfg m j /\ g_dbg g = true /\ g_mode g = m /\ compile_model w b = Some (g_tree g) /\
  (forall l, g_iter g l ≡ₚ l) /\ (forall stp, g_stepper g = Some stp -> stepper_rel stp /\ stepper_ok stp) /\
  replay g t0 calls (new_sim (initial_dyn w)) = Ok tt s /\ value (s_store s) 0 = Some (VS j).
Proof.
  exists ex78_world, 0, (nofZ 0), ex78_calls. split; [exact ex78_built|]. intros m j. exists (ex78_cfg m j), (ex78_end m j).
  split; [reflexivity|]. split; [reflexivity|]. split; [reflexivity|]. split; [vm_compute; reflexivity|]. split; [intros l; reflexivity|]. split. { intros stp [= <-]. split; [apply euler_rel|apply euler_ok]. }
  split.
  - change (new_sim (initial_dyn ex78_world)) with ex78_new. assert (is_ok (replay (ex78_cfg m j) (nofZ 0) ex78_calls ex78_new) = true) as E by (destruct m; vm_compute; reflexivity).
    unfold ex78_end. destruct (replay (ex78_cfg m j) (nofZ 0) ex78_calls ex78_new) as [[] s| | |]; [reflexivity|discriminate E..].
  - destruct m; vm_compute; reflexivity.
Qed.
Print Assumptions C78_nan_refuted.

(** After a connect that threw it shows in an ordinary run (the model of C65_refuted): the
    derivatives fill three of the four elements of their array, and the fourth is used. *)
Theorem C78_thrown_refuted : exists (w : world Q) b t0 calls, wreach true w /\ comparable t0 calls /\ forall dbg, exists g j s0 s1 s2 z,
  g_dbg g = dbg /\ compile_model w b = Some (g_tree g) /\ (forall l, g_iter g l ≡ₚ l) /\
  (forall stp, g_stepper g = Some stp -> stepper_rel stp /\ stepper_ok stp) /\ simulated_ok dbg (g_tree g) (initial_dyn w) g s0 /\
  replay g t0 calls s0 = Ok tt s1 /\ replay (with_junk j g) t0 calls s0 = Ok tt s2 /\ value (s_store s2) z ≠ value (s_store s1) z.
Proof.
  exists ex21_world, 0, 0%Q, ex21_calls. split; [eapply wr_exn; [exact ex21_reach1| |exact ex21_throws]; exact I|].
  split. { cbn [comparable ex21_calls]. split; [right; right; vm_compute; reflexivity|exact I]. }
  intros dbg. exists (ex21_cfg dbg), 77%Q, ex21_new, (ex21_end (ex21_cfg dbg)), (ex21_end (with_junk 77%Q (ex21_cfg dbg))), 3.
  split; [reflexivity|]. split; [exact ex21_model|]. split; [intros l; reflexivity|]. split. { intros stp [= <-]. split; [apply euler_rel|apply euler_ok]. }
  split. { apply so_first; [reflexivity|reflexivity|]. intros stp [= <-]. apply euler_rel. }
  split; [apply replay_ends; destruct dbg; vm_compute; reflexivity|]. split; [apply replay_ends; destruct dbg; vm_compute; reflexivity|].
  assert (value (s_store (ex21_end (ex21_cfg dbg))) 3 ≠ None) as Hn by (destruct dbg; vm_compute; intros E; discriminate E).
  intros E. destruct dbg; vm_compute in E; discriminate E.
Qed.
Print Assumptions C78_thrown_refuted.

(** C77 once more: nor do the contents of fresh memory show. *)
Theorem C78_same : forall D `{NumOps D} `{!NumOrd D} `{!NumAdd D} w b (g : cfg D) ins1 ins2 dbg m it j fuel t0 calls s,
  built true w -> checked w b g ins1 ins2 -> checked w b (with_mode m g) ins1 ins2 -> permitted g t0 calls -> (forall l, it l ≡ₚ l) ->
  (forall stp, g_stepper g = Some stp -> stepper_rel stp /\ stepper_ok stp /\ stepper_perm stp /\ stepper_mono stp) -> (g_mode g ≠ m -> g_mode g = MFast \/ m = MFast -> calm w g) ->
  comparable t0 (map (fun '(t, lo, hi) => (fuel, t, lo, hi)) calls) ->
  program g fuel t0 calls (new_sim (initial_dyn w)) = Ok tt s ->
  exists s', program (with_junk j (variant dbg m it g)) fuel t0 calls (new_sim (initial_dyn w)) = Ok tt s' /\ same_results s s'.
Proof.
  intros D ? ? ? w b g ins1 ins2 dbg m it j fuel t0 calls s Hb H1 H2 Hp Hit Hstp Hcalm Hc E.
  destruct (C77_same D w b g ins1 ins2 dbg m it fuel t0 calls s Hb H1 H2 Hp Hit Hstp Hcalm E) as (s1 & E1 & R1). rewrite program_replay in E1.
  destruct (C78_junk D true w b (variant dbg m it g) j (variant dbg m it g) (new_sim (initial_dyn w)) t0 (map (fun '(t, lo, hi) => (fuel, t, lo, hi)) calls) s1) as (s2 & x & y & z & E2 & -> & _);
    [done|apply (cd_tree _ _ _ _ _ H1)|exact Hit|by intros stp Es; split; apply Hstp|by apply so_first; [..|intros stp Es; apply Hstp]|done|exact E1|].
  eexists. split; [rewrite program_replay; exact E2|]. exact R1.
Qed.
Print Assumptions C78_same.
