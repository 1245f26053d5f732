(** Every call of run comes to an end: C34. *)
From stdpp Require Import prelude gmap strings.
From Coq Require Import ZArith Reals Lra.
From Verif Require Import Num NumR NumOrd NumAdd Res Name Store Leaf Sched Stepper Sim World Api SpecSched P_Prog P_Modes P_Eval P_Sim P_Evolve SpecSim P_Simulated
  P_Rel SpecHist SpecRun P_Log P_Run Props_Sched Props_Run P_Term P_World Ex_Models.
Local Open Scope nat_scope.

(** How often the loop is entered at most depends only on the interval, on
    min_time_step and on the factor by which the stepper backs off: with that bound on
    the number of iterations, no run of any simulator on any model is cut off. *)
Theorem C34_terminates : forall tp t lo c : R, (0 < lo -> 0 <= c < 1 -> exists N : nat,
  forall w b (g : cfg R) s hi stp fuel, drives w b g s -> g_dbg g = true -> s_tprev s = tp ->
    g_stepper g = Some stp -> never_hangs stp -> backs_off c stp -> (N <= fuel)%nat ->
    run g fuel t lo hi s ≠ OOF)%R.
Proof.
  intros tp t lo c Hlo Hc.
  assert (exists K : nat, (t - tp) * c ^ K <= lo)%R as [K HK].
  { destruct (Rle_lt_dec (t - tp) 0) as [Hn|Hp].
    { exists 0%nat. cbn. lra. }
    destruct (pow_lt_1_zero c) with (y := (lo / (t - tp))%R) as [K HK].
    { rewrite Rabs_pos_eq; lra. } { by apply Rdiv_lt_0_compat. }
    exists K. specialize (HK K (le_n _)). rewrite Rabs_pos_eq in HK by (apply pow_le; lra).
    apply Rlt_le. apply (Rmult_lt_compat_l (t - tp)) in HK; [|done]. unfold Rdiv in HK.
    replace ((t - tp) * (lo * / (t - tp)))%R with lo in HK by (field; lra). done. }
  assert (exists m : nat, t - tp <= INR m * lo)%R as [m Hm].
  { assert (exists m : nat, INR m > (t - tp) / lo)%R as [m Hm].
    { destruct (archimed ((t - tp) / lo)) as [Ha _]. exists (Z.to_nat (up ((t - tp) / lo))).
      destruct (Z_le_gt_dec 0 (up ((t - tp) / lo))) as [Hz|Hz].
      - rewrite INR_IZR_INZ, Z2Nat.id by done. done.
      - assert (up ((t - tp) / lo) < 0)%Z as Hz' by lia. apply IZR_lt in Hz'.
        pose proof (pos_INR (Z.to_nat (up ((t - tp) / lo)))). lra. }
    exists m. apply Rlt_le. apply (Rmult_gt_compat_r lo) in Hm; [|done].
    unfold Rdiv in Hm. replace ((t - tp) * / lo * lo)%R with (t - tp)%R in Hm by (field; lra). lra. }
  exists (m * (K + 1) + K + 1)%nat.
  intros w b g s hi stp fuel Hd Hg Etp Es Hn Hb Hf.
  pose proof (drives_wf _ _ _ _ Hd) as Hw. pose proof (dr_sim _ _ _ _ Hd) as Hsm. rewrite Hg in Hsm.
  destruct (simulated_cfg _ _ _ _ Hsm) as [_ Hok].
  assert (usable g s) as Hu.
  { intros Em. destruct (simulated_order _ _ _ Hsm Hw Em) as [(? & _)|?]; [by left|by right]. }
  assert (forall A (m : M (simst R) A), sure (usable g) m -> m s ≠ OOF) as Hsure.
  { intros A mm Hs E. specialize (Hs s Hu). by rewrite E in Hs. }
  unfold run, bnd at 1, gets at 1. destruct (s_init s) eqn:Ei; cbn [negb].
  - (* initialised *)
    unfold bnd at 1, gets at 1. unfold bnd at 1, gets at 1. rewrite Etp.
    apply Hsure. apply sure_bnd.
    2:{ intros _. apply sure_bnd; [apply sure_gets|intros sv].
        apply sure_bnd; [apply sure_finite; [done|apply finite_reset|apply pres_reset_sv]|intros _].
        apply sure_bnd; [by apply sure_process|intros _]. by apply sure_modify. }
    destruct (length (s_sv s)); [apply sure_ret|]. destruct (t <? tp)%num eqn:E1; [apply sure_throw|].
    destruct (t =? tp)%num eqn:E2.
    { apply sure_bnd; [apply sure_finite; [done|apply finite_begin|apply pres_begin_step]|intros _].
      apply sure_bnd; [apply sure_gets|intros o].
      apply sure_bnd; [apply sure_finite; [done|apply finite_get_sv|apply pres_get_sv]|intros x]. by apply sure_modify. }
    do 3 (apply sure_bnd; [apply sure_debug|intros _]).
    cbn in E1, E2. rewrite Rltb_false in E1. rewrite Reqb_false in E2.
    apply (sure_loop g Hw t lo hi c (t - tp) K stp Hlo Hc HK Es Hn Hb fuel m K); [done|done|apply Rle_refl|].
    intros Hlt. split; [lra|]. split; [by right|by right].
  - (* the first call *)
    unfold init. destruct (g_mode g) eqn:Em.
    3:{ unfold fast_init. unfold base_init. rewrite Hg.
        assert (forall A (mm : M (simst R) A), (forall s', mm s' ≠ OOF) -> mm s ≠ OOF) as Hx by (intros A mm Hmm; apply Hmm).
        apply Hx. change (finite (bnd (bnd (modify (fun s0 : simst R =>
          let σ := s_store s0 in let all := linked_signals (g_tree g) in
          let scal := List.filter (is_scalar_state σ) all in let arr := List.filter (is_array_state σ) all in
          let n := (length scal + sum_list (map (sig_size σ) arr))%nat in
          Simst (s_dyn s0) (s_po1 s0) (s_po2 s0) (s_cur s0) (s_fast s0) t (s_vsigs s0 ++ g_iter g all) (s_scal s0 ++ g_iter g scal)
            (s_arr s0 ++ g_iter g arr) (resize g n (s_sv s0)) (resize g n (s_svo s0)) (resize g n (s_dv s0)) (s_init s0)))
          (fun _ => bnd clear_all (fun _ => modify (fun s0 => Simst (s_dyn s0) (s_po1 s0) (s_po2 s0) (s_cur s0) (s_fast s0) (s_tprev s0)
             (s_vsigs s0) (s_scal s0) (s_arr s0) (s_sv s0) (s_svo s0) (s_dv s0) true)))) (fun _ =>
            o0 <~ gets s_fast ;; debug_verify true (match o0 with [] => true | _ => false end) EAssert ;;;
            on_core' (inputs g t) ;;; on_core' (pre_step true (g_tree g) t ;;; snap (EvBegin t)) ;;;
            r <~ on_core' (fast_schedule true (leaves (g_tree g)) t) ;;
            modify (fun s => put_fast (s_fast s ++ fst r) s) ;;;
            verify (Nat.eqb (snd r) (length (leaves (g_tree g)))) EFast ;;;
            on_core' (snap (EvEval t)) ;;; clear_all ;;; process_model g t true true))).
        apply finite_bnd; [apply finite_bnd; [done|intros _; apply finite_bnd; [apply finite_clear_all|done]]|intros _].
        apply finite_bnd; [done|intros o0]. apply finite_bnd; [by destruct o0|intros _].
        apply finite_bnd; [do 2 apply finite_lift; apply finite_inputs|intros _].
        apply finite_bnd; [do 2 apply finite_lift; apply finite_bnd; [apply finite_pre|done]|intros _].
        apply finite_bnd; [do 2 apply finite_lift; intros x; by apply C17_fast|intros r].
        apply finite_bnd; [done|intros _]. apply finite_bnd; [by destruct (_ =? _)|intros _]. apply finite_bnd; [done|intros _].
        apply finite_bnd; [apply finite_clear_all|intros _].
        intros x E. assert (usable g x) as Hux by (intros E'; congruence). pose proof (sure_process g Hw t true true x Hux) as Hp. by rewrite E in Hp. }
    all: apply Hsure; unfold simulator_init; apply sure_bnd.
    1,3: intros s0 Hs0; unfold base_init, bnd, modify;
      pose proof (finite_clear_all (D:=R)) as Hfc;
      match goal with |- context [clear_all ?x] => specialize (Hfc x); pose proof (pres_clear_all g x) as Hpc; destruct (clear_all x); try done end;
      intros E'; (destruct (Hs0 E') as [Hc0|Ho0]; [left; by apply (ev_none _ _ _ Hpc)|right; by apply (ev_ord _ _ _ Hpc)]).
    all: intros _; apply sure_bnd; [apply sure_gets|intros n]; rewrite Em; (apply sure_bnd; [|intros _; by apply sure_process]).
    + apply sure_ret.
    + destruct n; [apply sure_ret|]. rewrite Hg. intros s0 Hs0. unfold bnd, gets, debug_verify, verify, ret, throw, modify.
      destruct (s_po1 s0) as [|n1 p1] eqn:E1; [|done]. destruct (s_po2 s0) eqn:E2; [|done].
      intros _. right. unfold ordered, remembered. rewrite Em. cbn. exists (nodes (g_tree g)). split; [by rewrite E1|]. by apply covers_perm.
Qed.
Print Assumptions C34_terminates.
(** The steppers of the library qualify. *)
Theorem C34_steppers :
  (forall c, never_hangs (D:=R) euler /\ backs_off c euler) /\ (forall c, never_hangs (D:=R) rk4 /\ backs_off c rk4) /\
  never_hangs (D:=R) rkf45 /\ backs_off (1/2) rkf45.
Proof.
  split_and!; [intros c; split; [apply euler_ends|apply euler_suggests]|intros c; split; [apply rk4_ends|apply rk4_suggests]|apply rkf45_ends|apply rkf45_suggests].
Qed.
Print Assumptions C34_steppers.

(** The number of accepted sub-steps. *)
Theorem C34_accepted : forall (g : cfg R) s t lo hi s' v, later_run g s t lo hi s' v -> (0 < lo)%R ->
  (INR (length (accepted_ends v)) <= (t - s_tprev s) / lo + 1)%R.
Proof.
  intros g s t lo hi s' v Hl Hlo. assert ((s_tprev s <? t)%num = true) as Ht by apply Hl.
  destruct (later_walk _ _ _ _ _ _ _ Hl) as (Hd & Ep & w & tl & -> & Hw & Htl).
  pose proof (walk_plan _ _ _ _ tl Htl _ _ _ _ Hw) as Hpl.
  assert (forall t1 t2 force A, plan t lo hi t1 t2 force A ->
    (t1 < t -> t1 < t2 <= t /\ (lo <= t2 - t1 \/ t2 = t) -> INR (length (map at_to (List.filter at_ok A))) * lo <= t - t1 + lo)%R) as Hcount.
  2:{ cbn in Ht. rewrite Rltb_true in Ht. specialize (Hcount _ _ _ _ Hpl Ht). unfold accepted_ends.
      apply (Rmult_le_reg_r lo); [done|]. unfold Rdiv. rewrite Rmult_plus_distr_r, Rmult_assoc, Rinv_l, Rmult_1_r, Rmult_1_l by lra.
      apply Hcount. split; [lra|by right]. }
  clear -Hlo. induction 1 as [t1 t2 force Ht|t1 t2 force x rest Ht Ha Hp IH|t1 t2 force x rest Ht Ha Hp IH]; intros Hlt [Hb Hlong].
  - cbn. lra.
  - cbn [List.filter at_ok map length]. rewrite S_INR.
    assert (lo <= clip lo hi x)%R as Hcl.
    { pose proof (clip_ge lo hi x) as E. cbn in E. by rewrite Rleb_true in E. }
    destruct (Rlt_dec t2 t) as [Hlt2|Hge].
    + specialize (IH Hlt2). assert (INR (length (map at_to (List.filter at_ok rest))) * lo <= t - t2 + lo)%R as Hr.
      { apply IH. unfold nmin. cbn. destruct (Rltb t (t2 + clip lo hi x)) eqn:E; rewrite ?Rltb_true, ?Rltb_false in *; split; [lra|by right|lra|left; lra]. }
      lra.
    + inversion Hp as [? ? ? E|? ? ? ? ? E|? ? ? ? ? E]; subst; [cbn; lra|..]; exfalso; cbn in E; rewrite Rltb_true in E; lra.
  - cbn [List.filter at_ok]. apply IH; [done|]. apply reject_lt in Ha as (_ & Hx & Hl). cbn in Hx, Hl. rewrite Rltb_true in Hx, Hl.
    assert (lo <= clip lo hi x)%R as Hcl.
    { pose proof (clip_ge lo hi x) as E. cbn in E. by rewrite Rleb_true in E. }
    assert (clip lo hi x < t2 - t1)%R as Hcl2.
    { pose proof (clip_lt lo hi x (t2 - t1)%R) as E. cbn in E. rewrite !Rltb_true in E. by apply E. }
    cbn. split; [lra|left; lra].
Qed.
Print Assumptions C34_accepted.

(** A model over the real numbers, initialised: x' = 2 x, x(0) = 1, method RKF45. *)
Definition exr_ops : list (wop R) :=
  [ ONewSig KScalar "x"; ONewSig KScalar "y"; ONewBus [0] ""; ONewBus [1] "";
    ONewBlock CSubmodel LNone None "root" NoIOLimit NoIOLimit;
    ONewBlock (CInteg TyD) (LInteg (VS 1%R) false) (Some 0) "int" 1 1;
    ONewBlock (CGain TyD (VS 2%R)) LNone (Some 0) "gain" 1 1;
    OConnect 1 3 2; OConnect 2 2 3 ].
Definition exr_world : world R := world_of true exr_ops.
Definition exr_tree : tree R := default (TSub 0 [] []) (compile_model exr_world 0).
Definition exr_cfg : cfg R := Cfg true MDefault exr_tree None (fun _ => PRet tt) (Some rkf45) (fun x => x) 0%R.
Definition exr_0 : simst R := st_of (new_sim (initial_dyn exr_world)) (init exr_cfg 0%R (new_sim (initial_dyn exr_world))).
Example C34_ex : drives exr_world 0 exr_cfg exr_0 /\ s_init exr_0 = true /\ length (s_sv exr_0) = 1 /\
  never_hangs (D:=R) rkf45 /\ backs_off (1/2) rkf45.
Proof.
  split_and!; [|vm_compute; reflexivity|vm_compute; reflexivity|apply rkf45_ends|apply rkf45_suggests].
  assert (wreach true exr_world) as Hr by (reach_ops exr_world exr_ops).
  split; [by exists true|vm_compute; reflexivity|].
  eapply (sm_init _ _ _ (new_sim (initial_dyn exr_world)) 0%R); [apply sm_first; [done|]|].
  - intros stp [= <-]. apply rkf45_ok.
  - unfold exr_0. destruct (init exr_cfg 0%R (new_sim (initial_dyn exr_world))) as [[] s'|? ?|?|] eqn:E; [done|..];
      exfalso; apply (f_equal is_ok) in E; vm_compute in E; discriminate E.
Qed.
