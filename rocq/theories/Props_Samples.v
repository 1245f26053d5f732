(** Property C73: simulations of sample programs converge to the solutions of their
    differential equations. *)
From stdpp Require Import prelude gmap strings.
From Coq Require Import ZArith QArith Reals Lra Qreals Psatz.
From Verif Require Import Num NumQ NumR NumOrd NumAdd Res Name Store Leaf Sched Stepper Sim World Api SpecSched P_Store P_Prog P_Lib P_World P_Compile P_Simulated P_Evolve P_Rel P_Rel2 SpecHist P_Trace SpecBlock Ex_Models
  SpecRun P_Log P_Run Props_Run P_Pack P_Grow P_Again P_Repeat Props_Pack SpecRK P_RK SpecAgain P_Over P_Redo Props_Again SpecField P_Field P_FieldRun P_Posed P_Path Props_Field SpecConv P_Conv Props_Conv SpecLin P_Lin Props_Lin
  SpecOrd P_Ord P_Ord2 P_Ord3 Props_Ord SpecSmooth P_Tame P_Tame2 P_Tame3 P_Smooth Props_Smooth SpecDiag P_Diag P_Diag2 Props_Diag Samples Samples2 Samples3 Samples4.
Local Open Scope nat_scope.
Local Open Scope R_scope.


(** The position [x] and the speed [v] of a mass on a spring. *)
Definition spring_solution (x0 v0 k : R) (x v : R -> R) (T : R) : Prop :=
  x 0 = x0 /\ v 0 = v0 /\ forall t, 0 <= t <= T -> derivable_pt_lim x t (v t) /\ derivable_pt_lim v t (k * x t).
Theorem C73_spring : forall meth x0 v0 k x v T, 0 <= T -> spring_solution x0 v0 k x v T ->
  exists K H0, 0 <= K /\ 0 < H0 /\ forall s' H, 0 <= H <= H0 -> advance (sp_cfg x0 v0 k meth) H (sp_0 x0 v0 k meth) s' -> s_tprev s' <= T ->
    exists a0 a1, value (s_store s') 0%nat = Some (VS a0) /\ value (s_store s') 1%nat = Some (VS a1) /\
      Rabs (a0 - x (s_tprev s')) <= K * H ^ order_of meth /\
      Rabs (a1 - v (s_tprev s')) <= K * H ^ order_of meth.
Proof.
  intros meth x0 v0 k x v T  HT (I0 & I1 & Hsol).
  pose proof (sp_session x0 v0 k meth) as Hses. destruct (sp_facts x0 v0 k meth) as (F1 & F2 & F3 & F4 & F5 & F6).
  pose proof (sp_layout x0 v0 k meth) as El. pose proof (sp_diagram x0 v0 k meth) as Hd.
  assert (g_dbg (sp_cfg x0 v0 k meth) = true) as Eg by reflexivity. assert (g_stepper (sp_cfg x0 v0 k meth) = Some (stp_of meth)) as Es by reflexivity.
  revert Hses F1 F2 F3 F4 F5 F6 El Hd Eg Es. generalize (sp_world x0 v0 k) (sp_cfg x0 v0 k meth) (sp_0 x0 v0 k meth).
  intros w g s Hses F1 F2 F3 F4 F5 F6 El Hd Eg Es. rewrite <- El in Hd.
  destruct (C73_order meth w 0 g s (fun _ => LNone) (sp_env k) [1; 2]%nat (fun t => [x t; v t]) 0 T) as (K & H0 & HK & HH & Hall); try done.
  - intros t Ht. rewrite El. split; [done|]. intros i Hi. cbn in Hi. destruct (Hsol t Ht) as (S1 & S2). destruct i as [|[|i]]; [ |  | lia]; cbn.
    + exact S1.
    + exact S2.
  - rewrite El. intros s0 e He. unfold sp_env in He. cbn in He. repeat (apply elem_of_cons in He as [[= -> ->]|He]); [..|by apply elem_of_nil in He]; cbn; try done.

  - rewrite F6, I0, I1. done.
  - exists K, H0. split; [done|]. split; [done|]. intros s' H Hh Ha Hle'. specialize (Hall s' H Hh Ha Hle').
    destruct (Hall 0%nat 0%nat) as (a0 & A0 & B0); [by rewrite El|].
    destruct (Hall 1%nat 1%nat) as (a1 & A1 & B1); [by rewrite El|].
    exists a0, a1. split_and!; done.
Qed.
Print Assumptions C73_spring.

(** The angle [θ] and the speed [ω] of a pendulum with a torque. *)
Definition torque_solution (θ0 ω0 ma le ga ta : R) (θ ω : R -> R) (T : R) : Prop :=
  θ 0 = θ0 /\ ω 0 = ω0 /\ forall t, 0 <= t <= T -> derivable_pt_lim θ t (ω t) /\ derivable_pt_lim ω t (ta / (ma * le ^ 2) - ga / le * sin (θ t)).
Theorem C73_torque : forall meth θ0 ω0 ma le ga ta θ ω T, ma <> 0 -> le <> 0 -> 0 <= T -> torque_solution θ0 ω0 ma le ga ta θ ω T ->
  exists K H0, 0 <= K /\ 0 < H0 /\ forall s' H, 0 <= H <= H0 -> advance (tq_cfg θ0 ω0 ma le ga ta meth) H (tq_0 θ0 ω0 ma le ga ta meth) s' -> s_tprev s' <= T ->
    exists a0 a1, value (s_store s') 4%nat = Some (VS a0) /\ value (s_store s') 5%nat = Some (VS a1) /\
      Rabs (a0 - θ (s_tprev s')) <= K * H ^ order_of meth /\
      Rabs (a1 - ω (s_tprev s')) <= K * H ^ order_of meth.
Proof.
  intros meth θ0 ω0 ma le ga ta θ ω T Hma Hle HT (I0 & I1 & Hsol).
  pose proof (tq_session θ0 ω0 ma le ga ta meth) as Hses. destruct (tq_facts θ0 ω0 ma le ga ta meth) as (F1 & F2 & F3 & F4 & F5 & F6).
  pose proof (tq_layout θ0 ω0 ma le ga ta meth) as El. pose proof (tq_diagram θ0 ω0 ma le ga ta meth) as Hd.
  assert (g_dbg (tq_cfg θ0 ω0 ma le ga ta meth) = true) as Eg by reflexivity. assert (g_stepper (tq_cfg θ0 ω0 ma le ga ta meth) = Some (stp_of meth)) as Es by reflexivity.
  revert Hses F1 F2 F3 F4 F5 F6 El Hd Eg Es. generalize (tq_world θ0 ω0) (tq_cfg θ0 ω0 ma le ga ta meth) (tq_0 θ0 ω0 ma le ga ta meth).
  intros w g s Hses F1 F2 F3 F4 F5 F6 El Hd Eg Es. rewrite <- El in Hd.
  destruct (C73_order meth w 0 g s (fun _ => LNone) (tq_env ma le ga ta) [5; 6]%nat (fun t => [θ t; ω t]) 0 T) as (K & H0 & HK & HH & Hall); try done.
  - intros t Ht. rewrite El. split; [done|]. intros i Hi. cbn in Hi. destruct (Hsol t Ht) as (S1 & S2). destruct i as [|[|i]]; [ |  | lia]; cbn.
    + exact S1.
    + replace (ta / (1 * ma * le * le) - 1 * sin (θ t) * ga / le) with (ta / (ma * le ^ 2) - ga / le * sin (θ t)) by (field; done). exact S2.
  - rewrite El. intros s0 e He. unfold tq_env in He. cbn in He. repeat (apply elem_of_cons in He as [[= -> ->]|He]); [..|by apply elem_of_nil in He]; cbn; try done.
    + split; [done|]. exists (fun _ => True). split_and!; [by exists (mkposreal 1 Rlt_0_1)|exact smooth_sin|done].
    + split; [done|]. split; [done|]. intros t _. rewrite Rmult_1_l. repeat apply Rmult_integral_contrapositive_currified; done.
  - rewrite F6, I0, I1. done.
  - exists K, H0. split; [done|]. split; [done|]. intros s' H Hh Ha Hle'. specialize (Hall s' H Hh Ha Hle').
    destruct (Hall 0%nat 4%nat) as (a0 & A0 & B0); [by rewrite El|].
    destruct (Hall 1%nat 5%nat) as (a1 & A1 & B1); [by rewrite El|].
    exists a0, a1. split_and!; done.
Qed.
Print Assumptions C73_torque.

(** The angle [θ], the speed [ω] and the integral [y] of the error of a pendulum with a PI
    controller. *)
Definition pi_solution (θ0 ω0 i0 kp ki ma le ga de : R) (θ ω y : R -> R) (T : R) : Prop :=
  θ 0 = θ0 /\ ω 0 = ω0 /\ y 0 = i0 /\ forall t, 0 <= t <= T -> derivable_pt_lim θ t (ω t) /\ derivable_pt_lim y t (de - θ t) /\
    derivable_pt_lim ω t ((kp * (de - θ t) + ki * y t) / (ma * le ^ 2) - ga / le * sin (θ t)).
Theorem C73_pi : forall meth θ0 ω0 i0 kp ki ma le ga de θ ω y T, ma <> 0 -> le <> 0 -> 0 <= T -> pi_solution θ0 ω0 i0 kp ki ma le ga de θ ω y T ->
  exists K H0, 0 <= K /\ 0 < H0 /\ forall s' H, 0 <= H <= H0 -> advance (pi_cfg θ0 ω0 i0 kp ki ma le ga de meth) H (pi_0 θ0 ω0 i0 kp ki ma le ga de meth) s' -> s_tprev s' <= T ->
    exists a0 a1 a2, value (s_store s') 4%nat = Some (VS a0) /\ value (s_store s') 24%nat = Some (VS a1) /\ value (s_store s') 12%nat = Some (VS a2) /\
      Rabs (a0 - θ (s_tprev s')) <= K * H ^ order_of meth /\
      Rabs (a1 - ω (s_tprev s')) <= K * H ^ order_of meth /\
      Rabs (a2 - y (s_tprev s')) <= K * H ^ order_of meth.
Proof.
  intros meth θ0 ω0 i0 kp ki ma le ga de θ ω y T Hma Hle HT (I0 & I1 & I2 & Hsol).
  pose proof (pi_session θ0 ω0 i0 kp ki ma le ga de meth) as Hses. destruct (pi_facts θ0 ω0 i0 kp ki ma le ga de meth) as (F1 & F2 & F3 & F4 & F5 & F6).
  pose proof (pi_layout θ0 ω0 i0 kp ki ma le ga de meth) as El. pose proof (pi_diagram θ0 ω0 i0 kp ki ma le ga de meth) as Hd.
  assert (g_dbg (pi_cfg θ0 ω0 i0 kp ki ma le ga de meth) = true) as Eg by reflexivity. assert (g_stepper (pi_cfg θ0 ω0 i0 kp ki ma le ga de meth) = Some (stp_of meth)) as Es by reflexivity.
  revert Hses F1 F2 F3 F4 F5 F6 El Hd Eg Es. generalize (pi_world θ0 ω0 i0 kp ki) (pi_cfg θ0 ω0 i0 kp ki ma le ga de meth) (pi_0 θ0 ω0 i0 kp ki ma le ga de meth).
  intros w g s Hses F1 F2 F3 F4 F5 F6 El Hd Eg Es. rewrite <- El in Hd.
  destruct (C73_order meth w 0 g s (fun _ => LNone) (pi_env kp ki ma le ga de) [24; 29; 6]%nat (fun t => [θ t; ω t; y t]) 0 T) as (K & H0 & HK & HH & Hall); try done.
  - intros t Ht. rewrite El. split; [done|]. intros i Hi. cbn in Hi. destruct (Hsol t Ht) as (S1 & S2 & S3). destruct i as [|[|[|i]]]; [ |  |  | lia]; cbn.
    + exact S1.
    + replace ((0 + kp * (de - θ t) + ki * y t) / (1 * ma * le * le) - 1 * sin (θ t) * ga / le) with ((kp * (de - θ t) + ki * y t) / (ma * le ^ 2) - ga / le * sin (θ t)) by (field; done). exact S3.
    + exact S2.
  - rewrite El. intros s0 e He. unfold pi_env in He. cbn in He. repeat (apply elem_of_cons in He as [[= -> ->]|He]); [..|by apply elem_of_nil in He]; cbn; try done.
    + split; [done|]. split; [done|]. intros t _. rewrite Rmult_1_l. repeat apply Rmult_integral_contrapositive_currified; done.
    + split; [done|]. exists (fun _ => True). split_and!; [by exists (mkposreal 1 Rlt_0_1)|exact smooth_sin|done].
  - rewrite F6, I0, I1, I2. done.
  - exists K, H0. split; [done|]. split; [done|]. intros s' H Hh Ha Hle'. specialize (Hall s' H Hh Ha Hle').
    destruct (Hall 0%nat 4%nat) as (a0 & A0 & B0); [by rewrite El|].
    destruct (Hall 1%nat 24%nat) as (a1 & A1 & B1); [by rewrite El|].
    destruct (Hall 2%nat 12%nat) as (a2 & A2 & B2); [by rewrite El|].
    exists a0, a1, a2. split_and!; done.
Qed.
Print Assumptions C73_pi.

(** The position [x] and the speed [v] of a mass on a spring with a damper under the force
    [u]. *)
Definition damper_solution (ma k c x0 v0 : R) (u : R -> R) (x v : R -> R) (T : R) : Prop :=
  v 0 = v0 /\ x 0 = x0 /\ forall t, 0 <= t <= T -> derivable_pt_lim v t (u t / ma - c / ma * v t - k / ma * x t) /\ derivable_pt_lim x t (v t).
Theorem C73_damper : forall meth ma k c x0 v0 u x v T, ma <> 0 -> (exists U, open_set U /\ smooth_on U u /\ forall t, 0 <= t <= T -> U t) -> 0 <= T -> damper_solution ma k c x0 v0 u x v T ->
  exists K H0, 0 <= K /\ 0 < H0 /\ forall s' H, 0 <= H <= H0 -> advance (dm_cfg ma k c x0 v0 u meth) H (dm_0 ma k c x0 v0 u meth) s' -> s_tprev s' <= T ->
    exists a0 a1, value (s_store s') 2%nat = Some (VS a0) /\ value (s_store s') 1%nat = Some (VS a1) /\
      Rabs (a0 - v (s_tprev s')) <= K * H ^ order_of meth /\
      Rabs (a1 - x (s_tprev s')) <= K * H ^ order_of meth.
Proof.
  intros meth ma k c x0 v0 u x v T Hma (U & HU & Hu & Hin) HT (I0 & I1 & Hsol).
  pose proof (dm_session ma k c x0 v0 u meth) as Hses. destruct (dm_facts ma k c x0 v0 u meth) as (F1 & F2 & F3 & F4 & F5 & F6).
  pose proof (dm_layout ma k c x0 v0 u meth) as El. pose proof (dm_diagram ma k c x0 v0 u meth) as Hd.
  assert (g_dbg (dm_cfg ma k c x0 v0 u meth) = true) as Eg by reflexivity. assert (g_stepper (dm_cfg ma k c x0 v0 u meth) = Some (stp_of meth)) as Es by reflexivity.
  revert Hses F1 F2 F3 F4 F5 F6 El Hd Eg Es. generalize (dm_world ma k c x0 v0) (dm_cfg ma k c x0 v0 u meth) (dm_0 ma k c x0 v0 u meth).
  intros w g s Hses F1 F2 F3 F4 F5 F6 El Hd Eg Es. rewrite <- El in Hd.
  destruct (C73_order meth w 0 g s (fun _ => LUser []) (dm_env ma k c u) [3; 2]%nat (fun t => [v t; x t]) 0 T) as (K & H0 & HK & HH & Hall); try done.
  - intros t Ht. rewrite El. split; [done|]. intros i Hi. cbn in Hi. destruct (Hsol t Ht) as (S1 & S2). destruct i as [|[|i]]; [ |  | lia]; cbn.
    + exact S1.
    + exact S2.
  - rewrite El. intros s0 e He. unfold dm_env in He. cbn in He. repeat (apply elem_of_cons in He as [[= -> ->]|He]); [..|by apply elem_of_nil in He]; cbn; try done.
    + split; [done|]. exists U. done.
  - rewrite F6, I0, I1. done.
  - exists K, H0. split; [done|]. split; [done|]. intros s' H Hh Ha Hle'. specialize (Hall s' H Hh Ha Hle').
    destruct (Hall 0%nat 2%nat) as (a0 & A0 & B0); [by rewrite El|].
    destruct (Hall 1%nat 1%nat) as (a1 & A1 & B1); [by rewrite El|].
    exists a0, a1. split_and!; done.
Qed.
Print Assumptions C73_damper.

(** ** The hypotheses are met: the spring of the sample, with its parameters. *)
Lemma deriv_scal (f : R -> R) a t l : derivable_pt_lim f t l -> derivable_pt_lim (fun τ => a * f τ) t (a * l).
Proof. apply derivable_pt_lim_scal. Qed.
Definition sp_to (t1 t : R) (s : simst R) : simst R := st_of s (rk4_run (sp_cfg 0 (1/10) (-(1)) SRk4) t1 t s).
Lemma sp_2 u : is_ok (rk4_run (sp_cfg 0 (1/10) (-(1)) SRk4) 0 u (sp_0 0 (1/10) (-(1)) SRk4)) = true /\
  is_ok (rk4_run (sp_cfg 0 (1/10) (-(1)) SRk4) u (2 * u) (sp_to 0 u (sp_0 0 (1/10) (-(1)) SRk4))) = true.
Proof. split; vm_compute; reflexivity. Qed.
Example C73_ex : (forall T, spring_solution 0 (1/10) (-(1)) (fun t => 1/10 * sin t) (fun t => 1/10 * cos t) T) /\
  let g := sp_cfg 0 (1/10) (-(1)) SRk4 in let s := sp_0 0 (1/10) (-(1)) SRk4 in
  forall u, 0 < u -> exists s1 s2, advance g u s s1 /\ s_tprev s1 = u /\ advance g u s s2 /\ s_tprev s2 = 2 * u.
Proof.
  split.
  - intros T. split_and!; [rewrite sin_0; lra|rewrite cos_0; lra|]. intros t _. split.
    + apply deriv_scal, derivable_pt_lim_sin.
    + replace (-(1) * (1/10 * sin t)) with (1/10 * - sin t) by lra. apply deriv_scal, derivable_pt_lim_cos.
  - cbv zeta. intros u Hu. destruct (sp_2 u) as [E1 E2]. apply ok_rk4 in E1, E2. set (g := sp_cfg 0 (1/10) (-(1)) SRk4) in *. set (s := sp_0 0 (1/10) (-(1)) SRk4) in *.
    exists (sp_to 0 u s), (sp_to u (2 * u) (sp_to 0 u s)).
    assert (s_tprev s = 0) as E0 by (vm_compute; reflexivity). assert (s_tprev (sp_to 0 u s) = u) as Ep by (vm_compute; reflexivity).
    assert (run g 1 u (u / 2) u s = Ok tt (sp_to 0 u s)) as R1.
    { rewrite run_rk4; [rewrite E0; exact E1|reflexivity|vm_compute; reflexivity|exists 1%nat; vm_compute; reflexivity|rewrite E0; lra|lra|lra]. }
    assert (run g 1 (2 * u) (u / 2) u (sp_to 0 u s) = Ok tt (sp_to u (2 * u) (sp_to 0 u s))) as R2.
    { rewrite run_rk4; [rewrite Ep; exact E2|reflexivity|vm_compute; reflexivity|exists 1%nat; vm_compute; reflexivity|rewrite Ep; lra|lra|lra]. }
    split. { eapply adv_run; [| |exact R1|constructor]; rewrite E0; lra. }
    split; [exact Ep|].
    split. { eapply adv_run; [| |exact R1|]; [rewrite E0; lra|rewrite E0; lra|]. eapply adv_run; [| |exact R2|constructor]; rewrite Ep; lra. }
    vm_compute; reflexivity.
Qed.
