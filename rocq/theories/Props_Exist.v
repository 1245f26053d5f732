(** Property C74: the differential equation of a diagram has exactly one solution, so the
    sample programs have something to converge to. *)
From stdpp Require Import prelude gmap strings.
From Coq Require Import ZArith QArith Reals Lra Qreals Psatz.
From Verif Require Import Num NumQ NumR NumOrd NumAdd Res Name Store Leaf Sched Stepper Sim World Api SpecSched P_Store P_Prog P_Lib P_World P_Compile P_Simulated P_Evolve P_Rel P_Rel2 SpecHist P_Trace SpecBlock Ex_Models
  SpecRun P_Log P_Run Props_Run P_Pack P_Grow P_Again P_Repeat Props_Pack SpecRK P_RK SpecAgain P_Over P_Redo Props_Again SpecField P_Field P_FieldRun P_Posed P_Path Props_Field SpecConv P_Conv Props_Conv SpecLin P_Lin Props_Lin
  SpecOrd P_Ord P_Ord2 P_Ord3 Props_Ord SpecSmooth P_Tame P_Tame2 P_Tame3 P_Smooth Props_Smooth SpecDiag P_Diag P_Diag2 Props_Diag Samples Samples2 Samples3 Samples4 Props_Samples P_Picard SpecExist P_Exist.
Local Open Scope nat_scope.
Local Open Scope R_scope.

(** A gentle diagram has a solution from every initial value, over every time, ... *)
Theorem C74_exists : forall env zs ds t0 T x0, t0 <= T -> gentle_diagram env zs t0 T -> length x0 = length zs ->
  exists φ, follows env zs ds φ t0 T /\ φ t0 = x0.
Proof. intros env zs ds t0 T x0 HT Hg Hx. by apply solution_exists. Qed.
Print Assumptions C74_exists.
(** ... and only one. *)
Theorem C74_unique : forall env zs ds t0 T φ φ', t0 <= T -> gentle_diagram env zs t0 T ->
  follows env zs ds φ t0 T -> follows env zs ds φ' t0 T -> φ t0 = φ' t0 -> forall t, t0 <= t <= T -> φ t = φ' t.
Proof. intros env zs ds t0 T φ φ' HT Hg. by apply solution_unique. Qed.
Print Assumptions C74_unique.

(** A simulation of a gentle diagram from any state in which the states have values comes
    as close as the order of the method promises to the one solution. *)
Theorem C74_order : forall meth w b (g : cfg R) s mem env ds t0 T, t0 <= T ->
  session_of w b g s -> g_dbg g = true -> (forall l, l ∈ leaves (g_tree g) -> steady_class l) -> derivs_fit (initial_store w) ->
  g_stepper g = Some (stp_of meth) -> (forall z, z ∈ layout s -> integral g z) -> s_sv s ≠ [] ->
  diagram (initial_store w) g mem env (layout s) ds -> gentle_diagram env (layout s) t0 T ->
  (forall φ, follows env (layout s) ds φ t0 T -> fine_along env (layout s) φ t0 T) ->
  s_tprev s = t0 -> (forall z, z ∈ layout s -> exists v, value (s_store s) z = Some v) ->
  exists φ K H0, follows env (layout s) ds φ t0 T /\ φ t0 = pack (s_store s) (layout s) /\ 0 <= K /\ 0 < H0 /\
    forall s' H, 0 <= H <= H0 -> advance g H s s' -> s_tprev s' <= T ->
    forall i z, layout s !! i = Some z -> exists a, value (s_store s') z = Some (VS a) /\ Rabs (a - nth i (φ (s_tprev s')) 0) <= K * H ^ order_of meth.
Proof.
  intros meth w b g s mem env ds t0 T HT Hs Hg Hst Hfit Es Hint Hn Hd Hge Hfine Htp Hval.
  assert (forall z, z ∈ layout s -> exists c, initial_store w !! z = Some c /\ c_kind c = KScalar) as Hsc. { intros z Hz. apply (dg_scalar _ _ _ _ _ _ Hd), elem_of_app. by left. }
  assert (length (pack (s_store s) (layout s)) = length (layout s)) as Hlen.
  { assert (forall z, z ∈ layout s -> exists a, value (s_store s) z = Some (VS a)) as Hv.
    { intros z Hz. destruct (Hval z Hz) as (v & Hv). destruct (session_scalar _ _ _ _ z v Hs Hg (Hsc z Hz) Hv) as (a & ->). by exists a. }
    clear -Hv. induction (layout s) as [|z zs IH]; [done|]. destruct (Hv z (elem_of_list_here _ _)) as (a & Ha). rewrite pack_cons, Ha. cbn. f_equal. apply IH.
    intros z' Hz'. apply Hv. by apply elem_of_list_further. }
  destruct (C74_exists env (layout s) ds t0 T (pack (s_store s) (layout s)) HT Hge Hlen) as (φ & Hf & H0).
  destruct (C73_order meth w b g s mem env ds φ t0 T) as (K & H1 & HK & HH & Hall); try done; [by apply Hfine|].
  exists φ, K, H1. done.
Qed.
Print Assumptions C74_order.

(** ** The equations of the sample programs *)
Lemma sloped_sin : sloped sin.
Proof.
  exists 1. split; [lra|]. intros a b. rewrite Rmult_1_l.
  assert (forall a b, a < b -> Rabs (sin b - sin a) <= Rabs (b - a)) as H.
  { clear. intros a b Hab. destruct (MVT_cor2 sin cos a b Hab) as (c & Hc & _); [intros; apply derivable_pt_lim_sin|]. rewrite Hc, Rabs_mult.
    rewrite <- (Rmult_1_l (Rabs (b - a))) at 2. apply Rmult_le_compat_r; [apply Rabs_pos|]. apply Rabs_le. pose proof (COS_bound c). lra. }
  destruct (Rtotal_order a b) as [Hl|[-> |Hl]].
  - rewrite (Rabs_minus_sym (sin a)), (Rabs_minus_sym a). by apply H.
  - rewrite !Rminus_eq_0. lra.
  - by apply H.
Qed.
Lemma only_b fs e : forallb (fun s => bool_decide (s ∈ fs)) (expr_sigs e) = true -> only fs e.
Proof. intros H s Hs. rewrite forallb_forall in H. apply elem_of_list_In, H, bool_decide_eq_true_1 in Hs. done. Qed.

(** Decides the conditions of [gentle_diagram] that are about which signals are used. *)
Ltac gentle_sigs := cbn [gentle_all gentle app]; split_and!; try done; try (intros; set_solver);
  try (left; exact sloped_sin); try (left; by apply only_b); try (right; by apply only_b); try (by apply only_b).
Lemma prod3 a b : a <> 0 -> b <> 0 -> 1 * a * b * b <> 0.
Proof. intros Ha Hb. rewrite Rmult_1_l. repeat apply Rmult_integral_contrapositive_currified; done. Qed.

(** Two equations for two functions, and three for three. *)
Definition system2 (f0 f1 : R -> R -> R -> R) (a0 b0 T : R) (x y : R -> R) : Prop :=
  x 0 = a0 /\ y 0 = b0 /\ forall t, 0 <= t <= T -> derivable_pt_lim x t (f0 t (x t) (y t)) /\ derivable_pt_lim y t (f1 t (x t) (y t)).
Lemma exact2 env zs ds T f0 f1 a0 b0 : 0 <= T -> length zs = 2%nat -> gentle_diagram env zs 0 T ->
  (forall t a b, 0 <= t <= T -> rhs env zs ds t [a; b] = [f0 t a b; f1 t a b]) ->
  exists x y, system2 f0 f1 a0 b0 T x y /\ forall x' y', system2 f0 f1 a0 b0 T x' y' -> forall t, 0 <= t <= T -> x' t = x t /\ y' t = y t.
Proof.
  intros HT Hl Hg Hr. destruct (C74_exists env zs ds 0 T [a0; b0] HT Hg) as (φ & Hf & H0); [by rewrite Hl|].
  assert (forall t, 0 <= t <= T -> φ t = [nth 0 (φ t) 0; nth 1 (φ t) 0]) as Hφ.
  { intros t Ht. destruct (Hf t Ht) as [Hn _]. rewrite Hl in Hn. destruct (φ t) as [|? [|? [|? ?]]]; done. }
  exists (fun t => nth 0 (φ t) 0), (fun t => nth 1 (φ t) 0). split.
  - unfold system2. rewrite H0. split_and!; [done|done|]. intros t Ht. destruct (Hf t Ht) as [_ Hd]. rewrite Hl in Hd. rewrite (Hφ t Ht), (Hr t _ _ Ht) in Hd.
    split; [apply (Hd 0%nat); lia|apply (Hd 1%nat); lia].
  - intros x' y' (A & B & Hd) t Ht. assert (φ t = [x' t; y' t]) as E.
    { apply (C74_unique env zs ds 0 T φ (fun t => [x' t; y' t]) HT Hg Hf); [|by rewrite H0, A, B|done]. intros u Hu. rewrite Hl. split; [done|].
      intros i Hi. rewrite (Hr u _ _ Hu). destruct (Hd u Hu) as [D0 D1]. destruct i as [|[|i]]; [exact D0|exact D1|lia]. }
    by rewrite E.
Qed.
Definition system3 (f0 f1 f2 : R -> R -> R -> R -> R) (a0 b0 c0 T : R) (x y z : R -> R) : Prop :=
  x 0 = a0 /\ y 0 = b0 /\ z 0 = c0 /\ forall t, 0 <= t <= T -> derivable_pt_lim x t (f0 t (x t) (y t) (z t)) /\
    derivable_pt_lim y t (f1 t (x t) (y t) (z t)) /\ derivable_pt_lim z t (f2 t (x t) (y t) (z t)).
Lemma exact3 env zs ds T f0 f1 f2 a0 b0 c0 : 0 <= T -> length zs = 3%nat -> gentle_diagram env zs 0 T ->
  (forall t a b c, 0 <= t <= T -> rhs env zs ds t [a; b; c] = [f0 t a b c; f1 t a b c; f2 t a b c]) ->
  exists x y z, system3 f0 f1 f2 a0 b0 c0 T x y z /\ forall x' y' z', system3 f0 f1 f2 a0 b0 c0 T x' y' z' -> forall t, 0 <= t <= T -> x' t = x t /\ y' t = y t /\ z' t = z t.
Proof.
  intros HT Hl Hg Hr. destruct (C74_exists env zs ds 0 T [a0; b0; c0] HT Hg) as (φ & Hf & H0); [by rewrite Hl|].
  assert (forall t, 0 <= t <= T -> φ t = [nth 0 (φ t) 0; nth 1 (φ t) 0; nth 2 (φ t) 0]) as Hφ.
  { intros t Ht. destruct (Hf t Ht) as [Hn _]. rewrite Hl in Hn. destruct (φ t) as [|? [|? [|? [|? ?]]]]; done. }
  exists (fun t => nth 0 (φ t) 0), (fun t => nth 1 (φ t) 0), (fun t => nth 2 (φ t) 0). split.
  - unfold system3. rewrite H0. split_and!; [done|done|done|]. intros t Ht. destruct (Hf t Ht) as [_ Hd]. rewrite Hl in Hd. rewrite (Hφ t Ht), (Hr t _ _ _ Ht) in Hd.
    split; [apply (Hd 0%nat); lia|]. split; [apply (Hd 1%nat); lia|apply (Hd 2%nat); lia].
  - intros x' y' z' (A & B & C & Hd) t Ht. assert (φ t = [x' t; y' t; z' t]) as E.
    { apply (C74_unique env zs ds 0 T φ (fun t => [x' t; y' t; z' t]) HT Hg Hf); [|by rewrite H0, A, B, C|done]. intros u Hu. rewrite Hl. split; [done|].
      intros i Hi. rewrite (Hr u _ _ _ Hu). destruct (Hd u Hu) as (D0 & D1 & D2). destruct i as [|[|[|i]]]; [exact D0|exact D1|exact D2|lia]. }
    by rewrite E.
Qed.

Theorem C74_pendulum : forall θ0 ω0 ga le T, le <> 0 -> 0 <= T -> exists θ ω, pendulum θ0 ω0 ga le θ ω T /\
  forall θ' ω', pendulum θ0 ω0 ga le θ' ω' T -> forall t, 0 <= t <= T -> θ' t = θ t /\ ω' t = ω t.
Proof.
  intros θ0 ω0 ga le T Hle HT.
  apply (exact2 (pd_env ga le) [0; 1]%nat [1; 2]%nat T (fun t a b => b) (fun t a b => - (ga / le) * sin a)); [done|done| |].
  - exists [3; 4]%nat. split; [intros z Hz Hz'; set_solver|]. unfold pd_env. gentle_sigs.
  - intros t a b _. unfold rhs. cbn. do 2 f_equal. field. done.
Qed.
Print Assumptions C74_pendulum.
Theorem C74_spring : forall x0 v0 k T, 0 <= T -> exists x v, spring_solution x0 v0 k x v T /\
  forall x' v', spring_solution x0 v0 k x' v' T -> forall t, 0 <= t <= T -> x' t = x t /\ v' t = v t.
Proof.
  intros x0 v0 k T HT.
  apply (exact2 (sp_env k) [0; 1]%nat [1; 2]%nat T (fun t a b => b) (fun t a b => k * a)); [done|done| |].
  - exists []. split; [intros z Hz Hz'; set_solver|]. unfold sp_env, sp_din, sp_f1, sp_f2, sp_f3. gentle_sigs.
  - intros t a b _. done.
Qed.
Print Assumptions C74_spring.
Theorem C74_torque : forall θ0 ω0 ma le ga ta T, ma <> 0 -> le <> 0 -> 0 <= T -> exists θ ω, torque_solution θ0 ω0 ma le ga ta θ ω T /\
  forall θ' ω', torque_solution θ0 ω0 ma le ga ta θ' ω' T -> forall t, 0 <= t <= T -> θ' t = θ t /\ ω' t = ω t.
Proof.
  intros θ0 ω0 ma le ga ta T Hma Hle HT.
  apply (exact2 (tq_env ma le ga ta) [4; 5]%nat [5; 6]%nat T (fun t a b => b) (fun t a b => ta / (ma * le ^ 2) - ga / le * sin a)); [done|done| |].
  - exists [0; 1; 2; 3; 10; 11]%nat. split; [intros z Hz Hz'; set_solver|]. unfold tq_env, tq_din, tq_f1, tq_f2, tq_f3, tq_f4, tq_f5, tq_f6, tq_f7, tq_f8. gentle_sigs.
    intros t x _ _. cbn. by apply prod3.
  - intros t a b _. unfold rhs. cbn. do 2 f_equal. field. done.
Qed.
Print Assumptions C74_torque.
Theorem C74_pi : forall θ0 ω0 i0 kp ki ma le ga de T, ma <> 0 -> le <> 0 -> 0 <= T -> exists θ ω y, pi_solution θ0 ω0 i0 kp ki ma le ga de θ ω y T /\
  forall θ' ω' y', pi_solution θ0 ω0 i0 kp ki ma le ga de θ' ω' y' T -> forall t, 0 <= t <= T -> θ' t = θ t /\ ω' t = ω t /\ y' t = y t.
Proof.
  intros θ0 ω0 i0 kp ki ma le ga de T Hma Hle HT.
  destruct (exact3 (pi_env kp ki ma le ga de) [4; 24; 12]%nat [24; 29; 6]%nat T (fun t a b c => b)
    (fun t a b c => (kp * (de - a) + ki * c) / (ma * le ^ 2) - ga / le * sin a) (fun t a b c => de - a) θ0 ω0 i0) as (x & y & z & (A & B & C & Hs) & Hu); [done|done| | |].
  - exists [0; 1; 2; 3; 25]%nat. split; [intros z Hz Hz'; set_solver|].
    unfold pi_env, pi_din, pi_f1, pi_f2, pi_f3, pi_f4, pi_f5, pi_f6, pi_f7, pi_f8, pi_f9, pi_f10, pi_f11, pi_f12, pi_f13. gentle_sigs.
    intros t x _ _. cbn. by apply prod3.
  - intros t a b c _. unfold rhs. cbn. do 2 f_equal. field. done.
  - exists x, y, z. split.
    + split_and!; [done|done|done|]. intros t Ht. destruct (Hs t Ht) as (D0 & D1 & D2). done.
    + intros x' y' z' (A' & B' & C' & Hs'). apply Hu. split_and!; [done|done|done|]. intros t Ht. destruct (Hs' t Ht) as (D0 & D1 & D2). done.
Qed.
Print Assumptions C74_pi.
Theorem C74_damper : forall ma k c x0 v0 u T, ma <> 0 -> (forall t, 0 <= t <= T -> continuity_pt u t) -> 0 <= T -> exists x v, damper_solution ma k c x0 v0 u x v T /\
  forall x' v', damper_solution ma k c x0 v0 u x' v' T -> forall t, 0 <= t <= T -> x' t = x t /\ v' t = v t.
Proof.
  intros ma k c x0 v0 u T Hma Hu HT.
  destruct (exact2 (dm_env ma k c u) [2; 1]%nat [3; 2]%nat T (fun t a b => u t / ma - c / ma * a - k / ma * b) (fun t a b => a) v0 x0) as (v & x & (A & B & Hs) & Hun); [done|done| | |].
  - exists [0]%nat. split; [intros z Hz Hz'; set_solver|]. unfold dm_env, dm_f. gentle_sigs.
  - intros t a b _. done.
  - exists x, v. split.
    + split_and!; done.
    + intros x' v' (A' & B' & Hs') t Ht. destruct (Hun v' x') with (t := t) as [E1 E2]; done.
Qed.
Print Assumptions C74_damper.

(** ** Examples *)
(** The pendulum of the sample (test05: 9.81, length 0.1, started at pi/4) has a solution
    over ten seconds; ... *)
Example C74_ex : exists θ ω, pendulum (PI / 4) 0 (981 / 100) (1 / 10) θ ω 10 /\ θ 0 = PI / 4 /\ derivable_pt_lim ω 0 (- (981 / 100 / (1 / 10)) * sin (PI / 4)).
Proof.
  destruct (C74_pendulum (PI / 4) 0 (981 / 100) (1 / 10) 10) as (θ & ω & Hp & _); [lra|lra|]. exists θ, ω. pose proof Hp as (H0 & _ & Hd). split; [done|]. split; [done|].
  destruct (Hd 0) as [_ H]; [lra|]. by rewrite H0 in H.
Qed.
(** ... a diagram that is not gentle, an Integrator fed with the square of its output, has
    none over one second from 1. *)
Example C74_needed : ~ exists φ, follows [(1, EMult (ESig 0) (ESig 0))]%nat [0]%nat [1]%nat φ 0 1 /\ φ 0 = [1].
Proof.
  intros (φ & Hf & H0). set (x := fun t => nth 0 (φ t) 0).
  assert (forall t, 0 <= t <= 1 -> derivable_pt_lim x t (x t * x t)) as Hd.
  { intros t Ht. destruct (Hf t Ht) as [Hl Hd]. specialize (Hd 0%nat ltac:(cbn; lia)). unfold x at 2 3. destruct (φ t) as [|a [|? ?]]; try done. }
  assert (x 0 = 1) as E0 by (unfold x; by rewrite H0).
  assert (forall t, 0 <= t <= 1 -> 1 <= x t) as Hge.
  { intros t Ht. rewrite <- E0. apply (mono_of x (fun t => x t * x t)); [lra|intros s Hs; apply Hd; lra|]. intros s _. pose proof (Rle_0_sqr (x s)). unfold Rsqr in *. lra. }
  assert (forall t, 0 <= t <= 1 -> derivable_pt_lim (fun t => / x t + t) t 0) as Hc.
  { intros t Ht. specialize (Hge t Ht). replace 0 with (- (x t * x t) / Rsqr (x t) + 1) by (unfold Rsqr; field; lra).
    apply (derivable_pt_lim_plus (fun t => / x t) id); [|apply derivable_pt_lim_id].
    replace (- (x t * x t) / Rsqr (x t)) with ((0 * x t - (x t * x t) * 1) / Rsqr (x t)) by (unfold Rsqr; field; lra).
    apply (deriv_ext (div_fct (fct_cte 1) x)); [intros s; unfold div_fct, fct_cte; lra|]. apply derivable_pt_lim_div; [apply derivable_pt_lim_const|apply Hd; lra|lra]. }
  assert (/ x 1 + 1 <= / x 0 + 0) as H1.
  { apply Ropp_le_cancel. apply (mono_of (fun t => - (/ x t + t)) (fun _ => - 0)); [lra| |intros; lra].
    intros s Hs. apply (derivable_pt_lim_opp (fun t => / x t + t)). apply Hc. lra. }
  rewrite E0 in H1. specialize (Hge 1 ltac:(lra)). assert (0 < / x 1) by (apply Rinv_0_lt_compat; lra). lra.
Qed.
