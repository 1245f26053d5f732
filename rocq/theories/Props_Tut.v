(** Properties C73, C74 and C76: the program of the tutorial. *)
From stdpp Require Import prelude gmap strings.
From Coq Require Import ZArith QArith Reals Lra Qreals Psatz.
From Verif Require Import Num NumQ NumR NumOrd NumAdd Res Name Store Leaf Sched Stepper Sim World Api SpecSched P_Store P_Prog P_Lib P_World P_Compile P_Simulated P_Evolve P_Rel P_Rel2 SpecHist P_Trace SpecBlock Ex_Models
  SpecRun P_Log P_Run Props_Run P_Pack P_Grow P_Again P_Repeat Props_Pack SpecRK P_RK SpecAgain P_Over P_Redo Props_Again SpecField P_Field P_FieldRun P_Posed P_Path Props_Field SpecConv P_Conv Props_Conv SpecLin P_Lin Props_Lin
  SpecOrd P_Ord P_Ord2 P_Ord3 Props_Ord SpecSmooth P_Tame P_Tame2 P_Tame3 P_Smooth Props_Smooth SpecDiag P_Diag P_Diag2 Props_Diag Samples Samples2 Samples3 Samples4 Props_Samples P_Picard SpecExist P_Exist Props_Exist
  SpecSafe SpecGoes SpecGoes2 SpecLint P_Goes P_Goes4 P_Goes6 Props_Goes P_Total Props_Total Samples6.
Local Open Scope nat_scope.
Local Open Scope R_scope.

(** The position [x] and the speed [v] of the mass of the tutorial under the force [u]. *)
Definition tut_solution (ma c k x0 v0 : R) (u : R -> R) (x v : R -> R) (T : R) : Prop :=
  x 0 = x0 /\ v 0 = v0 /\ forall t, 0 <= t <= T -> derivable_pt_lim x t (v t) /\ derivable_pt_lim v t ((u t - c * v t - k * x t) / ma).

(** The numbers of the simulation are close to the solution. *)
Theorem C73_tutorial : forall meth ma c k x0 v0 u x v T, ma <> 0 -> (exists U, open_set U /\ smooth_on U u /\ forall t, 0 <= t <= T -> U t) -> 0 <= T -> tut_solution ma c k x0 v0 u x v T ->
  exists K H0, 0 <= K /\ 0 < H0 /\ forall s' H, 0 <= H <= H0 -> advance (tu_cfg ma c k x0 v0 u meth) H (tu_0 ma c k x0 v0 u meth) s' -> s_tprev s' <= T ->
    exists a0 a1, value (s_store s') 5%nat = Some (VS a0) /\ value (s_store s') 4%nat = Some (VS a1) /\
      Rabs (a0 - x (s_tprev s')) <= K * H ^ order_of meth /\
      Rabs (a1 - v (s_tprev s')) <= K * H ^ order_of meth.
Proof.
  intros meth ma c k x0 v0 u x v T Hma (U & HU & Hu & Hin) HT (I0 & I1 & Hsol).
  pose proof (tu_session ma c k x0 v0 u meth) as Hses. destruct (tu_facts ma c k x0 v0 u meth) as (F1 & F2 & F3 & F4 & F5 & F6).
  pose proof (tu_layout ma c k x0 v0 u meth) as El. pose proof (tu_diagram ma c k x0 v0 u meth) as Hd.
  assert (g_dbg (tu_cfg ma c k x0 v0 u meth) = true) as Eg by reflexivity. assert (g_stepper (tu_cfg ma c k x0 v0 u meth) = Some (stp_of meth)) as Es by reflexivity.
  revert Hses F1 F2 F3 F4 F5 F6 El Hd Eg Es. generalize (tu_world ma c k x0 v0 u) (tu_cfg ma c k x0 v0 u meth) (tu_0 ma c k x0 v0 u meth).
  intros w g s Hses F1 F2 F3 F4 F5 F6 El Hd Eg Es. rewrite <- El in Hd.
  destruct (C73_order meth w 0 g s (fun _ => LNone) (tu_env ma c k u) [4; 3]%nat (fun t => [x t; v t]) 0 T) as (K & H0 & HK & HH & Hall); try done.
  - intros t Ht. rewrite El. split; [done|]. intros i Hi. cbn in Hi. destruct (Hsol t Ht) as (S1 & S2). destruct i as [|[|i]]; [ |  | lia]; cbn.
    + exact S1.
    + replace (1 / ma * u t - c / ma * v t - k / ma * x t) with ((u t - c * v t - k * x t) / ma) by (field; done). exact S2.
  - rewrite El. intros s0 e He. unfold tu_env, tu_f1, tu_f2, tu_f3, tu_f4, tu_f5, tu_f6, tu_f7, tu_f8 in He. cbn in He. repeat (apply elem_of_cons in He as [[= -> ->]|He]); [..|by apply elem_of_nil in He]; cbn; try done.
    + split; [done|]. exists U. done.
  - rewrite F6, I0, I1. done.
  - exists K, H0. split; [done|]. split; [done|]. intros s' H Hh Ha Hle'. specialize (Hall s' H Hh Ha Hle').
    destruct (Hall 0%nat 5%nat) as (a0 & A0 & B0); [by rewrite El|].
    destruct (Hall 1%nat 4%nat) as (a1 & A1 & B1); [by rewrite El|].
    exists a0, a1. split_and!; done.
Qed.
Print Assumptions C73_tutorial.

(** There is one solution and no other. *)
Theorem C74_tutorial : forall ma c k x0 v0 u T, ma <> 0 -> (forall t, 0 <= t <= T -> continuity_pt u t) -> 0 <= T -> exists x v, tut_solution ma c k x0 v0 u x v T /\
  forall x' v', tut_solution ma c k x0 v0 u x' v' T -> forall t, 0 <= t <= T -> x' t = x t /\ v' t = v t.
Proof.
  intros ma c k x0 v0 u T Hma Hu HT.
  apply (exact2 (tu_env ma c k u) [5; 4]%nat [4; 3]%nat T (fun t a b => b) (fun t a b => (u t - c * b - k * a) / ma)); [done|done| |].
  - exists [0; 1]%nat. split; [intros z Hz Hz'; set_solver|]. unfold tu_env, tu_f1, tu_f2, tu_f3, tu_f4, tu_f5, tu_f6, tu_f7, tu_f8. gentle_sigs.
  - intros t a b _. unfold rhs. cbn. do 2 f_equal. field. done.
Qed.
Print Assumptions C74_tutorial.

Section tut.
  Context (ma c k x0 v0 : R) (u : R -> R) (meth : solver).
  Lemma tu_user K : K 0%nat = Some KScalar -> Forall (user_ok K (fun a b : R => nltb a b = true)) (leaves (tu_tree ma c k x0 v0 u)).
  Proof.
    intros K0. assert (exists ls, leaves (tu_tree ma c k x0 v0 u) = ls /\ Forall (user_ok K (fun a b : R => nltb a b = true)) ls) as (ls & -> & Hls); [|exact Hls].
    eexists. split; [vm_compute; reflexivity|]. each_leaf. unfold user_ok. cbn. intros t. split; [done|]. exists 0%nat, KScalar. done.
  Qed.
  Lemma tu_checked : checked (tu_world ma c k x0 v0 u) 0 (tu_cfg ma c k x0 v0 u meth) [] [].
  Proof.
    apply checked_intro; [apply tu_reach|apply tu_model|intros l; apply reverse_Permutation|apply stp_carries|vm_compute; reflexivity| | | |done|intros E; discriminate E].
    - apply Forall_forall. apply tu_user. vm_compute; reflexivity.
    - intros l o Hl _. eapply no_user_ok; [|exact Hl]. vm_compute. reflexivity.
    - intros f t E. discriminate E.
  Qed.
End tut.

(** The program of the tutorial returns and what it returns is close to the solution. *)
Theorem C76_tutorial : forall meth ma c k x0 v0 u T lo hi, ma <> 0 -> (exists U, open_set U /\ smooth_on U u /\ forall t, 0 <= t <= T -> U t) -> 0 < T -> 0 < lo -> lo < hi ->
  exists x v K (N0 : nat), tut_solution ma c k x0 v0 u x v T /\ 0 <= K /\ forall N, (N0 <= N)%nat -> exists F : nat, forall fuel, (F <= fuel)%nat ->
    exists s, program (tu_cfg ma c k x0 v0 u meth) fuel 0 (grid N T lo hi) (tu_new ma c k x0 v0 u) = Ok tt s /\ s_tprev s = T /\
    exists a0 a1, value (s_store s) 5%nat = Some (VS a0) /\ value (s_store s) 4%nat = Some (VS a1) /\
      Rabs (a0 - x T) <= K * (T / INR N) ^ order_of meth /\
      Rabs (a1 - v T) <= K * (T / INR N) ^ order_of meth.
Proof.
  intros meth ma c k x0 v0 u T lo hi Hma Hu HT Hlo Hhi. destruct (C74_tutorial ma c k x0 v0 u T Hma) as (x & v & Hp & _); [|lra|].
  { intros t Ht. destruct Hu as (U & _ & (f1 & f2 & f3 & f4 & Hd) & Hin). destruct (Hd t (Hin t Ht)) as [Hd1 _]. apply derivable_continuous_pt. by exists (f1 t). }
  destruct (C73_tutorial meth ma c k x0 v0 u x v T Hma Hu) as (K & H0 & HK & HH & Hb); [lra|done|].
  pose proof (tu_checked ma c k x0 v0 u meth) as Hc.
  assert (init (tu_cfg ma c k x0 v0 u meth) 0 (tu_new ma c k x0 v0 u) = Ok tt (tu_0 ma c k x0 v0 u meth)) as E0 by (apply ok_init; vm_compute; reflexivity).
  assert (g_stepper (tu_cfg ma c k x0 v0 u meth) = Some (stp_of meth)) as Es by reflexivity.
  destruct (total_bound meth _ 0 _ _ _ _ T lo hi H0 (fun s H => exists a0 a1, value (s_store s) 5%nat = Some (VS a0) /\ value (s_store s) 4%nat = Some (VS a1) /\
      Rabs (a0 - x T) <= K * H ^ order_of meth /\
      Rabs (a1 - v T) <= K * H ^ order_of meth) HT Hlo Hhi HH Hc Es E0) as [N0 HN].
  { intros s' H HH' Ha Et. rewrite <- Et. apply Hb; [done|done|rewrite Et; apply Rle_refl]. }
  exists x, v, K, N0. split; [exact Hp|]. split; [exact HK|]. exact HN.
Qed.
Print Assumptions C76_tutorial.

(** ** Examples *)
(** The force of the tutorial is 0 before 1 s and 1 from then on. It is smooth over any time
    that ends before 1 s; ... *)
Definition tut_force (t : R) : R := if Rlt_dec t 1 then 0 else 1.
Lemma near_const (f : R -> R) (a b t : R) : (forall y, y < b -> f y = a) -> t < b -> derivable_pt_lim f t 0.
Proof.
  intros Hf Ht eps He. assert (0 < b - t) as Hp by lra. exists (mkposreal _ Hp). intros h Hh Hl. cbn in Hl. apply Rabs_def2 in Hl.
  rewrite (Hf t Ht), (Hf (t + h)) by lra. replace ((a - a) / h - 0) with 0 by (field; done). by rewrite Rabs_R0.
Qed.
Lemma tut_force_0 y : y < 1 -> tut_force y = 0.
Proof. intros H. unfold tut_force. destruct (Rlt_dec y 1); [done|lra]. Qed.
Example C73_tutorial_ex T : T < 1 -> exists U, open_set U /\ smooth_on U tut_force /\ forall t, 0 <= t <= T -> U t.
Proof.
  intros HT. exists (fun t => t < 1). split_and!.
  - intros y Hy. assert (0 < 1 - y) as Hp by lra. exists (mkposreal _ Hp). intros z Hz. unfold disc in Hz. cbn in Hz. apply Rabs_def2 in Hz. lra.
  - exists (fun _ => 0), (fun _ => 0), (fun _ => 0), (fun _ => 0). intros t Ht. split_and!.
    + apply (near_const _ 0 1); [exact tut_force_0|done].
    + apply derivable_pt_lim_const.
    + apply derivable_pt_lim_const.
    + apply derivable_pt_lim_const.
    + apply derivable_continuous_pt. exists 0. apply derivable_pt_lim_const.
  - intros t Ht. lra.
Qed.
(** ... over longer times it has a jump: it is not even continuous, so that the claims do not
    speak about the whole ten seconds of the tutorial. *)
Example C73_tutorial_jump : ~ continuity_pt tut_force 1.
Proof.
  intros Hc. destruct (Hc (1/2)) as (al & Hal & Hd); [lra|]. specialize (Hd (1 - al / 2)).
  assert (Rabs (tut_force (1 - al / 2) - tut_force 1) < 1/2) as H.
  { apply Hd. split; [split; [exact I|lra]|]. cbn. unfold R_dist. rewrite Rabs_left by lra. lra. }
  rewrite tut_force_0 in H by lra. unfold tut_force in H. destruct (Rlt_dec 1 1) as [?|_]; [lra|]. rewrite Rabs_left in H by lra. lra.
Qed.
(** The numbers of the tutorial with a constant force from the rest position: the solution
    that stays at rest. *)
Example C73_tutorial_rest T : tut_solution (1/4) (3/10) (7/10) (1/(7/10)) 0 (fun _ => 1) (fun _ => 1/(7/10)) (fun _ => 0) T.
Proof.
  split_and!; [done|done|]. intros t _. split; [apply derivable_pt_lim_const|].
  replace ((1 - 3 / 10 * 0 - 7 / 10 * (1 / (7 / 10))) / (1 / 4)) with 0 by field. apply derivable_pt_lim_const.
Qed.
