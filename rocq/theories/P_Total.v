(** Programs that advance a checked model in equal steps. *)
From stdpp Require Import prelude gmap strings.
From Coq Require Import ZArith QArith Reals Lra.
From Verif Require Import Num NumQ NumR NumOrd NumAdd Res Store Leaf Sched Stepper Sim World Api P_Store P_Sched P_World P_Compile P_Evolve P_Modes P_Log SpecSched SpecSim SpecSafe SpecGoes SpecGoes2 SpecLint P_Goes P_Goes2 P_Goes3 P_Goes4 P_Goes5 P_Lint P_Goes6 P_Term Props_Sched Props_Term Props_Goes SpecRK P_RK SpecConv.
Local Open Scope nat_scope.
Local Open Scope R_scope.

(** N calls of run, to T/N, 2T/N, ..., T (as in samples/*.cpp: the loop over time). *)
Definition grid (N : nat) (T lo hi : R) : list (R * R * R) := map (fun i => (INR (S i) * (T / INR N), lo, hi)) (seq 0 N).

Lemma grid_permitted (g : cfg R) h lo hi n i : g_stepper g ≠ None -> 0 < lo -> lo < hi -> 0 < h ->
  permitted g (INR i * h) (map (fun k => (INR (S k) * h, lo, hi)) (seq i n)).
Proof.
  intros Hs Hlo Hhi Hh. revert i. induction n as [|n IH]; intros i; [exact I|]. cbn [seq map permitted]. split; [|apply IH].
  assert (INR i * h < INR (S i) * h) as Hlt by (rewrite S_INR, Rmult_plus_distr_r, Rmult_1_l; lra).
  split; [intros _; by apply Rltb_true|]. intros _. split.
  - change (Rltb (INR (S i) * h) (INR i * h) = false). destruct (Rltb _ _) eqn:E; [|done]. apply Rltb_true in E. lra.
  - right. split; [done|]. split; by apply Rltb_true.
Qed.
Lemma grid_end h lo hi n i : end_of (INR i * h) (map (fun k => (INR (S k) * h, lo, hi)) (seq i n)) = INR (i + n) * h.
Proof. revert i. induction n as [|n IH]; intros i; [cbn; by rewrite Nat.add_0_r|]. cbn [seq map]. rewrite end_cons, IH. do 2 f_equal. lia. Qed.

Section adv.
  Context (w : world R) (b : bid) (g : cfg R) (ins1 ins2 : list nat) (Hc : checked w b g ins1 ins2).
  Lemma grid_advance fuel h lo hi n i s s' : g_stepper g ≠ None -> 0 < lo -> lo < hi -> 0 < h -> prepared w g ins1 ins2 (s_tprev s) s -> s_tprev s = INR i * h ->
    drive g fuel (map (fun k => (INR (S k) * h, lo, hi)) (seq i n)) s = Ok tt s' -> advance g h s s'.
  Proof.
    intros Hst Hlo Hhi Hh. revert i s. induction n as [|n IH]; intros i s Hp Et E.
    - cbn in E. injection E as <-. constructor.
    - pose proof (grid_permitted g h lo hi (S n) i Hst Hlo Hhi Hh) as Hper. cbn [seq map permitted drive] in E, Hper. destruct Hper as [Ha _].
      rewrite <- Et in Ha. pose proof (checked_run w b g ins1 ins2 Hc fuel (INR (S i) * h) lo hi s Hp Ha) as Hr. unfold bnd in E.
      destruct (run g fuel (INR (S i) * h) lo hi s) as [[] s1| | |] eqn:Er; try done. destruct Hr as [Hp1 Et1].
      eapply adv_run; [| |exact Er|].
      + rewrite Et, S_INR, Rmult_plus_distr_r, Rmult_1_l. lra.
      + rewrite Et, S_INR, Rmult_plus_distr_r, Rmult_1_l. lra.
      + eapply (IH (S i)); [by rewrite Et1|done|exact E].
  Qed.
End adv.

(** For every number of steps the program returns, and what it leaves has been reached by
    steps of that length. *)
Lemma total_grid meth T lo hi N : 0 < T -> 0 < lo -> lo < hi -> N ≠ 0%nat -> exists F : nat, forall w b (g : cfg R) ins1 ins2 s0,
  checked w b g ins1 ins2 -> g_stepper g = Some (stp_of meth) -> init g 0 (new_sim (initial_dyn w)) = Ok tt s0 ->
  forall fuel, (F <= fuel)%nat -> exists s', program g fuel 0 (grid N T lo hi) (new_sim (initial_dyn w)) = Ok tt s' /\ s_tprev s' = T /\ advance g (T / INR N) s0 s' /\ settled w g ins1 ins2 s'.
Proof.
  intros HT Hlo Hhi HN. destruct (C75_adaptive (1/2) 0 (grid N T lo hi)) as [F HF]; [lra|]. exists F. intros w b g ins1 ins2 s0 Hc Es E0 fuel Hf.
  assert (0 < INR N) as HN' by (apply lt_0_INR; lia). assert (0 < T / INR N) as Hh by (by apply Rdiv_lt_0_compat).
  assert (g_stepper g ≠ None) as Hst by (rewrite Es; done).
  assert (permitted g 0 (grid N T lo hi)) as Hper. { replace 0 with (INR 0 * (T / INR N)) by (cbn; ring). by apply grid_permitted. }
  assert (end_of 0 (grid N T lo hi) = T) as Hend. { replace 0 with (INR 0 * (T / INR N)) by (cbn; ring). unfold grid. rewrite grid_end. cbn [Nat.add]. field. lra. }
  assert (never_hangs (stp_of meth) /\ backs_off (1/2) (stp_of meth) /\ stepper_ok (stp_of meth)) as (H1 & H2 & H3).
  { destruct C34_steppers as (A & B & C & E). destruct meth; cbn [stp_of]; [destruct (A (1/2)%R)|destruct (B (1/2)%R)|]; (split; [done|split; [done|]]); [apply euler_ok|apply rk4_ok|apply rkf45_ok]. }
  destruct (HF w b g ins1 ins2 (stp_of meth) fuel Hc Hper Es H1 H2 H3 Hf) as (s' & E & Et & Hse). exists s'. split; [done|]. split; [congruence|]. split; [|done].
  destruct (checked_init w b g ins1 ins2 Hc 0) as (s1 & E1 & Hp & Et1). rewrite E0 in E1. injection E1 as <-.
  unfold program, bnd in E. rewrite E0 in E. unfold grid in E. eapply (grid_advance w b g ins1 ins2 Hc fuel _ lo hi N 0); try done; [by rewrite Et1|rewrite Et1; cbn; ring].
Qed.
