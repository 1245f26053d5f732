(** Runge-Kutta methods of order four on smooth differential equations: expansion of
    the solution and of the stages in powers of the step size. *)
From stdpp Require Import prelude.
From Coq Require Import Reals Lra QArith Qreals Psatz.
From Verif Require Import Num NumR Res Sim SpecRK P_RK SpecField SpecConv P_Conv SpecLin P_Lin SpecOrd.
Local Open Scope R_scope.

(** ** Terms of order k in the step size, uniformly in the starting time *)
Section bigo.
  Context (P : R -> R -> Prop) (HP : forall a h, P a h -> 0 <= h <= 1).
  Definition bigo (k : nat) (g : R -> R -> R) : Prop := exists C, 0 <= C /\ forall a h, P a h -> Rabs (g a h) <= C * h ^ k.

  Lemma bigo_ext k f g : (forall a h, P a h -> f a h = g a h) -> bigo k f -> bigo k g.
  Proof. intros E (C & HC & Hf). exists C. split; [done|]. intros a h Hp. rewrite <- E by done. by apply Hf. Qed.
  Lemma bigo_zero k : bigo k (fun _ _ => 0).
  Proof. exists 0. split; [lra|]. intros a h _. rewrite Rabs_R0. lra. Qed.
  Lemma bigo_plus k f g : bigo k f -> bigo k g -> bigo k (fun a h => f a h + g a h).
  Proof.
    intros (C & HC & Hf) (C' & HC' & Hg). exists (C + C'). split; [lra|]. intros a h Hp. specialize (Hf a h Hp). specialize (Hg a h Hp).
    eapply Rle_trans; [apply Rabs_triang|]. lra.
  Qed.
  Lemma bigo_opp k f : bigo k f -> bigo k (fun a h => - f a h).
  Proof. intros (C & HC & Hf). exists C. split; [done|]. intros a h Hp. rewrite Rabs_Ropp. by apply Hf. Qed.
  Lemma bigo_minus k f g : bigo k f -> bigo k g -> bigo k (fun a h => f a h - g a h).
  Proof. intros Hf Hg. apply (bigo_plus k f (fun a h => - g a h)); [done|by apply bigo_opp]. Qed.
  Lemma bigo_mult k l f g : bigo k f -> bigo l g -> bigo (k + l) (fun a h => f a h * g a h).
  Proof.
    intros (C & HC & Hf) (C' & HC' & Hg). exists (C * C'). split; [by apply Rmult_le_pos|]. intros a h Hp. specialize (Hf a h Hp). specialize (Hg a h Hp).
    rewrite Rabs_mult, pow_add. replace (C * C' * (h ^ k * h ^ l)) with ((C * h ^ k) * (C' * h ^ l)) by ring. apply Rmult_le_compat; try apply Rabs_pos; done.
  Qed.
  Lemma bigo_mono k l f : (l <= k)%nat -> bigo k f -> bigo l f.
  Proof.
    intros Hl (C & HC & Hf). exists C. split; [done|]. intros a h Hp. eapply Rle_trans; [by apply Hf|]. apply Rmult_le_compat_l; [done|]. apply pow_small; [by eapply HP|done].
  Qed.
  Lemma bigo_const c : bigo 0 (fun _ _ => c).
  Proof. exists (Rabs c). split; [apply Rabs_pos|]. intros a h _. cbn. lra. Qed.
  Lemma bigo_h k : bigo k (fun _ h => h ^ k).
  Proof. exists 1. split; [lra|]. intros a h Hp. rewrite Rabs_pos_eq by (apply pow_le; by apply (HP a h)). lra. Qed.
  Lemma bigo_scal k c f : bigo k f -> bigo k (fun a h => c * f a h).
  Proof. intros Hf. apply (bigo_mult 0 k); [apply bigo_const|done]. Qed.
  Lemma bigo_shift k l f : bigo l f -> bigo (k + l) (fun a h => h ^ k * f a h).
  Proof. intros Hf. apply bigo_mult; [apply bigo_h|done]. Qed.
  Lemma bigo_rsum k n f : (forall i, (i < n)%nat -> bigo k (fun a h => f a h i)) -> bigo k (fun a h => rsum n (f a h)).
  Proof.
    induction n as [|n IH]; intros E; cbn [rsum]; [apply bigo_zero|]. apply bigo_plus; [apply IH; intros; apply E; lia|apply E; lia].
  Qed.
  Lemma bigo_bound m k (u : R -> R -> nat -> R) : (forall j, (j < m)%nat -> bigo k (fun a h => u a h j)) ->
    exists C, 0 <= C /\ forall a h j, P a h -> (j < m)%nat -> Rabs (u a h j) <= C * h ^ k.
  Proof.
    induction m as [|m IH]; intros E; [exists 0; split; [lra|]; intros; lia|].
    destruct IH as (C & HC & H1); [intros; apply E; lia|]. destruct (E m ltac:(lia)) as (C' & HC' & H2). exists (C + C'). split; [lra|]. intros a h j Hp Hj.
    assert (0 <= h ^ k) as Hh by (apply pow_le; by apply (HP a h)). assert (0 <= C * h ^ k) by (by apply Rmult_le_pos). assert (0 <= C' * h ^ k) by (by apply Rmult_le_pos).
    destruct (decide (j = m)) as [->|Hne]; [specialize (H2 a h Hp)|specialize (H1 a h j Hp ltac:(lia))]; lra.
  Qed.

  (** ** Composition of expansions *)
  Context (m : nat) (d1 : R -> nat -> R) (d2 : R -> nat -> nat -> R) (d3 : R -> nat -> nat -> nat -> R).
  Context (B1 : forall j, (j < m)%nat -> bigo 0 (fun a _ => d1 a j)).
  Context (B2 : forall j k, (j < m)%nat -> (k < m)%nat -> bigo 0 (fun a _ => d2 a j k)).
  Context (B3 : forall j k l, (j < m)%nat -> (k < m)%nat -> (l < m)%nat -> bigo 0 (fun a _ => d3 a j k l)).
  Definition lin1 (a : R) (x : nat -> R) : R := rsum m (fun j => d1 a j * x j).
  Definition lin2 (a : R) (x y : nat -> R) : R := rsum m (fun j => rsum m (fun k => d2 a j k * (x j * y k))).
  Definition lin3 (a : R) (x y z : nat -> R) : R := rsum m (fun j => rsum m (fun k => rsum m (fun l => d3 a j k l * (x j * y k * z l)))).

  Context (u : R -> R -> nat -> R) (U1 U2 U3 : R -> nat -> R).
  Context (H1 : forall j, (j < m)%nat -> bigo 0 (fun a _ => U1 a j)) (H2 : forall j, (j < m)%nat -> bigo 0 (fun a _ => U2 a j)) (H3 : forall j, (j < m)%nat -> bigo 0 (fun a _ => U3 a j)).
  Context (q : nat) (Hq : (1 <= q <= 4)%nat).
  Definition poly3 (a h : R) (j : nat) : R := h * U1 a j + h ^ 2 * U2 a j + h ^ 3 * U3 a j.
  Context (Hu : forall j, (j < m)%nat -> bigo q (fun a h => u a h j - poly3 a h j)).

  Lemma poly3_one j : (j < m)%nat -> bigo 1 (fun a h => poly3 a h j).
  Proof.
    intros Hj. unfold poly3. apply bigo_plus; [apply bigo_plus|].
    - apply (bigo_ext 1 (fun a h => h ^ 1 * U1 a j)); [intros; ring|]. apply (bigo_shift 1 0). by apply H1.
    - apply (bigo_mono 2); [lia|]. apply (bigo_shift 2 0). by apply H2.
    - apply (bigo_mono 3); [lia|]. apply (bigo_shift 3 0). by apply H3.
  Qed.
  Lemma u_one j : (j < m)%nat -> bigo 1 (fun a h => u a h j).
  Proof.
    intros Hj. apply (bigo_ext 1 (fun a h => (u a h j - poly3 a h j) + poly3 a h j)); [intros; ring|]. apply bigo_plus; [|by apply poly3_one].
    apply (bigo_mono q); [lia|]. by apply Hu.
  Qed.
  (** Products of two and of three components. *)
  Lemma prod2 j k : (j < m)%nat -> (k < m)%nat ->
    bigo q (fun a h => u a h j * u a h k - (h ^ 2 * (U1 a j * U1 a k) + h ^ 3 * (U1 a j * U2 a k + U2 a j * U1 a k))).
  Proof.
    intros Hj Hk.
    apply (bigo_ext q (fun a h => (u a h j - poly3 a h j) * u a h k + poly3 a h j * (u a h k - poly3 a h k) +
      (h ^ 4 * ((U2 a j * U2 a k + U1 a j * U3 a k + U3 a j * U1 a k) + h * (U2 a j * U3 a k + U3 a j * U2 a k) + h ^ 2 * (U3 a j * U3 a k))))).
    { intros a h _. unfold poly3. ring. }
    apply bigo_plus; [apply bigo_plus|].
    - apply (bigo_mono (q + 1)); [lia|]. apply bigo_mult; [by apply Hu|by apply u_one].
    - apply (bigo_mono (1 + q)); [lia|]. apply bigo_mult; [by apply poly3_one|by apply Hu].
    - apply (bigo_mono (4 + 0)); [lia|]. apply bigo_shift. apply bigo_plus; [apply bigo_plus|].
      + apply bigo_plus; [apply bigo_plus|]; apply (bigo_mult 0 0); auto.
      + apply (bigo_mono (1 + 0)); [lia|]. apply (bigo_mult 1 0 (fun _ h => h)); [apply (bigo_ext 1 (fun _ h => h ^ 1)); [intros; ring|apply bigo_h]|].
        apply bigo_plus; apply (bigo_mult 0 0); auto.
      + apply (bigo_mono (2 + 0)); [lia|]. apply bigo_shift. apply (bigo_mult 0 0); auto.
  Qed.
  Lemma prod3 j k l : (j < m)%nat -> (k < m)%nat -> (l < m)%nat ->
    bigo q (fun a h => u a h j * u a h k * u a h l - h ^ 3 * (U1 a j * U1 a k * U1 a l)).
  Proof.
    intros Hj Hk Hl.
    apply (bigo_ext q (fun a h => (u a h j * u a h k - (h ^ 2 * (U1 a j * U1 a k) + h ^ 3 * (U1 a j * U2 a k + U2 a j * U1 a k))) * u a h l +
      (h ^ 2 * (U1 a j * U1 a k)) * (u a h l - poly3 a h l) + (h ^ 3 * (U1 a j * U2 a k + U2 a j * U1 a k)) * u a h l +
      h ^ 4 * ((U1 a j * U1 a k) * (U2 a l + h * U3 a l)))).
    { intros a h _. unfold poly3. ring. }
    apply bigo_plus; [apply bigo_plus; [apply bigo_plus|]|].
    - apply (bigo_mono (q + 1)); [lia|]. apply bigo_mult; [by apply prod2|by apply u_one].
    - apply (bigo_mono ((2 + (0 + 0)) + q)); [lia|]. apply bigo_mult; [|by apply Hu]. apply bigo_shift. apply bigo_mult; auto.
    - apply (bigo_mono ((3 + 0) + 1)); [lia|]. apply bigo_mult; [|by apply u_one]. apply bigo_shift. apply bigo_plus; apply (bigo_mult 0 0); auto.
    - apply (bigo_mono (4 + ((0 + 0) + 0))); [lia|]. apply bigo_shift. apply bigo_mult; [apply bigo_mult; auto|]. apply bigo_plus; [auto|].
      apply (bigo_mono (1 + 0)); [lia|]. apply (bigo_mult 1 0 (fun _ h => h)); [apply (bigo_ext 1 (fun _ h => h ^ 1)); [intros; ring|apply bigo_h]|auto].
  Qed.
  Lemma rsum_minus n f g : rsum n f - rsum n g = rsum n (fun i => f i - g i).
  Proof. induction n as [|n IH]; cbn; [lra|]. rewrite <- IH. lra. Qed.
  (** A function with a Taylor expansion. *)
  Lemma compose (f : R -> R -> R) (f0 : R -> R) (r : R) (C : R) : 0 <= C ->
    (forall a h e, P a h -> e <= r -> (forall j, (j < m)%nat -> Rabs (u a h j) <= e) ->
       Rabs (f a h - (f0 a + lin1 a (u a h) + lin2 a (u a h) (u a h) + lin3 a (u a h) (u a h) (u a h))) <= C * e ^ 4) ->
    (forall a h j, P a h -> (j < m)%nat -> Rabs (u a h j) <= r) -> 0 < r ->
    bigo q (fun a h => f a h - (f0 a + h * lin1 a (U1 a) + h ^ 2 * (lin1 a (U2 a) + lin2 a (U1 a) (U1 a)) +
      h ^ 3 * (lin1 a (U3 a) + (lin2 a (U1 a) (U2 a) + lin2 a (U2 a) (U1 a)) + lin3 a (U1 a) (U1 a) (U1 a)))).
  Proof.
    intros HC0 Hf Hr Hr0.
    apply (bigo_ext q (fun a h => (f a h - (f0 a + lin1 a (u a h) + lin2 a (u a h) (u a h) + lin3 a (u a h) (u a h) (u a h))) +
      rsum m (fun j => d1 a j * (u a h j - poly3 a h j)) +
      rsum m (fun j => rsum m (fun k => d2 a j k * (u a h j * u a h k - (h ^ 2 * (U1 a j * U1 a k) + h ^ 3 * (U1 a j * U2 a k + U2 a j * U1 a k))))) +
      rsum m (fun j => rsum m (fun k => rsum m (fun l => d3 a j k l * (u a h j * u a h k * u a h l - h ^ 3 * (U1 a j * U1 a k * U1 a l))))))).
    { intros a h _.
      assert (rsum m (fun j => d1 a j * (u a h j - poly3 a h j)) = lin1 a (u a h) - (h * lin1 a (U1 a) + h ^ 2 * lin1 a (U2 a) + h ^ 3 * lin1 a (U3 a))) as ->.
      { unfold lin1. rewrite <- !rsum_scal, <- !rsum_plus, rsum_minus. apply rsum_ext. intros j _. unfold poly3. ring. }
      assert (rsum m (fun j => rsum m (fun k => d2 a j k * (u a h j * u a h k - (h ^ 2 * (U1 a j * U1 a k) + h ^ 3 * (U1 a j * U2 a k + U2 a j * U1 a k))))) =
        lin2 a (u a h) (u a h) - (h ^ 2 * lin2 a (U1 a) (U1 a) + h ^ 3 * (lin2 a (U1 a) (U2 a) + lin2 a (U2 a) (U1 a)))) as ->.
      { unfold lin2. rewrite <- !rsum_plus, <- !rsum_scal, <- !rsum_plus, rsum_minus. apply rsum_ext. intros j _.
        rewrite <- !rsum_plus, <- !rsum_scal, <- !rsum_plus, rsum_minus. apply rsum_ext. intros k _. ring. }
      assert (rsum m (fun j => rsum m (fun k => rsum m (fun l => d3 a j k l * (u a h j * u a h k * u a h l - h ^ 3 * (U1 a j * U1 a k * U1 a l))))) =
        lin3 a (u a h) (u a h) (u a h) - h ^ 3 * lin3 a (U1 a) (U1 a) (U1 a)) as ->.
      { unfold lin3. rewrite <- !rsum_scal, rsum_minus. apply rsum_ext. intros j _. rewrite <- !rsum_scal, rsum_minus. apply rsum_ext. intros k _.
        rewrite <- !rsum_scal, rsum_minus. apply rsum_ext. intros l _. ring. }
      ring. }
    apply bigo_plus; [apply bigo_plus; [apply bigo_plus|]|].
    - destruct (bigo_bound m 1 u u_one) as (K & HK & Hb). apply (bigo_mono 4); [lia|].
      (* e = min (K h) r *)
      exists (C * K ^ 4). split; [apply Rmult_le_pos; [done|by apply pow_le]|]. intros a h Hp. pose proof (HP a h Hp) as Hh.
      assert (0 <= K * h) as Hkh by (apply Rmult_le_pos; lra).
      eapply Rle_trans; [apply (Hf a h (Rmin (K * h) r)); [done|apply Rmin_r|]|].
      + intros j Hj. apply Rmin_glb; [|by apply Hr]. specialize (Hb a h j Hp Hj). rewrite pow_1 in Hb. done.
      + rewrite Rmult_assoc, <- Rpow_mult_distr. apply Rmult_le_compat_l; [done|]. apply pow_incr. split; [apply Rmin_glb; lra|apply Rmin_l].
    - apply bigo_rsum. intros j Hj. apply (bigo_mult 0 q (fun a _ => d1 a j)); auto.
    - apply bigo_rsum. intros j Hj. apply bigo_rsum. intros k Hk. apply (bigo_mult 0 q (fun a _ => d2 a j k)); [auto|by apply prod2].
    - apply bigo_rsum. intros j Hj. apply bigo_rsum. intros k Hk. apply bigo_rsum. intros l Hl. apply (bigo_mult 0 q (fun a _ => d3 a j k l)); [auto|by apply prod3].
  Qed.
End bigo.
