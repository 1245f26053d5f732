(** Functions of time and state that are smooth along a curve: closed under sums,
    products and smooth functions of one variable. *)
From stdpp Require Import prelude.
From Coq Require Import Reals Lra Psatz.
From Verif Require Import Num NumR SpecConv P_Conv SpecLin P_Lin SpecOrd SpecSmooth.
Local Open Scope R_scope.

(** ** Functions of one variable *)
Lemma bounded_cont f a b : a <= b -> (forall t, a <= t <= b -> continuity_pt f t) -> exists C, 0 <= C /\ forall t, a <= t <= b -> Rabs (f t) <= C.
Proof.
  intros Hab Hc. destruct (continuity_ab_maj f a b Hab Hc) as (u & Hu & _). destruct (continuity_ab_min f a b Hab Hc) as (v & Hv & _).
  pose proof (Rabs_pos (f u)). pose proof (Rabs_pos (f v)). exists (Rabs (f u) + Rabs (f v)). split; [lra|]. intros t Ht. specialize (Hu t Ht). specialize (Hv t Ht).
  pose proof (Rle_abs (f u)). pose proof (Rle_abs (- f v)) as Ha. rewrite Rabs_Ropp in Ha. apply Rabs_le. lra.
Qed.
Definition between (v w : R) : Prop := Rmin 0 v <= w <= Rmax 0 v.
Lemma between_abs v w : between v w -> Rabs w <= Rabs v.
Proof. unfold between, Rmin, Rmax. destruct (Rle_dec 0 v); intros ?; split_Rabs; lra. Qed.
Lemma between_trans v w u : between v w -> between w u -> between v u.
Proof. unfold between, Rmin, Rmax. destruct (Rle_dec 0 v), (Rle_dec 0 w); lra. Qed.
Lemma grow (g d : R -> R) C k v : 0 <= C -> g 0 = 0 -> (forall w, between v w -> derivable_pt_lim g w (d w)) -> (forall w, between v w -> Rabs (d w) <= C * Rabs w ^ k) -> Rabs (g v) <= C * Rabs v ^ S k.
Proof.
  intros HC H0 Hd Hb. assert (forall c, g v = d c * v -> between v c -> Rabs (g v) <= C * Rabs v ^ S k) as Hgo.
  { intros c -> Hc. rewrite Rabs_mult. cbn [pow]. replace (C * (Rabs v * Rabs v ^ k)) with (C * Rabs v ^ k * Rabs v) by ring.
    apply Rmult_le_compat_r; [apply Rabs_pos|]. eapply Rle_trans; [by apply Hb|]. apply Rmult_le_compat_l; [done|]. apply pow_incr. split; [apply Rabs_pos|by apply between_abs]. }
  destruct (Rtotal_order v 0) as [Hv|[-> |Hv]].
  - destruct (MVT_cor2 g d v 0 Hv) as (c & E & Hc). { intros c Hc. apply Hd. unfold between. rewrite Rmin_right, Rmax_left by lra. lra. }
    apply (Hgo c); [lra|]. unfold between. rewrite Rmin_right, Rmax_left by lra. lra.
  - rewrite H0, Rabs_R0. apply Rmult_le_pos; [done|]. apply pow_le. lra.
  - destruct (MVT_cor2 g d 0 v Hv) as (c & E & Hc). { intros c Hc. apply Hd. unfold between. rewrite Rmin_left, Rmax_right by lra. lra. }
    apply (Hgo c); [lra|]. unfold between. rewrite Rmin_left, Rmax_right by lra. lra.
Qed.
Lemma derive_shift f f' a w : derivable_pt_lim f (a + w) (f' (a + w)) -> derivable_pt_lim (fun w => f (a + w)) w (f' (a + w)).
Proof.
  intros Hd. replace (f' (a + w)) with (f' (a + w) * (0 + 1)) by ring. apply (derivable_pt_lim_comp (fun w => a + w) f); [|done].
  apply (derivable_pt_lim_plus (fun _ => a) (fun w => w)); [apply derivable_pt_lim_const|apply derivable_pt_lim_id].
Qed.
Lemma smooth_taylor U s lo hi : smooth_on U s -> lo <= hi -> (forall a, lo <= a <= hi -> U a) -> exists s1 s2 s3 M, 0 <= M /\
  (forall a, lo <= a <= hi -> Rabs (s a) <= M /\ Rabs (s1 a) <= M /\ Rabs (s2 a) <= M /\ Rabs (s3 a) <= M) /\
  (forall a a', lo <= a <= hi -> lo <= a' <= hi -> Rabs (s a' - s a) <= M * Rabs (a' - a)) /\
  (forall a a', lo <= a <= hi -> lo <= a' <= hi -> Rabs (s a' - (s a + s1 a * (a' - a) + s2 a * (a' - a) ^ 2 + s3 a * (a' - a) ^ 3)) <= M * Rabs (a' - a) ^ 4).
Proof.
  intros (f1 & f2 & f3 & f4 & HD) Hlh HU.
  assert (forall a, lo <= a <= hi -> derivable_pt_lim s a (f1 a)) as D1 by (intros a Ha; by apply HD, HU). assert (forall a, lo <= a <= hi -> derivable_pt_lim f1 a (f2 a)) as D2 by (intros a Ha; by apply HD, HU).
  assert (forall a, lo <= a <= hi -> derivable_pt_lim f2 a (f3 a)) as D3 by (intros a Ha; by apply HD, HU). assert (forall a, lo <= a <= hi -> derivable_pt_lim f3 a (f4 a)) as D4 by (intros a Ha; by apply HD, HU).
  assert (forall a, lo <= a <= hi -> continuity_pt f4 a) as C4 by (intros a Ha; by apply HD, HU). clear HD.
  assert (forall f, (forall a, lo <= a <= hi -> continuity_pt f a) -> exists C, 0 <= C /\ forall t, lo <= t <= hi -> Rabs (f t) <= C) as Hbd.
  { intros f Hf. by apply bounded_cont. }
  assert (forall f f', (forall a, lo <= a <= hi -> derivable_pt_lim f a (f' a)) -> forall a, lo <= a <= hi -> continuity_pt f a) as Hdc. { intros f f' Hd a Ha. apply derivable_continuous_pt. exists (f' a). by apply Hd. }
  destruct (Hbd s (Hdc _ _ D1)) as (M0 & HM0 & B0). destruct (Hbd f1 (Hdc _ _ D2)) as (M1 & HM1 & B1). destruct (Hbd f2 (Hdc _ _ D3)) as (M2 & HM2 & B2).
  destruct (Hbd f3 (Hdc _ _ D4)) as (M3 & HM3 & B3). destruct (Hbd f4 C4) as (M4 & HM4 & B4).
  set (M := M0 + M1 + M2 + M3 + M4). assert (0 <= M) as HM by (unfold M; lra).
  assert (forall a a' w, lo <= a <= hi -> lo <= a' <= hi -> between (a' - a) w -> lo <= a + w <= hi) as Hin.
  { intros a a' w Ha Ha'. unfold between, Rmin, Rmax. destruct (Rle_dec 0 (a' - a)); lra. }
  exists f1, (fun a => f2 a / 2), (fun a => f3 a / 6), M. split; [done|]. split; [|split].
  - intros a Ha. specialize (B0 a Ha). specialize (B1 a Ha). specialize (B2 a Ha). specialize (B3 a Ha). unfold M, Rdiv. rewrite !Rabs_mult. rewrite (Rabs_pos_eq (/ 2)), (Rabs_pos_eq (/ 6)) by lra.
    pose proof (Rabs_pos (f2 a)). pose proof (Rabs_pos (f3 a)). lra.
  - intros a a' Ha Ha'. assert (Rabs (s (a + (a' - a)) - s a) <= M * Rabs (a' - a) ^ 1) as Hg.
    { apply (grow (fun w => s (a + w) - s a) (fun w => f1 (a + w) - 0)); [done|rewrite Rplus_0_r; lra| |].
      - intros w Hw. apply (derivable_pt_lim_minus (fun w => s (a + w)) (fun _ => s a)); [apply derive_shift, D1; by eapply Hin|apply derivable_pt_lim_const].
      - intros w Hw. rewrite Rminus_0_r, pow_O, Rmult_1_r. specialize (B1 _ (Hin _ _ _ Ha Ha' Hw)). unfold M. lra. }
    rewrite pow_1 in Hg. replace (a + (a' - a)) with a' in Hg by ring. done.
  - intros a a' Ha Ha'. specialize (fun w => Hin a a' w Ha Ha'). set (v := a' - a) in *.
    (** The remainders of f3, f2, f1 and s. *)
    assert (forall w, between v w -> Rabs (f3 (a + w) - f3 a) <= M * Rabs w ^ 1) as R3.
    { intros w Hw. apply (grow (fun w => f3 (a + w) - f3 a) (fun w => f4 (a + w) - 0)); [done|rewrite Rplus_0_r; lra| |].
      - intros u Hu. apply (derivable_pt_lim_minus (fun w => f3 (a + w)) (fun _ => f3 a)); [apply derive_shift, D4, Hin; by eapply between_trans|apply derivable_pt_lim_const].
      - intros u Hu. rewrite Rminus_0_r, pow_O, Rmult_1_r. specialize (B4 _ (Hin _ (between_trans _ _ _ Hw Hu))). unfold M. lra. }
    assert (forall w, between v w -> Rabs (f2 (a + w) - (f2 a + f3 a * w)) <= M * Rabs w ^ 2) as R2.
    { intros w Hw. apply (grow (fun w => f2 (a + w) - (f2 a + f3 a * w)) (fun w => f3 (a + w) - (0 + f3 a * 1))); [done|rewrite Rplus_0_r; lra| |].
      - intros u Hu. apply (derivable_pt_lim_minus (fun w => f2 (a + w)) (fun w => f2 a + f3 a * w)); [apply derive_shift, D3, Hin; by eapply between_trans|].
        apply (derivable_pt_lim_plus (fun _ => f2 a) (fun w => f3 a * w)); [apply derivable_pt_lim_const|]. apply (derivable_pt_lim_scal (fun w => w)). apply derivable_pt_lim_id.
      - intros u Hu. replace (f3 (a + u) - (0 + f3 a * 1)) with (f3 (a + u) - f3 a) by ring. apply R3. by eapply between_trans. }
    assert (forall c w, derivable_pt_lim (fun w => c * w ^ 2) w (c * (2 * w ^ 1))) as P2 by (intros c w; apply (derivable_pt_lim_scal (fun w => w ^ 2)); apply (derivable_pt_lim_pow w 2)).
    assert (forall c w, derivable_pt_lim (fun w => c * w ^ 3) w (c * (3 * w ^ 2))) as P3.
    { intros c w. apply (derivable_pt_lim_scal (fun w => w ^ 3)). replace 3 with (INR 3) by (cbn; lra). apply (derivable_pt_lim_pow w 3). }
    assert (forall w, between v w -> Rabs (f1 (a + w) - (f1 a + f2 a * w + f3 a / 2 * w ^ 2)) <= M * Rabs w ^ 3) as R1.
    { intros w Hw. apply (grow (fun w => f1 (a + w) - (f1 a + f2 a * w + f3 a / 2 * w ^ 2)) (fun w => f2 (a + w) - (0 + f2 a * 1 + f3 a / 2 * (2 * w ^ 1)))); [done|rewrite Rplus_0_r; lra| |].
      - intros u Hu. apply (derivable_pt_lim_minus (fun w => f1 (a + w)) (fun w => f1 a + f2 a * w + f3 a / 2 * w ^ 2)); [apply derive_shift, D2, Hin; by eapply between_trans|].
        apply (derivable_pt_lim_plus (fun w => f1 a + f2 a * w) (fun w => f3 a / 2 * w ^ 2)); [|apply P2].
        apply (derivable_pt_lim_plus (fun _ => f1 a) (fun w => f2 a * w)); [apply derivable_pt_lim_const|]. apply (derivable_pt_lim_scal (fun w => w)). apply derivable_pt_lim_id.
      - intros u Hu. replace (f2 (a + u) - (0 + f2 a * 1 + f3 a / 2 * (2 * u ^ 1))) with (f2 (a + u) - (f2 a + f3 a * u)) by field. apply R2. by eapply between_trans. }
    replace a' with (a + v) at 1 by (unfold v; ring).
    apply (grow (fun w => s (a + w) - (s a + f1 a * w + f2 a / 2 * w ^ 2 + f3 a / 6 * w ^ 3)) (fun w => f1 (a + w) - (0 + f1 a * 1 + f2 a / 2 * (2 * w ^ 1) + f3 a / 6 * (3 * w ^ 2)))); [done|rewrite Rplus_0_r; lra| |].
    + intros u Hu. apply (derivable_pt_lim_minus (fun w => s (a + w)) (fun w => s a + f1 a * w + f2 a / 2 * w ^ 2 + f3 a / 6 * w ^ 3)); [apply derive_shift, D1, Hin; done|].
      apply (derivable_pt_lim_plus (fun w => s a + f1 a * w + f2 a / 2 * w ^ 2) (fun w => f3 a / 6 * w ^ 3)); [|apply P3].
      apply (derivable_pt_lim_plus (fun w => s a + f1 a * w) (fun w => f2 a / 2 * w ^ 2)); [|apply P2].
      apply (derivable_pt_lim_plus (fun _ => s a) (fun w => f1 a * w)); [apply derivable_pt_lim_const|]. apply (derivable_pt_lim_scal (fun w => w)). apply derivable_pt_lim_id.
    + intros u Hu. replace (f1 (a + u) - (0 + f1 a * 1 + f2 a / 2 * (2 * u ^ 1) + f3 a / 6 * (3 * u ^ 2))) with (f1 (a + u) - (f1 a + f2 a * u + f3 a / 2 * u ^ 2)) by field. by apply R1.
Qed.
(** The values of a continuous function on an interval, if they lie in an open set, lie
    well inside an interval that lies in this set. *)
Lemma range_inside f a b (U : R -> Prop) : a <= b -> continuity f -> open_set U -> (forall t, a <= t <= b -> U (f t)) ->
  exists lo hi δ, 0 < δ /\ lo <= hi /\ (forall y, lo <= y <= hi -> U y) /\ forall t, a <= t <= b -> lo + δ <= f t <= hi - δ.
Proof.
  intros Hab Hc Ho HU. destruct (continuity_ab_maj f a b Hab (fun t _ => Hc t)) as (u & Hu & Iu). destruct (continuity_ab_min f a b Hab (fun t _ => Hc t)) as (v & Hv & Iv).
  destruct (Ho (f u) (HU u Iu)) as [[d1 Hd1] Hi1]. destruct (Ho (f v) (HU v Iv)) as [[d2 Hd2] Hi2]. unfold included, disc in Hi1, Hi2. cbn in Hi1, Hi2.
  set (δ := Rmin d1 d2 / 2). assert (0 < Rmin d1 d2) as Hm by (by apply Rmin_glb_lt). pose proof (Rmin_l d1 d2). pose proof (Rmin_r d1 d2).
  exists (f v - δ), (f u + δ), δ. assert (0 < δ < d1 /\ δ < d2) as [Hδ Hδ2] by (unfold δ; lra). pose proof (Hv u Iu). split; [lra|]. split; [lra|]. split.
  - intros y Hy. destruct (Rle_lt_dec y (f v)) as [Q1|Q1]; [apply Hi2; split_Rabs; lra|]. destruct (Rle_lt_dec (f u) y) as [Q2|Q2]; [apply Hi1; split_Rabs; lra|].
    assert (exists z, a <= z <= b /\ f z = y) as (z & Hz & <-); [|by apply HU].
    destruct (Rtotal_order v u) as [Hlt|[-> |Hgt]]; [|lra|].
    + destruct (IVT (fun t => f t - y) v u) as (z & Hz & Ez); [|done|lra|lra|exists z; split; lra].
      intros c. apply (continuity_pt_minus f (fun _ => y)); [apply Hc|]. apply continuity_pt_const. by intros ? ?.
    + destruct (IVT (fun t => y - f t) u v) as (z & Hz & Ez); [|done|lra|lra|exists z; split; lra].
      intros c. apply (continuity_pt_minus (fun _ => y) f); [|apply Hc]. apply continuity_pt_const. by intros ? ?.
  - intros t Ht. specialize (Hu t Ht). specialize (Hv t Ht). lra.
Qed.
Lemma smooth_inv : smooth_on (fun a => a <> 0) Rinv.
Proof.
  assert (forall k a, a <> 0 -> derivable_pt_lim (fun b => (/ b) ^ k) a (- INR k * (/ a) ^ S k)) as Hp.
  { intros k a Ha. destruct k as [|k]; [cbn; replace (-0 * _) with 0 by ring; apply derivable_pt_lim_const|].
    replace (- INR (S k) * (/ a) ^ S (S k)) with (INR (S k) * (/ a) ^ pred (S k) * (- / a ^ 2)).
    2: { cbn [pred pow]. rewrite !Rmult_1_r. field. done. }
    apply (derivable_pt_lim_comp Rinv (fun y => y ^ S k)); [|apply derivable_pt_lim_pow].
    apply (derivable_pt_lim_ext (fun b => 1 / b)); [intros; unfold Rdiv; ring|].
    replace (- / a ^ 2) with ((0 * a - 1 * 1) / Rsqr a) by (unfold Rsqr; field; done).
    apply (derivable_pt_lim_div (fun _ => 1) (fun b => b)); [apply derivable_pt_lim_const|apply derivable_pt_lim_id|done]. }
  exists (fun a => -1 * (/ a) ^ 2), (fun a => 2 * (/ a) ^ 3), (fun a => -6 * (/ a) ^ 4), (fun a => 24 * (/ a) ^ 5). intros a Ha.
  assert (forall c k c', c' = c * - INR k -> derivable_pt_lim (fun b => c * (/ b) ^ k) a (c' * (/ a) ^ S k)) as Hs.
  { intros c k c' ->. rewrite Rmult_assoc. apply (derivable_pt_lim_scal (fun b => (/ b) ^ k)). by apply Hp. }
  split; [|split; [|split; [|split]]].
  - replace (-1 * (/ a) ^ 2) with (- INR 1 * (/ a) ^ 2) by (cbn; ring). apply (derivable_pt_lim_ext (fun b => (/ b) ^ 1)); [intros; ring|]. by apply Hp.
  - apply Hs. cbn. lra.
  - apply Hs. cbn. lra.
  - apply Hs. cbn. lra.
  - apply derivable_continuous_pt. eexists. apply (derivable_pt_lim_scal (fun b => (/ b) ^ 5)). by apply Hp.
Qed.
Lemma open_nonzero : open_set (fun a => a <> 0).
Proof. intros a Ha. exists (mkposreal (Rabs a) (Rabs_pos_lt a Ha)). intros b Hb. unfold disc in Hb. cbn in Hb. intros ->. split_Rabs; lra. Qed.
