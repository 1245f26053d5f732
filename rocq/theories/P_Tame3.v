(** Functions that are smooth around a curve: closed under sums, products and smooth
    functions of one variable; they give differential equations to which the theorem on
    the order of the methods applies. *)
From stdpp Require Import prelude.
From Coq Require Import Reals Lra Psatz.
From Verif Require Import Num NumR SpecConv P_Conv SpecLin P_Lin SpecOrd P_Ord SpecSmooth P_Tame P_Tame2.
Local Open Scope R_scope.

Section tame.
  Context (n : nat) (φ : R -> list R) (t0 T : R) (HT : t0 <= T).
  Context (Hlen : forall t, t0 <= t <= T -> length (φ t) = n).
  Context (Hcont : forall i t, (i < n)%nat -> t0 <= t <= T -> continuity_pt (fun τ => nth i (φ τ) 0) t).
  Implicit Types f g : R -> list R -> R.
  Definition lip (r : R) f : Prop := exists C, 0 <= C /\ forall t t' x y e, t0 <= t <= T -> t0 <= t' <= T -> Rabs (t' - t) <= r ->
    within r x (φ t) -> within r y (φ t) -> 0 <= e -> within e x y -> Rabs (f t' x - f t' y) <= C * e.
  Definition tame f : Prop := exists r, 0 < r <= 1 /\ jet n φ t0 T r (fun _ t' x => f t' x) /\ lip r f.

  Lemma within_refl x : within 0 x x.
  Proof. apply within_nth. split; [done|]. intros i _. rewrite Rminus_diag_eq by done. rewrite Rabs_R0. lra. Qed.
  Lemma within_mono e e' x y : e <= e' -> within e x y -> within e' x y.
  Proof. intros He Hw. eapply Forall2_impl; [exact Hw|]. intros a b Hab. cbn in *. lra. Qed.
  Lemma near_here r t : 0 <= r -> t0 <= t <= T -> near φ t0 T r 0 t t (φ t).
  Proof. intros Hr Ht. split_and!; try lra; [rewrite Rminus_diag_eq by done; rewrite Rabs_R0; lra|apply within_refl]. Qed.
  Lemma lip_less r r' f : r <= r' -> lip r' f -> lip r f.
  Proof.
    intros Hr (C & HC & Hf). exists C. split; [done|]. intros t t' x y e Ht Ht' Ha Hx Hy He Hw. apply (Hf t t' x y e); try done; [lra|by eapply within_mono|by eapply within_mono].
  Qed.
  Lemma tame_ext f g : (forall t x, f t x = g t x) -> tame f -> tame g.
  Proof.
    intros E (r & Hr & Hj & C & HC & Hl). exists r. split; [done|]. split; [eapply jet_ext; [|exact Hj]; intros; apply E|]. exists C. split; [done|]. intros t t' x y e. rewrite <- !E. apply Hl.
  Qed.
  (** Two functions, the same neighbourhood. *)
  Lemma tame_two f g : tame f -> tame g -> exists r, 0 < r <= 1 /\ jet n φ t0 T r (fun _ t' x => f t' x) /\ lip r f /\ jet n φ t0 T r (fun _ t' x => g t' x) /\ lip r g.
  Proof.
    intros (r & Hr & Hj & Hl) (r' & Hr' & Hj' & Hl'). exists (Rmin r r'). pose proof (Rmin_l r r'). pose proof (Rmin_r r r'). assert (0 < Rmin r r') by (apply Rmin_glb_lt; lra).
    split_and!; [lra|lra|by apply (jet_less n φ t0 T _ r)|by apply (lip_less _ r)|by apply (jet_less n φ t0 T _ r')|by apply (lip_less _ r')].
  Qed.
  Lemma tame_const c : tame (fun _ _ => c).
  Proof.
    exists 1. split; [lra|]. split; [apply (jet_time n φ t0 T 1 (fun _ => c)); apply bnd_const|]. exists 0. split; [lra|]. intros. rewrite Rminus_diag_eq by done. rewrite Rabs_R0. lra.
  Qed.
  Lemma bnd_cont c : (forall t, t0 <= t <= T -> continuity_pt c t) -> bnd t0 T c.
  Proof. intros Hc. destruct (bounded_cont c t0 T HT Hc) as (C & HC & Hb). by exists C. Qed.
  Lemma tame_time : tame (fun t _ => t).
  Proof.
    exists 1. split; [lra|]. split.
    - eapply (jet_ext n φ t0 T 1 (fun t t' x => t + du φ t t' x 0)). { intros e t t' x _. cbn. ring. }
      apply (jet_plus n φ t0 T 1 (fun t _ _ => t)); [|apply jet_du; lia]. apply (jet_time n φ t0 T 1 (fun t => t)). apply bnd_cont. intros t _. apply derivable_continuous_pt, derivable_pt_id.
    - exists 0. split; [lra|]. intros. rewrite Rminus_diag_eq by done. rewrite Rabs_R0. lra.
  Qed.
  Lemma tame_state i : (i < n)%nat -> tame (fun _ x => nth i x 0).
  Proof.
    intros Hi. exists 1. split; [lra|]. split.
    - eapply (jet_ext n φ t0 T 1 (fun t t' x => nth i (φ t) 0 + du φ t t' x (S i))). { intros e t t' x _. cbn. ring. }
      apply (jet_plus n φ t0 T 1 (fun t _ _ => nth i (φ t) 0)); [|apply jet_du; lia]. apply (jet_time n φ t0 T 1 (fun t => nth i (φ t) 0)). apply bnd_cont. auto.
    - exists 1. split; [lra|]. intros t t' x y e Ht Ht' _ _ _ He Hw. rewrite Rmult_1_l. by apply within_nth_any.
  Qed.
  Lemma tame_plus f g : tame f -> tame g -> tame (fun t x => f t x + g t x).
  Proof.
    intros Hf Hg. destruct (tame_two f g Hf Hg) as (r & Hr & Jf & (C & HC & Lf) & Jg & (C' & HC' & Lg)). exists r. split; [done|].
    split; [by apply (jet_plus n φ t0 T r (fun _ t' x => f t' x) (fun _ t' x => g t' x))|]. exists (C + C'). split; [lra|]. intros t t' x y e Ht Ht' Ha Hx Hy He Hw.
    specialize (Lf t t' x y e Ht Ht' Ha Hx Hy He Hw). specialize (Lg t t' x y e Ht Ht' Ha Hx Hy He Hw).
    replace (f t' x + g t' x - (f t' y + g t' y)) with ((f t' x - f t' y) + (g t' x - g t' y)) by ring. eapply Rle_trans; [apply Rabs_triang|]. lra.
  Qed.
  Lemma tame_mult f g : tame f -> tame g -> tame (fun t x => f t x * g t x).
  Proof.
    intros Hf Hg. destruct (tame_two f g Hf Hg) as (r & Hr & Jf & (C & HC & Lf) & Jg & (C' & HC' & Lg)). exists r. split; [done|].
    split; [apply (jet_mult n φ t0 T r (fun _ t' x => f t' x) (fun _ t' x => g t' x)); [lra|done|done]|].
    destruct (jet_bigx n φ t0 T r _ (proj2 Hr) Jf) as (M & HM & Bf). destruct (jet_bigx n φ t0 T r _ (proj2 Hr) Jg) as (M' & HM' & Bg).
    exists (M * C' + M' * C). split. { assert (0 <= M * C') by (by apply Rmult_le_pos). assert (0 <= M' * C) by (by apply Rmult_le_pos). lra. }
    intros t t' x y e Ht Ht' Ha Hx Hy He Hw. specialize (Lf t t' x y e Ht Ht' Ha Hx Hy He Hw). specialize (Lg t t' x y e Ht Ht' Ha Hx Hy He Hw).
    assert (near φ t0 T r r t t' x) as N1 by (split_and!; try done; lra). assert (near φ t0 T r r t t' y) as N2 by (split_and!; try done; lra).
    apply Bf in N1. apply Bg in N2. cbn [pow] in N1, N2. rewrite Rmult_1_r in N1, N2.
    replace (f t' x * g t' x - f t' y * g t' y) with (f t' x * (g t' x - g t' y) + g t' y * (f t' x - f t' y)) by ring. eapply Rle_trans; [apply Rabs_triang|]. rewrite !Rabs_mult.
    replace ((M * C' + M' * C) * e) with (M * (C' * e) + M' * (C * e)) by ring. apply Rplus_le_compat; apply Rmult_le_compat; try apply Rabs_pos; done.
  Qed.
  Lemma jet_center r f : 0 <= r <= 1 -> jet n φ t0 T r (fun _ t' x => f t' x) -> bigx φ t0 T r 1 (fun t t' x => f t' x - f t (φ t)) /\ bnd t0 T (fun t => f t (φ t)) /\
    exists d1 d2 d3, bnd1 t0 T d1 /\ bnd2 t0 T d2 /\ bnd3 t0 T d3 /\ bigx φ t0 T r 4 (fun t t' x => f t' x - (f t (φ t) + L1 n φ d1 t t' x + L2 n φ d2 t t' x + L3 n φ d3 t t' x)).
  Proof.
    intros Hr (c & d1 & d2 & d3 & Hc & H1 & H2 & H3 & Hb).
    assert (bigx φ t0 T r 1 (fun t t' x => f t' x - c t)) as B1.
    { eapply (bigx_ext φ t0 T r 1 (fun t t' x => (f t' x - (c t + L1 n φ d1 t t' x + L2 n φ d2 t t' x + L3 n φ d3 t t' x)) + ((L1 n φ d1 t t' x + L2 n φ d2 t t' x) + L3 n φ d3 t t' x))); [intros; ring|].
      apply bigx_plus; [eapply bigx_mono; [apply Hr| |exact Hb]; lia|]. apply bigx_plus; [apply bigx_plus|].
      - by apply L1_small.
      - eapply bigx_mono; [apply Hr| |by apply L2_small]; lia.
      - eapply bigx_mono; [apply Hr| |by apply L3_small]; lia. }
    assert (forall t, t0 <= t <= T -> f t (φ t) = c t) as E.
    { intros t Ht. destruct B1 as (C & HC & B1). specialize (B1 0 t t (φ t) (near_here r t (proj1 Hr) Ht)). rewrite pow_1, Rmult_0_r in B1. pose proof (Rabs_pos (f t (φ t) - c t)).
      assert (f t (φ t) - c t = 0); [|lra]. destruct (Req_dec (f t (φ t) - c t) 0) as [Hz|Hz]; [done|]. apply Rabs_pos_lt in Hz. lra. }
    split; [|split].
    - eapply bigx_ext; [|exact B1]. intros e t t' x Hn. cbn. rewrite (E t); [done|by destruct Hn].
    - destruct Hc as (M & HM & Hc). exists M. split; [done|]. intros t Ht. rewrite E by done. by apply Hc.
    - exists d1, d2, d3. split_and!; try done. eapply bigx_ext; [|exact Hb]. intros e t t' x Hn. cbn beta. rewrite (E t); [done|by destruct Hn].
  Qed.
  (** ** Along the curve *)
  Definition clamp (t : R) : R := Rmax t0 (Rmin T t).
  Lemma clamp_in t : t0 <= clamp t <= T.
  Proof. unfold clamp, Rmax, Rmin. destruct (Rle_dec T t); destruct (Rle_dec _ _); lra. Qed.
  Lemma clamp_id t : t0 <= t <= T -> clamp t = t.
  Proof. intros Ht. unfold clamp, Rmax, Rmin. destruct (Rle_dec T t); destruct (Rle_dec _ _); lra. Qed.
  Lemma clamp_lip t t' : Rabs (clamp t' - clamp t) <= Rabs (t' - t).
  Proof. unfold clamp, Rmax, Rmin. destruct (Rle_dec T t), (Rle_dec T t'); repeat destruct (Rle_dec _ _); split_Rabs; lra. Qed.
  Lemma curve_cont t e : t0 <= t <= T -> 0 < e -> exists δ, 0 < δ /\ forall t', t0 <= t' <= T -> Rabs (t' - t) < δ -> within e (φ t') (φ t).
  Proof.
    intros Ht He. assert (forall m, (m <= n)%nat -> exists δ, 0 < δ /\ forall t' i, (i < m)%nat -> Rabs (t' - t) < δ -> Rabs (nth i (φ t') 0 - nth i (φ t) 0) <= e) as Hm.
    { induction m as [|m IH]; intros Hm; [exists 1; split; [lra|]; intros; lia|]. destruct IH as (δ & Hδ & Hd); [lia|].
      destruct (Hcont m t ltac:(lia) Ht e He) as (α & Hα & Hc). exists (Rmin δ α). split; [by apply Rmin_glb_lt|]. intros t' i Hi Ha.
      pose proof (Rmin_l δ α). pose proof (Rmin_r δ α). destruct (decide (i = m)) as [->|Hne]; [|apply Hd; [lia|lra]].
      destruct (Req_dec t' t) as [-> |Hne]; [rewrite Rminus_diag_eq by done; rewrite Rabs_R0; lra|]. left. apply (Hc t'). split; [split; [done|by apply not_eq_sym]|]. cbn. unfold R_dist. lra. }
    destruct (Hm n ltac:(lia)) as (δ & Hδ & Hd). exists δ. split; [done|]. intros t' Ht' Ha. apply within_nth. rewrite !Hlen by done. split; [done|]. intros i Hi. by apply Hd.
  Qed.
  Lemma along_cont r f : 0 < r <= 1 -> jet n φ t0 T r (fun _ t' x => f t' x) -> continuity (fun t => f (clamp t) (φ (clamp t))).
  Proof.
    intros Hr Hj. destruct (jet_center r f ltac:(lra) Hj) as ((C & HC & B1) & _). intros t ε Hε.
    set (e := Rmin r (ε / (2 * (C + 1)))). assert (0 < ε / (2 * (C + 1))) as Hq by (apply Rdiv_lt_0_compat; lra).
    assert (0 < e) as He by (apply Rmin_glb_lt; lra). assert (e <= r) as Her by apply Rmin_l. assert (C * e < ε) as HCe.
    { assert (e <= ε / (2 * (C + 1))) as H1 by apply Rmin_r. apply (Rmult_le_compat_l (C + 1)) in H1; [|lra]. replace ((C + 1) * (ε / (2 * (C + 1)))) with (ε / 2) in H1 by (field; lra). lra. }
    destruct (curve_cont (clamp t) e (clamp_in t) He) as (δ & Hδ & Hd). exists (Rmin δ e). split; [by apply Rmin_glb_lt|]. intros t' [_ Ha]. cbn in *. unfold R_dist in *.
    pose proof (Rmin_l δ e). pose proof (Rmin_r δ e). pose proof (clamp_lip t t').
    eapply Rle_lt_trans; [apply (B1 e)|rewrite Rmult_1_r; exact HCe]. split_and!; try apply clamp_in; try lra. apply Hd; [apply clamp_in|lra].
  Qed.
  Lemma tame_comp U s f : open_set U -> smooth_on U s -> tame f -> (forall t, t0 <= t <= T -> U (f t (φ t))) -> tame (fun t x => s (f t x)).
  Proof.
    intros Ho Hs (r & Hr & Hj & C' & HC' & Lf) HU. destruct (jet_center r f ltac:(lra) Hj) as ((C & HC & B1) & Hbc & _).
    destruct (range_inside (fun t => f (clamp t) (φ (clamp t))) t0 T U HT (along_cont r f Hr Hj) Ho) as (lo & hi & δ & Hδ & Hlh & Hin & Hrg). { intros t Ht. rewrite clamp_id by done. by apply HU. }
    destruct (smooth_taylor U s lo hi Hs Hlh Hin) as (s1 & s2 & s3 & M & HM & Hb & Hl & Ht4).
    assert (forall t, t0 <= t <= T -> lo + δ <= f t (φ t) <= hi - δ) as Hmid. { intros t Ht. specialize (Hrg t Ht). cbn in Hrg. by rewrite clamp_id in Hrg. }
    set (q := Rmin r (δ / (C + 1))). assert (0 < δ / (C + 1)) as Hq0 by (apply Rdiv_lt_0_compat; lra). assert (0 < q) as Hq by (apply Rmin_glb_lt; lra). assert (q <= r) as Hqr by apply Rmin_l.
    assert (C * q <= δ) as HCq. { assert (q <= δ / (C + 1)) as H1 by apply Rmin_r. apply (Rmult_le_compat_l (C + 1)) in H1; [|lra]. replace ((C + 1) * (δ / (C + 1))) with δ in H1 by (field; lra). lra. }
    assert (forall e t t' x, near φ t0 T q e t t' x -> lo <= f t' x <= hi) as Hrange.
    { intros e t t' x Hn. specialize (B1 e t t' x (near_mono _ _ _ _ _ _ _ _ _ Hqr Hn)). rewrite pow_1 in B1. destruct Hn as (N1 & _ & N2 & _). specialize (Hmid t N1).
      assert (C * e <= C * q) by (apply Rmult_le_compat_l; lra). split_Rabs; lra. }
    assert (forall t, t0 <= t <= T -> lo <= f t (φ t) <= hi) as Hon by (intros t Ht; specialize (Hmid t Ht); lra).
    exists q. split; [lra|]. split.
    - set (v := fun t t' x => f t' x + - f t (φ t)). set (c := fun (h : R -> R) t => h (f t (φ t))).
      assert (jet n φ t0 T q (fun _ t' x => f t' x)) as Jf by (by eapply jet_less).
      assert (jet n φ t0 T q v) as Jv. { apply (jet_plus n φ t0 T q (fun _ t' x => f t' x) (fun t _ _ => - f t (φ t))); [done|]. apply (jet_time n φ t0 T q (fun t => - f t (φ t))).
        destruct Hbc as (M0 & HM0 & Hbc). exists M0. split; [done|]. intros t Ht. rewrite Rabs_Ropp. by apply Hbc. }
      assert (forall h, (forall a, lo <= a <= hi -> Rabs (h a) <= M) -> jet n φ t0 T q (fun t _ _ => c h t)) as Jc.
      { intros h Hh. apply jet_time. exists M. split; [done|]. intros t Ht. by apply Hh, Hon. }
      assert (q <= 1) as Hq1 by lra.
      eapply (jet_ext n φ t0 T q (fun t t' x => (c s t + c s1 t * v t t' x + c s2 t * (v t t' x * v t t' x) + c s3 t * (v t t' x * (v t t' x * v t t' x))) +
        (s (f t' x) - (s (f t (φ t)) + s1 (f t (φ t)) * (f t' x - f t (φ t)) + s2 (f t (φ t)) * (f t' x - f t (φ t)) ^ 2 + s3 (f t (φ t)) * (f t' x - f t (φ t)) ^ 3)))).
      { intros e t t' x _. unfold c, v. ring. }
      apply jet_plus; [apply jet_plus; [apply jet_plus; [apply jet_plus|]|]|].
      + apply Jc. intros a Ha. apply (Hb a Ha).
      + apply (jet_mult n φ t0 T q (fun t _ _ => c s1 t) v); [done| |done]. apply Jc. intros a Ha. apply (Hb a Ha).
      + apply (jet_mult n φ t0 T q (fun t _ _ => c s2 t) (fun t t' x => v t t' x * v t t' x)); [done| |by apply jet_mult]. apply Jc. intros a Ha. apply (Hb a Ha).
      + apply (jet_mult n φ t0 T q (fun t _ _ => c s3 t) (fun t t' x => v t t' x * (v t t' x * v t t' x))); [done| |].
        { apply Jc. intros a Ha. apply (Hb a Ha). } apply (jet_mult n φ t0 T q v (fun t t' x => v t t' x * v t t' x)); [done|done|by apply jet_mult].
      + apply jet_rest. exists (M * C ^ 4). split; [apply Rmult_le_pos; [done|by apply pow_le]|]. intros e t t' x Hn. pose proof (Hrange _ _ _ _ Hn) as R1.
        assert (t0 <= t <= T) as Ht by (by destruct Hn). eapply Rle_trans; [apply Ht4; [by apply Hon|done]|]. rewrite Rmult_assoc, <- Rpow_mult_distr. apply Rmult_le_compat_l; [done|].
        apply pow_incr. split; [apply Rabs_pos|]. specialize (B1 e t t' x (near_mono _ _ _ _ _ _ _ _ _ Hqr Hn)). rewrite pow_1 in B1. done.
    - exists (M * C'). split; [by apply Rmult_le_pos|]. intros t t' x y e Ht Ht' Ha Hx Hy He Hw.
      assert (near φ t0 T q q t t' x) as N1 by (split_and!; try done; lra). assert (near φ t0 T q q t t' y) as N2 by (split_and!; try done; lra).
      eapply Rle_trans; [apply Hl; by eapply Hrange|]. rewrite Rmult_assoc. apply Rmult_le_compat_l; [done|]. apply (Lf t); try done; [lra|by eapply within_mono|by eapply within_mono].
  Qed.
  Lemma tame_opp f : tame f -> tame (fun t x => - f t x).
  Proof. intros Hf. eapply (tame_ext (fun t x => -1 * f t x)); [intros; ring|]. apply (tame_mult (fun _ _ => -1)); [apply tame_const|done]. Qed.
  Lemma tame_minus f g : tame f -> tame g -> tame (fun t x => f t x - g t x).
  Proof. intros Hf Hg. eapply (tame_ext (fun t x => f t x + - g t x)); [intros; ring|]. apply tame_plus; [done|by apply tame_opp]. Qed.
  Lemma tame_div f g : tame f -> tame g -> (forall t, t0 <= t <= T -> g t (φ t) <> 0) -> tame (fun t x => f t x / g t x).
  Proof. intros Hf Hg Hz. apply (tame_mult f (fun t x => / g t x)); [done|]. apply (tame_comp (fun a => a <> 0) Rinv g); [apply open_nonzero|apply smooth_inv|done|done]. Qed.

  (** ** Vectors *)
  Definition fun_of (fs : list (R -> list R -> R)) (t : R) (x : list R) : list R := map (fun f => f t x) fs.
  Lemma tames fs : Forall tame fs -> exists r M d1 d2 d3, 0 < r <= 1 /\ 0 <= M /\
    (forall t i j k l, t0 <= t <= T -> Rabs (d1 t i j) <= M /\ Rabs (d2 t i j k) <= M /\ Rabs (d3 t i j k l) <= M) /\
    forall i f, fs !! i = Some f -> (forall t, t0 <= t <= T -> Rabs (f t (φ t)) <= M) /\
      (forall t t' x y e, t0 <= t <= T -> t0 <= t' <= T -> Rabs (t' - t) <= r -> within r x (φ t) -> within r y (φ t) -> 0 <= e -> within e x y -> Rabs (f t' x - f t' y) <= M * e) /\
      (forall e t t' x, near φ t0 T r e t t' x -> Rabs (f t' x - f t (φ t)) <= M * e) /\
      (forall e t t' x, near φ t0 T r e t t' x -> Rabs (f t' x - (f t (φ t) + L1 n φ (fun t => d1 t i) t t' x + L2 n φ (fun t => d2 t i) t t' x + L3 n φ (fun t => d3 t i) t t' x)) <= M * e ^ 4).
  Proof.
    intros Hfs. induction Hfs as [|f fs (r & Hr & Hj & C & HC & Lf) _ (r' & M' & e1 & e2 & e3 & Hr' & HM' & Hd & IH)].
    { exists 1, 0, (fun _ _ _ => 0), (fun _ _ _ _ => 0), (fun _ _ _ _ _ => 0). split_and!; try lra. { intros. rewrite Rabs_R0. lra. } intros i f E. by rewrite lookup_nil in E. }
    destruct (jet_center r f ltac:(lra) Hj) as ((C1 & HC1 & B1) & (C0 & HC0 & B0) & d1 & d2 & d3 & (M1 & HM1 & D1) & (M2 & HM2 & D2) & (M3 & HM3 & D3) & (C4 & HC4 & B4)).
    set (M := M' + C + C1 + C0 + M1 + M2 + M3 + C4). pose proof (Rmin_l r r') as Rl. pose proof (Rmin_r r r') as Rr. assert (0 < Rmin r r') as Rp by (apply Rmin_glb_lt; lra).
    assert (forall c y, 0 <= y -> c <= M -> c * y <= M * y) as Hup by (intros; by apply Rmult_le_compat_r).
    exists (Rmin r r'), M, (fun t i => match i with O => d1 t | S i => e1 t i end), (fun t i => match i with O => d2 t | S i => e2 t i end), (fun t i => match i with O => d3 t | S i => e3 t i end).
    split; [lra|]. split; [unfold M; lra|]. split.
    { intros t [|i] j k l Ht; [specialize (D1 t j Ht); specialize (D2 t j k Ht); specialize (D3 t j k l Ht); unfold M; lra|]. destruct (Hd t i j k l Ht) as (V1 & V2 & V3). unfold M. lra. }
    intros [|i] h E; cbn in E.
    - injection E as <-. split; [|split; [|split]].
      + intros t Ht. specialize (B0 t Ht). unfold M. lra.
      + intros t t' x y e Ht Ht' Ha Hx Hy He Hw. eapply Rle_trans; [apply (Lf t t' x y e); try done; [lra|by eapply within_mono|by eapply within_mono]|]. apply Hup; [done|unfold M; lra].
      + intros e t t' x Hn. eapply Rle_trans; [apply (B1 e); (eapply near_mono; [|exact Hn]; lra)|]. rewrite pow_1. apply Hup; [by destruct Hn as (_ & _ & [Hn _] & _)|unfold M; lra].
      + intros e t t' x Hn. eapply Rle_trans; [apply (B4 e); (eapply near_mono; [|exact Hn]; lra)|]. apply Hup; [apply pow_le; by destruct Hn as (_ & _ & [Hn _] & _)|unfold M; lra].
    - destruct (IH i h E) as (V1 & V2 & V3 & V4). split; [|split; [|split]].
      + intros t Ht. specialize (V1 t Ht). unfold M. lra.
      + intros t t' x y e Ht Ht' Ha Hx Hy He Hw. eapply Rle_trans; [apply (V2 t t' x y e); try done; [lra|by eapply within_mono|by eapply within_mono]|]. apply Hup; [done|unfold M; lra].
      + intros e t t' x Hn. eapply Rle_trans; [apply (V3 e); (eapply near_mono; [|exact Hn]; lra)|]. apply Hup; [by destruct Hn as (_ & _ & [Hn _] & _)|unfold M; lra].
      + intros e t t' x Hn. eapply Rle_trans; [apply (V4 e); (eapply near_mono; [|exact Hn]; lra)|]. apply Hup; [apply pow_le; by destruct Hn as (_ & _ & [Hn _] & _)|unfold M; lra].
  Qed.
  Lemma fun_of_nth fs i f t x : fs !! i = Some f -> nth i (fun_of fs t x) 0 = f t x.
  Proof. revert i. induction fs as [|g fs IH]; intros [|i] E; try done; cbn in *; [by injection E as ->|by apply IH]. Qed.
  Lemma fun_of_within fs e t t' x y : (forall i f, fs !! i = Some f -> Rabs (f t x - f t' y) <= e) -> within e (fun_of fs t x) (fun_of fs t' y).
  Proof.
    intros Hf. apply within_nth. unfold fun_of. rewrite !map_length. split; [done|]. intros i Hi. destruct (lookup_lt_is_Some_2 _ _ Hi) as [f E].
    pose proof (fun_of_nth fs i f t x E) as E1. pose proof (fun_of_nth fs i f t' y E) as E2. unfold fun_of in E1, E2. rewrite E1, E2. by apply (Hf i).
  Qed.
  Lemma vector_smooth fs : Forall tame fs -> length fs = n -> exists r L B M, 0 < r /\ 0 <= L /\ 0 <= B /\ 0 <= M /\
    regular (fun_of fs) φ t0 T r L B /\ lipschitz (fun_of fs) φ t0 T r L /\ expands n (fun_of fs) φ t0 T r M.
  Proof.
    intros Hfs Hl. destruct (tames fs Hfs) as (r & M & d1 & d2 & d3 & Hr & HM & Hd & Hf). exists r, M, M, M. split_and!; try lra.
    - split.
      + intros t t' x e Ht Ht' He Ha Hw. apply fun_of_within. intros i f E. destruct (Hf i f E) as (_ & _ & V & _).
        assert (0 <= e) as He0. { apply lookup_lt_Some in E. apply within_nth in Hw as [W1 W2]. rewrite (Hlen t Ht) in W1. specialize (W2 i ltac:(lia)). pose proof (Rabs_pos (nth i x 0 - nth i (φ t) 0)). lra. }
        pose proof (Rabs_pos (t' - t)). eapply Rle_trans; [apply (V (Rmax e (Rabs (t' - t))))|].
        { split_and!; try lra; [eapply Rle_trans; [exact He0|apply Rmax_l]|by apply Rmax_lub|apply Rmax_r|]. eapply within_mono; [apply Rmax_l|done]. }
        apply Rmult_le_compat_l; [done|]. apply Rmax_lub; lra.
      + intros t Ht. apply Forall_forall. intros a Ha. unfold fun_of in Ha. apply elem_of_list_fmap in Ha as (f & -> & Hin). apply elem_of_list_lookup in Hin as [i E]. destruct (Hf i f E) as (V & _). by apply V.
    - intros t t' x y e Ht Ht' Ha Hx Hy Hw. apply fun_of_within. intros i f E. destruct (Hf i f E) as (_ & V & _).
      assert (0 <= e) as He0. { apply lookup_lt_Some in E. pose proof Hx as Hx'. apply within_nth in Hx' as [W1 _]. apply within_nth in Hw as [_ W2]. rewrite (Hlen t Ht) in W1. specialize (W2 i ltac:(lia)). pose proof (Rabs_pos (nth i x 0 - nth i y 0)). lra. }
      by apply (V t).
    - exists d1, d2, d3. split; [done|]. intros t t' x e i Ht Ht' He Ha Hw Hi u. rewrite <- Hl in Hi. destruct (lookup_lt_is_Some_2 _ _ Hi) as [f E]. rewrite !(fun_of_nth fs i f) by done.
      destruct (Hf i f E) as (_ & _ & _ & V). apply (V e). pose proof (Rabs_pos (t' - t)). split_and!; try done; lra.
  Qed.
End tame.
