(** Existence of solutions of initial value problems whose right-hand side is
    Lipschitz in the state: Picard iteration, on top of the standard library's
    antiderivatives of continuous functions.  Nothing here depends on the
    model; [Props_Exist.v] applies it to the equations of the samples. *)
From Coq Require Import Reals Lra Lia.
Local Open Scope R_scope.

(** A function with a non-negative derivative does not decrease. *)
Lemma mono_of (f f' : R -> R) a t :
  a <= t -> (forall s, a <= s <= t -> derivable_pt_lim f s (f' s)) ->
  (forall s, a <= s <= t -> 0 <= f' s) -> f a <= f t.
Proof.
  intros Hat Hd Hp. destruct (Rle_lt_or_eq_dec _ _ Hat) as [Hlt| ->]; [|lra].
  destruct (MVT_cor2 f f' a t Hlt Hd) as (c & Hc & Hin).
  assert (0 <= f' c * (t - a)) by (apply Rmult_le_pos; [apply Hp|]; lra). lra.
Qed.

(** A function that starts at zero is bounded by a bound of its derivative. *)
Lemma bound_of (h h' B B' : R -> R) a t :
  a <= t -> h a = 0 ->
  (forall s, a <= s <= t -> derivable_pt_lim h s (h' s)) ->
  (forall s, a <= s <= t -> derivable_pt_lim B s (B' s)) ->
  (forall s, a <= s <= t -> Rabs (h' s) <= B' s) ->
  Rabs (h t) <= B t - B a.
Proof.
  intros Hat H0 Hh HB Hb.
  assert (H1 : B a - h a <= B t - h t).
  { apply (mono_of (fun s => B s - h s) (fun s => B' s - h' s)).
    - exact Hat.
    - intros s Hs. exact (derivable_pt_lim_minus B h s _ _ (HB s Hs) (Hh s Hs)).
    - intros s Hs. specialize (Hb s Hs). pose proof (Rle_abs (h' s)). lra. }
  assert (H2 : B a + h a <= B t + h t).
  { apply (mono_of (fun s => B s + h s) (fun s => B' s + h' s)).
    - exact Hat.
    - intros s Hs. exact (derivable_pt_lim_plus B h s _ _ (HB s Hs) (Hh s Hs)).
    - intros s Hs. specialize (Hb s Hs). pose proof (Rle_abs (- h' s)).
      rewrite Rabs_Ropp in H. lra. }
  apply Rabs_le. lra.
Qed.

Definition clamp (a b t : R) : R := Rmax a (Rmin b t).

Lemma clamp_in a b t : a <= b -> a <= clamp a b t <= b.
Proof. unfold clamp, Rmax, Rmin. intros. repeat destruct Rle_dec; lra. Qed.

Lemma clamp_id a b t : a <= t <= b -> clamp a b t = t.
Proof. unfold clamp, Rmax, Rmin. intros. repeat destruct Rle_dec; lra. Qed.

Lemma clamp_lip a b s t : Rabs (clamp a b s - clamp a b t) <= Rabs (s - t).
Proof.
  unfold clamp, Rmax, Rmin, Rabs. repeat destruct Rle_dec; repeat destruct Rcase_abs; lra.
Qed.

Lemma clamp_cont a b : continuity (clamp a b).
Proof.
  intros t e He. exists e. split; [exact He|]. intros x [_ Hx]. simpl in *. unfold R_dist in *.
  eapply Rle_lt_trans; [apply clamp_lip|exact Hx].
Qed.

Lemma pow2_pos k : 0 < / 2 ^ k.
Proof. apply Rinv_0_lt_compat, pow_lt. lra. Qed.

Lemma pow2_small e : 0 < e -> exists k, / 2 ^ k < e.
Proof.
  intros He. destruct (pow_lt_1_zero (/ 2)) with (y := e) as (N & HN).
  - rewrite Rabs_right; lra.
  - exact He.
  - exists N. specialize (HN N (Nat.le_refl _)).
    rewrite pow_inv in HN. rewrite Rabs_right in HN; [exact HN|].
    pose proof (pow2_pos N). lra.
Qed.

Section picard.
  Context (n : nat) (F : nat -> R -> (nat -> R) -> R) (a b L : R) (x0 : nat -> R).
  Hypothesis Hab : a <= b.
  Hypothesis HL : 0 <= L.
  Hypothesis Flip : forall i t v w e, (i < n)%nat -> a <= t <= b ->
    (forall j, (j < n)%nat -> Rabs (v j - w j) <= e) ->
    Rabs (F i t v - F i t w) <= L * e.
  Hypothesis Fcont : forall i (y : nat -> R -> R), (i < n)%nat ->
    (forall j, (j < n)%nat -> continuity (y j)) ->
    continuity (fun t => F i (clamp a b t) (fun j => y j t)).

  Definition cont (y : nat -> R -> R) : Prop :=
    forall j, (j < n)%nat -> continuity (y j).

  (** One step: integrate the right-hand side along a given curve. *)
  Definition steps (y g : nat -> R -> R) : Prop :=
    forall i, (i < n)%nat -> g i a = x0 i /\
      forall t, a <= t <= b -> derivable_pt_lim (g i) t (F i t (fun j => y j t)).

  Lemma step_ex y : cont y -> { g | steps y g }.
  Proof.
    intros Hy.
    assert (H : forall i, { g : R -> R | (i < n)%nat -> g a = x0 i /\
      forall t, a <= t <= b -> derivable_pt_lim g t (F i t (fun j => y j t)) }).
    { intros i. destruct (lt_dec i n) as [Hi|Hi].
      - destruct (@RiemannInt_P30 (fun t => F i (clamp a b t) (fun j => y j t)) a b Hab
          (fun x _ => Fcont i y Hi Hy x)) as (g & Hg).
        exists (fun t => g t - g a + x0 i). intros _. split; [lra|].
        intros t Ht. destruct (proj1 Hg t Ht) as (pr & Hpr).
        rewrite (clamp_id a b t Ht) in Hpr. rewrite Hpr.
        replace (derive_pt g t pr) with (derive_pt g t pr - 0 + 0) by lra.
        apply (derivable_pt_lim_plus (fun t => g t - g a) (fun _ => x0 i)).
        + apply (derivable_pt_lim_minus g (fun _ => g a)).
          * apply derive_pt_eq_1 with (pr := pr). reflexivity.
          * apply derivable_pt_lim_const.
        + apply derivable_pt_lim_const.
      - exists (fun _ => 0). intros Hc. contradiction. }
    exists (fun i => proj1_sig (H i)). intros i Hi. exact (proj2_sig (H i) Hi).
  Qed.

  Definition clamped (g : nat -> R -> R) (i : nat) (t : R) : R := g i (clamp a b t).

  Lemma clamped_cont y g : steps y g -> cont (clamped g).
  Proof.
    intros Hg i Hi t. unfold clamped.
    apply (continuity_pt_comp (clamp a b) (g i)); [apply clamp_cont|].
    apply derivable_continuous_pt. destruct (Hg i Hi) as [_ Hd].
    exists (F i (clamp a b t) (fun j => y j (clamp a b t))). apply Hd, clamp_in, Hab.
  Qed.

  Definition curve := { y | cont y }.

  Lemma start_cont : cont (fun i _ => x0 i).
  Proof. intros j _ t. apply continuity_pt_const. intros ? ?. reflexivity. Qed.

  Definition next (c : curve) : curve :=
    let (y, Hy) := c in
    let (g, Hg) := step_ex y Hy in
    exist _ (clamped g) (clamped_cont y g Hg).

  Fixpoint iter (k : nat) : curve :=
    match k with
    | O => exist _ (fun i _ => x0 i) start_cont
    | S k => next (iter k)
    end.

  Definition it (k : nat) : nat -> R -> R := proj1_sig (iter k).

  Lemma it_cont k : cont (it k).
  Proof. exact (proj2_sig (iter k)). Qed.

  Lemma it_step k : exists g, steps (it k) g /\ it (S k) = clamped g.
  Proof.
    unfold it. simpl. destruct (iter k) as [y Hy]. simpl.
    destruct (step_ex y Hy) as [g Hg]. simpl. exists g. split; [exact Hg|reflexivity].
  Qed.

  Lemma it_clamp k i t : it k i (clamp a b t) = it k i t.
  Proof.
    destruct k; [reflexivity|]. destruct (it_step k) as (g & _ & ->). unfold clamped.
    f_equal. apply clamp_id, clamp_in, Hab.
  Qed.

  Lemma first_bound m : (m <= n)%nat -> exists D, 0 <= D /\ forall i t, (i < m)%nat -> a <= t <= b ->
    Rabs (it 1 i t - it 0 i t) <= D.
  Proof.
    induction m as [|m IH]; intros Hm.
    - exists 0. split; [lra|]. intros i t Hi. lia.
    - destruct IH as (D & HD & H); [lia|].
      destruct (continuity_ab_maj (fun t => Rabs (it 1 m t - it 0 m t)) a b Hab) as (M & HM & _).
      { intros c _. apply (continuity_pt_comp (fun t => it 1 m t - it 0 m t) Rabs).
        - apply continuity_pt_minus; apply it_cont; lia.
        - apply Rcontinuity_abs. }
      exists (Rmax D (Rabs (it 1 m M - it 0 m M))). split.
      { eapply Rle_trans; [exact HD|apply Rmax_l]. }
      intros i t Hi Ht. destruct (Nat.eq_dec i m) as [->|Hne].
      + eapply Rle_trans; [apply HM; exact Ht|apply Rmax_r].
      + eapply Rle_trans; [apply H; [lia|exact Ht]|apply Rmax_l].
  Qed.

  Let La := 2 * (L + 1).

  Lemma expo_der D s : derivable_pt_lim (fun s => D * exp (La * (s - a))) s (D * (La * exp (La * (s - a)))).
  Proof.
    apply (derivable_pt_lim_scal (fun s => exp (La * (s - a)))).
    replace (La * exp (La * (s - a))) with (exp (La * (s - a)) * (La * (1 - 0))) by ring.
    apply (derivable_pt_lim_comp (fun s => La * (s - a)) exp).
    - apply (derivable_pt_lim_scal (fun s => s - a)).
      apply (derivable_pt_lim_minus id (fun _ => a)).
      + apply derivable_pt_lim_id.
      + apply derivable_pt_lim_const.
    - apply derivable_pt_lim_exp.
  Qed.

  Lemma expo_ge s : a <= s -> 1 <= exp (La * (s - a)).
  Proof.
    intros Hs. rewrite <- exp_0. destruct (Rle_lt_or_eq_dec a s Hs) as [Hl| ->].
    - left. apply exp_increasing. apply Rmult_lt_0_compat; unfold La; lra.
    - replace (La * (s - s)) with 0 by ring. lra.
  Qed.

  Lemma gap D : 0 <= D -> (forall i t, (i < n)%nat -> a <= t <= b -> Rabs (it 1 i t - it 0 i t) <= D) ->
    forall k i t, (i < n)%nat -> a <= t <= b ->
    Rabs (it (S k) i t - it k i t) <= D * / 2 ^ k * exp (La * (t - a)).
  Proof.
    intros HD H0. induction k as [|k IH]; intros i t Hi Ht.
    - eapply Rle_trans; [apply H0; assumption|]. simpl. rewrite Rinv_1, Rmult_1_r.
      rewrite <- (Rmult_1_r D) at 1. apply Rmult_le_compat_l; [exact HD|].
      apply expo_ge. lra.
    - destruct (it_step (S k)) as (g & Hg & Eg). destruct (it_step k) as (g1 & Hg1 & Eg1).
      rewrite Eg, Eg1. unfold clamped. rewrite (clamp_id a b t Ht).
      set (C := D * / 2 ^ S k).
      assert (HC : 0 <= C) by (apply Rmult_le_pos; [exact HD|left; apply pow2_pos]).
      destruct (Hg i Hi) as [Ga Gd]. destruct (Hg1 i Hi) as [Ga1 Gd1].
      apply Rle_trans with (C * exp (La * (t - a)) - C * exp (La * (a - a))).
      + apply (bound_of (fun t => g i t - g1 i t)
          (fun s => F i s (fun j => it (S k) j s) - F i s (fun j => it k j s))
          (fun s => C * exp (La * (s - a))) (fun s => C * (La * exp (La * (s - a))))).
        * lra.
        * rewrite Ga, Ga1. ring.
        * intros s Hs. apply (derivable_pt_lim_minus (g i) (g1 i)).
          -- apply Gd. lra.
          -- apply Gd1. lra.
        * intros s _. apply expo_der.
        * intros s Hs.
          eapply Rle_trans; [apply (Flip i s _ _ (D * / 2 ^ k * exp (La * (s - a))) Hi)|].
          -- lra.
          -- intros j Hj. apply IH; [exact Hj|lra].
          -- set (E := exp (La * (s - a))). assert (0 <= E) by (left; apply exp_pos).
             assert (HCk : D * / 2 ^ k = 2 * C).
             { unfold C. simpl. rewrite Rinv_mult. field. apply pow_nonzero. lra. }
             rewrite HCk. unfold La.
             replace (L * (2 * C * E)) with (2 * L * (C * E)) by ring.
             replace (C * (2 * (L + 1) * E)) with (2 * (L + 1) * (C * E)) by ring.
             apply Rmult_le_compat_r; [apply Rmult_le_pos; assumption|lra].
      + assert (0 <= C * exp (La * (a - a))) by (apply Rmult_le_pos; [exact HC|left; apply exp_pos]).
        lra.
  Qed.

  Lemma tail K : (forall k i t, (i < n)%nat -> Rabs (it (S k) i t - it k i t) <= K * / 2 ^ k) ->
    forall m k i t, (i < n)%nat -> Rabs (it (k + m) i t - it k i t) <= 2 * K * (/ 2 ^ k - / 2 ^ (k + m)).
  Proof.
    intros H m k i t Hi. induction m as [|m IH].
    - rewrite Nat.add_0_r. rewrite !Rminus_eq_0, Rabs_R0. lra.
    - rewrite Nat.add_succ_r. specialize (H (k + m)%nat i t Hi).
      assert (E : / 2 ^ S (k + m) = / 2 * / 2 ^ (k + m)) by (simpl; apply Rinv_mult).
      rewrite E.
      replace (it (S (k + m)) i t - it k i t)
        with ((it (S (k + m)) i t - it (k + m) i t) + (it (k + m) i t - it k i t)) by ring.
      eapply Rle_trans; [apply Rabs_triang|].
      set (p := / 2 ^ (k + m)) in *. set (q := / 2 ^ k) in *.
      replace (2 * K * (q - / 2 * p)) with (K * p + 2 * K * (q - p)) by field. lra.
  Qed.

  Theorem picard : exists x : nat -> R -> R, forall i, (i < n)%nat -> x i a = x0 i /\
    forall t, a <= t <= b -> derivable_pt_lim (x i) t (F i t (fun j => x j t)).
  Proof.
    destruct (first_bound n (Nat.le_refl n)) as (D & HD & H0).
    set (K := D * exp (La * (b - a))).
    assert (HK : 0 <= K) by (apply Rmult_le_pos; [exact HD|left; apply exp_pos]).
    assert (Hgap : forall k i t, (i < n)%nat -> Rabs (it (S k) i t - it k i t) <= K * / 2 ^ k).
    { intros k i t Hi. rewrite <- (it_clamp (S k)), <- (it_clamp k).
      pose proof (clamp_in a b t Hab) as Hc.
      eapply Rle_trans; [apply (gap D HD H0 k i _ Hi Hc)|]. unfold K.
      replace (D * exp (La * (b - a)) * / 2 ^ k) with (D * / 2 ^ k * exp (La * (b - a))) by ring.
      apply Rmult_le_compat_l.
      - apply Rmult_le_pos; [exact HD|left; apply pow2_pos].
      - destruct (Rle_lt_or_eq_dec (clamp a b t) b (proj2 Hc)) as [Hl| ->]; [|lra].
        left. apply exp_increasing. apply Rmult_lt_compat_l; unfold La; lra. }
    pose proof (tail K Hgap) as Htail.
    assert (Hfar : forall k m i t, (i < n)%nat -> (k <= m)%nat -> Rabs (it m i t - it k i t) <= 2 * K * / 2 ^ k).
    { intros k m i t Hi Hkm. replace m with (k + (m - k))%nat by lia.
      eapply Rle_trans; [apply Htail; exact Hi|]. apply Rmult_le_compat_l; [lra|].
      pose proof (pow2_pos (k + (m - k))). lra. }
    assert (Hsmall : forall e, 0 < e -> exists k, 2 * K * / 2 ^ k < e).
    { intros e He. destruct (pow2_small (e / (2 * K + 1))) as (k & Hk).
      - apply Rdiv_lt_0_compat; lra.
      - exists k. pose proof (pow2_pos k).
        apply Rle_lt_trans with ((2 * K + 1) * / 2 ^ k).
        + apply Rmult_le_compat_r; lra.
        + apply Rlt_le_trans with ((2 * K + 1) * (e / (2 * K + 1))).
          * apply Rmult_lt_compat_l; lra.
          * right. field. lra. }
    assert (Hlim : forall i t, { l | (i < n)%nat -> forall k, Rabs (l - it k i t) <= 2 * K * / 2 ^ k }).
    { intros i t. destruct (lt_dec i n) as [Hi|Hi]; [|exists 0; contradiction].
      destruct (R_complete (fun k => it k i t)) as (l & Hl).
      - intros e He. destruct (Hsmall (e / 2)) as (k & Hk); [lra|]. exists k.
        intros p q Hp Hq. unfold R_dist.
        replace (it p i t - it q i t) with ((it p i t - it k i t) - (it q i t - it k i t)) by ring.
        eapply Rle_lt_trans; [apply Rabs_triang|]. rewrite Rabs_Ropp.
        pose proof (Hfar k p i t Hi Hp). pose proof (Hfar k q i t Hi Hq). lra.
      - exists l. intros _ k. apply Rnot_lt_le. intros Hc.
        destruct (Hl (Rabs (l - it k i t) - 2 * K * / 2 ^ k)) as (N & HN); [lra|].
        specialize (HN (N + k)%nat ltac:(lia)). unfold R_dist in HN.
        pose proof (Hfar k (N + k)%nat i t Hi ltac:(lia)) as Hf.
        pose proof (Rabs_triang (it (N + k) i t - it k i t) (- (it (N + k) i t - l))) as Ht.
        rewrite Rabs_Ropp in Ht.
        replace (it (N + k) i t - it k i t + - (it (N + k) i t - l)) with (l - it k i t) in Ht by ring.
        lra. }
    set (phi := fun i t => proj1_sig (Hlim i t)).
    assert (Hphi : forall k i t, (i < n)%nat -> Rabs (phi i t - it k i t) <= 2 * K * / 2 ^ k)
      by (intros k i t Hi; exact (proj2_sig (Hlim i t) Hi k)).
    assert (Cphi : cont phi).
    { intros i Hi t e He. destruct (Hsmall (e / 3)) as (k & Hk); [lra|].
      destruct (it_cont k i Hi t (e / 3)) as (d & Hd & Hc); [lra|].
      exists d. split; [exact Hd|]. intros x Hx. specialize (Hc x Hx). simpl in *. unfold R_dist in *.
      pose proof (Hphi k i x Hi). pose proof (Hphi k i t Hi).
      replace (phi i x - phi i t) with
        ((phi i x - it k i x) + ((it k i x - it k i t) + - (phi i t - it k i t))) by ring.
      eapply Rle_lt_trans; [apply Rabs_triang|].
      pose proof (Rabs_triang (it k i x - it k i t) (- (phi i t - it k i t))) as Ht.
      rewrite Rabs_Ropp in Ht. lra. }
    destruct (step_ex phi Cphi) as (psi & Hpsi).
    assert (Heq : forall i t, (i < n)%nat -> a <= t <= b -> psi i t = phi i t).
    { intros i t Hi Ht. apply Rminus_diag_uniq.
      destruct (Req_dec (psi i t - phi i t) 0) as [He|Hne]; [exact He|exfalso].
      apply Rabs_pos_lt in Hne.
      destruct (Hsmall (Rabs (psi i t - phi i t) / (2 * (L * (b - a) + 1)))) as (k & Hk).
      { assert (0 <= L * (b - a)) by (apply Rmult_le_pos; lra). apply Rdiv_lt_0_compat; lra. }
      set (ek := 2 * K * / 2 ^ k) in *.
      assert (Hek : 0 <= ek).
      { unfold ek. pose proof (pow2_pos k). apply Rmult_le_pos; lra. }
      destruct (it_step k) as (g & Hg & Eg).
      destruct (Hpsi i Hi) as [Pa Pd]. destruct (Hg i Hi) as [Ga Gd].
      assert (H1 : Rabs (psi i t - g i t) <= L * ek * (t - a)).
      { eapply Rle_trans; [apply (bound_of (fun t => psi i t - g i t)
          (fun s => F i s (fun j => phi j s) - F i s (fun j => it k j s))
          (fun s => L * ek * (s - a)) (fun _ => L * ek) a t)|].
        - lra.
        - rewrite Pa, Ga. ring.
        - intros s Hs. apply (derivable_pt_lim_minus (psi i) (g i)).
          + apply Pd. lra.
          + apply Gd. lra.
        - intros s _. replace (L * ek) with (L * ek * (1 - 0)) at 1 by ring.
          apply (derivable_pt_lim_scal (fun s => s - a)).
          apply (derivable_pt_lim_minus id (fun _ => a)).
          + apply derivable_pt_lim_id.
          + apply derivable_pt_lim_const.
        - intros s Hs. apply Flip; [exact Hi|lra|]. intros j Hj. apply Hphi; exact Hj.
        - right. ring. }
      pose proof (Hphi (S k) i t Hi) as H2. rewrite Eg in H2. unfold clamped in H2.
      rewrite (clamp_id a b t Ht) in H2.
      assert (H3 : 2 * K * / 2 ^ S k <= ek).
      { unfold ek. simpl. rewrite Rinv_mult. pose proof (pow2_pos k).
        set (q := / 2 ^ k) in *. replace (2 * K * (/ 2 * q)) with (K * q) by field.
        apply Rmult_le_compat_r; lra. }
      assert (H4 : L * ek * (t - a) <= L * ek * (b - a)).
      { apply Rmult_le_compat_l; [apply Rmult_le_pos|]; lra. }
      pose proof (Rabs_triang (psi i t - g i t) (- (phi i t - g i t))) as H5.
      rewrite Rabs_Ropp in H5.
      replace (psi i t - g i t + - (phi i t - g i t)) with (psi i t - phi i t) in H5 by ring.
      set (r := Rabs (psi i t - phi i t)) in *.
      assert (H6 : r <= (L * (b - a) + 1) * ek) by lra.
      assert (Hq : 0 < L * (b - a) + 1).
      { assert (0 <= L * (b - a)) by (apply Rmult_le_pos; lra). lra. }
      assert (H7 : (L * (b - a) + 1) * ek < (L * (b - a) + 1) * (r / (2 * (L * (b - a) + 1)))).
      { apply Rmult_lt_compat_l; assumption. }
      replace ((L * (b - a) + 1) * (r / (2 * (L * (b - a) + 1)))) with (r / 2) in H7 by (field; lra).
      lra. }
    exists psi. intros i Hi. destruct (Hpsi i Hi) as [Pa Pd]. split; [exact Pa|].
    intros t Ht.
    assert (E : F i t (fun j => psi j t) = F i t (fun j => phi j t)).
    { apply Rminus_diag_uniq.
      assert (Hz : Rabs (F i t (fun j => psi j t) - F i t (fun j => phi j t)) <= L * 0).
      { apply Flip; [exact Hi|exact Ht|]. intros j Hj. rewrite (Heq j t Hj Ht), Rminus_eq_0, Rabs_R0. lra. }
      rewrite Rmult_0_r in Hz. pose proof (Rabs_pos (F i t (fun j => psi j t) - F i t (fun j => phi j t))).
      destruct (Req_dec (F i t (fun j => psi j t) - F i t (fun j => phi j t)) 0) as [He|Hne]; [exact He|].
      apply Rabs_pos_lt in Hne. lra. }
    rewrite E. apply Pd. exact Ht.
  Qed.

  (** Two solutions with the same start are equal. *)
  Definition solution (x : nat -> R -> R) : Prop := forall i, (i < n)%nat -> x i a = x0 i /\
    forall t, a <= t <= b -> derivable_pt_lim (x i) t (F i t (fun j => x j t)).

  Lemma apart x y m : solution x -> solution y -> (m <= n)%nat ->
    exists D, 0 <= D /\ forall i t, (i < m)%nat -> a <= t <= b -> Rabs (x i t - y i t) <= D.
  Proof.
    intros Hx Hy. induction m as [|m IH]; intros Hm.
    - exists 0. split; [lra|]. intros i t Hi. lia.
    - destruct IH as (D & HD & H); [lia|].
      destruct (continuity_ab_maj (fun t => Rabs (x m t - y m t)) a b Hab) as (M & HM & _).
      { intros c Hc. apply (continuity_pt_comp (fun t => x m t - y m t) Rabs).
        - apply continuity_pt_minus; apply derivable_continuous_pt.
          + destruct (Hx m ltac:(lia)) as [_ Hd]. eexists. apply Hd. exact Hc.
          + destruct (Hy m ltac:(lia)) as [_ Hd]. eexists. apply Hd. exact Hc.
        - apply Rcontinuity_abs. }
      exists (Rmax D (Rabs (x m M - y m M))). split.
      { eapply Rle_trans; [exact HD|apply Rmax_l]. }
      intros i t Hi Ht. destruct (Nat.eq_dec i m) as [->|Hne].
      + eapply Rle_trans; [apply HM; exact Ht|apply Rmax_r].
      + eapply Rle_trans; [apply H; [lia|exact Ht]|apply Rmax_l].
  Qed.

  Theorem picard_unique x y : solution x -> solution y ->
    forall i t, (i < n)%nat -> a <= t <= b -> x i t = y i t.
  Proof.
    intros Hx Hy. destruct (apart x y n Hx Hy (Nat.le_refl n)) as (D & HD & H0).
    assert (H : forall k i t, (i < n)%nat -> a <= t <= b ->
      Rabs (x i t - y i t) <= D * / 2 ^ k * exp (La * (t - a))).
    { induction k as [|k IH]; intros i t Hi Ht.
      - eapply Rle_trans; [apply H0; assumption|]. simpl. rewrite Rinv_1, Rmult_1_r.
        rewrite <- (Rmult_1_r D) at 1. apply Rmult_le_compat_l; [exact HD|]. apply expo_ge. lra.
      - set (C := D * / 2 ^ S k).
        assert (HC : 0 <= C) by (apply Rmult_le_pos; [exact HD|left; apply pow2_pos]).
        destruct (Hx i Hi) as [Xa Xd]. destruct (Hy i Hi) as [Ya Yd].
        apply Rle_trans with (C * exp (La * (t - a)) - C * exp (La * (a - a))).
        + apply (bound_of (fun t => x i t - y i t)
            (fun s => F i s (fun j => x j s) - F i s (fun j => y j s))
            (fun s => C * exp (La * (s - a))) (fun s => C * (La * exp (La * (s - a))))).
          * lra.
          * rewrite Xa, Ya. ring.
          * intros s Hs. apply (derivable_pt_lim_minus (x i) (y i)).
            -- apply Xd. lra.
            -- apply Yd. lra.
          * intros s _. apply expo_der.
          * intros s Hs.
            eapply Rle_trans; [apply (Flip i s _ _ (D * / 2 ^ k * exp (La * (s - a))) Hi)|].
            -- lra.
            -- intros j Hj. apply IH; [exact Hj|lra].
            -- set (E := exp (La * (s - a))). assert (0 <= E) by (left; apply exp_pos).
               assert (HCk : D * / 2 ^ k = 2 * C).
               { unfold C. simpl. rewrite Rinv_mult. field. apply pow_nonzero. lra. }
               rewrite HCk. unfold La.
               replace (L * (2 * C * E)) with (2 * L * (C * E)) by ring.
               replace (C * (2 * (L + 1) * E)) with (2 * (L + 1) * (C * E)) by ring.
               apply Rmult_le_compat_r; [apply Rmult_le_pos; assumption|lra].
        + assert (0 <= C * exp (La * (a - a))) by (apply Rmult_le_pos; [exact HC|left; apply exp_pos]).
          lra. }
    intros i t Hi Ht. apply Rminus_diag_uniq.
    destruct (Req_dec (x i t - y i t) 0) as [He|Hne]; [exact He|exfalso].
    apply Rabs_pos_lt in Hne. set (r := Rabs (x i t - y i t)) in *.
    set (E := exp (La * (t - a))) in *. assert (HE : 0 < E) by apply exp_pos.
    assert (HDE : 0 <= D * E) by (apply Rmult_le_pos; lra).
    destruct (pow2_small (r / (D * E + 1))) as (k & Hk).
    - apply Rdiv_lt_0_compat; lra.
    - specialize (H k i t Hi Ht). fold r E in H. pose proof (pow2_pos k) as Hp.
      replace (D * / 2 ^ k * E) with (D * E * / 2 ^ k) in H by ring.
      assert ((D * E + 1) * / 2 ^ k < (D * E + 1) * (r / (D * E + 1))) as Hlt by (apply Rmult_lt_compat_l; lra).
      replace ((D * E + 1) * (r / (D * E + 1))) with r in Hlt by (field; lra). lra.
  Qed.
End picard.
