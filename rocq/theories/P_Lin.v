(** Runge-Kutta methods on linear differential equations with constant coefficients:
    the error of a step and of a sequence of steps. *)
From stdpp Require Import prelude.
From Coq Require Import Reals Lra QArith Qreals Psatz Factorial.
From Verif Require Import Num NumR Res Sim SpecRK P_RK SpecField SpecConv P_Conv SpecLin.
Local Open Scope R_scope.

(** ** Finite sums *)
Lemma rsum_ext n f g : (forall i, (i < n)%nat -> f i = g i) -> rsum n f = rsum n g.
Proof. induction n as [|n IH]; intros E; cbn; [done|]. rewrite IH by (intros; apply E; lia). rewrite E by lia. done. Qed.
Lemma rsum_plus n f g : rsum n (fun i => f i + g i) = rsum n f + rsum n g.
Proof. induction n as [|n IH]; cbn; [lra|]. rewrite IH. lra. Qed.
Lemma rsum_scal n a f : rsum n (fun i => a * f i) = a * rsum n f.
Proof. induction n as [|n IH]; cbn; [lra|]. rewrite IH. lra. Qed.
Lemma rsum_zero n : rsum n (fun _ => 0) = 0.
Proof. induction n as [|n IH]; cbn; [done|]. lra. Qed.
Lemma rsum_first n f : rsum (S n) f = f O + rsum n (fun i => f (S i)).
Proof. induction n as [|n IH]; [cbn; lra|]. cbn [rsum] in *. rewrite IH. lra. Qed.
Lemma rsum_abs n f : Rabs (rsum n f) <= rsum n (fun i => Rabs (f i)).
Proof. induction n as [|n IH]; cbn; [rewrite Rabs_R0; lra|]. eapply Rle_trans; [apply Rabs_triang|]. lra. Qed.
Lemma rsum_le n f g : (forall i, (i < n)%nat -> f i <= g i) -> rsum n f <= rsum n g.
Proof. induction n as [|n IH]; intros E; cbn; [lra|]. pose proof (IH (fun i Hi => E i ltac:(lia))). pose proof (E n ltac:(lia)). lra. Qed.
Lemma rsum_pos n f : (forall i, (i < n)%nat -> 0 <= f i) -> 0 <= rsum n f.
Proof. intros E. rewrite <- (rsum_zero n). by apply rsum_le. Qed.
Lemma rsum_ge n f i : (forall i, (i < n)%nat -> 0 <= f i) -> (i < n)%nat -> f i <= rsum n f.
Proof.
  induction n as [|n IH]; intros E Hi; [lia|]. cbn. destruct (decide (i = n)) as [->|Hne].
  - pose proof (rsum_pos n f (fun i Hi => E i ltac:(lia))). lra.
  - pose proof (IH (fun i Hi => E i ltac:(lia)) ltac:(lia)). pose proof (E n ltac:(lia)). lra.
Qed.
Lemma rsum_derivable n (f : nat -> R -> R) f' t : (forall i, (i < n)%nat -> derivable_pt_lim (f i) t (f' i)) ->
  derivable_pt_lim (fun τ => rsum n (fun i => f i τ)) t (rsum n f').
Proof.
  induction n as [|n IH]; intros E; cbn [rsum]; [apply derivable_pt_lim_const|].
  apply (derivable_pt_lim_plus (fun τ => rsum n (fun i => f i τ)) (f n) t); [apply IH; intros; apply E; lia|apply E; lia].
Qed.

(** ** Taylor's formula *)
Definition tpow (m : nat) (s : R) : R := s ^ m / INR (fact m).
Lemma tpow_deriv m a t : derivable_pt_lim (fun τ => tpow (S m) (τ - a)) t (tpow m (t - a)).
Proof.
  unfold tpow. replace ((t - a) ^ m / INR (fact m)) with (/ INR (fact (S m)) * (INR (S m) * (t - a) ^ m * (1 - 0))).
  - apply (derivable_pt_lim_ext (fun τ => / INR (fact (S m)) * (τ - a) ^ S m)); [intros τ; unfold Rdiv; lra|].
    apply (derivable_pt_lim_scal (fun τ => (τ - a) ^ S m)).
    apply (derivable_pt_lim_comp (fun τ => τ - a) (fun y => y ^ S m)).
    + apply (derivable_pt_lim_minus (fun τ => τ) (fun _ => a)); [apply derivable_pt_lim_id|apply derivable_pt_lim_const].
    + apply (derivable_pt_lim_pow _ (S m)).
  - rewrite fact_simpl, mult_INR. pose proof (INR_fact_neq_0 m). assert (INR (S m) <> 0) by (apply not_0_INR; lia). field. done.
Qed.
Lemma tpow_zero m : tpow (S m) 0 = 0.
Proof. unfold tpow. rewrite pow_ne_zero by lia. lra. Qed.
Lemma tpow_pos m s : 0 <= s -> 0 <= tpow m s.
Proof. intros Hs. unfold tpow. apply Rmult_le_pos; [by apply pow_le|]. left. apply Rinv_0_lt_compat, INR_fact_lt_0. Qed.
(** [g 0], [g 1], ...: a function and its derivatives. *)
Lemma taylor p : forall (g : nat -> R -> R) a b C, a <= b -> (forall m t, (m < p)%nat -> a <= t <= b -> derivable_pt_lim (g m) t (g (S m) t)) ->
  (forall t, a <= t <= b -> Rabs (g p t) <= C) ->
  Rabs (g O b - rsum p (fun m => tpow m (b - a) * g m a)) <= C * tpow p (b - a).
Proof.
  induction p as [|p IH]; intros g a b C Hab Hd Hb.
  - cbn [rsum]. unfold tpow. cbn. replace (g O b - 0) with (g O b) by lra. replace (C * (1 / 1)) with C by lra. apply Hb. lra.
  - set (r := fun τ => g O τ - rsum (S p) (fun m => tpow m (τ - a) * g m a)).
    set (r' := fun τ => g 1%nat τ - rsum p (fun m => tpow m (τ - a) * g (S m) a)).
    assert (r a = 0) as Hra.
    { unfold r. rewrite rsum_first. replace (a - a) with 0 by lra. rewrite (rsum_ext p _ (fun _ => 0)) by (intros; rewrite tpow_zero; lra). rewrite rsum_zero.
      unfold tpow. cbn. lra. }
    assert (forall t, a <= t <= b -> derivable_pt_lim r t (r' t)) as Hr'.
    { intros t Ht. unfold r, r'. apply (derivable_pt_lim_minus (g O)); [apply Hd; [lia|done]|].
      apply (derivable_pt_lim_ext (fun τ => g O a + rsum p (fun m => tpow (S m) (τ - a) * g (S m) a))).
      { intros τ. rewrite rsum_first. unfold tpow at 2. cbn. lra. }
      replace (rsum p (fun m => tpow m (t - a) * g (S m) a)) with (0 + rsum p (fun m => tpow m (t - a) * g (S m) a)) by lra.
      apply (derivable_pt_lim_plus (fun _ => g O a)); [apply derivable_pt_lim_const|].
      apply (rsum_derivable p (fun m τ => tpow (S m) (τ - a) * g (S m) a) (fun m => tpow m (t - a) * g (S m) a)). intros m Hm.
      apply (derivable_pt_lim_ext (fun τ => g (S m) a * tpow (S m) (τ - a))); [intros; lra|]. rewrite Rmult_comm. apply derivable_pt_lim_scal. apply tpow_deriv. }
    assert (forall t, a <= t <= b -> Rabs (r' t) <= C * tpow p (t - a)) as Hbr.
    { intros t Ht. unfold r'. apply (IH (fun m => g (S m)) a t C); [lra|intros m τ Hm Hτ; apply Hd; [lia|lra]|intros τ Hτ; apply Hb; lra]. }
    change (Rabs (r b) <= C * tpow (S p) (b - a)).
    assert (forall s, s = 1 \/ s = -1 -> s * r b <= C * tpow (S p) (b - a)) as Hs.
    { intros s Hs. destruct (Req_dec a b) as [<-|Hne]. { rewrite Hra. replace (a - a) with 0 by lra. rewrite tpow_zero. lra. }
      destruct (MVT_cor2 (fun τ => C * tpow (S p) (τ - a) - s * r τ) (fun τ => C * tpow p (τ - a) - s * r' τ) a b) as (c & E & Hc); [lra| |].
      { intros c Hc. apply (derivable_pt_lim_minus (fun τ => C * tpow (S p) (τ - a)) (fun τ => s * r τ)).
        - apply derivable_pt_lim_scal. apply tpow_deriv.
        - apply derivable_pt_lim_scal. by apply Hr'. }
      assert (0 <= (C * tpow p (c - a) - s * r' c) * (b - a)) as Hp.
      { apply Rmult_le_pos; [|lra]. pose proof (Hbr c ltac:(lra)) as Hq. pose proof (Rle_abs (r' c)). pose proof (Rle_abs (- r' c)) as Ha. rewrite Rabs_Ropp in Ha.
        destruct Hs as [-> | ->]; lra. }
      rewrite <- E in Hp. rewrite Hra in Hp. replace (a - a) with 0 in Hp by lra. rewrite tpow_zero in Hp. lra. }
    apply Rabs_le. pose proof (Hs 1 (or_introl eq_refl)). pose proof (Hs (-1) (or_intror eq_refl)). lra.
Qed.

(** ** Stages on a linear equation *)
Fixpoint tall (m : nat) : rtree := match m with O => RNode [] | S m' => RNode [tall m'] end.
Lemma stage_weight_length rows t : length (stage_weight rows t) = length rows.
Proof. destruct t. cbn. by rewrite map_length. Qed.
Lemma q2r_qred x : Q2R (Qred x) = Q2R x.
Proof. apply Qeq_eqR, Qred_correct. Qed.
Lemma q2r_0 : Q2R 0 = 0. Proof. unfold Q2R. cbn. lra. Qed.
Lemma q2r_1 : Q2R 1 = 1. Proof. unfold Q2R. cbn. lra. Qed.
Lemma nth_map_lookup {A B} (f : A -> B) l i x d : l !! i = Some x -> nth i (map f l) d = f x.
Proof. revert i. induction l as [|y l IH]; intros [|i] E; try done; cbn in *; [by injection E as ->|by apply IH]. Qed.
Lemma weight_0 rows i r : rows !! i = Some r -> Q2R (nth i (stage_weight rows (tall 0)) 0%Q) = 1.
Proof. intros E. cbn [tall stage_weight map]. rewrite (nth_map_lookup _ _ _ _ _ E). rewrite q2r_qred. cbn. apply q2r_1. Qed.
Lemma weight_S rows m i c a : rows !! i = Some (c, a) -> Q2R (nth i (stage_weight rows (tall (S m))) 0%Q) = Q2R (qdot a (stage_weight rows (tall m))).
Proof. intros E. cbn [tall stage_weight map]. rewrite (nth_map_lookup _ _ _ _ _ E). rewrite q2r_qred. cbn [map fold_right snd]. rewrite Q2R_mult, q2r_1. lra. Qed.

(** A sum over the stages of polynomials. *)
Lemma rk_sum_poly N j h (P : nat -> R) : forall (a : list Q) (ks : list (list R)) (W : nat -> list Q),
  (forall i k, ks !! i = Some k -> nth j k 0 = rsum N (fun m => h ^ m * Q2R (nth i (W m) 0%Q) * P m)) ->
  (length a <= length ks)%nat -> (forall m, (length a <= length (W m))%nat) ->
  rk_sum a ks j = rsum N (fun m => h ^ m * Q2R (qdot a (W m)) * P m).
Proof.
  induction a as [|x a IH]; intros ks W Hk Hl HW; cbn [rk_sum].
  - rewrite (rsum_ext N _ (fun _ => 0)); [by rewrite rsum_zero|]. intros m _. unfold qdot. cbn. rewrite q2r_0. lra.
  - destruct ks as [|k ks]; cbn in Hl; [lia|]. rewrite (IH ks (fun m => tail (W m))).
    + rewrite (Hk 0%nat k eq_refl), <- rsum_scal, <- rsum_plus. apply rsum_ext. intros m _. specialize (HW m). destruct (W m) as [|y w]; cbn in HW; [lia|].
      cbn [nth tail]. unfold qdot. cbn [zip_with fold_right]. rewrite Q2R_plus, Q2R_mult. lra.
    + intros i k' E. rewrite (Hk (S i) k' E). apply rsum_ext. intros m _. specialize (HW m). destruct (W m) as [|y w]; cbn in HW; [lia|]. done.
    + lia.
    + intros m. specialize (HW m). destruct (W m) as [|y w]; cbn in *; lia.
Qed.

Section lin.
  Context (n : nat) (A : nat -> nat -> R) (c : nat -> R).
  Definition Mv (v : nat -> R) (i : nat) : R := rsum n (fun j => A i j * v j).
  Fixpoint Mp (m : nat) (v : nat -> R) : nat -> R := match m with O => v | S m' => Mv (Mp m' v) end.
  Definition nv (x : list R) (i : nat) : R := nth i x 0.
  Definition Fv (x : list R) (i : nat) : R := Mv (nv x) i + c i.
  Lemma Mv_ext u v i : (forall j, (j < n)%nat -> u j = v j) -> Mv u i = Mv v i.
  Proof. intros E. unfold Mv. apply rsum_ext. intros j Hj. by rewrite E. Qed.
  Lemma Mv_plus u v i : Mv (fun j => u j + v j) i = Mv u i + Mv v i.
  Proof. unfold Mv. rewrite <- rsum_plus. apply rsum_ext. intros. lra. Qed.
  Lemma Mv_scal s v i : Mv (fun j => s * v j) i = s * Mv v i.
  Proof. unfold Mv. rewrite <- rsum_scal. apply rsum_ext. intros. lra. Qed.
  Lemma Mv_rsum N (f : nat -> nat -> R) i : Mv (fun j => rsum N (fun m => f m j)) i = rsum N (fun m => Mv (f m) i).
  Proof.
    induction N as [|N IH]; cbn [rsum].
    - unfold Mv. rewrite (rsum_ext n _ (fun _ => 0)) by (intros; lra). apply rsum_zero.
    - by rewrite Mv_plus, IH.
  Qed.
  Lemma Mp_ext m u v i : (forall j, (j < n)%nat -> u j = v j) -> (i < n)%nat -> Mp m u i = Mp m v i.
  Proof. intros E. revert i. induction m as [|m IH]; intros i Hi; cbn [Mp]; [by apply E|]. apply Mv_ext. intros j Hj. by apply IH. Qed.
  Lemma Mp_minus m u v i : (i < n)%nat -> Mp m (fun j => u j - v j) i = Mp m u i - Mp m v i.
  Proof.
    revert i. induction m as [|m IH]; intros i Hi; cbn [Mp]; [done|]. rewrite (Mv_ext _ (fun j => Mp m u j + (-1) * Mp m v j)) by (intros j Hj; rewrite IH by done; lra).
    rewrite Mv_plus, Mv_scal. lra.
  Qed.
  Lemma Mp_S m v : Mp m (Mv v) = Mp (S m) v.
  Proof. induction m as [|m IH]; cbn [Mp]; [done|]. by rewrite IH. Qed.
  Definition alpha : R := rsum n (fun i => rsum n (fun j => Rabs (A i j))).
  Lemma alpha_pos : 0 <= alpha.
  Proof. apply rsum_pos. intros i _. apply rsum_pos. intros j _. apply Rabs_pos. Qed.
  Lemma Mv_bound v e i : (forall j, (j < n)%nat -> Rabs (v j) <= e) -> (i < n)%nat -> Rabs (Mv v i) <= alpha * e.
  Proof.
    intros Hv Hi. unfold Mv. eapply Rle_trans; [apply rsum_abs|]. assert (0 <= e) as He. { pose proof (Hv i Hi). pose proof (Rabs_pos (v i)). lra. }
    eapply Rle_trans; [apply (rsum_le n _ (fun j => e * Rabs (A i j)))|].
    - intros j Hj. rewrite Rabs_mult, Rmult_comm. apply Rmult_le_compat_r; [apply Rabs_pos|by apply Hv].
    - rewrite rsum_scal, Rmult_comm. apply Rmult_le_compat_r; [done|]. apply (rsum_ge n (fun i => rsum n (fun j => Rabs (A i j)))); [|done].
      intros k _. apply rsum_pos. intros j _. apply Rabs_pos.
  Qed.
  Lemma Mp_bound m v e i : (forall j, (j < n)%nat -> Rabs (v j) <= e) -> (i < n)%nat -> Rabs (Mp m v i) <= alpha ^ m * e.
  Proof.
    intros Hv. revert i. induction m as [|m IH]; intros i Hi; cbn [Mp pow]; [rewrite Rmult_1_l; by apply Hv|]. rewrite Rmult_assoc. apply Mv_bound; [|done].
    intros j Hj. by apply IH.
  Qed.
  Lemma affine_length t x : length (affine n A c t x) = n.
  Proof. unfold affine. by rewrite map_length, seq_length. Qed.
  Lemma affine_nth t x i : (i < n)%nat -> nth i (affine n A c t x) 0 = Fv x i.
  Proof.
    intros Hi. unfold affine. rewrite (nth_indep _ 0 (rsum n (fun j => A 0%nat j * nth j x 0) + c 0%nat)) by (by rewrite map_length, seq_length).
    rewrite (map_nth (fun i => rsum n (fun j => A i j * nth j x 0) + c i) (seq 0 n) 0%nat i). by rewrite seq_nth.
  Qed.

  Context (rows : list (Q * list Q)) (ws : list Q) (p : nat).
  Context (Hlen : forall i c a, rows !! i = Some (c, a) -> (length a <= i)%nat) (Hws : length ws = length rows).
  Context (Hnil : forall i, Q2R (nth i (stage_weight rows (tall (length rows))) 0%Q) = 0).
  Context (Hord : forall m, (m < p)%nat -> Q2R (qdot ws (stage_weight rows (tall m))) = / INR (fact (S m))) (Hp : (p <= length rows)%nat).

  (** The derivatives of the stages are polynomials in h A applied to the derivative at
      the start. *)
  Lemma stage_poly ta h x ks : length x = n -> length ks = length rows ->
    (forall i c0 a k, rows !! i = Some (c0, a) -> ks !! i = Some k -> k = affine n A c (ta + Q2R c0 * h) (rk_add x h a (take i ks))) ->
    forall i k j, ks !! i = Some k -> (j < n)%nat ->
      nth j k 0 = rsum (length rows) (fun m => h ^ m * Q2R (nth i (stage_weight rows (tall m)) 0%Q) * Mp m (Fv x) j).
  Proof.
    intros Lx Lk Hk i. induction (lt_wf i) as [i _ IH]. intros k j Hki Hj.
    assert (i < length ks)%nat as Hi by (by eapply lookup_lt_Some).
    destruct (lookup_lt_is_Some_2 rows i ltac:(lia)) as [[c0 a] Hrow]. rewrite (Hk _ _ _ _ Hrow Hki), affine_nth by done.
    set (N := length rows). pose proof (Hlen _ _ _ Hrow) as Hla.
    assert (Fv (rk_add x h a (take i ks)) j = Fv x j + h * Mv (fun q => rk_sum a (take i ks) q) j) as E1.
    { unfold Fv. rewrite (Mv_ext _ (fun q => nv x q + h * rk_sum a (take i ks) q)) by (intros q Hq; unfold nv; apply rk_add_nth; lia).
      rewrite (Mv_plus (nv x) (fun q => h * rk_sum a (take i ks) q)), (Mv_scal h (fun q => rk_sum a (take i ks) q)). ring. }
    rewrite E1, (Mv_ext _ (fun q => rsum N (fun m => h ^ m * Q2R (qdot a (stage_weight rows (tall m))) * Mp m (Fv x) q))).
    2: { intros q Hq. apply (rk_sum_poly N q h (fun m => Mp m (Fv x) q) a (take i ks) (fun m => stage_weight rows (tall m))).
         - intros i' k' E. apply lookup_take_Some in E as [E Hlt]. by apply IH.
         - rewrite take_length. lia.
         - intros m. rewrite stage_weight_length. lia. }
    rewrite Mv_rsum, <- rsum_scal.
    rewrite (rsum_ext N _ (fun m => h ^ S m * Q2R (nth i (stage_weight rows (tall (S m))) 0%Q) * Mp (S m) (Fv x) j)).
    2: { intros m _. rewrite Mv_scal, (weight_S _ _ _ _ _ Hrow). cbn [pow Mp]. lra. }
    pose proof (rsum_first N (fun m => h ^ m * Q2R (nth i (stage_weight rows (tall m)) 0%Q) * Mp m (Fv x) j)) as Ef. cbn [rsum] in Ef.
    unfold N at 2 in Ef. rewrite Hnil in Ef. rewrite (weight_0 _ _ _ Hrow) in Ef. cbn [pow Mp] in Ef. cbn [pow Mp]. lra.
  Qed.
  Definition ww (m : nat) : R := Q2R (qdot ws (stage_weight rows (tall m))).
  Lemma step_poly ta tc x y : length x = n -> rk_solution (Tableau rows ws) (fun τ v k => k = affine n A c τ v) ta x tc y ->
    length y = n /\ forall j, (j < n)%nat -> nth j y 0 = nth j x 0 + (tc - ta) * rsum (length rows) (fun m => (tc - ta) ^ m * ww m * Mp m (Fv x) j).
  Proof.
    intros Lx (ks & Lk & Hk & ->). cbn [tb_rows tb_weights] in *. split; [by rewrite rk_add_length|]. intros j Hj. rewrite rk_add_nth by lia. f_equal. f_equal.
    apply (rk_sum_poly _ _ _ (fun m => Mp m (Fv x) j) ws ks (fun m => stage_weight rows (tall m))).
    - intros i k E. by apply (stage_poly ta (tc - ta) x ks).
    - lia.
    - intros m. rewrite stage_weight_length. lia.
  Qed.

  Context (φ : R -> list R) (t0 T : R) (Hsol : solves (affine n A c) φ t0 T) (Hn : length (φ t0) = n).
  Context (B : R) (HB : forall t i, t0 <= t <= T -> (i < n)%nat -> Rabs (Fv (φ t) i) <= B) (HB0 : 0 <= B).
  Lemma sol_length t : t0 <= t <= T -> length (φ t) = n.
  Proof. intros Ht. destruct (Hsol t Ht) as (L & _). lia. Qed.
  Lemma sol_deriv t i : t0 <= t <= T -> (i < n)%nat -> derivable_pt_lim (fun τ => nth i (φ τ) 0) t (Fv (φ t) i).
  Proof. intros Ht Hi. destruct (Hsol t Ht) as (_ & _ & Hd). rewrite <- (affine_nth t) by done. apply Hd. lia. Qed.
  Lemma sol_chain m t i : t0 <= t <= T -> (i < n)%nat -> derivable_pt_lim (fun τ => Mp m (Fv (φ τ)) i) t (Mp (S m) (Fv (φ t)) i).
  Proof.
    intros Ht. revert i. induction m as [|m IH]; intros i Hi.
    - cbn [Mp]. unfold Fv at 1. replace (Mv (Fv (φ t)) i) with (Mv (Fv (φ t)) i + 0) by lra.
      apply (derivable_pt_lim_plus (fun τ => Mv (nv (φ τ)) i) (fun _ => c i)); [|apply derivable_pt_lim_const].
      unfold Mv at 1 2. apply (rsum_derivable n (fun j τ => A i j * nv (φ τ) j) (fun j => A i j * Fv (φ t) j)). intros j Hj. apply derivable_pt_lim_scal. by apply sol_deriv.
    - cbn [Mp]. unfold Mv at 1. apply (rsum_derivable n (fun j τ => A i j * Mp m (Fv (φ τ)) j) (fun j => A i j * Mv (Mp m (Fv (φ t))) j)).
      intros j Hj. apply derivable_pt_lim_scal. by apply IH.
  Qed.
  Lemma sol_taylor ta tc i : t0 <= ta -> ta <= tc <= T -> (i < n)%nat ->
    Rabs (nth i (φ tc) 0 - (nth i (φ ta) 0 + (tc - ta) * rsum p (fun m => (tc - ta) ^ m * / INR (fact (S m)) * Mp m (Fv (φ ta)) i)))
      <= alpha ^ p * B * tpow (S p) (tc - ta).
  Proof.
    intros Ha Hc Hi. set (g := fun (m : nat) τ => match m with O => nth i (φ τ) 0 | S m' => Mp m' (Fv (φ τ)) i end).
    pose proof (taylor (S p) g ta tc (alpha ^ p * B)) as Ht. cbv beta in Ht. rewrite rsum_first in Ht. unfold g in Ht. unfold tpow in Ht at 1. cbn [pow fact INR] in Ht.
    replace ((tc - ta) * rsum p (fun m => (tc - ta) ^ m * / INR (fact (S m)) * Mp m (Fv (φ ta)) i)) with (rsum p (fun m => tpow (S m) (tc - ta) * Mp m (Fv (φ ta)) i)).
    2: { rewrite <- rsum_scal. apply rsum_ext. intros m _. unfold tpow. cbn [pow]. unfold Rdiv. lra. }
    replace (nth i (φ ta) 0) with (1 / 1 * nth i (φ ta) 0) at 1 by lra. apply Ht; [lra| |].
    - intros [|m] t Hm Htt; [apply sol_deriv; [lra|done]|apply sol_chain; [lra|done]].
    - intros t Htt. apply Mp_bound; [|done]. intros j Hj. apply HB; [lra|done].
  Qed.

  Definition Ls : R := 1 + rsum (length rows) (fun m => Rabs (ww m) * alpha ^ S m).
  Definition Cl : R := B * (alpha ^ p + rsum (length rows) (fun m => Rabs (ww m) * alpha ^ m)).
  Lemma Ls_one : 1 <= Ls.
  Proof. unfold Ls. assert (0 <= rsum (length rows) (fun m => Rabs (ww m) * alpha ^ S m)); [|lra]. apply rsum_pos. intros m _. apply Rmult_le_pos; [apply Rabs_pos|apply pow_le, alpha_pos]. Qed.
  Lemma Cl_pos : 0 <= Cl.
  Proof.
    unfold Cl. apply Rmult_le_pos; [done|]. apply Rplus_le_le_0_compat; [apply pow_le, alpha_pos|]. apply rsum_pos. intros m _. apply Rmult_le_pos; [apply Rabs_pos|apply pow_le, alpha_pos].
  Qed.
  Lemma pow_small h m q : 0 <= h <= 1 -> (q <= m)%nat -> h ^ m <= h ^ q.
  Proof. intros Hh. induction 1 as [|m Hm IH]; [lra|]. cbn [pow]. assert (0 <= h ^ m) by (apply pow_le; lra). nra. Qed.
  Lemma fact_one m : 1 <= INR (fact m).
  Proof. pose proof (lt_O_fact m). replace 1 with (INR 1) by done. apply le_INR. lia. Qed.
  Lemma rsum_split k N f : (k <= N)%nat -> rsum N f = rsum k f + rsum N (fun m => if Nat.ltb m k then 0 else f m).
  Proof.
    induction 1 as [|N Hk IH].
    - rewrite (rsum_ext k (fun m => if Nat.ltb m k then 0 else f m) (fun _ => 0)); [rewrite rsum_zero; lra|]. intros i Hi. by rewrite (proj2 (Nat.ltb_lt i k)).
    - cbn [rsum]. rewrite IH. rewrite (proj2 (Nat.ltb_ge N k)) by lia. lra.
  Qed.

  (** The error of one step that starts on the solution. *)
  Lemma local_error ta tc y : t0 <= ta -> ta < tc <= T -> tc - ta <= 1 ->
    rk_solution (Tableau rows ws) (fun τ v k => k = affine n A c τ v) ta (φ ta) tc y -> within (Cl * (tc - ta) ^ S p) y (φ tc).
  Proof.
    intros Ha Hc H1 Hs. destruct (step_poly ta tc (φ ta) y) as [Ly Hy]; [apply sol_length; lra|done|]. apply within_nth.
    pose proof (sol_length tc ltac:(lra)) as Lc. split; [lia|]. intros j Hj. rewrite Ly in Hj. rewrite (Hy j Hj). set (h := tc - ta) in *.
    pose proof (sol_taylor ta tc j Ha ltac:(lra) Hj) as Ht. fold h in Ht.
    rewrite (rsum_split p (length rows) _ Hp).
    rewrite (rsum_ext p _ (fun m => h ^ m * / INR (fact (S m)) * Mp m (Fv (φ ta)) j)) by (intros m Hm; unfold ww; by rewrite Hord).
    set (S1 := rsum p (fun m => h ^ m * / INR (fact (S m)) * Mp m (Fv (φ ta)) j)) in *.
    set (S2 := rsum (length rows) _). assert (0 <= h <= 1) as Hh by (split; [unfold h; lra|done]).
    assert (Rabs S2 <= h ^ p * (B * rsum (length rows) (fun m => Rabs (ww m) * alpha ^ m))) as HS2.
    { unfold S2. eapply Rle_trans; [apply rsum_abs|]. rewrite <- Rmult_assoc, <- rsum_scal. apply rsum_le. intros m Hm. destruct (Nat.ltb m p) eqn:El.
      - rewrite Rabs_R0. repeat apply Rmult_le_pos; [apply pow_le; lra|done|apply Rabs_pos|apply pow_le, alpha_pos].
      - apply Nat.ltb_ge in El. rewrite !Rabs_mult. rewrite (Rabs_pos_eq (h ^ m)) by (apply pow_le; lra).
        pose proof (Mp_bound m (Fv (φ ta)) B j ltac:(intros; apply HB; [lra|done]) Hj) as Hb. pose proof (pow_small h m p Hh El) as Hpw.
        assert (0 <= h ^ m) by (apply pow_le; lra). pose proof (Rabs_pos (ww m)) as Hw. pose proof (Rabs_pos (Mp m (Fv (φ ta)) j)) as Hmp.
        replace (h ^ p * B * (Rabs (ww m) * alpha ^ m)) with (h ^ p * Rabs (ww m) * (alpha ^ m * B)) by lra.
        apply Rmult_le_compat; [by apply Rmult_le_pos|done| |done]. by apply Rmult_le_compat_r. }
    assert (alpha ^ p * B * tpow (S p) h <= alpha ^ p * B * h ^ S p) as Htp.
    { apply Rmult_le_compat_l; [apply Rmult_le_pos; [apply pow_le, alpha_pos|done]|]. unfold tpow. rewrite <- (Rmult_1_r (h ^ S p)) at 2. apply Rmult_le_compat_l; [apply pow_le; lra|].
      rewrite <- Rinv_1. apply Rinv_le_contravar; [lra|apply fact_one]. }
    replace (nth j (φ ta) 0 + h * (S1 + S2) - nth j (φ tc) 0) with (h * S2 + - (nth j (φ tc) 0 - (nth j (φ ta) 0 + h * S1))) by lra.
    eapply Rle_trans; [apply Rabs_triang|]. rewrite Rabs_Ropp, Rabs_mult, (Rabs_pos_eq h) by lra. unfold Cl.
    assert (h * Rabs S2 <= h * (h ^ p * (B * rsum (length rows) (fun m => Rabs (ww m) * alpha ^ m)))) as HS3 by (apply Rmult_le_compat_l; lra).
    cbn [pow] in *. lra.
  Qed.
  (** Two steps that start at different points. *)
  Lemma step_stable ta tc x x' e y y' : length x = n -> length x' = n -> 0 <= tc - ta <= 1 -> within e x x' ->
    rk_solution (Tableau rows ws) (fun τ v k => k = affine n A c τ v) ta x tc y ->
    rk_solution (Tableau rows ws) (fun τ v k => k = affine n A c τ v) ta x' tc y' -> within ((1 + Ls * (tc - ta)) * e) y y'.
  Proof.
    intros Lx Lx' Hh Hw Hs Hs'. destruct (step_poly ta tc x y Lx Hs) as [Ly Hy]. destruct (step_poly ta tc x' y' Lx' Hs') as [Ly' Hy'].
    apply within_nth. split; [lia|]. intros j Hj. rewrite Ly in Hj. rewrite Hy, Hy' by done. set (h := tc - ta) in *. apply within_nth in Hw as [_ Hw].
    assert (forall q, (q < n)%nat -> Rabs (nv x q - nv x' q) <= e) as Hd by (intros q Hq; apply Hw; lia). assert (0 <= e) as He by (pose proof (Hd j Hj); pose proof (Rabs_pos (nv x j - nv x' j)); lra).
    assert (forall m, Mp m (Fv x) j - Mp m (Fv x') j = Mp (S m) (fun q => nv x q - nv x' q) j) as Em.
    { intros m. rewrite <- Mp_minus by done. rewrite <- Mp_S. apply Mp_ext; [|done]. intros q Hq. unfold Fv.
      rewrite (Mv_ext (fun q => nv x q - nv x' q) (fun q => nv x q + (-1) * nv x' q)) by (intros; lra). rewrite (Mv_plus (nv x) (fun q => (-1) * nv x' q)), (Mv_scal (-1) (nv x')). ring. }
    set (N := length rows). set (u := rsum N (fun m => h ^ m * ww m * Mp m (Fv x) j)). set (u' := rsum N (fun m => h ^ m * ww m * Mp m (Fv x') j)).
    assert (Rabs (u - u') <= Ls * e) as Hu.
    { replace (u - u') with (rsum N (fun m => h ^ m * ww m * Mp (S m) (fun q => nv x q - nv x' q) j)).
      2: { unfold u, u'. replace (rsum N (fun m => h ^ m * ww m * Mp m (Fv x) j) - rsum N (fun m => h ^ m * ww m * Mp m (Fv x') j)) with (rsum N (fun m => h ^ m * ww m * Mp m (Fv x) j) + (-1) * rsum N (fun m => h ^ m * ww m * Mp m (Fv x') j)) by lra.
           rewrite <- rsum_scal, <- rsum_plus. apply rsum_ext. intros m _. rewrite <- Em. lra. }
      eapply Rle_trans; [apply rsum_abs|]. unfold Ls. fold N. rewrite Rmult_plus_distr_r. assert (0 <= 1 * e) by lra.
      assert (rsum N (fun m => Rabs (h ^ m * ww m * Mp (S m) (fun q => nv x q - nv x' q) j)) <= rsum N (fun m => Rabs (ww m) * alpha ^ S m) * e); [|lra].
      rewrite (Rmult_comm _ e), <- rsum_scal. apply rsum_le. intros m _. rewrite !Rabs_mult, (Rabs_pos_eq (h ^ m)) by (apply pow_le; lra).
      pose proof (Mp_bound (S m) (fun q => nv x q - nv x' q) e j Hd Hj) as Hb. pose proof (pow_small h m 0 ltac:(lra) ltac:(lia)) as Hpw. cbn [pow] in Hpw.
      assert (0 <= h ^ m) by (apply pow_le; lra). pose proof (Rabs_pos (ww m)). pose proof (Rabs_pos (Mp (S m) (fun q => nv x q - nv x' q) j)).
      replace (e * (Rabs (ww m) * alpha ^ S m)) with (1 * Rabs (ww m) * (alpha ^ S m * e)) by lra.
      apply Rmult_le_compat; [by apply Rmult_le_pos|done| |done]. by apply Rmult_le_compat_r. }
    replace (nth j x 0 + h * u - (nth j x' 0 + h * u')) with ((nv x j - nv x' j) + h * (u - u')) by (unfold nv; lra).
    eapply Rle_trans; [apply Rabs_triang|]. rewrite Rabs_mult, (Rabs_pos_eq h) by lra. pose proof (Hd j Hj).
    assert (h * Rabs (u - u') <= h * (Ls * e)) by (apply Rmult_le_compat_l; lra). lra.
  Qed.
  (** Every step has a result. *)
  Lemma step_exists ta tc x : exists y, rk_solution (Tableau rows ws) (fun τ v k => k = affine n A c τ v) ta x tc y.
  Proof.
    assert (forall N, (N <= length rows)%nat -> exists ks, length ks = N /\ forall i c0 a k, rows !! i = Some (c0, a) -> ks !! i = Some k ->
      k = affine n A c (ta + Q2R c0 * (tc - ta)) (rk_add x (tc - ta) a (take i ks))) as Hks.
    { induction N as [|N IH]; intros HN; [exists []; split; [done|]; intros i c0 a k _ E; done|]. destruct (IH ltac:(lia)) as (ks & Lk & Hk).
      destruct (lookup_lt_is_Some_2 rows N ltac:(lia)) as [[c0 a] Hrow]. exists (ks ++ [affine n A c (ta + Q2R c0 * (tc - ta)) (rk_add x (tc - ta) a ks)]).
      split; [rewrite app_length; cbn; lia|]. intros i c1 a1 k E1 E2. destruct (decide (i < length ks)%nat) as [Hlt|Hge].
      - rewrite lookup_app_l in E2 by done. rewrite take_app_le by lia. by apply Hk.
      - pose proof (lookup_lt_Some _ _ _ E2) as Hl. rewrite app_length in Hl. cbn in Hl. assert (i = N) as -> by lia. rewrite Hrow in E1. injection E1 as <- <-.
        rewrite <- Lk in E2. rewrite list_lookup_middle in E2 by done. injection E2 as <-. rewrite <- Lk, take_app. done. }
    destruct (Hks _ (le_n _)) as (ks & Lk & Hk). eexists. exists ks. split; [done|]. split; [exact Hk|reflexivity].
  Qed.
  Lemma within_trans a b x y z : within a x y -> within b y z -> within (a + b) x z.
  Proof.
    rewrite !within_nth. intros [L1 H1] [L2 H2]. split; [lia|]. intros i Hi. replace (nth i x 0 - nth i z 0) with ((nth i x 0 - nth i y 0) + (nth i y 0 - nth i z 0)) by lra.
    eapply Rle_trans; [apply Rabs_triang|]. apply Rplus_le_compat; [by apply H1|apply H2; lia].
  Qed.
  Lemma lin_growth ta tc x e y H : t0 <= ta -> ta < tc <= T -> tc - ta <= H -> H <= 1 -> 0 <= e -> within e x (φ ta) ->
    rk_solution (Tableau rows ws) (fun τ v k => k = affine n A c τ v) ta x tc y ->
    exists e', 0 <= e' /\ e' + Cl * H ^ p <= exp (Ls * (tc - ta)) * (e + Cl * H ^ p) /\ within e' y (φ tc).
  Proof.
    intros Ha Hc HH H1 He Hx Hs. destruct (step_exists ta tc (φ ta)) as [y0 Hs0]. pose proof Ls_one as HL. pose proof Cl_pos as HC. pose proof (sol_length ta ltac:(lra)) as La.
    assert (length x = n) as Lx by (apply within_nth in Hx as [L _]; lia).
    pose proof (step_stable ta tc x (φ ta) e y y0 Lx La ltac:(lra) Hx Hs Hs0) as W1. pose proof (local_error ta tc y0 Ha Hc ltac:(lra) Hs0) as W2.
    pose proof (within_trans _ _ _ _ _ W1 W2) as W. set (h := tc - ta) in *. assert (0 < h) as Hh by (unfold h; lra).
    assert (h ^ p <= H ^ p) as Hpw by (apply pow_incr; lra). assert (0 <= h ^ p) as Hp0 by (apply pow_le; lra). assert (0 <= H ^ p) as HP0 by (apply pow_le; lra).
    assert (0 <= Cl * H ^ p) as HD by (by apply Rmult_le_pos). assert (0 <= Ls * h) as Hlh by (apply Rmult_le_pos; lra).
    eexists. split; [|split; [|exact W]].
    - apply Rplus_le_le_0_compat; apply Rmult_le_pos; try done; [lra|apply pow_le; lra].
    - assert (1 + Ls * h <= exp (Ls * h)) as Hexp. { destruct (Req_dec (Ls * h) 0) as [->|Hne]; [rewrite exp_0; lra|]. left. by apply exp_ineq1. }
      assert (Cl * h ^ S p <= Ls * h * (Cl * H ^ p)) as Hq.
      { cbn [pow]. assert (Cl * h ^ p <= Cl * H ^ p) by (by apply Rmult_le_compat_l). assert (1 * (Cl * H ^ p) <= Ls * (Cl * H ^ p)) by (by apply Rmult_le_compat_r).
        replace (Cl * (h * h ^ p)) with (h * (Cl * h ^ p)) by lra. replace (Ls * h * (Cl * H ^ p)) with (h * (Ls * (Cl * H ^ p))) by lra. apply Rmult_le_compat_l; lra. }
      assert ((1 + Ls * h) * (e + Cl * H ^ p) <= exp (Ls * h) * (e + Cl * H ^ p)) by (apply Rmult_le_compat_r; lra). lra.
  Qed.
  (** Along a path of steps. *)
  Lemma lin_chain H ms : 0 <= H <= 1 -> forall ta x e te xe, t0 <= ta -> te <= T -> chained ta x ms te xe ->
    Forall (fun a => mv_from a < mv_to a /\ mv_to a <= te /\ mv_to a - mv_from a <= H /\
      rk_solution (Tableau rows ws) (fun τ v k => k = affine n A c τ v) (mv_from a) (mv_state a) (mv_to a) (mv_result a)) ms ->
    0 <= e -> within e x (φ ta) ->
    exists e', 0 <= e' /\ e' + Cl * H ^ p <= exp (Ls * (te - ta)) * (e + Cl * H ^ p) /\ within e' xe (φ te).
  Proof.
    intros HH. induction ms as [|a ms IH]; intros ta x e te xe Ha HT Hc Hf He Hx; cbn [chained] in Hc.
    - destruct Hc as [-> ->]. exists e. split; [done|]. split; [|done]. replace (Ls * (ta - ta)) with 0 by lra. rewrite exp_0. lra.
    - destruct Hc as (Efr & Est & Hc). inversion Hf as [|? ? (F1 & F2 & F3 & F4) Hf']; subst. destruct (mv_ok a); [|by eapply IH].
      destruct (lin_growth (mv_from a) (mv_to a) (mv_state a) e (mv_result a) H) as (e1 & E0 & E1 & E2); [done|lra|lra|lra|done|done|done|].
      destruct (IH (mv_to a) (mv_result a) e1 te xe) as (e' & K1 & K2 & K3); [lra|done|done|done|done|done|].
      exists e'. split; [done|]. split; [|done]. eapply Rle_trans; [exact K2|].
      replace (Ls * (te - mv_from a)) with (Ls * (te - mv_to a) + Ls * (mv_to a - mv_from a)) by lra. rewrite exp_plus, Rmult_assoc.
      apply Rmult_le_compat_l; [left; apply exp_pos|done].
  Qed.
End lin.
