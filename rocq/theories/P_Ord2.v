(** The error of one step of a Runge-Kutta method of order four on a smooth
    differential equation. *)
From stdpp Require Import prelude.
From Coq Require Import Reals Lra QArith Qreals Psatz.
From Verif Require Import Num NumR Res Sim SpecRK P_RK SpecField SpecConv P_Conv SpecLin P_Lin SpecOrd P_Ord.
Local Open Scope R_scope.

(** ** Linearity *)
Section multi.
  Context (m : nat) (d1 : R -> nat -> R) (d2 : R -> nat -> nat -> R) (d3 : R -> nat -> nat -> nat -> R).
  Lemma lin1_scal a c x : lin1 m d1 a (fun j => c * x j) = c * lin1 m d1 a x.
  Proof. unfold lin1. rewrite <- rsum_scal. apply rsum_ext. intros; ring. Qed.
  Lemma lin1_plus a x y : lin1 m d1 a (fun j => x j + y j) = lin1 m d1 a x + lin1 m d1 a y.
  Proof. unfold lin1. rewrite <- rsum_plus. apply rsum_ext. intros; ring. Qed.
  Lemma lin2_scal a c e x y : lin2 m d2 a (fun j => c * x j) (fun j => e * y j) = c * e * lin2 m d2 a x y.
  Proof. unfold lin2. rewrite <- rsum_scal. apply rsum_ext. intros j _. rewrite <- rsum_scal. apply rsum_ext. intros; ring. Qed.
  Lemma lin3_scal a c x : lin3 m d3 a (fun j => c * x j) (fun j => c * x j) (fun j => c * x j) = c ^ 3 * lin3 m d3 a x x x.
  Proof.
    unfold lin3. rewrite <- rsum_scal. apply rsum_ext. intros j _. rewrite <- rsum_scal. apply rsum_ext. intros k _. rewrite <- rsum_scal. apply rsum_ext. intros; ring.
  Qed.
  Context (P : R -> R -> Prop) (HP : forall a h, P a h -> 0 <= h <= 1).
  Lemma lin1_bounded x : (forall j, (j < m)%nat -> bigo P 0 (fun a _ => d1 a j)) -> (forall j, (j < m)%nat -> bigo P 0 (fun a _ => x a j)) -> bigo P 0 (fun a _ => lin1 m d1 a (x a)).
  Proof. intros B X. apply (bigo_rsum P 0 m (fun a _ j => d1 a j * x a j)). intros j Hj. apply (bigo_mult P 0 0); auto. Qed.
  Lemma lin2_bounded x y : (forall j k, (j < m)%nat -> (k < m)%nat -> bigo P 0 (fun a _ => d2 a j k)) ->
    (forall j, (j < m)%nat -> bigo P 0 (fun a _ => x a j)) -> (forall j, (j < m)%nat -> bigo P 0 (fun a _ => y a j)) -> bigo P 0 (fun a _ => lin2 m d2 a (x a) (y a)).
  Proof.
    intros B X Y. apply (bigo_rsum P 0 m (fun a _ j => rsum m (fun k => d2 a j k * (x a j * y a k)))). intros j Hj.
    apply (bigo_rsum P 0 m (fun a _ k => d2 a j k * (x a j * y a k))). intros k Hk. apply (bigo_mult P 0 (0 + 0)); [auto|]. apply bigo_mult; auto.
  Qed.
  Lemma lin3_bounded x : (forall j k l, (j < m)%nat -> (k < m)%nat -> (l < m)%nat -> bigo P 0 (fun a _ => d3 a j k l)) ->
    (forall j, (j < m)%nat -> bigo P 0 (fun a _ => x a j)) -> bigo P 0 (fun a _ => lin3 m d3 a (x a) (x a) (x a)).
  Proof.
    intros B X. apply (bigo_rsum P 0 m (fun a _ j => rsum m (fun k => rsum m (fun l => d3 a j k l * (x a j * x a k * x a l))))). intros j Hj.
    apply (bigo_rsum P 0 m (fun a _ k => rsum m (fun l => d3 a j k l * (x a j * x a k * x a l)))). intros k Hk.
    apply (bigo_rsum P 0 m (fun a _ l => d3 a j k l * (x a j * x a k * x a l))). intros l Hl. apply (bigo_mult P 0 ((0 + 0) + 0)); [auto|]. apply bigo_mult; [apply bigo_mult|]; auto.
  Qed.
End multi.

(** ** The trees of order up to four *)
Definition tr1 := RNode []. Definition tr2 := RNode [tr1]. Definition tr31 := RNode [tr1; tr1]. Definition tr32 := RNode [tr2].
Definition tr41 := RNode [tr1; tr1; tr1]. Definition tr42 := RNode [tr1; tr2]. Definition tr43 := RNode [tr31]. Definition tr44 := RNode [tr32].

Lemma rk_sum_rsum al : forall ks j, (length al <= length ks)%nat -> rk_sum al ks j = rsum (length al) (fun q => Q2R (nth q al 0%Q) * nth j (nth q ks []) 0).
Proof.
  induction al as [|x al IH]; intros ks j Hl; [done|]. destruct ks as [|k ks]; [cbn in Hl; lia|]. cbn [length] in *. rewrite rsum_first. cbn [rk_sum nth]. rewrite IH by lia. done.
Qed.
Lemma qdot_rsum al : forall l, (length al <= length l)%nat -> Q2R (qdot al l) = rsum (length al) (fun q => Q2R (nth q al 0%Q) * Q2R (nth q l 0%Q)).
Proof.
  induction al as [|x al IH]; intros l Hl; [cbn; apply q2r_0|]. destruct l as [|y l]; [cbn in Hl; lia|]. cbn [length] in *. rewrite rsum_first.
  change (qdot (x :: al) (y :: l)) with (x * y + qdot al l)%Q. rewrite Q2R_plus, Q2R_mult, IH by lia. done.
Qed.
Lemma stage_weight_node rows s c al ch : rows !! s = Some (c, al) ->
  Q2R (nth s (stage_weight rows (RNode ch)) 0%Q) = fold_right (fun τ x => Q2R (qdot al (stage_weight rows τ)) * x) 1 ch.
Proof.
  intros E. cbn [stage_weight]. rewrite (nth_map_lookup _ _ _ _ _ E). rewrite q2r_qred. cbn [snd]. induction ch as [|τ ch IH]; cbn; [apply q2r_1|]. rewrite Q2R_mult, IH. done.
Qed.

Section ord.
  Context (n : nat) (F : R -> list R -> list R) (φ : R -> list R) (t0 T r L B M : R).
  Context (HL : 0 <= L) (HB : 0 <= B) (HM : 0 <= M) (Hr0 : 0 < r) (Hsol : solves F φ t0 T) (Hn : length (φ t0) = n) (Hreg : regular F φ t0 T r L B).
  Context (d1 : R -> nat -> nat -> R) (d2 : R -> nat -> nat -> nat -> R) (d3 : R -> nat -> nat -> nat -> nat -> R).
  Context (Hd : forall t i j k l, t0 <= t <= T -> Rabs (d1 t i j) <= M /\ Rabs (d2 t i j k) <= M /\ Rabs (d3 t i j k l) <= M).
  Context (Hexp : forall t t' x e i, t0 <= t <= T -> t0 <= t' <= T -> e <= r -> Rabs (t' - t) <= e -> within e x (φ t) -> (i < n)%nat ->
       let u := offset t (φ t) t' x in
       Rabs (nth i (F t' x) 0 -
         (nth i (F t (φ t)) 0 + rsum (S n) (fun j => d1 t i j * u j) +
          rsum (S n) (fun j => rsum (S n) (fun k => d2 t i j k * (u j * u k))) +
          rsum (S n) (fun j => rsum (S n) (fun k => rsum (S n) (fun l => d3 t i j k l * (u j * u k * u l)))))) <= M * e ^ 4).
  Context (A : R) (HA : 0 <= A) (rows : list (Q * list Q)) (Hrows : Forall (fun c => 0 <= Q2R c.1 <= 1 /\ asum c.2 <= A) rows).
  Context (h0 : R) (Hh0 : 0 < h0 <= 1) (Hh0r : Gc L B A (length rows) * h0 <= r).
  Let m := S n.
  Definition dom (a h : R) : Prop := t0 <= a /\ 0 <= h <= h0 /\ a + h <= T.
  Lemma dom_h a h : dom a h -> 0 <= h <= 1. Proof. unfold dom. lra. Qed.
  Hint Resolve dom_h : core.
  Lemma len_sol t : t0 <= t <= T -> length (φ t) = n. Proof. intros Ht. destruct (Hsol t Ht) as (E & _). lia. Qed.
  Notation bg := (bigo dom).

  (** The function with time as component 0, and its derivatives. *)
  Definition base (a : R) (j : nat) : R := match j with O => 1 | S j => nth j (F a (φ a)) 0 end.
  Definition e1 (i : nat) (a : R) (j : nat) : R := match i with O => 0 | S i => d1 a i j end.
  Definition e2 (i : nat) (a : R) (j k : nat) : R := match i with O => 0 | S i => d2 a i j k end.
  Definition e3 (i : nat) (a : R) (j k l : nat) : R := match i with O => 0 | S i => d3 a i j k l end.
  Lemma dom_a a h : dom a h -> t0 <= a <= T. Proof. unfold dom. lra. Qed.
  Lemma e1_b i j : bg 0 (fun a _ => e1 i a j).
  Proof. exists M. split; [done|]. intros a h Hp. cbn. rewrite Rmult_1_r. destruct i as [|i]; cbn; [by rewrite Rabs_R0|]. by apply (Hd a i j 0 0 (dom_a _ _ Hp)). Qed.
  Lemma e2_b i j k : bg 0 (fun a _ => e2 i a j k).
  Proof. exists M. split; [done|]. intros a h Hp. cbn. rewrite Rmult_1_r. destruct i as [|i]; cbn; [by rewrite Rabs_R0|]. by apply (Hd a i j k 0 (dom_a _ _ Hp)). Qed.
  Lemma e3_b i j k l : bg 0 (fun a _ => e3 i a j k l).
  Proof. exists M. split; [done|]. intros a h Hp. cbn. rewrite Rmult_1_r. destruct i as [|i]; cbn; [by rewrite Rabs_R0|]. by apply (Hd a i j k l (dom_a _ _ Hp)). Qed.
  Lemma base_b j : (j < m)%nat -> bg 0 (fun a _ => base a j).
  Proof.
    intros Hj. destruct j as [|j]; [apply (bigo_const dom 1)|]. exists B. split; [done|]. intros a h Hp. cbn. rewrite Rmult_1_r. pose proof (dom_a _ _ Hp) as Ha.
    destruct Hreg as [_ Hb]. apply (forall_nth _ _ (Hb a Ha)). destruct (Hsol a Ha) as (E1 & E2 & _). unfold m in Hj. lia.
  Qed.

  (** The elementary differentials. *)
  Definition A2 (a : R) (i : nat) : R := lin1 m (e1 i) a (base a).
  Definition A31 (a : R) (i : nat) : R := lin2 m (e2 i) a (base a) (base a).
  Definition A32 (a : R) (i : nat) : R := lin1 m (e1 i) a (A2 a).
  Definition A41 (a : R) (i : nat) : R := lin3 m (e3 i) a (base a) (base a) (base a).
  Definition A42 (a : R) (i : nat) : R := lin2 m (e2 i) a (base a) (A2 a) + lin2 m (e2 i) a (A2 a) (base a).
  Definition A43 (a : R) (i : nat) : R := lin1 m (e1 i) a (A31 a).
  Definition A44 (a : R) (i : nat) : R := lin1 m (e1 i) a (A32 a).
  Lemma A2_b i : bg 0 (fun a _ => A2 a i).
  Proof. apply lin1_bounded; intros; [apply e1_b|by apply base_b]. Qed.
  Lemma A31_b i : bg 0 (fun a _ => A31 a i).
  Proof. apply lin2_bounded; intros; [apply e2_b|by apply base_b|by apply base_b]. Qed.
  Lemma A32_b i : bg 0 (fun a _ => A32 a i).
  Proof. apply lin1_bounded; intros; [apply e1_b|apply A2_b]. Qed.
  Lemma A41_b i : bg 0 (fun a _ => A41 a i).
  Proof. apply lin3_bounded; intros; [apply e3_b|by apply base_b]. Qed.
  Lemma A42_b i : bg 0 (fun a _ => A42 a i).
  Proof. apply bigo_plus; apply lin2_bounded; intros; try apply e2_b; try apply A2_b; by apply base_b. Qed.
  Lemma A43_b i : bg 0 (fun a _ => A43 a i).
  Proof. apply lin1_bounded; intros; [apply e1_b|apply A31_b]. Qed.
  Lemma A44_b i : bg 0 (fun a _ => A44 a i).
  Proof. apply lin1_bounded; intros; [apply e1_b|apply A32_b]. Qed.
  Hint Resolve A2_b A31_b A32_b A41_b A42_b A43_b A44_b base_b : core.

  (** Value of the function at a point close to the solution. *)
  Definition fval (τ : R) (x : list R) (i : nat) : R := match i with O => 1 | S i => nth i (F τ x) 0 end.
  Lemma fval_expands (τ : R -> R -> R) (x : R -> R -> list R) (U1 U2 U3 : R -> nat -> R) q :
    (1 <= q <= 4)%nat ->
    (forall j, (j < m)%nat -> bg 0 (fun a _ => U1 a j)) -> (forall j, (j < m)%nat -> bg 0 (fun a _ => U2 a j)) -> (forall j, (j < m)%nat -> bg 0 (fun a _ => U3 a j)) ->
    (forall a h, dom a h -> t0 <= τ a h <= T /\ length (x a h) = n /\ forall j, (j < m)%nat -> Rabs (offset a (φ a) (τ a h) (x a h) j) <= r) ->
    (forall j, (j < m)%nat -> bg q (fun a h => offset a (φ a) (τ a h) (x a h) j - poly3 U1 U2 U3 a h j)) ->
    forall i, (i < m)%nat -> bg q (fun a h => fval (τ a h) (x a h) i -
      (base a i + h * lin1 m (e1 i) a (U1 a) + h ^ 2 * (lin1 m (e1 i) a (U2 a) + lin2 m (e2 i) a (U1 a) (U1 a)) +
       h ^ 3 * (lin1 m (e1 i) a (U3 a) + (lin2 m (e2 i) a (U1 a) (U2 a) + lin2 m (e2 i) a (U2 a) (U1 a)) + lin3 m (e3 i) a (U1 a) (U1 a) (U1 a)))).
  Proof.
    intros Hq H1 H2 H3 Hx Hu i Hi.
    apply (compose dom dom_h m (e1 i) (e2 i) (e3 i) (fun j _ => e1_b i j) (fun j k _ _ => e2_b i j k) (fun j k l _ _ _ => e3_b i j k l)
      (fun a h => offset a (φ a) (τ a h) (x a h)) U1 U2 U3 H1 H2 H3 q Hq Hu (fun a h => fval (τ a h) (x a h) i) (fun a => base a i) r M HM).
    - intros a h e Hp Her Hue. destruct (Hx a h Hp) as (Hτ & Hlx & _). pose proof (dom_a _ _ Hp) as Ha.
      assert (Rabs (τ a h - a) <= e) as Ht by (apply (Hue O); unfold m; lia).
      assert (0 <= e) as He by (eapply Rle_trans; [apply Rabs_pos|exact Ht]).
      destruct i as [|i].
      + cbn [fval base]. unfold lin1, lin2, lin3. cbn [e1 e2 e3].
        rewrite (rsum_ext m (fun j => 0 * _) (fun _ => 0)) by (intros; ring). rewrite (rsum_ext m (fun j => rsum m (fun k => 0 * _)) (fun _ => 0)).
        2: { intros j _. rewrite (rsum_ext m _ (fun _ => 0)) by (intros; ring). apply rsum_zero. }
        rewrite (rsum_ext m (fun j => rsum m (fun k => rsum m (fun l => 0 * _))) (fun _ => 0)).
        2: { intros j _. rewrite (rsum_ext m _ (fun _ => 0)); [apply rsum_zero|]. intros k _. rewrite (rsum_ext m _ (fun _ => 0)) by (intros; ring). apply rsum_zero. }
        rewrite rsum_zero. replace (1 - (1 + 0 + 0 + 0)) with 0 by lra. rewrite Rabs_R0. apply Rmult_le_pos; [done|by apply pow_le].
      + apply (Hexp a (τ a h) (x a h) e i Ha Hτ Her Ht); [|unfold m in Hi; lia]. apply within_nth. rewrite (len_sol a Ha). split; [done|].
        intros j Hj. rewrite Hlx in Hj. apply (Hue (S j)). unfold m. lia.
    - intros a h j Hp Hj. by apply (Hx a h Hp).
    - done.
  Qed.

  (** ** The solution *)
  Lemma integrate k (g d : R -> R -> R) : (forall a h, dom a h -> g a 0 = 0) -> (forall a h, dom a h -> derivable_pt_lim (g a) h (d a h)) -> bg k d -> bg (S k) g.
  Proof.
    intros Hz Hder (C & HC & Hb). exists C. split; [done|]. intros a h Hp. destruct (Req_dec h 0) as [->|Hne].
    { rewrite (Hz a 0 Hp), Rabs_R0. apply Rmult_le_pos; [done|]. apply pow_le. lra. }
    destruct Hp as (P1 & P2 & P3). assert (forall c, 0 <= c <= h -> dom a c) as Hdom by (intros c Hc; unfold dom; lra).
    destruct (MVT_cor2 (g a) (d a) 0 h) as (c & E & Hc); [lra|intros c Hc; by apply Hder, Hdom|].
    rewrite (Hz a h) in E by (apply Hdom; lra). replace (g a h - 0) with (g a h) in E by lra. rewrite E, Rabs_mult, Rminus_0_r, (Rabs_pos_eq h) by lra.
    cbn [pow]. replace (C * (h * h ^ k)) with (C * h ^ k * h) by ring. apply Rmult_le_compat_r; [lra|]. eapply Rle_trans; [apply Hb, Hdom; lra|].
    apply Rmult_le_compat_l; [done|]. apply pow_incr. lra.
  Qed.
  Definition S2 (a : R) (j : nat) : R := / 2 * A2 a j.
  Definition S3 (a : R) (j : nat) : R := / 6 * A32 a j + / 3 * A31 a j.
  Definition S4 (a : R) (j : nat) : R := / 24 * A44 a j + / 12 * A43 a j + / 8 * A42 a j + / 4 * A41 a j.
  Lemma S2_b j : bg 0 (fun a _ => S2 a j). Proof. by apply bigo_scal. Qed.
  Lemma S3_b j : bg 0 (fun a _ => S3 a j). Proof. apply bigo_plus; by apply bigo_scal. Qed.
  Lemma S4_b j : bg 0 (fun a _ => S4 a j). Proof. repeat apply bigo_plus; by apply bigo_scal. Qed.
  Definition uso (a h : R) : nat -> R := offset a (φ a) (a + h) (φ (a + h)).
  Lemma uso_deriv a h j : dom a h -> (j < m)%nat -> derivable_pt_lim (fun η => uso a η j) h (fval (a + h) (φ (a + h)) j).
  Proof.
    intros Hp Hj. unfold uso. destruct j as [|j]; cbn [offset fval].
    - apply (derivable_pt_lim_ext (fun η => η)); [intros; ring|]. apply derivable_pt_lim_id.
    - replace (nth j (F (a + h) (φ (a + h))) 0) with (nth j (F (a + h) (φ (a + h))) 0 * (0 + 1) - 0) by ring.
      apply (derivable_pt_lim_minus (fun η => nth j (φ (a + η)) 0) (fun _ => nth j (φ a) 0)); [|apply derivable_pt_lim_const].
      apply (derivable_pt_lim_comp (fun η => a + η) (fun τ => nth j (φ τ) 0)).
      + apply (derivable_pt_lim_plus (fun _ => a) (fun η => η)); [apply derivable_pt_lim_const|apply derivable_pt_lim_id].
      + destruct (Hsol (a + h)) as (_ & _ & Hder); [unfold dom in Hp; lra|]. apply Hder. unfold m in Hj. lia.
  Qed.
  Lemma uso_zero a j : uso a 0 j = 0.
  Proof. unfold uso. rewrite Rplus_0_r. destruct j; cbn; lra. Qed.
  Lemma Gc_big : 1 + B <= Gc L B A (length rows).
  Proof. unfold Gc. assert (0 <= A * (B + kap L B A (length rows))); [|lra]. apply Rmult_le_pos; [done|]. pose proof (kap_pos L B HL HB A HA (length rows)). lra. Qed.
  Lemma uso_small a h j : dom a h -> (j < m)%nat -> Rabs (uso a h j) <= (1 + B) * h.
  Proof.
    intros (P1 & P2 & P3) Hj. unfold uso. destruct j as [|j]; cbn [offset].
    - replace (a + h - a) with h by ring. rewrite Rabs_pos_eq by lra. assert (0 <= B * h) by (apply Rmult_le_pos; lra). lra.
    - pose proof (sol_speed F φ t0 T r L B Hsol Hreg a (a + h) P1 ltac:(lra)) as Hw. apply within_nth in Hw as [_ Hw].
      replace (a + h - a) with h in Hw by ring. eapply Rle_trans; [apply Hw; rewrite len_sol by lra; unfold m in Hj; lia|]. lra.
  Qed.
  Lemma sol_level q : (1 <= q <= 4)%nat -> (forall j, (j < m)%nat -> bg q (fun a h => uso a h j - poly3 base S2 S3 a h j)) ->
    forall i, (i < m)%nat -> bg (S q) (fun a h => uso a h i - (h * base a i + h ^ 2 * S2 a i + h ^ 3 * S3 a i + h ^ 4 * S4 a i)).
  Proof.
    intros Hq Hu i Hi.
    apply (integrate q _ (fun a h => fval (a + h) (φ (a + h)) i - (base a i + h * (2 * S2 a i) + h ^ 2 * (3 * S3 a i) + h ^ 3 * (4 * S4 a i)))).
    - intros a h _. rewrite uso_zero. ring.
    - intros a h Hp. apply (derivable_pt_lim_minus (fun η => uso a η i) (fun η => η * base a i + η ^ 2 * S2 a i + η ^ 3 * S3 a i + η ^ 4 * S4 a i)); [by apply uso_deriv|].
      assert (forall k c, derivable_pt_lim (fun η => η ^ k * c) h (INR k * h ^ pred k * c + h ^ k * 0)) as Hpow.
      { intros k c. apply (derivable_pt_lim_mult (fun η => η ^ k) (fun _ => c)); [apply derivable_pt_lim_pow|apply derivable_pt_lim_const]. }
      apply (derivable_pt_lim_ext (fun η => η ^ 1 * base a i + η ^ 2 * S2 a i + η ^ 3 * S3 a i + η ^ 4 * S4 a i)); [intros; ring|].
      replace (base a i + h * (2 * S2 a i) + h ^ 2 * (3 * S3 a i) + h ^ 3 * (4 * S4 a i)) with
        ((INR 1 * h ^ pred 1 * base a i + h ^ 1 * 0) + (INR 2 * h ^ pred 2 * S2 a i + h ^ 2 * 0) + (INR 3 * h ^ pred 3 * S3 a i + h ^ 3 * 0) + (INR 4 * h ^ pred 4 * S4 a i + h ^ 4 * 0))
        by (cbn [pred INR]; ring).
      apply (derivable_pt_lim_plus (fun η => η ^ 1 * base a i + η ^ 2 * S2 a i + η ^ 3 * S3 a i) (fun η => η ^ 4 * S4 a i)); [|apply Hpow].
      apply (derivable_pt_lim_plus (fun η => η ^ 1 * base a i + η ^ 2 * S2 a i) (fun η => η ^ 3 * S3 a i)); [|apply Hpow].
      apply (derivable_pt_lim_plus (fun η => η ^ 1 * base a i) (fun η => η ^ 2 * S2 a i)); apply Hpow.
    - eapply bigo_ext; [|apply (fval_expands (fun a h => a + h) (fun a h => φ (a + h)) base S2 S3 q Hq); [auto|intros; apply S2_b|intros; apply S3_b| |exact Hu|exact Hi]].
      + intros a h Hp. cbn beta.
        assert (lin1 m (e1 i) a (base a) = 2 * S2 a i) as -> by (unfold S2; fold (A2 a i); field).
        assert (lin1 m (e1 i) a (S2 a) + lin2 m (e2 i) a (base a) (base a) = 3 * S3 a i) as ->.
        { unfold S2. rewrite lin1_scal. fold (A32 a i). fold (A31 a i). unfold S3. field. }
        assert (lin1 m (e1 i) a (S3 a) + (lin2 m (e2 i) a (base a) (S2 a) + lin2 m (e2 i) a (S2 a) (base a)) + lin3 m (e3 i) a (base a) (base a) (base a) = 4 * S4 a i) as ->.
        { unfold S3. rewrite lin1_plus, !lin1_scal. fold (A43 a i). fold (A44 a i). fold (A41 a i).
          assert (lin2 m (e2 i) a (base a) (S2 a) + lin2 m (e2 i) a (S2 a) (base a) = / 2 * A42 a i) as ->; [|unfold S4; field].
          unfold S2, A42. pose proof (lin2_scal m (e2 i) a 1 (/ 2) (base a) (A2 a)) as Ea. pose proof (lin2_scal m (e2 i) a (/ 2) 1 (A2 a) (base a)) as Eb.
          rewrite Rmult_plus_distr_l. rewrite Rmult_1_l in Ea. rewrite Rmult_1_r in Eb. rewrite <- Ea, <- Eb. unfold lin2.
          f_equal; apply rsum_ext; intros j _; apply rsum_ext; intros k _; ring. }
        ring.
      + intros a h Hp. destruct Hp as (P1 & P2 & P3). split; [lra|]. split; [apply len_sol; lra|]. intros j Hj.
        eapply Rle_trans; [by apply (uso_small a h j)|]. eapply Rle_trans; [|exact Hh0r]. pose proof Gc_big. apply Rmult_le_compat; lra.
  Qed.
  Lemma sol_expands i : (i < m)%nat -> bg 5 (fun a h => uso a h i - (h * base a i + h ^ 2 * S2 a i + h ^ 3 * S3 a i + h ^ 4 * S4 a i)).
  Proof.
    assert (forall q, (1 <= q <= 4)%nat -> forall j, (j < m)%nat -> bg q (fun a h => uso a h j - poly3 base S2 S3 a h j)) as Hlev.
    { intros q. induction q as [|q IH]; intros Hq j Hj; [lia|]. destruct (decide (q = 0)%nat) as [->|Hne].
      - apply bigo_minus; [|by apply (poly3_one dom dom_h m base S2 S3 base_b (fun j _ => S2_b j) (fun j _ => S3_b j) 1 ltac:(lia) j Hj)].
        exists (1 + B). split; [lra|]. intros a h Hp. rewrite pow_1. by apply uso_small.
      - apply (bigo_ext dom (S q) (fun a h => (uso a h j - (h * base a j + h ^ 2 * S2 a j + h ^ 3 * S3 a j + h ^ 4 * S4 a j)) + h ^ 4 * S4 a j)); [intros; unfold poly3; ring|].
        apply bigo_plus; [apply sol_level; [lia|intros k Hk; apply IH; [lia|done]|done]|]. apply (bigo_mono dom dom_h (4 + 0)); [lia|]. apply (bigo_shift dom dom_h). apply S4_b. }
    intros Hi. apply sol_level; [lia|intros j Hj; apply Hlev; [lia|done]|done].
  Qed.

  (** ** The stages *)
  Context (Hlen : forall i c a, rows !! i = Some (c, a) -> (length a <= i)%nat).
  Context (Hnode : forall i c a, rows !! i = Some (c, a) -> Q2R c = Q2R (qdot a (stage_weight rows tr1))).
  Definition spec_of (a h : R) (x : list R) (ks : list (list R)) : Prop :=
    forall i c al k, rows !! i = Some (c, al) -> ks !! i = Some k -> k = F (a + Q2R c * h) (rk_add x h al (take i ks)).
  Fixpoint stgs (rs : list (Q * list Q)) (a h : R) (ks : list (list R)) : list (list R) :=
    match rs with [] => ks | (c, al) :: rs' => stgs rs' a h (ks ++ [F (a + Q2R c * h) (rk_add (φ a) h al ks)]) end.
  Definition Ks (a h : R) : list (list R) := stgs rows a h [].
  Lemma stgs_ok a h : forall rs pre ks, rows = pre ++ rs -> length ks = length pre -> spec_of a h (φ a) ks ->
    length (stgs rs a h ks) = length rows /\ spec_of a h (φ a) (stgs rs a h ks).
  Proof.
    induction rs as [|[c al] rs IH]; intros pre ks E Hl Hs; cbn [stgs].
    - rewrite app_nil_r in E. subst pre. done.
    - apply (IH (pre ++ [(c, al)])); [by rewrite <- app_assoc|rewrite !app_length; cbn; lia|].
      intros i c' al' k E1 E2. destruct (decide (i < length ks)%nat) as [Hlt|Hge].
      + rewrite lookup_app_l in E2 by done. rewrite take_app_le by lia. by apply Hs.
      + pose proof (lookup_lt_Some _ _ _ E2) as Hlt. rewrite app_length in Hlt. cbn in Hlt. assert (i = length ks) as -> by lia.
        rewrite list_lookup_middle in E2 by done. injection E2 as <-. rewrite Hl, E, list_lookup_middle in E1 by done. injection E1 as <- <-. by rewrite take_app.
  Qed.
  Lemma Ks_ok a h : length (Ks a h) = length rows /\ spec_of a h (φ a) (Ks a h).
  Proof. apply (stgs_ok a h rows [] []); [done|done|]. intros i c al k _ E. done. Qed.
  Definition kv (s : nat) (a h : R) (j : nat) : R := match j with O => 1 | S j => nth j (nth s (Ks a h) []) 0 end.
  Notation wt := (fun s τ => Q2R (nth s (stage_weight rows τ) 0%Q)).
  Definition ek (s : nat) (a h : R) (i : nat) : R :=
    base a i + h * (wt s tr2 * A2 a i) + h ^ 2 * (wt s tr32 * A32 a i + wt s tr31 * A31 a i) +
    h ^ 3 * (wt s tr44 * A44 a i + wt s tr43 * A43 a i + wt s tr42 * A42 a i + wt s tr41 * A41 a i).
  Definition crest (s : nat) (a : R) (i : nat) : R := wt s tr44 * A44 a i + wt s tr43 * A43 a i + wt s tr42 * A42 a i + wt s tr41 * A41 a i.
  Lemma crest_b s i : bg 0 (fun a _ => crest s a i).
  Proof. repeat apply bigo_plus; by apply bigo_scal. Qed.

  (** Sums of stages. *)
  Lemma wsum al a h i : (length al <= length rows)%nat ->
    h * rsum (length al) (fun q => Q2R (nth q al 0%Q) * ek q a h i) =
    h * (Q2R (qdot al (stage_weight rows tr1)) * base a i) + h ^ 2 * (Q2R (qdot al (stage_weight rows tr2)) * A2 a i) +
    h ^ 3 * (Q2R (qdot al (stage_weight rows tr32)) * A32 a i + Q2R (qdot al (stage_weight rows tr31)) * A31 a i) +
    h ^ 4 * (Q2R (qdot al (stage_weight rows tr44)) * A44 a i + Q2R (qdot al (stage_weight rows tr43)) * A43 a i +
             Q2R (qdot al (stage_weight rows tr42)) * A42 a i + Q2R (qdot al (stage_weight rows tr41)) * A41 a i).
  Proof.
    intros Hl. rewrite !qdot_rsum by (by rewrite stage_weight_length).
    assert (forall f c, rsum (length al) f * c = rsum (length al) (fun q => c * f q)) as Hc by (intros f c; rewrite rsum_scal; ring).
    rewrite !Hc, <- !rsum_plus, <- !rsum_scal, <- !rsum_plus. apply rsum_ext. intros q Hq.
    destruct (lookup_lt_is_Some_2 rows q ltac:(lia)) as [[c' al'] E]. assert (wt q tr1 = 1) as -> by (apply (weight_0 rows q _ E)). unfold ek. ring.
  Qed.
  Lemma wsum_near al i (N : nat) : (length al <= N)%nat -> (N <= length rows)%nat -> (forall q, (q < N)%nat -> bg 4 (fun a h => kv q a h i - ek q a h i)) ->
    bg 5 (fun a h => h * rsum (length al) (fun q => Q2R (nth q al 0%Q) * kv q a h i) - h * rsum (length al) (fun q => Q2R (nth q al 0%Q) * ek q a h i)).
  Proof.
    intros Hl HN Hk. apply (bigo_ext dom 5 (fun a h => h ^ 1 * rsum (length al) (fun q => Q2R (nth q al 0%Q) * (kv q a h i - ek q a h i)))).
    { intros a h _. rewrite (rsum_ext _ (fun q => Q2R (nth q al 0%Q) * (kv q a h i - ek q a h i)) (fun q => Q2R (nth q al 0%Q) * kv q a h i - Q2R (nth q al 0%Q) * ek q a h i)) by (intros; ring).
      rewrite <- rsum_minus. ring. }
    apply (bigo_shift dom dom_h 1 4). apply bigo_rsum. intros q Hq. apply bigo_scal. apply Hk. lia.
  Qed.
  Lemma stage_offset s c al a h j : rows !! s = Some (c, al) -> dom a h -> (j < m)%nat ->
    offset a (φ a) (a + Q2R c * h) (rk_add (φ a) h al (take s (Ks a h))) j = h * rsum (length al) (fun q => Q2R (nth q al 0%Q) * kv q a h j).
  Proof.
    intros E Hp Hj. destruct (Ks_ok a h) as [Hkl _]. pose proof (Hlen _ _ _ E) as Hal. pose proof (lookup_lt_Some _ _ _ E) as Hs. destruct j as [|j]; cbn [offset].
    - replace (a + Q2R c * h - a) with (h * Q2R c) by ring. rewrite (Hnode _ _ _ E), qdot_rsum by (rewrite stage_weight_length; lia). f_equal. apply rsum_ext. intros q Hq.
      destruct (lookup_lt_is_Some_2 rows q ltac:(lia)) as [r' E']. change tr1 with (tall 0). rewrite (weight_0 rows q _ E'). done.
    - rewrite rk_add_nth by (rewrite (len_sol a (dom_a _ _ Hp)); unfold m in Hj; lia). rewrite rk_sum_rsum by (rewrite take_length; lia).
      assert (forall x y, x + y - x = y) as Hxy by (intros; ring). rewrite Hxy. f_equal. apply rsum_ext. intros q Hq. cbn [kv]. f_equal. f_equal.
      rewrite !nth_lookup. f_equal. rewrite lookup_take by lia. done.
  Qed.
  Lemma stage_small s c al a h j : rows !! s = Some (c, al) -> dom a h -> (j < m)%nat ->
    Rabs (offset a (φ a) (a + Q2R c * h) (rk_add (φ a) h al (take s (Ks a h))) j) <= r.
  Proof.
    intros E Hp Hj. pose proof (dom_a _ _ Hp) as Ha. destruct Hp as (P1 & P2 & P3). pose proof (proj1 (Forall_lookup _ _) Hrows _ _ E) as [[Hc0 Hc1] Has]. cbn in Hc0, Hc1, Has.
    pose proof Gc_big as HG. destruct j as [|j]; cbn [offset].
    - replace (a + Q2R c * h - a) with (Q2R c * h) by ring. rewrite Rabs_pos_eq by nra. eapply Rle_trans; [|exact Hh0r]. assert (Q2R c * h <= 1 * h0) by (apply Rmult_le_compat; lra). nra.
    - rewrite rk_add_nth by (rewrite (len_sol a Ha); unfold m in Hj; lia).
      replace (nth j (φ a) 0 + h * rk_sum al (take s (Ks a h)) j - nth j (φ a) 0) with (h * rk_sum al (take s (Ks a h)) j) by ring.
      destruct (Ks_ok a h) as [Hkl Hks]. set (κ := kap L B A (length rows)). pose proof (kap_pos L B HL HB A HA (length rows)) as Hκ. fold κ in Hκ.
      assert (within 0 (φ a) (φ a)) as Hw0. { apply within_nth. split; [done|]. intros i _. replace (nth i (φ a) 0 - nth i (φ a) 0) with 0 by ring. rewrite Rabs_R0. lra. }
      assert (Gc L B A (length rows) * (0 + h) <= r) as Hsm. { eapply Rle_trans; [|exact Hh0r]. apply Rmult_le_compat_l; lra. }
      pose proof (stages_near F φ t0 T r L B HL HB Hsol Hreg A HA rows Hrows a h (φ a) 0 (Ks a h) P1 ltac:(lra) P3 (Rle_refl 0) Hw0 Hsm Hks Hkl (length rows) (le_n _)) as Hnear. fold κ in Hnear.
      destruct (Hsol a Ha) as (La & Lf & _).
      rewrite Rabs_mult, (Rabs_pos_eq h) by lra.
      assert (Rabs (rk_sum al (take s (Ks a h)) j) <= asum al * (B + κ * (0 + h))) as Hb.
      { apply (rk_sum_bound _ _ _ (nth j (F a (φ a)) 0)).
        - apply Forall_lookup. intros q k Hq. apply lookup_take_Some in Hq as [Hq Hlt]. pose proof (lookup_lt_Some _ _ _ Hq) as Hq'. specialize (Hnear q k ltac:(lia) Hq).
          apply within_nth in Hnear as [N1 N2]. apply N2. rewrite N1. unfold m in Hj. lia.
        - destruct Hreg as [_ Hbb]. apply (forall_nth _ _ (Hbb a Ha)). unfold m in Hj. lia.
        - apply Rmult_le_pos; lra. }
      eapply Rle_trans; [|exact Hh0r]. rewrite (Rmult_comm _ h0). apply Rmult_le_compat; [lra|apply Rabs_pos|lra|]. eapply Rle_trans; [exact Hb|]. unfold Gc. fold κ.
      assert (B + κ * (0 + h) <= B + κ) as Hb2 by nra. assert (0 <= B + κ * (0 + h)) as Hb3 by nra.
      assert (asum al * (B + κ * (0 + h)) <= A * (B + κ)) as Hb4 by (apply Rmult_le_compat; [apply asum_pos|done|done|done]). lra.
  Qed.
  Lemma stage_expands s : (s < length rows)%nat -> forall i, (i < m)%nat -> bg 4 (fun a h => kv s a h i - ek s a h i).
  Proof.
    induction (lt_wf s) as [s _ IH]. intros Hs i Hi. destruct (lookup_lt_is_Some_2 rows s Hs) as [[c al] E]. pose proof (Hlen _ _ _ E) as Hal.
    pose proof (fun τ => Q2R (qdot al (stage_weight rows τ))) as σ0. set (σ := fun τ => Q2R (qdot al (stage_weight rows τ))).
    assert (forall ch, wt s (RNode ch) = fold_right (fun τ x => σ τ * x) 1 ch) as Hw by (intros ch; apply (stage_weight_node rows s c al ch E)).
    set (U1 := fun a j => σ tr1 * base a j). set (U2 := fun a j => σ tr2 * A2 a j). set (U3 := fun a j => σ tr32 * A32 a j + σ tr31 * A31 a j).
    pose proof (fun Ha Hb Hc Hx Hu => fval_expands (fun a h => a + Q2R c * h) (fun a h => rk_add (φ a) h al (take s (Ks a h))) U1 U2 U3 4 ltac:(lia) Ha Hb Hc Hx Hu i Hi) as HE.
    eapply bigo_ext; [|apply HE; clear HE].
    - intros a h Hp. cbn beta. f_equal.
      + destruct i as [|i]; [done|]. cbn [fval kv]. destruct (Ks_ok a h) as [Hkl Hks]. destruct (lookup_lt_is_Some_2 (Ks a h) s ltac:(lia)) as [k Hk].
        rewrite (nth_lookup_Some (Ks a h) s [] k Hk). by rewrite (Hks _ _ _ _ E Hk).
      + unfold ek. assert (Q2R (nth s (stage_weight rows tr2) 0%Q) = σ tr1 * (1)) as -> by (apply (Hw [tr1])).
        assert (Q2R (nth s (stage_weight rows tr32) 0%Q) = σ tr2 * (1)) as -> by (apply (Hw [tr2])).
        assert (Q2R (nth s (stage_weight rows tr31) 0%Q) = σ tr1 * (σ tr1 * (1))) as -> by (apply (Hw [tr1; tr1])).
        assert (Q2R (nth s (stage_weight rows tr44) 0%Q) = σ tr32 * (1)) as -> by (apply (Hw [tr32])).
        assert (Q2R (nth s (stage_weight rows tr43) 0%Q) = σ tr31 * (1)) as -> by (apply (Hw [tr31])).
        assert (Q2R (nth s (stage_weight rows tr42) 0%Q) = σ tr1 * (σ tr2 * (1))) as -> by (apply (Hw [tr1; tr2])).
        assert (Q2R (nth s (stage_weight rows tr41) 0%Q) = σ tr1 * (σ tr1 * (σ tr1 * (1)))) as -> by (apply (Hw [tr1; tr1; tr1])).
        assert (lin1 m (e1 i) a (U1 a) = σ tr1 * A2 a i) as -> by (unfold U1; rewrite lin1_scal; done).
        assert (lin1 m (e1 i) a (U2 a) = σ tr2 * A32 a i) as -> by (unfold U2; rewrite lin1_scal; done).
        assert (lin1 m (e1 i) a (U3 a) = σ tr32 * A44 a i + σ tr31 * A43 a i) as -> by (unfold U3; rewrite lin1_plus, !lin1_scal; done).
        assert (lin2 m (e2 i) a (U1 a) (U1 a) = σ tr1 * σ tr1 * A31 a i) as -> by (unfold U1; rewrite lin2_scal; done).
        assert (lin2 m (e2 i) a (U1 a) (U2 a) + lin2 m (e2 i) a (U2 a) (U1 a) = σ tr1 * σ tr2 * A42 a i) as -> by (unfold U1, U2, A42; rewrite !lin2_scal; ring).
        assert (lin3 m (e3 i) a (U1 a) (U1 a) (U1 a) = σ tr1 ^ 3 * A41 a i) as -> by (unfold U1; rewrite lin3_scal; done).
        ring.
    - intros j Hj. apply bigo_scal. auto.
    - intros j Hj. apply bigo_scal. auto.
    - intros j Hj. apply bigo_plus; apply bigo_scal; auto.
    - intros a h Hp. pose proof (dom_a _ _ Hp) as Ha. pose proof (proj1 (Forall_lookup _ _) Hrows _ _ E) as [[Hc0 Hc1] _]. cbn in Hc0, Hc1.
      split; [unfold dom in Hp; nra|]. split; [rewrite rk_add_length; by apply len_sol|]. intros j Hj. by apply (stage_small s c al).
    - intros j Hj.
      apply (bigo_ext dom 4 (fun a h => (h * rsum (length al) (fun q => Q2R (nth q al 0%Q) * kv q a h j) - h * rsum (length al) (fun q => Q2R (nth q al 0%Q) * ek q a h j)) +
        h ^ 4 * (σ tr44 * A44 a j + σ tr43 * A43 a j + σ tr42 * A42 a j + σ tr41 * A41 a j))).
      { intros a h Hp. rewrite (stage_offset s c al a h j E Hp Hj), wsum by lia. unfold poly3, U1, U2, U3. fold (σ tr1) (σ tr2) (σ tr31) (σ tr32) (σ tr41) (σ tr42) (σ tr43) (σ tr44). ring. }
      apply bigo_plus.
      + apply (bigo_mono dom dom_h 5); [lia|]. apply (wsum_near al j s); [done|lia|]. intros q Hq. apply IH; [done|lia|done].
      + apply (bigo_shift dom dom_h 4 0). repeat apply bigo_plus; apply bigo_scal; auto.
  Qed.

  (** ** One step from a point of the solution *)
  Context (ws : list Q) (Hws : length ws = length rows).
  Notation bw := (fun τ => Q2R (qdot ws (stage_weight rows τ))).
  Context (W1 : bw tr1 = 1) (W2 : bw tr2 = / 2) (W31 : bw tr31 = / 3) (W32 : bw tr32 = / 6) (W41 : bw tr41 = / 4) (W42 : bw tr42 = / 8) (W43 : bw tr43 = / 12) (W44 : bw tr44 = / 24).
  Lemma step_expands i : (i < n)%nat -> bg 5 (fun a h => nth i (rk_add (φ a) h ws (Ks a h)) 0 - nth i (φ (a + h)) 0).
  Proof.
    intros Hi. assert (S i < m)%nat as Hi' by (unfold m; lia).
    apply (bigo_ext dom 5 (fun a h => (h * rsum (length ws) (fun q => Q2R (nth q ws 0%Q) * kv q a h (S i)) - h * rsum (length ws) (fun q => Q2R (nth q ws 0%Q) * ek q a h (S i))) -
      (uso a h (S i) - (h * base a (S i) + h ^ 2 * S2 a (S i) + h ^ 3 * S3 a (S i) + h ^ 4 * S4 a (S i))))).
    - intros a h Hp. destruct (Ks_ok a h) as [Hkl _]. rewrite rk_add_nth by (by rewrite (len_sol a (dom_a _ _ Hp))). rewrite rk_sum_rsum by lia.
      rewrite wsum by lia. rewrite W1, W2, W31, W32, W41, W42, W43, W44. unfold uso. cbn [offset kv]. unfold S2, S3, S4. ring.
    - apply bigo_minus; [|by apply sol_expands]. apply (wsum_near ws (S i) (length rows)); [lia|lia|]. intros q Hq. by apply stage_expands.
  Qed.
  Lemma local_order : exists C, 0 <= C /\ forall a h, dom a h -> within (C * h ^ 5) (rk_add (φ a) h ws (Ks a h)) (φ (a + h)).
  Proof.
    destruct (bigo_bound dom dom_h n 5 (fun a h i => nth i (rk_add (φ a) h ws (Ks a h)) 0 - nth i (φ (a + h)) 0)) as (C & HC & Hb); [intros; by apply step_expands|].
    exists C. split; [done|]. intros a h Hp. pose proof (dom_a _ _ Hp) as Ha. apply within_nth. rewrite rk_add_length, (len_sol a Ha), (len_sol (a + h)) by (unfold dom in Hp; lra).
    split; [done|]. intros i Hi. by apply Hb.
  Qed.
End ord.
