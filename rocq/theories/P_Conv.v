(** Explicit Runge-Kutta methods converge to the solution of a differential equation. *)
From stdpp Require Import prelude.
From Coq Require Import Reals Lra QArith Qreals Psatz.
From Verif Require Import Num NumR Res Sim SpecRK SpecField SpecConv.
Local Open Scope R_scope.

Lemma within_nth e x y : within e x y <-> length x = length y /\ forall i, (i < length x)%nat -> Rabs (nth i x 0 - nth i y 0) <= e.
Proof.
  unfold within. split.
  - intros Hw. split; [by eapply Forall2_length|]. induction Hw as [|a b x y Hab Hw IH]; cbn; intros i Hi; [lia|]. destruct i as [|i]; [done|]. apply IH. lia.
  - revert y. induction x as [|a x IH]; intros [|b y] [Hl Hi]; cbn in Hl; try lia; constructor.
    + apply (Hi 0%nat). cbn. lia.
    + apply IH. split; [lia|]. intros i Hlt. apply (Hi (S i)). cbn. lia.
Qed.
Lemma forall_nth (P : R -> Prop) x : Forall P x -> forall i, (i < length x)%nat -> P (nth i x 0).
Proof. induction 1 as [|a x Ha Hx IH]; cbn; intros i Hi; [lia|]. destruct i; [done|]. apply IH. lia. Qed.
Lemma rk_add_length v h a ks : length (rk_add v h a ks) = length v.
Proof. unfold rk_add. by rewrite map_length, seq_length. Qed.
Lemma rk_add_nth v h a ks i : (i < length v)%nat -> nth i (rk_add v h a ks) 0 = nth i v 0 + h * rk_sum a ks i.
Proof.
  intros Hi. unfold rk_add. rewrite (nth_indep _ 0 (nth 0 v 0 + h * rk_sum a ks 0)) by (by rewrite map_length, seq_length).
  rewrite (map_nth (fun i => nth i v 0 + h * rk_sum a ks i) (seq 0 (length v)) 0%nat i). by rewrite seq_nth.
Qed.

Definition asum (a : list Q) : R := fold_right (fun x r => Rabs (Q2R x) + r) 0 a.
Definition qsum (a : list Q) : R := fold_right (fun x r => Q2R x + r) 0 a.
Lemma asum_pos a : 0 <= asum a.
Proof. induction a as [|x a IH]; cbn; [lra|]. pose proof (Rabs_pos (Q2R x)). fold (asum a). lra. Qed.
Lemma rk_sum_bound a ks i f0 d B : Forall (fun k => Rabs (nth i k 0 - f0) <= d) ks -> Rabs f0 <= B -> 0 <= d -> Rabs (rk_sum a ks i) <= asum a * (B + d).
Proof.
  intros Hk HB Hd. pose proof (Rabs_pos f0) as H0. revert ks Hk. induction a as [|x a IH]; intros ks Hk; cbn [rk_sum asum fold_right].
  - rewrite Rabs_R0. lra.
  - destruct ks as [|k ks]; [rewrite Rabs_R0; pose proof (asum_pos (x :: a)) as Hp; cbn in Hp; apply Rmult_le_pos; [exact Hp|lra]|].
    inversion Hk as [|? ? H1 H2]; subst. specialize (IH ks H2). eapply Rle_trans; [apply Rabs_triang|]. rewrite Rabs_mult. fold (asum a).
    rewrite Rmult_plus_distr_r. apply Rplus_le_compat; [|exact IH]. apply Rmult_le_compat_l; [apply Rabs_pos|].
    replace (nth i k 0) with (f0 + (nth i k 0 - f0)) by lra. eapply Rle_trans; [apply Rabs_triang|]. lra.
Qed.
Lemma rk_sum_near a ks i f0 d : Forall (fun k => Rabs (nth i k 0 - f0) <= d) ks -> length ks = length a -> Rabs (rk_sum a ks i - qsum a * f0) <= asum a * d.
Proof.
  intros Hk. revert ks Hk. induction a as [|x a IH]; intros ks Hk Hl; cbn [rk_sum asum qsum fold_right].
  - replace (0 - 0 * f0) with 0 by lra. rewrite Rabs_R0. lra.
  - destruct ks as [|k ks]; [done|]. inversion Hk as [|? ? H1 H2]; subst. specialize (IH ks H2 ltac:(cbn in Hl; lia)). fold (asum a). fold (qsum a).
    replace (Q2R x * nth i k 0 + rk_sum a ks i - (Q2R x + qsum a) * f0) with (Q2R x * (nth i k 0 - f0) + (rk_sum a ks i - qsum a * f0)) by lra.
    eapply Rle_trans; [apply Rabs_triang|]. rewrite Rabs_mult, Rmult_plus_distr_r. apply Rplus_le_compat; [|exact IH]. apply Rmult_le_compat_l; [apply Rabs_pos|done].
Qed.

Section conv.
  Context (F : R -> list R -> list R) (φ : R -> list R) (t0 T r L B : R).
  Context (HL : 0 <= L) (HB : 0 <= B) (Hsol : solves F φ t0 T) (Hreg : regular F φ t0 T r L B).
  Context (A : R) (HA : 0 <= A).

  Fixpoint kap (n : nat) : R := match n with O => 0 | S n => L * (2 + A * (B + kap n)) end.
  Lemma kap_step n : 0 <= kap n <= kap (S n).
  Proof.
    induction n as [|n [IH1 IH2]]; cbn [kap].
    - split; [lra|]. apply Rmult_le_pos; [done|]. assert (0 <= A * (B + 0)) by (apply Rmult_le_pos; lra). lra.
    - split; [cbn [kap] in IH2; lra|]. apply Rmult_le_compat_l; [done|]. apply Rplus_le_compat_l. apply Rmult_le_compat_l; [done|]. cbn [kap] in IH2. lra.
  Qed.
  Lemma kap_pos n : 0 <= kap n. Proof. apply (kap_step n). Qed.
  Lemma kap_mono n m : (n <= m)%nat -> kap n <= kap m.
  Proof. induction 1 as [|m Hm IH]; [lra|]. pose proof (kap_step m). lra. Qed.
  Definition Gc (n : nat) : R := 1 + B + A * (B + kap n).
  Lemma Gc_one n : 1 <= Gc n.
  Proof. unfold Gc. assert (0 <= A * (B + kap n)) by (apply Rmult_le_pos; [done|pose proof (kap_pos n); lra]). lra. Qed.

  (** The solution changes by at most [B] times the time. *)
  Lemma sol_speed ta tc : t0 <= ta -> ta <= tc <= T -> within (B * (tc - ta)) (φ tc) (φ ta).
  Proof.
    intros Ha Hc. destruct (Hsol ta) as (La & _); [lra|]. destruct (Hsol tc) as (Lc & _); [lra|]. apply within_nth. split; [lia|]. intros i Hi. rewrite Lc in Hi.
    destruct (Req_dec ta tc) as [->|Hne]; [replace (nth i (φ tc) 0 - nth i (φ tc) 0) with 0 by lra; rewrite Rabs_R0; lra|].
    destruct (MVT_cor2 (fun τ => nth i (φ τ) 0) (fun τ => nth i (F τ (φ τ)) 0) ta tc) as (c & E & Hcc); [lra| |].
    { intros c Hcc. destruct (Hsol c) as (_ & _ & Hd); [lra|]. by apply Hd. }
    rewrite E, Rabs_mult. rewrite (Rabs_pos_eq (tc - ta)) by lra. apply Rmult_le_compat_r; [lra|].
    destruct (Hsol c) as (Lc' & Lf & _); [lra|]. destruct Hreg as [_ Hb]. apply (forall_nth _ _ (Hb c ltac:(lra))). lia.
  Qed.
  (** ... and differs from its tangent by a term of second order. *)
  Lemma sol_tangent ta tc i : t0 <= ta -> ta < tc <= T -> (1 + B) * (tc - ta) <= r -> (i < length (φ t0))%nat ->
    Rabs (nth i (φ tc) 0 - nth i (φ ta) 0 - (tc - ta) * nth i (F ta (φ ta)) 0) <= L * (B + 1) * (tc - ta) * (tc - ta).
  Proof.
    intros Ha Hc Hr Hi.
    destruct (MVT_cor2 (fun τ => nth i (φ τ) 0) (fun τ => nth i (F τ (φ τ)) 0) ta tc) as (c & E & Hcc); [lra| |].
    { intros c Hcc. destruct (Hsol c) as (_ & _ & Hd); [lra|]. by apply Hd. }
    rewrite E. replace (nth i (F c (φ c)) 0 * (tc - ta) - (tc - ta) * nth i (F ta (φ ta)) 0) with ((nth i (F c (φ c)) 0 - nth i (F ta (φ ta)) 0) * (tc - ta)) by lra.
    rewrite Rabs_mult, (Rabs_pos_eq (tc - ta)) by lra. apply Rmult_le_compat_r; [lra|].
    assert (B * (c - ta) <= B * (tc - ta)) as Hb1 by (apply Rmult_le_compat_l; lra).
    destruct Hreg as [Hlip _]. pose proof (Hlip ta c (φ c) (B * (c - ta)) ltac:(lra) ltac:(lra)) as Hw.
    rewrite (Rabs_pos_eq (c - ta)) in Hw by lra. assert (0 <= B * (tc - ta)) as Hb0 by (apply Rmult_le_pos; lra).
    specialize (Hw ltac:(lra) ltac:(lra) ltac:(apply sol_speed; lra)). apply within_nth in Hw as [_ Hw].
    destruct (Hsol c) as (Lc & Lf & _); [lra|]. eapply Rle_trans; [apply Hw; lia|]. rewrite Rmult_assoc. apply Rmult_le_compat_l; [done|]. lra.
  Qed.

  Context (rows : list (Q * list Q)) (Hrows : Forall (fun c => 0 <= Q2R c.1 <= 1 /\ asum c.2 <= A) rows).

  (** The derivatives of the stages are close to the derivative at the start. *)
  Lemma stages_near ta h x e ks : t0 <= ta -> 0 <= h <= 1 -> ta + h <= T -> 0 <= e -> within e x (φ ta) ->
    Gc (length rows) * (e + h) <= r ->
    (forall i c a k, rows !! i = Some (c, a) -> ks !! i = Some k -> k = F (ta + Q2R c * h) (rk_add x h a (take i ks))) ->
    length ks = length rows ->
    forall m, (m <= length rows)%nat -> forall i k, (i < m)%nat -> ks !! i = Some k -> within (kap m * (e + h)) k (F ta (φ ta)).
  Proof.
    intros Ha Hh HT He Hx Hr Hk Hl. destruct (Hsol ta) as (La & Lf & _); [lra|].
    induction m as [|m IH]; intros Hm i k Hi Hki; [lia|]. specialize (IH ltac:(lia)).
    destruct (decide (i = m)) as [->|Hne].
    2: { specialize (IH i k ltac:(lia) Hki). apply within_nth in IH as [I1 I2]. apply within_nth. split; [done|]. intros j Hj. specialize (I2 j Hj).
         eapply Rle_trans; [exact I2|]. apply Rmult_le_compat_r; [lra|]. apply kap_step. }
    destruct (lookup_lt_is_Some_2 rows m ltac:(lia)) as [[c a] Hrow]. rewrite (Hk _ _ _ _ Hrow Hki).
    pose proof (proj1 (Forall_lookup _ _) Hrows _ _ Hrow) as [[Hc0 Hc1] Has]. cbn in Hc0, Hc1, Has.
    pose proof (proj1 (within_nth _ _ _) Hx) as [Lx Hxi].
    set (e2 := e + h * (A * (B + kap m * (e + h)))).
    assert (0 <= kap m * (e + h)) as Hp0 by (apply Rmult_le_pos; [apply kap_pos|lra]).
    assert (within e2 (rk_add x h a (take m ks)) (φ ta)) as Hw.
    { apply within_nth. rewrite rk_add_length. split; [done|]. intros j Hj. rewrite rk_add_nth by done. specialize (Hxi j Hj).
      replace (nth j x 0 + h * rk_sum a (take m ks) j - nth j (φ ta) 0) with ((nth j x 0 - nth j (φ ta) 0) + h * rk_sum a (take m ks) j) by lra.
      eapply Rle_trans; [apply Rabs_triang|]. apply Rplus_le_compat; [done|]. rewrite Rabs_mult, (Rabs_pos_eq h) by lra. apply Rmult_le_compat_l; [lra|].
      eapply Rle_trans; [apply (rk_sum_bound a (take m ks) j (nth j (F ta (φ ta)) 0) (kap m * (e + h)) B)|].
      - apply Forall_lookup. intros p q Hp. apply lookup_take_Some in Hp as [Hp Hlt]. specialize (IH p q Hlt Hp). apply within_nth in IH as [I1 I2]. apply I2. lia.
      - destruct Hreg as [_ Hb]. apply (forall_nth _ _ (Hb ta ltac:(lra))). lia.
      - done.
      - apply Rmult_le_compat_r; [lra|done]. }
    assert (e2 <= (1 + A * (B + kap m)) * (e + h) - h) as He2.
    { unfold e2. assert (h * (A * (B + kap m * (e + h))) <= A * (B + kap m) * (e + h)); [|nra].
      assert (h * (B + kap m * (e + h)) <= (B + kap m) * (e + h)); [|nra].
      assert (h * B <= B * (e + h)) by nra. assert (h * (kap m * (e + h)) <= kap m * (e + h)) by nra. lra. }
    assert (A * (B + kap m) <= A * (B + kap (length rows))) as Hg1. { apply Rmult_le_compat_l; [done|]. pose proof (kap_mono m (length rows) ltac:(lia)). lra. }
    assert ((1 + A * (B + kap m)) * (e + h) <= Gc (length rows) * (e + h)) as Hg2. { apply Rmult_le_compat_r; [lra|]. unfold Gc. lra. }
    assert (h <= Gc (length rows) * (e + h)) as Hg3. { pose proof (Gc_one (length rows)). nra. }
    assert (0 <= Q2R c * h <= h) as Hch by nra.
    destruct Hreg as [Hlip _]. pose proof (Hlip ta (ta + Q2R c * h) (rk_add x h a (take m ks)) e2 ltac:(lra) ltac:(lra)) as Hw2.
    replace (ta + Q2R c * h - ta) with (Q2R c * h) in Hw2 by lra. rewrite (Rabs_pos_eq (Q2R c * h)) in Hw2 by lra.
    specialize (Hw2 ltac:(lra) ltac:(lra) Hw). apply within_nth in Hw2 as [W1 W2]. apply within_nth. split; [done|]. intros j Hj. eapply Rle_trans; [by apply W2|].
    cbn [kap]. rewrite Rmult_assoc. apply Rmult_le_compat_l; [done|]. nra.
  Qed.

  Context (ws : list Q) (Hws : length ws = length rows) (Hone : qsum ws = 1).
  Definition Lam : R := asum ws * kap (length rows) + L * (B + 1).
  Lemma Lam_pos : 0 <= Lam.
  Proof. unfold Lam. pose proof (asum_pos ws). pose proof (kap_pos (length rows)). assert (0 <= asum ws * kap (length rows)) by (by apply Rmult_le_pos). assert (0 <= L * (B + 1)) by (apply Rmult_le_pos; lra). lra. Qed.

  (** The error after a step. *)
  Lemma step_error ta tc x e y : t0 <= ta -> ta < tc <= T -> tc - ta <= 1 -> 0 <= e -> within e x (φ ta) ->
    Gc (length rows) * (e + (tc - ta)) <= r ->
    rk_solution (Tableau rows ws) (fun τ v k => k = F τ v) ta x tc y -> within (e + Lam * (tc - ta) * (e + (tc - ta))) y (φ tc).
  Proof.
    intros Ha Hc H1 He Hx Hr (ks & Hl & Hk & ->). cbn [tb_rows tb_weights] in *. set (h := tc - ta) in *.
    assert (0 < h) as Hh by (unfold h; lra). assert (ta + h <= T) as HT by (unfold h; lra).
    pose proof (stages_near ta h x e ks Ha ltac:(lra) HT He Hx Hr Hk Hl (length rows) (le_n _)) as Hn.
    pose proof (proj1 (within_nth _ _ _) Hx) as [Lx Hxi]. destruct (Hsol ta) as (La & Lf & _); [lra|]. destruct (Hsol tc) as (Lc & _); [lra|].
    apply within_nth. rewrite rk_add_length. split; [lia|]. intros j Hj. rewrite rk_add_nth by done. specialize (Hxi j Hj).
    set (f0 := nth j (F ta (φ ta)) 0).
    assert (Rabs (rk_sum ws ks j - 1 * f0) <= asum ws * (kap (length rows) * (e + h))) as Hs.
    { rewrite <- Hone. apply rk_sum_near; [|lia]. apply Forall_lookup. intros p q Hp. assert (p < length rows)%nat as Hlt by (apply lookup_lt_Some in Hp; lia).
      specialize (Hn p q Hlt Hp). apply within_nth in Hn as [N1 N2]. apply N2. lia. }
    assert ((1 + B) * (tc - ta) <= r) as Hbr.
    { fold h. eapply Rle_trans; [|exact Hr]. unfold Gc. assert (0 <= A * (B + kap (length rows))) by (apply Rmult_le_pos; [done|pose proof (kap_pos (length rows)); lra]). nra. }
    pose proof (sol_tangent ta tc j Ha ltac:(lra) Hbr ltac:(lia)) as Ht. fold h in Ht. fold f0 in Ht.
    replace (nth j x 0 + h * rk_sum ws ks j - nth j (φ tc) 0) with
      ((nth j x 0 - nth j (φ ta) 0) + h * (rk_sum ws ks j - 1 * f0) + - (nth j (φ tc) 0 - nth j (φ ta) 0 - h * f0)) by lra.
    eapply Rle_trans; [apply Rabs_triang|]. eapply Rle_trans; [apply Rplus_le_compat_r; apply Rabs_triang|]. rewrite Rabs_Ropp, Rabs_mult, (Rabs_pos_eq h) by lra.
    unfold Lam. assert (0 <= L * (B + 1)) as Hq by (apply Rmult_le_pos; lra).
    assert (h * Rabs (rk_sum ws ks j - 1 * f0) <= h * (asum ws * (kap (length rows) * (e + h)))) as Hs2 by (apply Rmult_le_compat_l; lra).
    assert (L * (B + 1) * h * h <= L * (B + 1) * h * (e + h)) as Hq2 by (apply Rmult_le_compat_l; [apply Rmult_le_pos|]; lra).
    lra.
  Qed.
  (** Errors in terms of [e + H]. *)
  Lemma step_growth ta tc x e y H : t0 <= ta -> ta < tc <= T -> tc - ta <= H -> H <= 1 -> 0 <= e -> within e x (φ ta) ->
    Gc (length rows) * (e + H) <= r ->
    rk_solution (Tableau rows ws) (fun τ v k => k = F τ v) ta x tc y ->
    exists e', 0 <= e' /\ e' + H <= exp (Lam * (tc - ta)) * (e + H) /\ within e' y (φ tc).
  Proof.
    intros Ha Hc HH H1 He Hx Hr Hs. pose proof (Gc_one (length rows)) as HG. pose proof Lam_pos as HLp.
    exists (e + Lam * (tc - ta) * (e + (tc - ta))). set (h := tc - ta) in *.
    assert (0 <= Lam * h) as Hlh by (apply Rmult_le_pos; unfold h; lra).
    assert (Lam * h * (e + h) <= Lam * h * (e + H)) as Hm by (apply Rmult_le_compat_l; lra).
    split. { assert (0 <= Lam * h * (e + h)); [|lra]. apply Rmult_le_pos; [done|unfold h; lra]. }
    split; [|eapply step_error; [exact Ha|exact Hc|fold h; lra|exact He|exact Hx| |exact Hs]].
    - assert (1 + Lam * h <= exp (Lam * h)) as Hexp.
      { destruct (Req_dec (Lam * h) 0) as [->|Hne]; [rewrite exp_0; lra|]. left. apply exp_ineq1. exact Hne. }
      assert (0 < h) as Hhp by (unfold h; lra). assert ((1 + Lam * h) * (e + H) <= exp (Lam * h) * (e + H)) by (apply Rmult_le_compat_r; lra). lra.
    - fold h. eapply Rle_trans; [|exact Hr]. apply Rmult_le_compat_l; lra.
  Qed.

  (** Along a path of steps. *)
  Lemma chain_growth H ms : 0 <= H <= 1 -> forall ta x e te xe, t0 <= ta -> te <= T -> chained ta x ms te xe ->
    Forall (fun a => mv_from a < mv_to a /\ mv_to a <= te /\ mv_to a - mv_from a <= H /\
      rk_solution (Tableau rows ws) (fun τ v k => k = F τ v) (mv_from a) (mv_state a) (mv_to a) (mv_result a)) ms ->
    0 <= e -> within e x (φ ta) -> Gc (length rows) * (exp (Lam * (te - ta)) * (e + H)) <= r ->
    exists e', 0 <= e' /\ e' + H <= exp (Lam * (te - ta)) * (e + H) /\ within e' xe (φ te).
  Proof.
    intros HH. induction ms as [|a ms IH]; intros ta x e te xe Ha HT Hc Hf He Hx Hr; cbn [chained] in Hc.
    - destruct Hc as [-> ->]. exists e. split; [done|]. split; [|done]. replace (Lam * (ta - ta)) with 0 by lra. rewrite exp_0. lra.
    - destruct Hc as (Efr & Est & Hc). inversion Hf as [|? ? (F1 & F2 & F3 & F4) Hf']; subst. destruct (mv_ok a); [|by eapply IH].
      pose proof Lam_pos as HLp. pose proof (Gc_one (length rows)) as HG.
      assert (1 <= exp (Lam * (te - mv_from a))) as He1.
      { assert (0 <= Lam * (te - mv_from a)) as Hq by (apply Rmult_le_pos; lra). destruct (Req_dec (Lam * (te - mv_from a)) 0) as [->|Hne]; [rewrite exp_0; lra|].
        pose proof (exp_ineq1 _ Hne). lra. }
      assert (Gc (length rows) * (e + H) <= r) as Hr1.
      { eapply Rle_trans; [|exact Hr]. apply Rmult_le_compat_l; [lra|]. assert (1 * (e + H) <= exp (Lam * (te - mv_from a)) * (e + H)) by (apply Rmult_le_compat_r; lra). lra. }
      destruct (step_growth (mv_from a) (mv_to a) (mv_state a) e (mv_result a) H) as (e1 & E0 & E1 & E2); [done|lra|lra|lra|done|done|done|done|].
      assert (exp (Lam * (te - mv_to a)) * (e1 + H) <= exp (Lam * (te - mv_from a)) * (e + H)) as Eg.
      { replace (Lam * (te - mv_from a)) with (Lam * (te - mv_to a) + Lam * (mv_to a - mv_from a)) by lra. rewrite exp_plus, Rmult_assoc.
        apply Rmult_le_compat_l; [left; apply exp_pos|done]. }
      destruct (IH (mv_to a) (mv_result a) e1 te xe) as (e' & K1 & K2 & K3); [lra|done|done|done|done|done| |].
      { eapply Rle_trans; [|exact Hr]. apply Rmult_le_compat_l; lra. }
      exists e'. split; [done|]. split; [|done]. lra.
  Qed.
End conv.
