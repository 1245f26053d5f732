(** Accumulation of the errors of steps when the function is Lipschitz continuous. *)
From stdpp Require Import prelude.
From Coq Require Import Reals Lra QArith Qreals Psatz.
From Verif Require Import Num NumR Res Sim SpecRK P_RK SpecField P_Path SpecConv P_Conv SpecLin P_Lin SpecOrd.
Local Open Scope R_scope.

Lemma rk_sum_diff a : forall ks ks0 j δ, 0 <= δ -> Forall2 (fun k k0 => Rabs (nth j k 0 - nth j k0 0) <= δ) ks ks0 -> Rabs (rk_sum a ks j - rk_sum a ks0 j) <= asum a * δ.
Proof.
  induction a as [|q a IH]; intros ks ks0 j δ Hδ Hf.
  - cbn. rewrite Rminus_diag_eq by done. rewrite Rabs_R0. lra.
  - inversion Hf as [|k k0 ks1 ks2 Hk Hf1]; subst; cbn [rk_sum asum fold_right].
    + rewrite Rminus_diag_eq by done. rewrite Rabs_R0. fold (asum a). pose proof (asum_pos a). pose proof (Rabs_pos (Q2R q)). nra.
    + fold (asum a). replace (Q2R q * nth j k 0 + rk_sum a ks1 j - (Q2R q * nth j k0 0 + rk_sum a ks2 j)) with (Q2R q * (nth j k 0 - nth j k0 0) + (rk_sum a ks1 j - rk_sum a ks2 j)) by ring.
      eapply Rle_trans; [apply Rabs_triang|]. rewrite Rabs_mult. specialize (IH _ _ _ _ Hδ Hf1). pose proof (Rabs_pos (Q2R q)). nra.
Qed.

Section acc.
  Context (F : R -> list R -> list R) (φ : R -> list R) (t0 T r L B : R).
  Context (HL : 0 <= L) (HB : 0 <= B) (Hsol : solves F φ t0 T) (Hreg : regular F φ t0 T r L B) (Hlip : lipschitz F φ t0 T r L).
  Context (A : R) (HA : 0 <= A) (rows : list (Q * list Q)) (Hrows : Forall (fun c => 0 <= Q2R c.1 <= 1 /\ asum c.2 <= A) rows).
  Notation G := (Gc L B A (length rows)).
  Definition follows (ta h : R) (x : list R) (ks : list (list R)) : Prop :=
    length ks = length rows /\ forall i c a k, rows !! i = Some (c, a) -> ks !! i = Some k -> k = F (ta + Q2R c * h) (rk_add x h a (take i ks)).

  (** The points of the stages are close to the solution. *)
  Lemma stage_point ta h x e ks i c a : t0 <= ta -> 0 <= h <= 1 -> ta + h <= T -> 0 <= e -> within e x (φ ta) -> G * (e + h) <= r -> follows ta h x ks ->
    rows !! i = Some (c, a) -> within r (rk_add x h a (take i ks)) (φ ta) /\ Rabs (ta + Q2R c * h - ta) <= r /\ t0 <= ta + Q2R c * h <= T.
  Proof.
    intros Ha Hh HT He Hx Hr [Hl Hk] E. pose proof (proj1 (Forall_lookup _ _) Hrows _ _ E) as [[Hc0 Hc1] Has]. cbn in Hc0, Hc1, Has.
    set (κ := kap L B A (length rows)). pose proof (kap_pos L B HL HB A HA (length rows)) as Hκ. fold κ in Hκ.
    pose proof (stages_near F φ t0 T r L B HL HB Hsol Hreg A HA rows Hrows ta h x e ks Ha Hh HT He Hx Hr Hk Hl (length rows) (le_n _)) as Hn. fold κ in Hn.
    pose proof (Gc_one L B HL HB A HA (length rows)) as HG. destruct (Hsol ta) as (La & Lf & _); [lra|]. pose proof (proj1 (within_nth _ _ _) Hx) as [Lx Hxi].
    assert (0 <= Q2R c * h <= h) as Hch by nra.
    split; [|split; [replace (ta + Q2R c * h - ta) with (Q2R c * h) by ring; rewrite Rabs_pos_eq by lra; nra|lra]].
    apply within_nth. rewrite rk_add_length. split; [done|]. intros j Hj. rewrite rk_add_nth by done. specialize (Hxi j Hj).
    replace (nth j x 0 + h * rk_sum a (take i ks) j - nth j (φ ta) 0) with ((nth j x 0 - nth j (φ ta) 0) + h * rk_sum a (take i ks) j) by ring.
    eapply Rle_trans; [apply Rabs_triang|]. rewrite Rabs_mult, (Rabs_pos_eq h) by lra.
    assert (0 <= κ * (e + h)) as Hp0 by (apply Rmult_le_pos; lra).
    assert (Rabs (rk_sum a (take i ks) j) <= asum a * (B + κ * (e + h))) as Hb.
    { apply (rk_sum_bound _ _ _ (nth j (F ta (φ ta)) 0)); [| |done].
      - apply Forall_lookup. intros q k Hq. apply lookup_take_Some in Hq as [Hq Hlt]. pose proof (lookup_lt_Some _ _ _ Hq) as Hq'. specialize (Hn q k ltac:(lia) Hq).
        apply within_nth in Hn as [N1 N2]. apply N2. lia.
      - destruct Hreg as [_ Hbb]. apply (forall_nth _ _ (Hbb ta ltac:(lra))). lia. }
    assert (h * Rabs (rk_sum a (take i ks) j) <= h * (A * (B + κ * (e + h)))) as Hb2.
    { apply Rmult_le_compat_l; [lra|]. eapply Rle_trans; [exact Hb|]. apply Rmult_le_compat_r; [lra|exact Has]. }
    eapply Rle_trans; [|exact Hr]. unfold Gc. fold κ.
    assert (h * B <= B * (e + h)) by nra. assert (h * (κ * (e + h)) <= κ * (e + h)) by nra.
    assert (h * (B + κ * (e + h)) <= (B + κ) * (e + h)) as Hq by lra. apply (Rmult_le_compat_l A) in Hq; [|done].
    assert (0 <= B * (e + h)) by (apply Rmult_le_pos; lra). nra.
  Qed.

  Fixpoint rho (n : nat) : R := match n with O => 0 | S n => L * (1 + A * rho n) end.
  Lemma rho_step n : 0 <= rho n <= rho (S n).
  Proof.
    induction n as [|n [IH1 IH2]]; cbn [rho] in *.
    - split; [lra|]. apply Rmult_le_pos; lra.
    - split; [lra|]. apply Rmult_le_compat_l; [done|]. apply Rplus_le_compat_l. apply Rmult_le_compat_l; [done|]. lra.
  Qed.
  Lemma rk_add_diff h x y a ks ks0 e δ : 0 <= h -> 0 <= δ -> within e x y -> Forall2 (within δ) ks ks0 -> Forall (fun k => length k = length x) ks ->
    within (e + h * (asum a * δ)) (rk_add x h a ks) (rk_add y h a ks0).
  Proof.
    intros Hh Hδ Hx Hf Hl. apply within_nth in Hx as [Lx Hxi]. apply within_nth. rewrite !rk_add_length. split; [done|]. intros j Hj. rewrite !rk_add_nth by lia. specialize (Hxi j Hj).
    replace (nth j x 0 + h * rk_sum a ks j - (nth j y 0 + h * rk_sum a ks0 j)) with ((nth j x 0 - nth j y 0) + h * (rk_sum a ks j - rk_sum a ks0 j)) by ring.
    eapply Rle_trans; [apply Rabs_triang|]. rewrite Rabs_mult, (Rabs_pos_eq h) by done. apply Rplus_le_compat; [done|]. apply Rmult_le_compat_l; [done|]. apply rk_sum_diff; [done|].
    apply Forall2_same_length_lookup. split; [by eapply Forall2_length|]. intros i k k0 E1 E2. pose proof (Forall2_lookup_lr _ _ _ _ _ _ Hf E1 E2) as W. apply within_nth in W as [W1 W2].
    apply W2. rewrite Forall_lookup in Hl. rewrite (Hl _ _ E1). done.
  Qed.
  Lemma stages_diff ta h x e ks ks0 : t0 <= ta -> 0 <= h <= 1 -> ta + h <= T -> 0 <= e -> within e x (φ ta) -> G * (e + h) <= r -> follows ta h x ks -> follows ta h (φ ta) ks0 ->
    forall m, (m <= length rows)%nat -> forall i k k0, (i < m)%nat -> ks !! i = Some k -> ks0 !! i = Some k0 -> within (rho m * e) k k0.
  Proof.
    intros Ha Hh HT He Hx Hr Hf Hf0. pose proof (Gc_one L B HL HB A HA (length rows)) as HG.
    assert (within 0 (φ ta) (φ ta)) as Hw0. { apply within_nth. split; [done|]. intros i _. rewrite Rminus_diag_eq by done. rewrite Rabs_R0. lra. }
    assert (G * (0 + h) <= r) as Hr0. { eapply Rle_trans; [|exact Hr]. apply Rmult_le_compat_l; lra. }
    pose proof Hf as [Hl Hk]. pose proof Hf0 as [Hl0 Hk0]. destruct (Hsol ta) as (La & Lf & _); [lra|]. pose proof (proj1 (within_nth _ _ _) Hx) as [Lx Hxi].
    pose proof (stages_near F φ t0 T r L B HL HB Hsol Hreg A HA rows Hrows ta h x e ks Ha Hh HT He Hx Hr Hk Hl (length rows) (le_n _)) as Hn.
    induction m as [|m IH]; intros Hm i k k0 Hi Hki Hk0i; [lia|]. specialize (IH ltac:(lia)).
    destruct (decide (i = m)) as [->|Hne].
    2: { specialize (IH i k k0 ltac:(lia) Hki Hk0i). apply within_nth in IH as [I1 I2]. apply within_nth. split; [done|]. intros j Hj. specialize (I2 j Hj).
         eapply Rle_trans; [exact I2|]. apply Rmult_le_compat_r; [lra|]. apply rho_step. }
    destruct (lookup_lt_is_Some_2 rows m ltac:(lia)) as [[c a] Hrow]. rewrite (Hk _ _ _ _ Hrow Hki), (Hk0 _ _ _ _ Hrow Hk0i).
    destruct (stage_point ta h x e ks m c a Ha Hh HT He Hx Hr Hf Hrow) as (P1 & P2 & P3).
    destruct (stage_point ta h (φ ta) 0 ks0 m c a Ha Hh HT (Rle_refl 0) Hw0 Hr0 Hf0 Hrow) as (P4 & _).
    pose proof (proj1 (Forall_lookup _ _) Hrows _ _ Hrow) as [[Hc0 Hc1] Has]. cbn in Hc0, Hc1, Has. pose proof (rho_step m) as [Hρ _].
    assert (within (e + h * (asum a * (rho m * e))) (rk_add x h a (take m ks)) (rk_add (φ ta) h a (take m ks0))) as Hd.
    { apply rk_add_diff; [lra|by apply Rmult_le_pos|done| |].
      - apply Forall2_same_length_lookup. split; [rewrite !take_length; lia|]. intros q k1 k2 E1 E2. apply lookup_take_Some in E1 as [E1 Hlt]. apply lookup_take_Some in E2 as [E2 _].
        by apply (IH q).
      - apply Forall_lookup. intros q k1 E1. apply lookup_take_Some in E1 as [E1 Hlt]. specialize (Hn q k1 ltac:(lia) E1). apply within_nth in Hn as [N1 _]. lia. }
    pose proof (Hlip ta (ta + Q2R c * h) _ _ _ ltac:(lra) P3 P2 P1 P4 Hd) as W. apply within_nth in W as [W1 W2]. apply within_nth. split; [done|]. intros j Hj.
    eapply Rle_trans; [by apply W2|]. cbn [rho]. rewrite Rmult_assoc. apply Rmult_le_compat_l; [done|].
    assert (0 <= rho m * e) as Hρe by (by apply Rmult_le_pos). pose proof (asum_pos a) as Hap.
    assert (asum a * (rho m * e) <= A * (rho m * e)) as Hs1 by (by apply Rmult_le_compat_r).
    assert (0 <= asum a * (rho m * e)) as Hs0 by (by apply Rmult_le_pos).
    assert (h * (asum a * (rho m * e)) <= 1 * (A * (rho m * e))) as Hs2 by (apply Rmult_le_compat; lra). lra.
  Qed.

  Context (ws : list Q) (p : nat) (C h0 : R) (HC : 0 <= C) (Hh0 : h0 <= 1).
  Context (Hloc : forall a h, t0 <= a -> 0 <= h <= h0 -> a + h <= T -> exists ks, follows a h (φ a) ks /\ within (C * h ^ S p) (rk_add (φ a) h ws ks) (φ (a + h))).
  Definition Lmb : R := asum ws * rho (length rows) + 1.
  Lemma Lmb_one : 1 <= Lmb.
  Proof. unfold Lmb. pose proof (asum_pos ws). pose proof (rho_step (length rows)) as [Hρ _]. assert (0 <= asum ws * rho (length rows)) by (by apply Rmult_le_pos). lra. Qed.

  Lemma acc_growth ta tc x e y H : t0 <= ta -> ta < tc <= T -> tc - ta <= H -> H <= h0 -> 0 <= e -> within e x (φ ta) -> G * (e + H) <= r ->
    rk_solution (Tableau rows ws) (fun τ v k => k = F τ v) ta x tc y ->
    exists e', 0 <= e' /\ e' + C * H ^ p <= exp (Lmb * (tc - ta)) * (e + C * H ^ p) /\ within e' y (φ tc).
  Proof.
    intros Ha Hc HH H1 He Hx Hr (ks & Hl & Hk & ->). cbn [tb_rows tb_weights] in *. set (h := tc - ta) in *. assert (0 < h) as Hh by (unfold h; lra).
    pose proof (Gc_one L B HL HB A HA (length rows)) as HG.
    destruct (Hloc ta h Ha ltac:(lra) ltac:(unfold h; lra)) as (ks0 & Hf0 & Hw0). replace (ta + h) with tc in Hw0 by (unfold h; lra).
    assert (G * (e + h) <= r) as Hr'. { eapply Rle_trans; [|exact Hr]. apply Rmult_le_compat_l; lra. }
    assert (ta + h <= T) as HT' by (unfold h; lra). assert (follows ta h x ks) as Hf by done. assert (0 <= h <= 1) as Hh1 by lra.
    pose proof (stages_diff ta h x e ks ks0 Ha Hh1 HT' He Hx Hr' Hf Hf0 (length rows) (le_n _)) as Hdiff.
    pose proof (stages_near F φ t0 T r L B HL HB Hsol Hreg A HA rows Hrows ta h x e ks Ha Hh1 HT' He Hx Hr' Hk Hl (length rows) (le_n _)) as Hn.
    destruct (Hsol ta) as (La & Lf & _); [lra|]. pose proof (proj1 (within_nth _ _ _) Hx) as [Lx _]. pose proof (rho_step (length rows)) as [Hρ _].
    assert (within (e + h * (asum ws * (rho (length rows) * e))) (rk_add x h ws ks) (rk_add (φ ta) h ws ks0)) as Hd.
    { apply rk_add_diff; [lra|by apply Rmult_le_pos|done| |].
      - apply Forall2_same_length_lookup. destruct Hf0 as [Hl0 _]. split; [lia|]. intros q k1 k2 E1 E2. pose proof (lookup_lt_Some _ _ _ E1). apply (Hdiff q); [lia|done|done].
      - apply Forall_lookup. intros q k1 E1. pose proof (lookup_lt_Some _ _ _ E1). specialize (Hn q k1 ltac:(lia) E1). apply within_nth in Hn as [N1 _]. lia. }
    assert (within ((e + h * (asum ws * (rho (length rows) * e))) + C * h ^ S p) (rk_add x h ws ks) (φ tc)) as W.
    { apply within_nth in Hd as [D1 D2]. apply within_nth in Hw0 as [W1 W2]. apply within_nth. split; [lia|]. intros j Hj. specialize (D2 j Hj). specialize (W2 j ltac:(lia)).
      match goal with |- Rabs (?a - ?b) <= _ => match type of D2 with Rabs (_ - ?c) <= _ => replace (a - b) with ((a - c) + (c - b)) by ring end end.
      eapply Rle_trans; [apply Rabs_triang|]. lra. }
    pose proof Lmb_one as HL1. assert (h ^ p <= H ^ p) as Hpw by (apply pow_incr; lra). assert (0 <= h ^ p) as Hp0 by (apply pow_le; lra). assert (0 <= H ^ p) as HP0 by (apply pow_le; lra).
    assert (0 <= C * H ^ p) as HD by (by apply Rmult_le_pos). assert (0 <= Lmb * h) as Hlh by (apply Rmult_le_pos; lra).
    assert (0 <= asum ws * (rho (length rows) * e)) as Hs0 by (apply Rmult_le_pos; [apply asum_pos|by apply Rmult_le_pos]).
    eexists. split; [|split; [|exact W]].
    - assert (0 <= h * (asum ws * (rho (length rows) * e))) by (apply Rmult_le_pos; lra). assert (0 <= C * h ^ S p) by (apply Rmult_le_pos; [done|apply pow_le; lra]). lra.
    - assert (1 + Lmb * h <= exp (Lmb * h)) as Hexp. { destruct (Req_dec (Lmb * h) 0) as [->|Hne]; [rewrite exp_0; lra|]. left. by apply exp_ineq1. }
      assert (C * h ^ S p <= h * (C * H ^ p)) as Hq.
      { cbn [pow]. replace (C * (h * h ^ p)) with (h * (C * h ^ p)) by ring. apply Rmult_le_compat_l; [lra|]. by apply Rmult_le_compat_l. }
      assert (Lmb * h * (e + C * H ^ p) >= h * (asum ws * (rho (length rows) * e)) + h * (C * H ^ p)) as Hq2.
      { unfold Lmb. set (z := asum ws * rho (length rows)). assert (0 <= z) as Hz by (unfold z; apply Rmult_le_pos; [apply asum_pos|done]).
        replace (asum ws * (rho (length rows) * e)) with (z * e) by (unfold z; ring). assert (0 <= h * e) by (apply Rmult_le_pos; lra). assert (0 <= z * (h * (C * H ^ p))) by (apply Rmult_le_pos; [done|apply Rmult_le_pos; lra]). lra. }
      assert ((1 + Lmb * h) * (e + C * H ^ p) <= exp (Lmb * h) * (e + C * H ^ p)) by (apply Rmult_le_compat_r; lra). lra.
  Qed.
  Lemma acc_chain H ms : 0 <= H <= h0 -> forall ta x e te xe, t0 <= ta -> te <= T -> chained ta x ms te xe ->
    Forall (fun a => mv_from a < mv_to a /\ mv_to a <= te /\ mv_to a - mv_from a <= H /\
      rk_solution (Tableau rows ws) (fun τ v k => k = F τ v) (mv_from a) (mv_state a) (mv_to a) (mv_result a)) ms ->
    0 <= e -> within e x (φ ta) -> G * (exp (Lmb * (te - ta)) * (e + C * H ^ p) + H) <= r ->
    exists e', 0 <= e' /\ e' + C * H ^ p <= exp (Lmb * (te - ta)) * (e + C * H ^ p) /\ within e' xe (φ te).
  Proof.
    intros HH. assert (0 <= C * H ^ p) as HD by (apply Rmult_le_pos; [done|apply pow_le; lra]). pose proof Lmb_one as HL1. pose proof (Gc_one L B HL HB A HA (length rows)) as HG.
    induction ms as [|a ms IH]; intros ta x e te xe Ha HT Hc Hf He Hx Hr; cbn [chained] in Hc.
    - destruct Hc as [-> ->]. exists e. split; [done|]. split; [|done]. replace (Lmb * (ta - ta)) with 0 by lra. rewrite exp_0. lra.
    - destruct Hc as (Efr & Est & Hc). inversion Hf as [|? ? (F1 & F2 & F3 & F4) Hf']; subst. destruct (mv_ok a); [|by eapply IH].
      assert (1 <= exp (Lmb * (te - mv_from a))) as He1.
      { assert (0 <= Lmb * (te - mv_from a)) as Hq by (apply Rmult_le_pos; lra). destruct (Req_dec (Lmb * (te - mv_from a)) 0) as [->|Hne]; [rewrite exp_0; lra|].
        pose proof (exp_ineq1 _ Hne). lra. }
      assert (G * (e + H) <= r) as Hr1.
      { eapply Rle_trans; [|exact Hr]. apply Rmult_le_compat_l; [lra|]. assert (1 * (e + C * H ^ p) <= exp (Lmb * (te - mv_from a)) * (e + C * H ^ p)) by (apply Rmult_le_compat_r; lra). lra. }
      destruct (acc_growth (mv_from a) (mv_to a) (mv_state a) e (mv_result a) H) as (e1 & E0 & E1 & E2); [done|lra|lra|lra|done|done|done|done|].
      assert (exp (Lmb * (te - mv_to a)) * (e1 + C * H ^ p) <= exp (Lmb * (te - mv_from a)) * (e + C * H ^ p)) as Hm.
      { replace (Lmb * (te - mv_from a)) with (Lmb * (te - mv_to a) + Lmb * (mv_to a - mv_from a)) by lra. rewrite exp_plus, Rmult_assoc. apply Rmult_le_compat_l; [left; apply exp_pos|done]. }
      destruct (IH (mv_to a) (mv_result a) e1 te xe) as (e' & K1 & K2 & K3); [lra|done|done|done|done|done| |].
      { eapply Rle_trans; [|exact Hr]. apply Rmult_le_compat_l; [lra|]. lra. }
      exists e'. split; [done|]. split; [lra|done].
  Qed.
End acc.
