(** Functions with a Taylor expansion along a curve in time and state. *)
From stdpp Require Import prelude.
From Coq Require Import Reals Lra Psatz.
From Verif Require Import Num NumR SpecConv P_Conv SpecLin P_Lin SpecOrd P_Ord SpecSmooth P_Tame.
Local Open Scope R_scope.

Lemma rsum_prod n m f g : rsum n f * rsum m g = rsum n (fun j => rsum m (fun k => f j * g k)).
Proof. induction n as [|n IH]; cbn [rsum]; [ring|]. rewrite Rmult_plus_distr_r, IH, rsum_scal. done. Qed.

Section curve.
  Context (n : nat) (φ : R -> list R) (t0 T : R).
  (** Points up to the distance [e] from the point at time [t] on the curve. *)
  Definition near (r e t t' : R) (x : list R) : Prop := t0 <= t <= T /\ t0 <= t' <= T /\ 0 <= e <= r /\ Rabs (t' - t) <= e /\ within e x (φ t).
  Definition bigx (r : R) (k : nat) (f : R -> R -> list R -> R) : Prop := exists C, 0 <= C /\ forall e t t' x, near r e t t' x -> Rabs (f t t' x) <= C * e ^ k.
  Implicit Types f g : R -> R -> list R -> R.

  Lemma near_mono r r' e t t' x : r <= r' -> near r e t t' x -> near r' e t t' x.
  Proof. intros Hr (A1 & A2 & A3 & A4 & A5). split_and!; try done; lra. Qed.
  Lemma bigx_less r r' k f : r <= r' -> bigx r' k f -> bigx r k f.
  Proof. intros Hr (C & HC & Hf). exists C. split; [done|]. intros e t t' x Hn. eapply Hf. by eapply near_mono. Qed.
  Lemma bigx_ext r k f g : (forall e t t' x, near r e t t' x -> f t t' x = g t t' x) -> bigx r k f -> bigx r k g.
  Proof. intros E (C & HC & Hf). exists C. split; [done|]. intros e t t' x Hp. rewrite <- (E e) by done. by apply Hf. Qed.
  Lemma bigx_zero r k : bigx r k (fun _ _ _ => 0).
  Proof. exists 0. split; [lra|]. intros. rewrite Rabs_R0. lra. Qed.
  Lemma bigx_plus r k f g : bigx r k f -> bigx r k g -> bigx r k (fun t t' x => f t t' x + g t t' x).
  Proof.
    intros (C & HC & Hf) (C' & HC' & Hg). exists (C + C'). split; [lra|]. intros e t t' x Hp. specialize (Hf e t t' x Hp). specialize (Hg e t t' x Hp).
    eapply Rle_trans; [apply Rabs_triang|]. lra.
  Qed.
  Lemma bigx_mult r k l f g : bigx r k f -> bigx r l g -> bigx r (k + l) (fun t t' x => f t t' x * g t t' x).
  Proof.
    intros (C & HC & Hf) (C' & HC' & Hg). exists (C * C'). split; [by apply Rmult_le_pos|]. intros e t t' x Hp. specialize (Hf e t t' x Hp). specialize (Hg e t t' x Hp).
    rewrite Rabs_mult, pow_add. replace (C * C' * (e ^ k * e ^ l)) with ((C * e ^ k) * (C' * e ^ l)) by ring. apply Rmult_le_compat; try apply Rabs_pos; done.
  Qed.
  Lemma bigx_mono r k l f : r <= 1 -> (l <= k)%nat -> bigx r k f -> bigx r l f.
  Proof.
    intros Hr Hl (C & HC & Hf). exists C. split; [done|]. intros e t t' x Hp. eapply Rle_trans; [by apply Hf|]. apply Rmult_le_compat_l; [done|].
    destruct Hp as (_ & _ & He & _). apply pow_small; [lra|done].
  Qed.
  Lemma bigx_rsum r k m (f : R -> R -> list R -> nat -> R) : (forall i, (i < m)%nat -> bigx r k (fun t t' x => f t t' x i)) -> bigx r k (fun t t' x => rsum m (f t t' x)).
  Proof. induction m as [|m IH]; intros E; cbn [rsum]; [apply bigx_zero|]. apply bigx_plus; [apply IH; intros; apply E; lia|apply E; lia]. Qed.
  (** Functions of time only. *)
  Definition bnd (c : R -> R) : Prop := exists M, 0 <= M /\ forall t, t0 <= t <= T -> Rabs (c t) <= M.
  Lemma bigx_bnd r c : bnd c -> bigx r 0 (fun t _ _ => c t).
  Proof. intros (M & HM & Hc). exists M. split; [done|]. intros e t t' x (A1 & _). cbn. rewrite Rmult_1_r. by apply Hc. Qed.
  Lemma within_nth_any e x y i : 0 <= e -> within e x y -> Rabs (nth i x 0 - nth i y 0) <= e.
  Proof.
    intros He Hw. apply within_nth in Hw as [Hl Hw]. destruct (Nat.lt_ge_cases i (length x)) as [Hi|Hi]; [by apply Hw|].
    rewrite !nth_overflow by lia. rewrite Rminus_0_r, Rabs_R0. done.
  Qed.
  Definition du (t t' : R) (x : list R) : nat -> R := offset t (φ t) t' x.
  Lemma bigx_du r j : bigx r 1 (fun t t' x => du t t' x j).
  Proof.
    exists 1. split; [lra|]. intros e t t' x (A1 & A2 & A3 & A4 & A5). rewrite pow_1, Rmult_1_l. unfold du, offset. destruct j as [|j]; [done|]. apply within_nth_any; [lra|done].
  Qed.
  Definition L1 (d : R -> nat -> R) t t' x : R := rsum (S n) (fun j => d t j * du t t' x j).
  Definition L2 (d : R -> nat -> nat -> R) t t' x : R := rsum (S n) (fun j => rsum (S n) (fun k => d t j k * (du t t' x j * du t t' x k))).
  Definition L3 (d : R -> nat -> nat -> nat -> R) t t' x : R := rsum (S n) (fun j => rsum (S n) (fun k => rsum (S n) (fun l => d t j k l * (du t t' x j * du t t' x k * du t t' x l)))).
  Definition bnd1 (d : R -> nat -> R) : Prop := exists M, 0 <= M /\ forall t j, t0 <= t <= T -> Rabs (d t j) <= M.
  Definition bnd2 (d : R -> nat -> nat -> R) : Prop := exists M, 0 <= M /\ forall t j k, t0 <= t <= T -> Rabs (d t j k) <= M.
  Definition bnd3 (d : R -> nat -> nat -> nat -> R) : Prop := exists M, 0 <= M /\ forall t j k l, t0 <= t <= T -> Rabs (d t j k l) <= M.
  Lemma L1_small r d : bnd1 d -> bigx r 1 (L1 d).
  Proof.
    intros (M & HM & Hd). unfold L1. apply (bigx_rsum r 1 (S n) (fun t t' x j => d t j * du t t' x j)). intros j _. apply (bigx_mult r 0 1); [|apply bigx_du].
    apply bigx_bnd. exists M. split; [done|]. auto.
  Qed.
  Lemma L2_small r d : bnd2 d -> bigx r 2 (L2 d).
  Proof.
    intros (M & HM & Hd). unfold L2. apply (bigx_rsum r 2 (S n) (fun t t' x j => rsum (S n) (fun k => d t j k * (du t t' x j * du t t' x k)))). intros j _.
    apply (bigx_rsum r 2 (S n) (fun t t' x k => d t j k * (du t t' x j * du t t' x k))). intros k _.
    apply (bigx_mult r 0 2); [|apply (bigx_mult r 1 1); apply bigx_du]. apply bigx_bnd. exists M. split; [done|]. auto.
  Qed.
  Lemma L3_small r d : bnd3 d -> bigx r 3 (L3 d).
  Proof.
    intros (M & HM & Hd). unfold L3. apply (bigx_rsum r 3 (S n) (fun t t' x j => rsum (S n) (fun k => rsum (S n) (fun l => d t j k l * (du t t' x j * du t t' x k * du t t' x l))))). intros j _.
    apply (bigx_rsum r 3 (S n) (fun t t' x k => rsum (S n) (fun l => d t j k l * (du t t' x j * du t t' x k * du t t' x l)))). intros k _.
    apply (bigx_rsum r 3 (S n) (fun t t' x l => d t j k l * (du t t' x j * du t t' x k * du t t' x l))). intros l _.
    apply (bigx_mult r 0 3); [|apply (bigx_mult r 2 1); [apply (bigx_mult r 1 1)|]; apply bigx_du]. apply bigx_bnd. exists M. split; [done|]. auto.
  Qed.
  Lemma L1_lin a b d d' t t' x : L1 (fun t j => a t * d t j + b t * d' t j) t t' x = a t * L1 d t t' x + b t * L1 d' t t' x.
  Proof. unfold L1. rewrite <- !rsum_scal, <- rsum_plus. apply rsum_ext. intros; ring. Qed.
  Lemma L2_lin a b d d' t t' x : L2 (fun t j k => a t * d t j k + b t * d' t j k) t t' x = a t * L2 d t t' x + b t * L2 d' t t' x.
  Proof. unfold L2. rewrite <- !rsum_scal, <- rsum_plus. apply rsum_ext. intros j _. rewrite <- !rsum_scal, <- rsum_plus. apply rsum_ext. intros; ring. Qed.
  Lemma L3_lin a b d d' t t' x : L3 (fun t j k l => a t * d t j k l + b t * d' t j k l) t t' x = a t * L3 d t t' x + b t * L3 d' t t' x.
  Proof.
    unfold L3. rewrite <- !rsum_scal, <- rsum_plus. apply rsum_ext. intros j _. rewrite <- !rsum_scal, <- rsum_plus. apply rsum_ext. intros k _.
    rewrite <- !rsum_scal, <- rsum_plus. apply rsum_ext. intros; ring.
  Qed.
  Lemma L11 d d' t t' x : L2 (fun t j k => d t j * d' t k) t t' x = L1 d t t' x * L1 d' t t' x.
  Proof. unfold L2, L1. rewrite rsum_prod. apply rsum_ext. intros j _. apply rsum_ext. intros; ring. Qed.
  Lemma L12 d d' t t' x : L3 (fun t j k l => d t j * d' t k l) t t' x = L1 d t t' x * L2 d' t t' x.
  Proof.
    unfold L3, L2, L1. rewrite rsum_prod. apply rsum_ext. intros j _. apply rsum_ext. intros k _.
    rewrite <- rsum_scal. apply rsum_ext. intros; ring.
  Qed.
  Lemma bnd1_lin a b d d' : bnd a -> bnd b -> bnd1 d -> bnd1 d' -> bnd1 (fun t j => a t * d t j + b t * d' t j).
  Proof.
    intros (A & HA & Ha) (B & HB & Hb) (M & HM & Hd) (M' & HM' & Hd'). exists (A * M + B * M'). split. { assert (0 <= A * M) by (by apply Rmult_le_pos). assert (0 <= B * M') by (by apply Rmult_le_pos). lra. }
    intros t j Ht. eapply Rle_trans; [apply Rabs_triang|]. rewrite !Rabs_mult. apply Rplus_le_compat; apply Rmult_le_compat; try apply Rabs_pos; auto.
  Qed.
  Lemma bnd2_lin a b d d' : bnd a -> bnd b -> bnd2 d -> bnd2 d' -> bnd2 (fun t j k => a t * d t j k + b t * d' t j k).
  Proof.
    intros (A & HA & Ha) (B & HB & Hb) (M & HM & Hd) (M' & HM' & Hd'). exists (A * M + B * M'). split. { assert (0 <= A * M) by (by apply Rmult_le_pos). assert (0 <= B * M') by (by apply Rmult_le_pos). lra. }
    intros t j k Ht. eapply Rle_trans; [apply Rabs_triang|]. rewrite !Rabs_mult. apply Rplus_le_compat; apply Rmult_le_compat; try apply Rabs_pos; auto.
  Qed.
  Lemma bnd3_lin a b d d' : bnd a -> bnd b -> bnd3 d -> bnd3 d' -> bnd3 (fun t j k l => a t * d t j k l + b t * d' t j k l).
  Proof.
    intros (A & HA & Ha) (B & HB & Hb) (M & HM & Hd) (M' & HM' & Hd'). exists (A * M + B * M'). split. { assert (0 <= A * M) by (by apply Rmult_le_pos). assert (0 <= B * M') by (by apply Rmult_le_pos). lra. }
    intros t j k l Ht. eapply Rle_trans; [apply Rabs_triang|]. rewrite !Rabs_mult. apply Rplus_le_compat; apply Rmult_le_compat; try apply Rabs_pos; auto.
  Qed.
  Lemma bnd11 d d' : bnd1 d -> bnd1 d' -> bnd2 (fun t j k => d t j * d' t k).
  Proof. intros (M & HM & Hd) (M' & HM' & Hd'). exists (M * M'). split; [by apply Rmult_le_pos|]. intros t j k Ht. rewrite Rabs_mult. apply Rmult_le_compat; try apply Rabs_pos; auto. Qed.
  Lemma bnd12 d d' : bnd1 d -> bnd2 d' -> bnd3 (fun t j k l => d t j * d' t k l).
  Proof. intros (M & HM & Hd) (M' & HM' & Hd'). exists (M * M'). split; [by apply Rmult_le_pos|]. intros t j k l Ht. rewrite Rabs_mult. apply Rmult_le_compat; try apply Rabs_pos; auto. Qed.
  Lemma bnd_const c : bnd (fun _ => c).
  Proof. exists (Rabs c). split; [apply Rabs_pos|]. intros; lra. Qed.
  Lemma bnd_mult a b : bnd a -> bnd b -> bnd (fun t => a t * b t).
  Proof. intros (M & HM & Hd) (M' & HM' & Hd'). exists (M * M'). split; [by apply Rmult_le_pos|]. intros t Ht. rewrite Rabs_mult. apply Rmult_le_compat; try apply Rabs_pos; auto. Qed.
  Lemma bnd_plus a b : bnd a -> bnd b -> bnd (fun t => a t + b t).
  Proof. intros (M & HM & Hd) (M' & HM' & Hd'). exists (M + M'). split; [lra|]. intros t Ht. eapply Rle_trans; [apply Rabs_triang|]. apply Rplus_le_compat; auto. Qed.

  (** ** Expansions *)
  Definition jet (r : R) f : Prop := exists c d1 d2 d3, bnd c /\ bnd1 d1 /\ bnd2 d2 /\ bnd3 d3 /\
    bigx r 4 (fun t t' x => f t t' x - (c t + L1 d1 t t' x + L2 d2 t t' x + L3 d3 t t' x)).
  Lemma jet_less r r' f : r <= r' -> jet r' f -> jet r f.
  Proof. intros Hr (c & d1 & d2 & d3 & Hc & H1 & H2 & H3 & Hb). exists c, d1, d2, d3. split_and!; try done. by eapply bigx_less. Qed.
  Lemma jet_ext r f g : (forall e t t' x, near r e t t' x -> f t t' x = g t t' x) -> jet r f -> jet r g.
  Proof.
    intros E (c & d1 & d2 & d3 & Hc & H1 & H2 & H3 & Hb). exists c, d1, d2, d3. split_and!; try done. eapply bigx_ext; [|exact Hb]. intros e t t' x Hn. cbn. by rewrite (E e).
  Qed.
  Lemma zero1 : bnd1 (fun _ _ => 0). Proof. exists 0. split; [lra|]. intros; rewrite Rabs_R0; lra. Qed.
  Lemma zero2 : bnd2 (fun _ _ _ => 0). Proof. exists 0. split; [lra|]. intros; rewrite Rabs_R0; lra. Qed.
  Lemma zero3 : bnd3 (fun _ _ _ _ => 0). Proof. exists 0. split; [lra|]. intros; rewrite Rabs_R0; lra. Qed.
  Lemma L1_zero t t' x : L1 (fun _ _ => 0) t t' x = 0.
  Proof. unfold L1. rewrite (rsum_ext _ _ (fun _ => 0)) by (intros; ring). apply rsum_zero. Qed.
  Lemma L2_zero t t' x : L2 (fun _ _ _ => 0) t t' x = 0.
  Proof. unfold L2. rewrite (rsum_ext _ _ (fun _ => 0)); [apply rsum_zero|]. intros j _. rewrite (rsum_ext _ _ (fun _ => 0)) by (intros; ring). apply rsum_zero. Qed.
  Lemma L3_zero t t' x : L3 (fun _ _ _ _ => 0) t t' x = 0.
  Proof.
    unfold L3. rewrite (rsum_ext _ _ (fun _ => 0)); [apply rsum_zero|]. intros j _. rewrite (rsum_ext _ _ (fun _ => 0)); [apply rsum_zero|]. intros k _.
    rewrite (rsum_ext _ _ (fun _ => 0)) by (intros; ring). apply rsum_zero.
  Qed.
  Lemma jet_time r c : bnd c -> jet r (fun t _ _ => c t).
  Proof.
    intros Hc. exists c, (fun _ _ => 0), (fun _ _ _ => 0), (fun _ _ _ _ => 0). split_and!; [done|apply zero1|apply zero2|apply zero3|].
    eapply bigx_ext; [|apply bigx_zero]. intros e t t' x _. cbn beta. rewrite L1_zero, L2_zero, L3_zero. ring.
  Qed.
  Lemma jet_rest r f : bigx r 4 f -> jet r f.
  Proof.
    intros Hf. exists (fun _ => 0), (fun _ _ => 0), (fun _ _ _ => 0), (fun _ _ _ _ => 0). split_and!; [apply bnd_const|apply zero1|apply zero2|apply zero3|].
    eapply bigx_ext; [|exact Hf]. intros e t t' x _. cbn beta. rewrite L1_zero, L2_zero, L3_zero. ring.
  Qed.
  Lemma rsum_pick m (a : nat -> R) i : (i < m)%nat -> rsum m (fun j => (if decide (j = i) then 1 else 0) * a j) = a i.
  Proof.
    induction m as [|m IH]; intros Hi; [lia|]. cbn [rsum]. destruct (decide (m = i)) as [->|Hne].
    - rewrite (rsum_ext i _ (fun _ => 0)); [rewrite rsum_zero; ring|]. intros j Hj. destruct (decide (j = i)); [lia|ring].
    - rewrite IH by lia. ring.
  Qed.
  Lemma jet_du r i : (i < S n)%nat -> jet r (fun t t' x => du t t' x i).
  Proof.
    intros Hi. exists (fun _ => 0), (fun _ j => if decide (j = i) then 1 else 0), (fun _ _ _ => 0), (fun _ _ _ _ => 0). split_and!; [apply bnd_const| |apply zero2|apply zero3|].
    - exists 1. split; [lra|]. intros t j _. destruct (decide (j = i)); [rewrite Rabs_R1|rewrite Rabs_R0]; lra.
    - eapply bigx_ext; [|apply bigx_zero]. intros e t t' x _. cbn beta. rewrite L2_zero, L3_zero. unfold L1. rewrite rsum_pick by done. ring.
  Qed.
  Lemma jet_plus r f g : jet r f -> jet r g -> jet r (fun t t' x => f t t' x + g t t' x).
  Proof.
    intros (c & d1 & d2 & d3 & Hc & H1 & H2 & H3 & Hb) (c' & d1' & d2' & d3' & Hc' & H1' & H2' & H3' & Hb').
    exists (fun t => c t + c' t), (fun t j => 1 * d1 t j + 1 * d1' t j), (fun t j k => 1 * d2 t j k + 1 * d2' t j k), (fun t j k l => 1 * d3 t j k l + 1 * d3' t j k l).
    pose proof (bnd_const 1). split_and!; [by apply bnd_plus|by apply (bnd1_lin (fun _ => 1) (fun _ => 1))|by apply (bnd2_lin (fun _ => 1) (fun _ => 1))|by apply (bnd3_lin (fun _ => 1) (fun _ => 1))|].
    eapply bigx_ext; [|exact (bigx_plus _ _ _ _ Hb Hb')]. intros e t t' x _. cbn beta.
    rewrite (L1_lin (fun _ => 1) (fun _ => 1)), (L2_lin (fun _ => 1) (fun _ => 1)), (L3_lin (fun _ => 1) (fun _ => 1)). ring.
  Qed.
  Lemma jet_mult r f g : r <= 1 -> jet r f -> jet r g -> jet r (fun t t' x => f t t' x * g t t' x).
  Proof.
    intros Hr (c & d1 & d2 & d3 & Hc & H1 & H2 & H3 & Hb) (c' & d1' & d2' & d3' & Hc' & H1' & H2' & H3' & Hb').
    exists (fun t => c t * c' t), (fun t j => c t * d1' t j + c' t * d1 t j),
      (fun t j k => 1 * (c t * d2' t j k + c' t * d2 t j k) + 1 * (d1 t j * d1' t k)),
      (fun t j k l => 1 * (c t * d3' t j k l + c' t * d3 t j k l) + 1 * (1 * (d1 t j * d2' t k l) + 1 * (d1' t j * d2 t k l))).
    pose proof (bnd_const 1) as Hone. split_and!.
    - by apply bnd_mult.
    - by apply bnd1_lin.
    - apply (bnd2_lin (fun _ => 1) (fun _ => 1)); [done|done|by apply bnd2_lin|by apply bnd11].
    - apply (bnd3_lin (fun _ => 1) (fun _ => 1)); [done|done|by apply bnd3_lin|]. apply (bnd3_lin (fun _ => 1) (fun _ => 1)); [done|done|by apply bnd12|by apply bnd12].
    - set (P := fun t t' x => c t + L1 d1 t t' x + L2 d2 t t' x + L3 d3 t t' x). set (P' := fun t t' x => c' t + L1 d1' t t' x + L2 d2' t t' x + L3 d3' t t' x).
      pose proof (L1_small r d1 H1) as S1. pose proof (L2_small r d2 H2) as S2. pose proof (L3_small r d3 H3) as S3.
      pose proof (L1_small r d1' H1') as S1'. pose proof (L2_small r d2' H2') as S2'. pose proof (L3_small r d3' H3') as S3'.
      assert (forall c d1 d2 d3, bnd c -> bigx r 1 (L1 d1) -> bigx r 2 (L2 d2) -> bigx r 3 (L3 d3) -> bigx r 0 (fun t t' x => c t + L1 d1 t t' x + L2 d2 t t' x + L3 d3 t t' x)) as HP.
      { intros q q1 q2 q3 Q0 Q1 Q2 Q3. apply bigx_plus; [apply bigx_plus; [apply bigx_plus; [by apply bigx_bnd|]|]|]; (eapply bigx_mono; [done| |eassumption]; lia). }
      assert (bigx r 0 P) as B0 by (by apply HP). assert (bigx r 0 P') as B0' by (by apply HP).
      set (A1 := L1 d1) in *. set (A2 := L2 d2) in *. set (A3 := L3 d3) in *. set (A1' := L1 d1') in *. set (A2' := L2 d2') in *. set (A3' := L3 d3') in *.
      eapply (bigx_ext r 4 (fun t t' x => P t t' x * (g t t' x - P' t t' x) + (f t t' x - P t t' x) * P' t t' x + (f t t' x - P t t' x) * (g t t' x - P' t t' x) +
        (A1 t t' x * A3' t t' x + A2 t t' x * A2' t t' x + A3 t t' x * A1' t t' x + A2 t t' x * A3' t t' x + A3 t t' x * A2' t t' x + A3 t t' x * A3' t t' x))).
      { intros e t t' x _. rewrite L1_lin. rewrite (L2_lin (fun _ => 1) (fun _ => 1) (fun t j k => c t * d2' t j k + c' t * d2 t j k)), L2_lin, L11.
        rewrite (L3_lin (fun _ => 1) (fun _ => 1) (fun t j k l => c t * d3' t j k l + c' t * d3 t j k l)), L3_lin, (L3_lin (fun _ => 1) (fun _ => 1)), !L12.
        fold A1 A2 A3 A1' A2' A3'. unfold P, P'. ring. }
      assert (forall k l u v, (4 <= k + l)%nat -> bigx r k u -> bigx r l v -> bigx r 4 (fun t t' x => u t t' x * v t t' x)) as Hm.
      { intros k l u v Hk Hu Hv. eapply bigx_mono; [done|exact Hk|by apply bigx_mult]. }
      repeat apply bigx_plus; [eapply (Hm 0 4)%nat|eapply (Hm 4 0)%nat|eapply (Hm 4 4)%nat|eapply (Hm 1 3)%nat|eapply (Hm 2 2)%nat|eapply (Hm 3 1)%nat|eapply (Hm 2 3)%nat|eapply (Hm 3 2)%nat|eapply (Hm 3 3)%nat]; try lia; done.
  Qed.
  Lemma jet_bigx r f : r <= 1 -> jet r f -> bigx r 0 f.
  Proof.
    intros Hr (c & d1 & d2 & d3 & Hc & H1 & H2 & H3 & Hb).
    eapply (bigx_ext r 0 (fun t t' x => (f t t' x - (c t + L1 d1 t t' x + L2 d2 t t' x + L3 d3 t t' x)) + (c t + L1 d1 t t' x + L2 d2 t t' x + L3 d3 t t' x))); [intros; ring|].
    apply bigx_plus; [eapply bigx_mono; [done| |exact Hb]; lia|]. apply bigx_plus; [apply bigx_plus; [apply bigx_plus; [by apply bigx_bnd|]|]|].
    - eapply bigx_mono; [done| |by apply L1_small]; lia.
    - eapply bigx_mono; [done| |by apply L2_small]; lia.
    - eapply bigx_mono; [done| |by apply L3_small]; lia.
  Qed.
End curve.
