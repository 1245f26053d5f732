(** The order laws that doubles satisfy as long as no NaN, overflow or rounding
    is involved: satisfied by the real numbers and by the rationals. *)
From Coq Require Import Setoid Reals Lra ZArith QArith Qreduction Bool.
From Verif Require Import Num NumR NumQ.
Local Open Scope num_scope.

Class NumOrd (D : Type) `{NumOps D} : Prop := {
  ord_ltb : forall a b : D, (a <? b) = negb (b <=? a);
  ord_total : forall a b : D, (a <=? b) = false -> (b <=? a) = true;
  ord_trans : forall a b c : D, (a <=? b) = true -> (b <=? c) = true -> (a <=? c) = true;
  ord_sub_l : forall a b c : D, (a <=? b) = true -> (a - c <=? b - c) = true;
  ord_sub_r : forall a b c : D, (b <=? c) = true -> (a - c <=? a - b) = true;
  ord_sub_0 : forall a : D, (a - n0 <=? a) = true;
  ord_sub_add : forall a b c : D, (a - (b + c) <=? a - b - c) = true
}.

Global Instance ord_R : NumOrd R.
Proof.
  constructor; cbn; intros.
  - unfold Rltb, Rleb. destruct (Rlt_dec a b), (Rle_dec b a); cbn; try reflexivity; exfalso; lra.
  - rewrite Rleb_false in H. rewrite Rleb_true. lra.
  - rewrite Rleb_true in *. lra.
  - rewrite Rleb_true in *. lra.
  - rewrite Rleb_true in *. lra.
  - rewrite Rleb_true. lra.
  - rewrite Rleb_true. lra.
Qed.
Lemma Qle_bool_false a b : Qle_bool a b = false <-> (b < a)%Q.
Proof.
  split; intros Hb.
  - apply Qnot_le_lt. intros E. apply Qle_bool_iff in E. congruence.
  - destruct (Qle_bool a b) eqn:E; [|reflexivity]. apply Qle_bool_iff in E. exfalso. apply (Qlt_not_le _ _ Hb E).
Qed.
Lemma Qred_le a b : (a <= b)%Q -> Qle_bool (Qred a) (Qred b) = true.
Proof. intros Hab. apply Qle_bool_iff. rewrite (Qred_correct a), (Qred_correct b). exact Hab. Qed.
Global Instance ord_Q : NumOrd Q.
Proof.
  constructor; cbn [nadd nsub nleb nltb num_Q]; intros.
  - reflexivity.
  - apply Qle_bool_false in H. apply Qle_bool_iff. apply Qlt_le_weak, H.
  - apply Qle_bool_iff in H. apply Qle_bool_iff in H0. apply Qle_bool_iff. eapply Qle_trans; eassumption.
  - apply Qle_bool_iff in H. apply Qred_le. apply Qplus_le_compat; [assumption|apply Qle_refl].
  - apply Qle_bool_iff in H. apply Qred_le. apply Qplus_le_compat; [apply Qle_refl|]. apply Qopp_le_compat, H.
  - apply Qle_bool_iff. rewrite (Qred_correct (a - n0)%Q). change (@n0 Q num_Q) with 0%Q. rewrite <- (Qplus_0_r a) at 2. apply Qplus_le_compat; [apply Qle_refl|]. discriminate.
  - apply Qred_le. rewrite (Qred_correct (b + c)%Q), (Qred_correct (a - b)%Q). apply Qle_lteq. right. ring.
Qed.

Section ord.
  Context {D : Type} `{NumOrd D}.
  Implicit Types a b c : D.
  Lemma ltb_lt a b : (a <? b) = true <-> (b <=? a) = false.
  Proof. rewrite ord_ltb. apply negb_true_iff. Qed.
  Lemma ltb_ge a b : (a <? b) = false <-> (b <=? a) = true.
  Proof. rewrite ord_ltb. apply negb_false_iff. Qed.
  Lemma leb_refl a : (a <=? a) = true.
  Proof. destruct (a <=? a) eqn:E; [reflexivity|]. pose proof (ord_total _ _ E). congruence. Qed.
  Lemma ltb_le a b : (a <? b) = true -> (a <=? b) = true.
  Proof. rewrite ltb_lt. apply ord_total. Qed.
  Lemma ltb_trans_l a b c : (a <? b) = true -> (b <=? c) = true -> (a <? c) = true.
  Proof. rewrite !ltb_lt. intros H1 H2. destruct (c <=? a) eqn:E; [|reflexivity]. rewrite <- H1. symmetry. apply (ord_trans _ _ _ H2 E). Qed.
  Lemma ltb_trans_r a b c : (a <=? b) = true -> (b <? c) = true -> (a <? c) = true.
  Proof. rewrite !ltb_lt. intros H1 H2. destruct (c <=? a) eqn:E; [|reflexivity]. rewrite <- H2. symmetry. apply (ord_trans _ _ _ E H1). Qed.
  Lemma sub_le a b : (n0 <=? b) = true -> (a - b <=? a) = true.
  Proof. intros Hb. eapply ord_trans; [apply ord_sub_r, Hb|apply ord_sub_0]. Qed.
End ord.
