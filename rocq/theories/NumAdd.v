(** Laws of addition and subtraction with the order, satisfied by the real numbers
    and by the rationals (but not by rounded arithmetic). *)
From stdpp Require Import base tactics.
From Coq Require Import Setoid Reals Lra ZArith QArith Qreduction Bool Lqa.
From Verif Require Import Num NumR NumQ NumOrd.
Local Open Scope num_scope.

Class NumAdd (D : Type) `{NumOrd D} : Prop := {
  add_pos : forall a x : D, (n0 <? x) = true -> (a <? a + x) = true;
  add_lt : forall a b x : D, (x <? b - a) = true -> (a + x <? b) = true;
  add_sub_le : forall a x : D, (a + x - a <=? x) = true;
  add_sub_ge : forall a x : D, (x <=? a + x - a) = true;
  eqb_ge : forall a b : D, (a =? b) = true -> (a <=? b) = true
}.
Global Instance add_R : NumAdd R.
Proof.
  constructor; cbn; intros.
  - change (n0 : R) with 0%R in *. rewrite Rltb_true in *. Lra.lra.
  - rewrite Rltb_true in *. Lra.lra.
  - rewrite Rleb_true. Lra.lra.
  - rewrite Rleb_true. Lra.lra.
  - rewrite Rleb_true. rewrite Reqb_true in *. Lra.lra.
Qed.
Lemma Qltb_true (a b : Q) : (a <? b) = true <-> (a < b)%Q.
Proof. rewrite ltb_lt. apply Qle_bool_false. Qed.
Global Instance add_Q : NumAdd Q.
Proof.
  constructor; intros.
  - rewrite Qltb_true in *. change (n0 : Q) with 0%Q in *. cbn [nadd num_Q]. rewrite Qred_correct. Lqa.lra.
  - rewrite Qltb_true in *. cbn [nadd nsub num_Q] in *. rewrite Qred_correct in *. Lqa.lra.
  - cbn [nleb nadd nsub num_Q]. apply Qle_bool_iff. rewrite !Qred_correct. Lqa.lra.
  - cbn [nleb nadd nsub num_Q]. apply Qle_bool_iff. rewrite !Qred_correct. Lqa.lra.
  - cbn [nleb neqb num_Q] in *. apply Qeq_bool_iff in H. apply Qle_bool_iff. rewrite H. apply Qle_refl.
Qed.
Section add.
  Context {D : Type} `{NumAdd D}.
  Implicit Types a b c : D.
  Lemma min_le_l a b : (nmin a b <=? a) = true.
  Proof. unfold nmin. destruct (b <? a) eqn:E; [by apply ltb_le|apply leb_refl]. Qed.
  Lemma min_le_r a b : (nmin a b <=? b) = true.
  Proof. unfold nmin. destruct (b <? a) eqn:E; [apply leb_refl|by apply ltb_ge]. Qed.
  Lemma min_cases a b : nmin a b = a \/ nmin a b = b.
  Proof. unfold nmin. destruct (b <? a); auto. Qed.
  Lemma max_ge_l a b : (a <=? nmax a b) = true.
  Proof. unfold nmax. destruct (a <? b) eqn:E; [by apply ltb_le|apply leb_refl]. Qed.
  Lemma max_lub a b c : (a <=? c) = true -> (b <=? c) = true -> (nmax a b <=? c) = true.
  Proof. unfold nmax. by destruct (a <? b). Qed.
  Lemma max_lub_lt a b c : (a <? c) = true -> (b <? c) = true -> (nmax a b <? c) = true.
  Proof. unfold nmax. by destruct (a <? b). Qed.
End add.
