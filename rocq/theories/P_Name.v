From stdpp Require Import prelude.
From Coq Require Import Ascii String NArith.
From Verif Require Import Name SpecName.
Local Open Scope string_scope.

Lemma keepable_legal c : keepable c = true <-> legal c.
Proof.
  assert (Hall : forallb (fun c => Bool.eqb (keepable c) (existsb (Ascii.eqb c) legal_chars))
            (map (fun n => ascii_of_nat n) (seq 0 256)) = true) by (vm_compute; reflexivity).
  rewrite forallb_forall in Hall.
  assert (Hc : In c (map (fun n => ascii_of_nat n) (seq 0 256))).
  { apply in_map_iff. exists (nat_of_ascii c). split.
    - apply ascii_nat_embedding.
    - apply in_seq. split; [lia|]. apply nat_ascii_bounded. }
  specialize (Hall c Hc). apply Bool.eqb_prop in Hall. rewrite Hall. unfold legal.
  rewrite existsb_exists. split.
  - intros (x & Hx & He). apply Ascii.eqb_eq in He. by subst.
  - intros Hx. exists c. split; [done|]. apply Ascii.eqb_refl.
Qed.

Lemma underscore_legal : legal "_"%char.
Proof. apply keepable_legal. reflexivity. Qed.

Lemma emend_length s : String.length (emend s) = String.length s.
Proof. induction s as [|c s IH]; cbn; [done|]. by rewrite IH. Qed.

Lemma emend_get s i c :
  String.get i s = Some c ->
  String.get i (emend s) = Some (if keepable c then c else "_"%char).
Proof.
  revert i. induction s as [|a s IH]; intros i; cbn; [by destruct i|].
  destruct i as [|i].
  - by intros [= ->].
  - apply IH.
Qed.

Lemma emend_get_inv s i c :
  String.get i (emend s) = Some c ->
  exists c0, String.get i s = Some c0 /\ c = (if keepable c0 then c0 else "_"%char).
Proof.
  revert i. induction s as [|a s IH]; intros i; cbn; [by destruct i|].
  destruct i as [|i].
  - intros [= <-]. eauto.
  - apply IH.
Qed.

Lemma emend_legal s : legal_name (emend s).
Proof.
  intros i c Hc. apply emend_get_inv in Hc as (c0 & _ & ->).
  destruct (keepable c0) eqn:E; [by apply keepable_legal|apply underscore_legal].
Qed.

Lemma emend_sanitised s : sanitised s (emend s).
Proof.
  split; [apply emend_length|]. intros i c Hc. rewrite (emend_get _ _ _ Hc). split.
  - intros Hl. apply keepable_legal in Hl. by rewrite Hl.
  - intros Hl. destruct (keepable c) eqn:E; [|done]. by apply keepable_legal in E.
Qed.

Lemma legal_name_cons c s : legal_name (String c s) <-> legal c /\ legal_name s.
Proof.
  split.
  - intros Hn. split; [apply (Hn 0 c eq_refl)|]. intros i a Hi. apply (Hn (S i) a Hi).
  - intros [Hc Hs] [|i] a; cbn; [by intros [= <-]|apply Hs].
Qed.

Lemma legal_name_nil : legal_name "".
Proof. intros [|i] c; cbn; discriminate. Qed.

Lemma emend_id s : legal_name s -> emend s = s.
Proof.
  induction s as [|c s IH]; [done|]. rewrite legal_name_cons. intros [Hc Hs]. cbn.
  apply keepable_legal in Hc. rewrite Hc. by rewrite IH.
Qed.

Lemma emend_idem s : emend (emend s) = emend s.
Proof. apply emend_id, emend_legal. Qed.

(** Full names. *)
Lemma append_assoc (a b c : string) : a ++ (b ++ c) = (a ++ b) ++ c.
Proof. induction a; cbn; [done|]. by rewrite IHa. Qed.

Fixpoint full (ns : list string) : string :=
  match ns with [] => "" | n :: ns' => "/" ++ n ++ full ns' end.

Lemma append_nil_r (a : string) : a ++ "" = a.
Proof. induction a; cbn; [done|]. by rewrite IHa. Qed.

Lemma full_name_from_full acc ns : full_name_from acc ns = acc ++ full ns.
Proof.
  revert acc. induction ns as [|n ns IH]; intros acc; cbn [full_name_from full].
  - by rewrite append_nil_r.
  - rewrite IH. unfold name_slash, append_valid. by rewrite <- !append_assoc.
Qed.

Lemma full_app ns ms : full (ns ++ ms)%list = full ns ++ full ms.
Proof.
  induction ns as [|n ns IH]; cbn [full app]; [done|].
  by rewrite IH, <- !append_assoc.
Qed.

Lemma slash_illegal : ~ legal "/"%char.
Proof. rewrite <- keepable_legal. by vm_compute. Qed.

Lemma full_head ns s : full ns = s -> s = "" \/ exists r, s = String "/" r.
Proof. destruct ns; cbn; intros <-; eauto. Qed.

Lemma split_legal a b r s :
  legal_name a -> legal_name b ->
  (r = "" \/ exists r', r = String "/" r') -> (s = "" \/ exists s', s = String "/" s') ->
  a ++ r = b ++ s -> a = b /\ r = s.
Proof.
  revert b. induction a as [|c a IH]; intros b Ha Hb Hr Hs He.
  - destruct b as [|d b]; [done|]. exfalso. cbn in He.
    apply legal_name_cons in Hb as [Hd _].
    destruct Hr as [->|[r' ->]]; [done|]. injection He as <- _. by apply slash_illegal in Hd.
  - destruct b as [|d b].
    + exfalso. cbn in He. apply legal_name_cons in Ha as [Hc _].
      destruct Hs as [->|[s' ->]]; [done|]. injection He as -> _. by apply slash_illegal in Hc.
    + cbn in He. injection He as -> He.
      apply legal_name_cons in Ha as [_ Ha]. apply legal_name_cons in Hb as [_ Hb].
      destruct (IH b Ha Hb Hr Hs He) as [-> ->]. done.
Qed.

Lemma full_inj ns ms :
  Forall legal_name ns -> Forall legal_name ms -> full ns = full ms -> ns = ms.
Proof.
  revert ms. induction ns as [|n ns IH]; intros [|m ms] Hn Hm He; cbn [full] in He;
    [done|discriminate|discriminate|].
  inversion Hn as [|? ? Hn1 Hn2]; subst. inversion Hm as [|? ? Hm1 Hm2]; subst.
  cbn in He. injection He as He.
  destruct (split_legal n m (full ns) (full ms)) as [-> He']; eauto using full_head.
  by rewrite (IH ms).
Qed.
