(** Consequences for one evaluation of a model. *)
From stdpp Require Import prelude gmap.
From Coq Require Import ZArith.
From Verif Require Import Num Res Store Leaf Sched SpecSched P_Store P_Prog Util P_Sched P_Modes P_Conf P_Refine.

Section eval.
  Context {D : Type} `{NumOps D}.
  Implicit Types (c : core D) (d : dyn D) (l : leaf D) (tr : tree D).

  (** ** Fuel *)
  Lemma process_loop_more dbg fuel n tr t d :
    process_loop dbg fuel tr t d ≠ OOF -> process_loop dbg (fuel + n) tr t d = process_loop dbg fuel tr t d.
  Proof.
    revert d. induction fuel as [|fuel IH]; intros d Hr; [done|]. cbn [process_loop Nat.add] in *.
    unfold bnd in *. destruct (process dbg tr t d) as [k d1| | |]; try done. destruct k; [done|]. by apply IH.
  Qed.
  Lemma evaluate_spec dbg tr t d :
    wf_tree tr ->
    eval_post dbg t (leaves tr) (d_core (mark_unprocessed tr d)) (res_core (evaluate dbg tr t d)).
  Proof.
    intros Hw. unfold evaluate. apply process_all_spec; [by apply wf_subs|by apply wf_leaves|].
    by apply mark_inv, wf_leaves.
  Qed.
  Lemma evaluate_not_oof dbg tr t d : wf_tree tr -> evaluate dbg tr t d ≠ OOF.
  Proof.
    intros Hw Hr. pose proof (evaluate_spec dbg tr t d Hw) as Hp. rewrite Hr in Hp. cbn in Hp.
    by destruct Hp as (? & ? & ? & _ & _ & _ & _ & []).
  Qed.

  (** ** The marked state *)
  Lemma marked_core_eq tr1 tr2 d :
    wf_tree tr1 -> wf_tree tr2 -> leaves tr1 ≡ₚ leaves tr2 ->
    d_core (mark_unprocessed tr1 d) = d_core (mark_unprocessed tr2 d).
  Proof.
    intros H1 H2 Hp.
    destruct (mark_spec tr1 d (wf_leaves _ H1)) as (Hs1 & Hl1 & Hg1 & _ & Hd1).
    destruct (mark_spec tr2 d (wf_leaves _ H2)) as (Hs2 & Hl2 & Hg2 & _ & Hd2).
    destruct (d_core (mark_unprocessed tr1 d)) as [σ1 m1 dn1 g1], (d_core (mark_unprocessed tr2 d)) as [σ2 m2 dn2 g2].
    cbn in *. assert (dn1 = dn2) as ->; [|congruence].
    apply leibniz_equiv. intros b. rewrite Hd1, Hd2. unfold marked_done.
    assert (forall x, x ∈ leaves tr1 <-> x ∈ leaves tr2) as Hx by (intros x; by rewrite Hp).
    assert (b ∈ map l_id (leaves tr1) <-> b ∈ map l_id (leaves tr2)) as Hb.
    { rewrite !elem_of_list_fmap. naive_solver. }
    naive_solver.
  Qed.
  Lemma marked_store tr d : wf_tree tr -> k_store (d_core (mark_unprocessed tr d)) = k_store (d_core d).
  Proof. intros Hw. by destruct (mark_spec tr d (wf_leaves _ Hw)) as (? & _). Qed.
  Lemma marked_lst tr d : wf_tree tr -> k_lst (d_core (mark_unprocessed tr d)) = k_lst (d_core d).
  Proof. intros Hw. by destruct (mark_spec tr d (wf_leaves _ Hw)) as (_ & ? & _). Qed.
  Lemma marked_log tr d : wf_tree tr -> k_log (d_core (mark_unprocessed tr d)) = k_log (d_core d).
  Proof. intros Hw. by destruct (mark_spec tr d (wf_leaves _ Hw)) as (_ & _ & ? & _). Qed.
  (** A leaf of the model counts as processed at the start exactly if it is a bus builder. *)
  Lemma marked_leaf tr d l :
    wf_tree tr -> l ∈ leaves tr ->
    l_id l ∈ k_done (d_core (mark_unprocessed tr d)) <-> is_builder (l_cls l) = true.
  Proof.
    intros Hw Hl. destruct (mark_spec tr d (wf_leaves _ Hw)) as (_ & _ & _ & _ & ->).
    unfold marked_done. split.
    - intros [[Hn _]|(l' & Hl' & Heq & Hb)].
      + exfalso. apply Hn, elem_of_list_fmap. eauto.
      + assert (l' = l) as ->; [|done].
        pose proof (wf_leaves _ Hw) as Hnd. clear -Hnd Hl Hl' Heq.
        induction (leaves tr) as [|x L IH]; [by apply elem_of_nil in Hl|].
        cbn in Hnd. apply NoDup_cons in Hnd as [Hx Hnd].
        apply elem_of_cons in Hl as [->|Hl]; apply elem_of_cons in Hl' as [->|Hl']; [done| | |by apply IH].
        * exfalso. apply Hx. rewrite <- Heq. apply elem_of_list_fmap. eauto.
        * exfalso. apply Hx. rewrite Heq. apply elem_of_list_fmap. eauto.
    - intros Hb. right. eauto.
  Qed.

  (** ** At most once, only when ready; nothing left out *)
  Lemma evaluate_ok dbg tr t d u d' :
    wf_tree tr -> evaluate dbg tr t d = Ok u d' ->
    exists ls, legal_run dbg t (d_core (mark_unprocessed tr d)) ls (d_core d') /\
      (forall l, l ∈ ls -> l ∈ leaves tr) /\ exhausted (leaves tr) (d_core d').
  Proof. intros Hw Hr. pose proof (evaluate_spec dbg tr t d Hw) as Hp. rewrite Hr in Hp. exact Hp. Qed.

  Lemma legal_run_ids dbg t c ls c' :
    legal_run dbg t c ls c' -> NoDup (map l_id ls) /\ k_log c' = k_log c ++ map (fun l => EvAct (l_id l) t) ls.
  Proof. intros Hr. apply legal_run_basic in Hr. tauto. Qed.

  (** ** Order independence *)
  Lemma evaluate_confluent tr1 tr2 t d d1 :
    wf_tree tr1 -> wf_tree tr2 -> leaves tr1 ≡ₚ leaves tr2 ->
    (forall l, l ∈ leaves tr1 -> local (dom (k_store (d_core d))) l) -> store_ok (k_store (d_core d)) ->
    evaluate true tr1 t d = Ok tt d1 ->
    exists d2 ls1 ls2, evaluate true tr2 t d = Ok tt d2 /\
      k_store (d_core d1) = k_store (d_core d2) /\ k_lst (d_core d1) = k_lst (d_core d2) /\
      k_done (d_core d1) = k_done (d_core d2) /\
      ls1 ≡ₚ ls2 /\
      k_log (d_core d1) = k_log (d_core d) ++ map (fun l => EvAct (l_id l) t) ls1 /\
      k_log (d_core d2) = k_log (d_core d) ++ map (fun l => EvAct (l_id l) t) ls2.
  Proof.
    intros H1 H2 Hp Hloc Hok Hr.
    pose proof (evaluate_ok _ _ _ _ _ _ H1 Hr) as (ls1 & Hr1 & Hin1 & Hex1).
    pose proof (evaluate_spec true tr2 t d H2) as He2.
    rewrite <- (marked_core_eq tr1 tr2 d H1 H2 Hp) in He2.
    assert (store_ok (k_store (d_core (mark_unprocessed tr1 d)))) as Hok' by (by rewrite marked_store).
    assert (forall x, x ∈ leaves tr1 <-> x ∈ leaves tr2) as Hx by (intros x; by rewrite Hp).
    assert (exhausted (leaves tr2) (d_core d1)) as Hex1' by (intros l Hl; apply Hex1; by apply Hx).
    assert (NoDup (map l_id (leaves tr2))) as Hnd by (by apply wf_leaves).
    assert (forall l, l ∈ leaves tr2 -> local (dom (k_store (d_core (mark_unprocessed tr1 d)))) l) as Hloc' by (intros l Hl; rewrite marked_store by done; apply Hloc; by apply Hx).
    assert (forall l, l ∈ ls1 -> l ∈ leaves tr2) as Hin1' by (intros l Hl; apply Hx; auto).
    assert (forall r, ~ failed true t (A:=unit) (leaves tr2) (d_core (mark_unprocessed tr1 d)) r) as Hnf.
    { intros r. by apply (no_failure t _ (leaves tr2) ls1 (d_core d1)). }
    destruct (evaluate true tr2 t d) as [[] d2|e d2|u|]; cbn [res_core eval_post] in He2;
      try (exfalso; by eapply Hnf).
    destruct He2 as (ls2 & Hr2 & Hin2 & Hex2).
    destruct (confluence t _ (leaves tr2) ls1 (d_core d1) ls2 (d_core d2) Hok' Hnd Hloc'
                Hr1 Hin1' Hex1' Hr2 Hin2 Hex2) as (Hpl & Hs & Hl & Hd).
    exists d2, ls1, ls2. split_and!; [done..| |].
    - apply legal_run_ids in Hr1 as [_ ->]. by rewrite (marked_log tr1).
    - apply legal_run_ids in Hr2 as [_ ->]. by rewrite (marked_log tr1).
  Qed.

  (** ** Remembered order *)
  Lemma unproc_marked tr po d :
    wf_tree tr -> (forall n, n ∈ po -> n ∈ nodes tr) ->
    (forall l, l ∈ leaves tr -> is_builder (l_cls l) = false) ->
    unproc (mark_unprocessed tr d) po = po.
  Proof.
    intros Hw Hin Hb. unfold unproc. induction po as [|n po IH]; [done|]. cbn [List.filter].
    assert (node_processed n (mark_unprocessed tr d) = false) as ->.
    { specialize (Hin n (elem_of_list_here _ _)). destruct n as [l|b k]; cbn.
      - unfold is_done. apply bool_decide_eq_false. apply nodes_leaves in Hin.
        rewrite (marked_leaf tr d l Hw Hin). by rewrite Hb.
      - unfold is_sdone. apply bool_decide_eq_false.
        destruct (mark_spec tr d (wf_leaves _ Hw)) as (_ & _ & _ & -> & _).
        intros [_ Hn]. apply Hn. rewrite <- po_subs_nodes. apply po_subs_elem. eauto. }
    cbn. rewrite IH; [done|]. intros n' Hn'. apply Hin. by apply elem_of_list_further.
  Qed.

  Lemma po_leaves_perm (po po' : list (node D)) : po ≡ₚ po' -> po_leaves po ≡ₚ po_leaves po'.
  Proof. apply concat_map_perm. Qed.

  Lemma evaluate_reuse_perm dbg tr po t d po' d' :
    wf_tree tr -> po ≡ₚ nodes tr ->
    (forall l, l ∈ leaves tr -> is_builder (l_cls l) = false) ->
    evaluate_reuse dbg tr po t d = Ok po' d' -> po' ≡ₚ nodes tr.
  Proof.
    intros Hw Hp Hb Hr. assert (NoDup (map node_id po)) as Hn by (by rewrite Hp).
    pose proof (reuse_all_spec dbg t po (mark_unprocessed tr d) Hn) as Hs.
    unfold evaluate_reuse in Hr. rewrite Hr in Hs. destruct Hs as (_ & Hp' & _).
    rewrite unproc_marked in Hp'; [by etrans|done| |done]. intros n. by rewrite Hp.
  Qed.

  (** Nodes of [po] that take part in an evaluation. *)
  Lemma exhausted_sub L L' c :
    (forall l, l ∈ L -> l ∈ L' \/ l_id l ∈ k_done c) -> exhausted L' c -> exhausted L c.
  Proof. intros Hs He l Hl. destruct (Hs l Hl); [by apply He|by left]. Qed.

  (** Both evaluations complete together and agree, for every remembered order
      that contains everything but possibly some bus builders. *)
  Definition covers tr (po : list (node D)) : Prop :=
    NoDup (map node_id po) /\ (forall n, n ∈ po -> n ∈ nodes tr) /\
    (forall n, n ∈ nodes tr -> n ∈ po \/ exists l, n = NLeaf l /\ is_builder (l_cls l) = true).

  Lemma covers_perm tr po : wf_tree tr -> po ≡ₚ nodes tr -> covers tr po.
  Proof.
    intros Hw Hp. split; [|split]; [by rewrite Hp|intros n; by rewrite Hp|].
    intros n Hn. left. by rewrite Hp.
  Qed.

  Lemma covers_exhausted tr po d c ls dbg t :
    wf_tree tr -> covers tr po -> legal_run dbg t (d_core (mark_unprocessed tr d)) ls c ->
    (exhausted (po_leaves po) c <-> exhausted (leaves tr) c).
  Proof.
    intros Hw (Hn & Hin & Hcov) Hr. split; apply exhausted_sub; intros l Hl.
    - destruct (Hcov (NLeaf l)) as [Hpo|(l' & [= <-] & Hb)]; [by apply nodes_leaves|left; by apply po_leaves_elem|].
      right. eapply legal_run_done_mono; [done|]. by apply marked_leaf.
    - left. apply nodes_leaves, Hin. by apply po_leaves_elem.
  Qed.

  Lemma reuse_confluent_from tr po t d d1 :
    wf_tree tr -> covers tr po ->
    (forall l, l ∈ leaves tr -> local (dom (k_store (d_core d))) l) -> store_ok (k_store (d_core d)) ->
    (forall l, l ∈ leaves tr -> is_builder (l_cls l) = false) ->
    evaluate true tr t d = Ok tt d1 ->
    exists po' d2 ls1 ls2, evaluate_reuse true tr po t d = Ok po' d2 /\
      k_store (d_core d1) = k_store (d_core d2) /\ k_lst (d_core d1) = k_lst (d_core d2) /\
      k_done (d_core d1) = k_done (d_core d2) /\ ls1 ≡ₚ ls2 /\
      k_log (d_core d1) = k_log (d_core d) ++ map (fun l => EvAct (l_id l) t) ls1 /\
      k_log (d_core d2) = k_log (d_core d) ++ map (fun l => EvAct (l_id l) t) ls2.
  Proof.
    intros Hw Hcov Hloc Hok Hb Hr. pose proof Hcov as (Hn & Hin & _).
    pose proof (evaluate_ok _ _ _ _ _ _ Hw Hr) as (ls1 & Hr1 & Hin1 & Hex1).
    pose proof (reuse_all_spec true t po (mark_unprocessed tr d) Hn) as Hs. unfold evaluate_reuse.
    assert (store_ok (k_store (d_core (mark_unprocessed tr d)))) as Hok' by (by rewrite marked_store).
    assert (forall l, l ∈ leaves tr -> local (dom (k_store (d_core (mark_unprocessed tr d)))) l) as Hlocm by (by rewrite marked_store).
    assert (forall A (r : res (core D) A), ~ failed true t (po_leaves po) (d_core (mark_unprocessed tr d)) r) as Hnf.
    { intros A r (ls & c1 & l & Hrl & Hil & Hl & Hpk & Hf).
      assert (forall x, x ∈ po_leaves po -> x ∈ leaves tr) as Hsub.
      { intros x Hx. apply nodes_leaves, Hin. by apply po_leaves_elem. }
      apply (no_failure t _ (leaves tr) ls1 (d_core d1) r Hok' (wf_leaves _ Hw) Hlocm Hr1 Hin1 Hex1).
      exists ls, c1, l. split_and!; [done|intros x Hx; by apply Hsub, Hil|by apply Hsub|done|done]. }
    rewrite (unproc_marked tr po d Hw Hin Hb) in Hs || idtac.
    destruct (reuse_all true po t (mark_unprocessed tr d)) as [po' d2|e d2|u|]; cbn [reuse_post] in Hs.
    - destruct Hs as [(ls2 & Hr2 & Hin2 & Hex2) _].
      assert (forall l, l ∈ ls2 -> l ∈ leaves tr) as Hin2'.
      { intros l Hl. apply nodes_leaves, Hin, po_leaves_elem. auto. }
      apply (covers_exhausted tr po d _ ls2 true t Hw Hcov Hr2) in Hex2.
      destruct (confluence t _ (leaves tr) ls1 (d_core d1) ls2 (d_core d2) Hok' (wf_leaves _ Hw) Hlocm
                Hr1 Hin1 Hex1 Hr2 Hin2' Hex2) as (Hpl & Hst & Hl & Hd).
      exists po', d2, ls1, ls2. split_and!; [done..| |].
      + apply legal_run_ids in Hr1 as [_ ->]. by rewrite marked_log.
      + apply legal_run_ids in Hr2 as [_ ->]. by rewrite marked_log.
    - exfalso. destruct Hs as [Hs|(_ & _ & Hne & _)]; [by eapply Hnf|].
      by rewrite (unproc_marked tr po d Hw Hin Hb) in Hne.
    - exfalso. by eapply Hnf.
    - done.
  Qed.

  Lemma reuse_confluent_to tr po t d po' d2 :
    wf_tree tr -> covers tr po ->
    (forall l, l ∈ leaves tr -> local (dom (k_store (d_core d))) l) -> store_ok (k_store (d_core d)) ->
    evaluate_reuse true tr po t d = Ok po' d2 ->
    exists d1, evaluate true tr t d = Ok tt d1 /\
      k_store (d_core d1) = k_store (d_core d2) /\ k_lst (d_core d1) = k_lst (d_core d2) /\
      k_done (d_core d1) = k_done (d_core d2).
  Proof.
    intros Hw Hcov Hloc Hok Hr. pose proof Hcov as (Hn & Hin & _).
    pose proof (reuse_all_spec true t po (mark_unprocessed tr d) Hn) as Hs. unfold evaluate_reuse in Hr.
    rewrite Hr in Hs. destruct Hs as [(ls2 & Hr2 & Hin2 & Hex2) _].
    assert (store_ok (k_store (d_core (mark_unprocessed tr d)))) as Hok' by (by rewrite marked_store).
    assert (forall l, l ∈ leaves tr -> local (dom (k_store (d_core (mark_unprocessed tr d)))) l) as Hlocm by (by rewrite marked_store).
    assert (forall l, l ∈ ls2 -> l ∈ leaves tr) as Hin2'.
    { intros l Hl. apply nodes_leaves, Hin, po_leaves_elem. auto. }
    apply (covers_exhausted tr po d _ ls2 true t Hw Hcov Hr2) in Hex2.
    pose proof (evaluate_spec true tr t d Hw) as He.
    assert (forall r, ~ failed true t (A:=unit) (leaves tr) (d_core (mark_unprocessed tr d)) r) as Hnf.
    { intros r. by apply (no_failure t _ (leaves tr) ls2 (d_core d2) r Hok' (wf_leaves _ Hw) Hlocm). }
    destruct (evaluate true tr t d) as [[] d1|e d1|u|]; cbn [res_core eval_post] in He;
      try (exfalso; by eapply Hnf).
    destruct He as (ls1 & Hr1 & Hin1 & Hex1).
    destruct (confluence t _ (leaves tr) ls1 (d_core d1) ls2 (d_core d2) Hok' (wf_leaves _ Hw) Hlocm
                Hr1 Hin1 Hex1 Hr2 Hin2' Hex2) as (Hpl & Hst & Hl & Hd).
    exists d1. split_and!; done.
  Qed.

  (** ** Complete models and algebraic loops *)
  Lemma legal_run_in dbg t c ls c' l :
    legal_run dbg t c ls c' -> l ∈ ls ->
    exists c1 c2, activate dbg l t c1 = Ok tt c2 /\ l_id l ∉ k_done c1 /\ inputs_there (k_store c1) l /\
      (forall s, assigned (k_store c2) s = true -> assigned (k_store c') s = true).
  Proof.
    induction 1 as [|ls c1 l' c2 H1 IH Hd Hi Ha]; intros Hl; [by apply elem_of_nil in Hl|].
    apply elem_of_app in Hl as [Hl|Hl].
    - destruct (IH Hl) as (ca & cb & Hact & Hnd & Hit & Hm). exists ca, cb. split_and!; [done..|].
      intros s Hs. cbn. eapply activate_assigned; [done|]. auto.
    - apply elem_of_list_singleton in Hl as ->. exists c1, c2. split_and!; done.
  Qed.

  Lemma done_in_run dbg t c ls c' l L :
    legal_run dbg t c ls c' -> (forall x, x ∈ ls -> x ∈ L) -> NoDup (map l_id L) -> l ∈ L ->
    l_id l ∈ k_done c' -> l_id l ∉ k_done c -> l ∈ ls.
  Proof.
    intros Hr Hin Hnd Hl Hd Hn. apply legal_run_basic in Hr as (_ & _ & Hdone & _).
    rewrite Hdone in Hd. apply elem_of_union in Hd as [Hd|Hd]; [|done].
    apply elem_of_list_to_set, elem_of_list_fmap in Hd as (l' & Heq & Hl').
    assert (l' = l) as ->; [|done]. specialize (Hin _ Hl'). clear -Hnd Hl Hin Heq.
    induction L as [|x L IH]; [by apply elem_of_nil in Hl|].
    cbn in Hnd. apply NoDup_cons in Hnd as [Hx Hnd].
    apply elem_of_cons in Hl as [->|Hl]; apply elem_of_cons in Hin as [->|Hin]; [done| | |by apply IH].
    - exfalso. apply Hx. rewrite Heq. apply elem_of_list_fmap. eauto.
    - exfalso. apply Hx. rewrite <- Heq. apply elem_of_list_fmap. eauto.
  Qed.

  Lemma ranked_complete dbg t c ls c' L (rank : leaf D -> nat) :
    legal_run dbg t c ls c' -> (forall x, x ∈ ls -> x ∈ L) -> NoDup (map l_id L) -> exhausted L c' ->
    (forall l, l ∈ L -> l_id l ∉ k_done c) ->
    (forall l s, l ∈ L -> s ∈ required l -> assigned (k_store c) s = true \/
       exists l', l' ∈ L /\ rank l' < rank l /\ always_writes dbg l' s) ->
    forall l, l ∈ L -> l ∈ ls.
  Proof.
    intros Hr Hin Hnd Hex Hfresh Hrank.
    assert (forall n l, rank l < n -> l ∈ L -> l ∈ ls) as Hall; [|intros l; apply (Hall (S (rank l))); lia].
    induction n as [|n IH]; intros l Hn Hl; [lia|].
    destruct (Hex l Hl) as [Hd|(s & Hs & Ha)].
    - eapply done_in_run; eauto.
    - exfalso. destruct (Hrank l s Hl Hs) as [Hc|(l' & Hl' & Hlt & Hw)].
      + rewrite (legal_run_assigned dbg t c ls c' s Hr Hc) in Ha. done.
      + assert (l' ∈ ls) as Hin' by (apply IH; [lia|done]).
        destruct (legal_run_in _ _ _ _ _ _ Hr Hin') as (c1 & c2 & Hact & _ & _ & Hm).
        apply Hw in Hact. rewrite (Hm s Hact) in Ha. done.
  Qed.

  Lemma loop_never dbg t c ls c' (X : leaf D -> Prop) :
    legal_run dbg t c ls c' ->
    (forall l, X l -> exists s, s ∈ required l /\ assigned (k_store c) s = false /\
       forall l', l' ∈ ls -> ~ X l' -> never_writes dbg l' s) ->
    forall l, l ∈ ls -> ~ X l.
  Proof.
    intros Hr HX.
    assert ((forall l, l ∈ ls -> ~ X l) /\
      forall s, assigned (k_store c) s = false -> (forall l', l' ∈ ls -> ~ X l' -> never_writes dbg l' s) ->
        assigned (k_store c') s = false) as [? _]; [|done].
    assert (forall l, X l -> exists s, s ∈ required l /\ assigned (k_store c) s = false /\
       forall l', l' ∈ ls -> ~ X l' -> never_writes dbg l' s) as HX' by done. clear HX. revert HX'.
    induction Hr as [|ls c1 l' c2 H1 IH Hd Hi Ha]; intros HX.
    - split; [intros l Hl; by apply elem_of_nil in Hl|]. done.
    - destruct IH as [IH1 IH2].
      { intros l Hl. destruct (HX l Hl) as (s & Hs & Hns & Hw). exists s. split_and!; [done..|].
        intros x Hx. apply Hw. apply elem_of_app. by left. }
      assert (~ X l') as Hl'.
      { intros Hl'. destruct (HX l' Hl') as (s & Hs & Hns & Hw).
        specialize (Hi s Hs). rewrite (IH2 s) in Hi; [done|done|].
        intros x Hx. apply Hw. apply elem_of_app. by left. }
      split.
      + intros l Hl. apply elem_of_app in Hl as [Hl|Hl]; [auto|]. by apply elem_of_list_singleton in Hl as ->.
      + intros s Hs Hw. cbn. apply (Hw l' ltac:(apply elem_of_app; right; by apply elem_of_list_singleton) Hl' t c1 c2 Ha).
        apply IH2; [done|]. intros x Hx. apply Hw. apply elem_of_app. by left.
  Qed.
End eval.
