(** One evaluation as a simulator does it, in the two modes of Simulator. *)
From stdpp Require Import prelude gmap.
From Coq Require Import ZArith.
From Verif Require Import Num Res Store Leaf Sched Stepper Sim SpecSched Util P_Store P_Prog P_Sched P_Modes P_Conf P_Eval.

Section sim.
  Context {D : Type} `{NumOps D}.
  Implicit Types (g : cfg D) (s : simst D) (d : dyn D) (tr : tree D) (po : list (node D)).

  (** The order Simulator would use next. *)
  Definition remembered s : option (list (node D)) :=
    match s_cur s with None => None | Some true => Some (s_po1 s) | Some false => Some (s_po2 s) end.
  (** The order stored when an evaluation has computed [po]. *)
  Definition remember po s : simst D :=
    match s_cur s with
    | None => s
    | Some true => put_po (s_po1 s) po (Some false) s
    | Some false => put_po po (s_po2 s) (Some true) s
    end.
  (** A simulator object that Simulator can evaluate: with reuse_order it must
      have an order made of the blocks of the model. *)
  Definition ordered g s : Prop :=
    match g_mode g with
    | MDefault => True
    | MReuse => exists po, remembered s = Some po /\ covers (g_tree g) po
    | MFast => False
    end.

  Lemma eval_default g t s : g_mode g = MDefault ->
    eval_model g t s = match evaluate (g_dbg g) (g_tree g) t (s_dyn s) with
                       | Ok _ d => Ok tt (put_dyn d s) | Exn e d => Exn e (put_dyn d s) | UB u => UB u | OOF => OOF end.
  Proof.
    intros Hm. unfold eval_model. rewrite Hm. unfold evaluate, on_dyn, lift, bnd, modify. cbn [s_dyn put_dyn].
    destruct (process_all (g_dbg g) (g_tree g) t (mark_unprocessed (g_tree g) (s_dyn s))) as [[] ?|? ?|?|]; done.
  Qed.
  Lemma eval_reuse g t s po : g_mode g = MReuse -> remembered s = Some po ->
    eval_model g t s = match evaluate_reuse (g_dbg g) (g_tree g) po t (s_dyn s) with
                       | Ok po' d => Ok tt (remember po' (put_dyn d s))
                       | Exn e d => Exn e (put_dyn d s) | UB u => UB u | OOF => OOF end.
  Proof.
    intros Hm Hp. unfold eval_model. rewrite Hm. unfold evaluate_reuse, on_dyn, lift, bnd, modify, gets. cbn [s_dyn put_dyn s_cur].
    unfold remembered, remember in *. cbn [s_cur put_dyn].
    destruct (s_cur s) as [[]|] eqn:Ec; simplify_eq; cbn;
      destruct (reuse_all (g_dbg g) _ t (mark_unprocessed (g_tree g) (s_dyn s))) as [? ?|? ?|?|]; cbn; rewrite ?Ec; try done.
  Qed.

  Lemma unproc_covers tr po d : wf_tree tr -> covers tr po -> covers tr (unproc (mark_unprocessed tr d) po).
  Proof.
    intros Hw (Hn & Hin & Hc). unfold unproc. split; [|split].
    - clear -Hn. induction po as [|n po IH]; [done|]. cbn in *. apply NoDup_cons in Hn as [Hn1 Hn2].
      destruct (negb _); cbn; [|by apply IH]. apply NoDup_cons. split; [|by apply IH].
      intros Hx. apply Hn1. apply elem_of_list_fmap in Hx as (y & -> & Hy).
      apply elem_of_list_In, filter_In in Hy as [Hy _]. apply elem_of_list_fmap. exists y. split; [done|]. by apply elem_of_list_In.
    - intros n Hx. apply elem_of_list_In, filter_In in Hx as [Hx _]. apply Hin. by apply elem_of_list_In.
    - intros n Hx. destruct (Hc n Hx) as [Hp|Hb]; [|by right].
      destruct (node_processed n (mark_unprocessed tr d)) eqn:E.
      + right. destruct n as [l|b k]; cbn in E.
        * unfold is_done in E. apply bool_decide_eq_true in E. apply nodes_leaves in Hx.
          rewrite (marked_leaf tr d l Hw Hx) in E. eauto.
        * exfalso. unfold is_sdone in E. apply bool_decide_eq_true in E.
          destruct (mark_spec tr d (wf_leaves _ Hw)) as (_ & _ & _ & Hs & _). rewrite Hs in E.
          destruct E as [_ Hno]. apply Hno. rewrite <- po_subs_nodes. apply po_subs_elem. eauto.
      + left. apply elem_of_list_In, filter_In. split; [by apply elem_of_list_In|]. by rewrite E.
  Qed.
  Lemma covers_equiv tr po po' : po ≡ₚ po' -> covers tr po -> covers tr po'.
  Proof.
    intros Hp (Hn & Hin & Hc). split; [by rewrite <- Hp|]. split.
    - intros n. rewrite <- Hp. apply Hin.
    - intros n Hx. rewrite <- Hp. by apply Hc.
  Qed.
  Lemma evaluate_reuse_covers dbg tr po t d po' d' :
    wf_tree tr -> covers tr po -> evaluate_reuse dbg tr po t d = Ok po' d' -> covers tr po'.
  Proof.
    intros Hw Hc Hr. pose proof (reuse_all_spec dbg t po (mark_unprocessed tr d) (proj1 Hc)) as Hs.
    unfold evaluate_reuse in Hr. rewrite Hr in Hs. destruct Hs as (_ & Hp & _).
    eapply covers_equiv; [symmetry; exact Hp|]. by apply unproc_covers.
  Qed.

  (** Outcome of an evaluation by Simulator. *)
  Definition sim_post g t s (r : res (simst D) unit) : Prop :=
    let c0 := d_core (mark_unprocessed (g_tree g) (s_dyn s)) in
    let L := leaves (g_tree g) in
    match r with
    | Ok _ s' => (exists ls, legal_run (g_dbg g) t c0 ls (s_core s') /\ (forall l, l ∈ ls -> l ∈ L) /\
                             exhausted L (s_core s')) /\ ordered g s'
    | Exn e s' =>
        ((exists ls, legal_run (g_dbg g) t c0 ls (s_core s') /\ (forall l, l ∈ ls -> l ∈ L)) \/
         failed (g_dbg g) t (A:=unit) L c0 (Exn e (s_core s'))) /\ ordered g s'
    | UB u => failed (g_dbg g) t (A:=unit) L c0 (UB u)
    | OOF => False
    end.

  Lemma failed_sub {A} dbg t (L L' : list (leaf D)) c (r : res (core D) A) :
    (forall l, l ∈ L -> l ∈ L') -> failed dbg t L c r -> failed dbg t L' c r.
  Proof. intros Hs (ls & c1 & l & ? & ? & ? & ? & ?). exists ls, c1, l. split_and!; auto. Qed.

  Lemma eval_model_spec g t s : wf_tree (g_tree g) -> ordered g s -> sim_post g t s (eval_model g t s).
  Proof.
    intros Hw Ho. unfold ordered in Ho. destruct (g_mode g) eqn:Em; [| |done].
    - rewrite eval_default by done. pose proof (evaluate_spec (g_dbg g) (g_tree g) t (s_dyn s) Hw) as Hs.
      unfold sim_post, ordered. rewrite Em. cbv zeta.
      destruct (evaluate _ _ _ _) as [[] d|e d|u|]; cbn [res_core eval_post] in Hs.
      + split; [|done]. exact Hs.
      + split; [|done]. right. exact Hs.
      + exact Hs.
      + by destruct Hs as (? & ? & ? & _ & _ & _ & _ & []).
    - destruct Ho as (po & Hp & Hc). rewrite (eval_reuse g t s po Em Hp).
      pose proof (reuse_all_spec (g_dbg g) t po (mark_unprocessed (g_tree g) (s_dyn s)) (proj1 Hc)) as Hs.
      pose proof (evaluate_reuse_covers (g_dbg g) (g_tree g) po t (s_dyn s)) as Hcov.
      change (reuse_all (g_dbg g) po t (mark_unprocessed (g_tree g) (s_dyn s)))
        with (evaluate_reuse (g_dbg g) (g_tree g) po t (s_dyn s)) in Hs.
      unfold sim_post, ordered. rewrite Em. cbv zeta.
      assert (forall l, l ∈ po_leaves po -> l ∈ leaves (g_tree g)) as Hsub.
      { intros l Hl. apply po_leaves_elem in Hl. apply nodes_leaves. by apply Hc. }
      destruct (evaluate_reuse _ _ _ _ _) as [po' d|e d|u|]; cbn [reuse_post] in Hs.
      + assert (forall po'', s_core (remember po'' (put_dyn d s)) = d_core d) as Hcore.
        { intros po''. unfold remember. cbn. by destruct (s_cur s) as [[]|]. }
        rewrite Hcore. destruct Hs as ((ls & Hr & Hin & Hex) & _ & _). split.
        * exists ls. split_and!; [done|auto|]. by eapply covers_exhausted.
        * exists po'. split; [|by eapply Hcov]. unfold remembered, remember in *. cbn. by destruct (s_cur s) as [[]|].
      + split.
        * destruct Hs as [Hf|(_ & _ & _ & ls & Hr & Hin & _)].
          -- right. by eapply failed_sub.
          -- left. exists ls. split; auto.
        * exists po. done.
      + by eapply failed_sub.
      + done.
  Qed.

  (** ** Nothing in an evaluation runs forever *)
  Definition finite {S A} (m : M S A) : Prop := forall x : S, m x ≠ OOF.
  Lemma finite_bnd {S A B} (m : M S A) (k : A -> M S B) : finite m -> (forall a, finite (k a)) -> finite (bnd m k).
  Proof. intros Hm Hk x. unfold bnd. destruct (m x) eqn:E; [by apply Hk|done..|by apply Hm in E]. Qed.
  Lemma finite_lift {S T A} (get : T -> S) put (m : M S A) : finite m -> finite (lift get put m).
  Proof. intros Hm t. unfold lift. destruct (m (get t)) eqn:E; try done. by apply Hm in E. Qed.
  Lemma finite_prog {A} dbg (p : prog D A) : finite (run_prog dbg p).
  Proof.
    induction p as [a|s k IH|s v k IH|b e k IH|e|u]; cbn [run_prog]; try done.
    - apply finite_bnd; [|done]. intros σ. unfold get_value, bnd, debug_verify, verify, gets, ret, throw, undef.
      repeat case_match; done.
    - apply finite_bnd; [|done]. intros σ. unfold set_value, bnd, debug_verify, verify, gets, ret, throw, undef.
      repeat case_match; done.
    - apply finite_bnd; [|done]. intros σ. unfold debug_verify, verify, ret, throw. by destruct dbg, b.
  Qed.
  Lemma finite_leaf dbg ev l p : finite (run_leaf (D:=D) dbg ev l p).
  Proof.
    intros c. unfold run_leaf. pose proof (finite_prog dbg (p (lst_of c (l_id l))) (k_store c)).
    by destruct (run_prog _ _ _).
  Qed.
  Lemma finite_pre dbg : forall tr t, finite (pre_step dbg tr t).
  Proof.
    fix IH 1. intros [l|b k ch] t; cbn [pre_step]; [apply finite_leaf|].
    induction ch as [|c ch IHc]; [done|]. apply finite_bnd; [apply IH|intros ?; apply IHc].
  Qed.
  Lemma finite_post dbg : forall tr t, finite (post_step dbg tr t).
  Proof.
    fix IH 1. intros [l|b k ch] t; cbn [post_step]; [apply finite_leaf|].
    induction ch as [|c ch IHc]; [done|]. apply finite_bnd; [apply IH|intros ?; apply IHc].
  Qed.
  Lemma finite_inputs g t : finite (inputs g t).
  Proof.
    unfold inputs. apply finite_bnd; [done|intros ?]. apply finite_bnd; [|intros ?; apply finite_lift, finite_prog].
    destruct (g_inputs g); [apply finite_lift, finite_prog|done].
  Qed.

  (** A whole process_model returns or throws, whatever the state. *)
  Lemma keep_order g {A} (m : M (core D) A) s a s' : on_core' m s = Ok a s' -> ordered g s -> ordered g s'.
  Proof.
    unfold on_core', on_dyn, on_core, lift. destruct (m _); intros He; simplify_eq. done.
  Qed.
  Lemma process_model_finite g t pre post s :
    wf_tree (g_tree g) -> ordered g s -> process_model g t pre post s ≠ OOF.
  Proof.
    intros Hw Ho. unfold process_model. unfold bnd at 1.
    pose proof (finite_inputs g t) as Hi. assert (finite (on_core' (inputs g t))) as Hi' by (by apply finite_lift, finite_lift).
    specialize (Hi' s). destruct (on_core' (inputs g t) s) as [[] s1| | |] eqn:E1; try done. clear Hi Hi'.
    pose proof (keep_order g _ _ _ _ E1 Ho) as Ho1. unfold bnd at 1.
    set (mp := on_core' (pre_step (g_dbg g) (g_tree g) t ;;; snap (EvBegin t))).
    assert (match (if pre then mp else ret tt) s1 with
            | Ok _ s2 => ordered g s2 | OOF => False | _ => True end) as Hp.
    { destruct pre; [|done]. assert (finite mp) as Hf by (by apply finite_lift, finite_lift, finite_bnd; [apply finite_pre|]).
      specialize (Hf s1). unfold mp in *. destruct (on_core' _ s1) eqn:E2; try done. by eapply keep_order. }
    destruct ((if pre then mp else ret tt) s1) as [[] s2| | |]; try done.
    unfold bnd. pose proof (eval_model_spec g t s2 Hw Hp) as He. destruct (eval_model g t s2) as [[] s3| | |]; try done.
    cbn. destruct post; [|done]. by apply finite_lift, finite_lift, finite_bnd; [apply finite_post|].
  Qed.
End sim.
