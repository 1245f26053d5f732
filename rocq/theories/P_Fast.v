(** FastSimulator: the recorded order, and evaluating in it. *)
From stdpp Require Import prelude gmap.
From Coq Require Import ZArith.
From Verif Require Import Num Res Store Leaf Sched SpecSched P_Store P_Prog Util P_Sched P_Modes P_Conf P_Eval.

Section fast.
  Context {D : Type} `{NumOps D}.
  Implicit Types (c : core D) (d : dyn D) (l : leaf D) (tr : tree D) (ls : list (leaf D)).

  Lemma perm_of_nodup_len ls (L : list (leaf D)) :
    NoDup (map l_id ls) -> (forall x, x ∈ ls -> x ∈ L) -> length ls = length L -> ls ≡ₚ L.
  Proof.
    intros Hn Hin Hlen. assert (NoDup ls) as Hnd by (by eapply NoDup_fmap_1).
    apply submseteq_Permutation_length_eq; [done|]. by apply NoDup_submseteq.
  Qed.

  Lemma fast_complete dbg t L c order n c' :
    NoDup (map l_id L) -> fast_schedule dbg L t c = Ok (order, n) c' ->
    (n = length L <-> concat order ≡ₚ L).
  Proof.
    intros Hn Hr. pose proof (fast_schedule_spec dbg t L c Hn) as Hs. rewrite Hr in Hs.
    destruct Hs as (Hl & Hin & -> & _). apply legal_run_ids in Hl as [Hnd _]. split.
    - by apply perm_of_nodup_len.
    - by intros ->.
  Qed.

  Lemma fast_schedule_converse t L c ls c1 :
    store_ok (k_store c) -> NoDup (map l_id L) -> (forall l, l ∈ L -> local (dom (k_store c)) l) ->
    legal_run true t c ls c1 -> ls ≡ₚ L ->
    exists order c', fast_schedule true L t c = Ok (order, length L) c' /\ concat order ≡ₚ L /\
      k_store c1 = k_store c' /\ k_lst c1 = k_lst c' /\ k_done c1 = k_done c'.
  Proof.
    intros Hok Hn Hloc Hr Hp.
    assert (forall l, l ∈ ls -> l ∈ L) as Hin by (intros l; by rewrite Hp).
    assert (exhausted L c1) as Hex.
    { intros l Hl. left. apply legal_run_basic in Hr as (_ & _ & -> & _).
      apply elem_of_union_l, elem_of_list_to_set, elem_of_list_fmap. exists l. split; [done|]. by rewrite Hp. }
    pose proof (fast_schedule_spec true t L c Hn) as Hs.
    assert (forall r, ~ failed true t (A:=unit) L c r) as Hnf.
    { intros r. by apply (no_failure t c L ls c1 r Hok Hn Hloc). }
    destruct (fast_schedule true L t c) as [[order n] c'|e c'|u|]; [|exfalso; by eapply Hnf|exfalso; by eapply Hnf|done].
    destruct Hs as (Hl & Hin' & -> & Hex').
    destruct (confluence t c L ls c1 (concat order) c' Hok Hn Hloc Hr Hin Hex Hl Hin' Hex') as (Hp' & Hs & Hm & Hd).
    exists order, c'. rewrite <- Hp', Hp. split_and!; try done.
  Qed.

  (** ** Evaluation in the recorded order *)
  Definition acts dbg (t : D) (ls : list (leaf D)) : M (core D) unit := forM ls (fun l => activate dbg l t).
  Lemma acts_app dbg t ls1 ls2 c :
    acts dbg t (ls1 ++ ls2) c = (acts dbg t ls1 ;;; acts dbg t ls2) c.
  Proof.
    revert c. induction ls1 as [|l ls1 IH]; intros c; [done|]. cbn [app acts forM]. unfold bnd.
    destruct (activate dbg l t c) as [u c1| | |]; [|done..]. pose proof (IH c1) as Hi. unfold bnd, acts in *.
    by rewrite Hi.
  Qed.
  Lemma fast_eval_acts dbg order t c : fast_eval dbg order t c = acts dbg t (concat order) c.
  Proof.
    revert c. induction order as [|ls order IH]; intros c; [done|].
    cbn [concat]. rewrite acts_app. unfold fast_eval. cbn [forM]. unfold bnd.
    change (forM ls (fun l => activate dbg l t)) with (acts dbg t ls).
    destruct (acts dbg t ls c); [|done..]. apply IH.
  Qed.

  Lemma same_state_refl c : same_state c c.
  Proof. done. Qed.
  Lemma same_state_sym c c' : same_state c c' -> same_state c' c.
  Proof. intros [? ?]. split; [done|]. intros b. by symmetry. Qed.
  Lemma same_state_trans c1 c2 c3 : same_state c1 c2 -> same_state c2 c3 -> same_state c1 c3.
  Proof. intros [? H1] [? H2]. split; [congruence|]. intros b. by rewrite H1. Qed.

  Lemma activate_same dbg t l c1 c2 c1' :
    same_state c1 c2 -> activate dbg l t c1 = Ok tt c1' ->
    exists c2', activate dbg l t c2 = Ok tt c2' /\ same_state c1' c2'.
  Proof.
    intros [Hs Hl] Ha. unfold activate, run_leaf in *. rewrite <- Hl, <- Hs.
    destruct (run_prog dbg _ _) as [st σ| | |]; try done. simplify_eq. eexists. split; [done|].
    split; [done|]. intros b. unfold lst_of in *. cbn.
    destruct (decide (b = l_id l)) as [->|Hne]; [by rewrite !lookup_insert|].
    rewrite !lookup_insert_ne by done. apply Hl.
  Qed.
  Lemma acts_same dbg t ls c1 c2 c1' :
    same_state c1 c2 -> acts dbg t ls c1 = Ok tt c1' ->
    exists c2', acts dbg t ls c2 = Ok tt c2' /\ same_state c1' c2'.
  Proof.
    revert c1 c2. induction ls as [|l ls IH]; intros c1 c2 Hs Ha; cbn in Ha.
    - unfold ret in Ha. simplify_eq. exists c2. done.
    - unfold bnd in Ha. destruct (activate dbg l t c1) as [[] c1a| | |] eqn:E; try done.
      destruct (activate_same _ _ _ _ _ _ Hs E) as (c2a & E2 & Hs2). cbn. unfold bnd. rewrite E2.
      by eapply IH.
  Qed.

  Definition nonb ls : list (leaf D) := filter (fun l => is_builder (l_cls l) = false) ls.
  Lemma builder_activate dbg t l c :
    is_builder (l_cls l) = true -> exists c', activate dbg l t c = Ok tt c' /\ same_state c c'.
  Proof.
    intros Hb. unfold activate, run_leaf, act. destruct (l_cls l); try done; cbn.
    all: eexists; split; [done|]; split; [done|]; intros b; unfold lst_of; cbn;
      (destruct (decide (b = l_id l)) as [->|Hne]; [by rewrite lookup_insert|by rewrite lookup_insert_ne]).
  Qed.
  Lemma acts_nonb dbg t ls c c' :
    acts dbg t ls c = Ok tt c' -> exists c'', acts dbg t (nonb ls) c = Ok tt c'' /\ same_state c' c''.
  Proof.
    revert c. induction ls as [|l ls IH]; intros c Ha; cbn in Ha.
    - exists c'. done.
    - unfold bnd in Ha. destruct (activate dbg l t c) as [[] c1| | |] eqn:E; try done.
      unfold nonb. rewrite filter_cons. destruct (decide (is_builder (l_cls l) = false)) as [Hb|Hb].
      + destruct (IH _ Ha) as (c2 & Ha2 & Hs2). exists c2. cbn. unfold bnd. rewrite E. done.
      + apply not_false_is_true in Hb. destruct (builder_activate dbg t l c Hb) as (c1' & E' & Hs').
        rewrite E' in E. simplify_eq. destruct (IH _ Ha) as (c2 & Ha2 & Hs2).
        destruct (acts_same dbg t (nonb ls) c1 c c2 (same_state_sym _ _ Hs') Ha2) as (c3 & Ha3 & Hs3).
        exists c3. split; [done|]. by eapply same_state_trans.
  Qed.
  Lemma nonb_acts dbg t ls c c' :
    acts dbg t (nonb ls) c = Ok tt c' -> exists c'', acts dbg t ls c = Ok tt c'' /\ same_state c' c''.
  Proof.
    revert c c'. induction ls as [|l ls IH]; intros c c' Ha.
    - exists c'. done.
    - unfold nonb in Ha. rewrite filter_cons in Ha. destruct (decide (is_builder (l_cls l) = false)) as [Hb|Hb].
      + cbn in Ha. unfold bnd in Ha. destruct (activate dbg l t c) as [[] c1| | |] eqn:E; try done.
        destruct (IH _ _ Ha) as (c2 & Ha2 & Hs2). exists c2. cbn. unfold bnd. by rewrite E.
      + apply not_false_is_true in Hb. destruct (builder_activate dbg t l c Hb) as (c1 & E & Hs).
        destruct (IH _ _ Ha) as (c2 & Ha2 & Hs2).
        destruct (acts_same dbg t ls c c1 c2 Hs Ha2) as (c3 & Ha3 & Hs3).
        exists c3. cbn. unfold bnd. rewrite E. split; [done|]. by eapply same_state_trans.
  Qed.

  (** [ls] can be run one after the other, given the signals in [A]. *)
  Fixpoint supplied (O : leaf D -> list nat) (A : nat -> Prop) ls : Prop :=
    match ls with
    | [] => True
    | l :: ls' => (forall s, s ∈ required l -> A s) /\ supplied O (fun s => A s \/ s ∈ O l) ls'
    end.
  Lemma supplied_mono O ls (A A' : nat -> Prop) : (forall s, A s -> A' s) -> supplied O A ls -> supplied O A' ls.
  Proof.
    revert A A'. induction ls as [|l ls IH]; intros A A' Hm Hs; cbn in *; [done|]. destruct Hs as [Hr Hs].
    split; [auto|]. eapply IH; [|exact Hs]. naive_solver.
  Qed.
  Lemma supplied_snoc O A ls l :
    supplied O A ls -> (forall s, s ∈ required l -> A s \/ exists l', l' ∈ ls /\ s ∈ O l') -> supplied O A (ls ++ [l]).
  Proof.
    revert A. induction ls as [|x ls IH]; intros A Hs Hr; cbn in *.
    - split; [|done]. intros s Hx. destruct (Hr s Hx) as [?|(l' & Hl' & _)]; [done|]. by apply elem_of_nil in Hl'.
    - destruct Hs as [Hx Hs]. split; [done|]. apply IH; [done|]. intros s Hs'.
      destruct (Hr s Hs') as [?|(l' & Hl' & Ho)]; [by left; left|].
      apply elem_of_cons in Hl' as [->|Hl']; [left; by right|right; eauto].
  Qed.

  Lemma run_assigned dbg t c ls c' O :
    legal_run dbg t c ls c' -> (forall l, l ∈ ls -> writes_exactly dbg O l) ->
    forall s, assigned (k_store c') s = true <-> assigned (k_store c) s = true \/ exists l, l ∈ ls /\ s ∈ O l.
  Proof.
    induction 1 as [|ls c1 l c2 H1 IH Hd Hi Ha]; intros Hw s.
    - split; [by left|]. intros [?|(l & Hl & _)]; [done|]. by apply elem_of_nil in Hl.
    - cbn. rewrite (Hw l ltac:(apply elem_of_app; right; by apply elem_of_list_singleton) t c1 c2 Ha s).
      rewrite IH by (intros x Hx; apply Hw, elem_of_app; by left).
      setoid_rewrite elem_of_app. setoid_rewrite elem_of_list_singleton. naive_solver.
  Qed.
  Lemma run_supplied dbg t c ls c' O :
    legal_run dbg t c ls c' -> (forall l, l ∈ ls -> writes_exactly dbg O l) ->
    supplied O (fun s => assigned (k_store c) s = true) ls.
  Proof.
    induction 1 as [|ls c1 l c2 H1 IH Hd Hi Ha]; intros Hw; [done|].
    assert (forall x, x ∈ ls -> writes_exactly dbg O x) as Hw' by (intros x Hx; apply Hw, elem_of_app; by left).
    apply supplied_snoc; [auto|]. intros s Hs. specialize (Hi s Hs).
    by apply (run_assigned dbg t c ls c1 O H1 Hw') in Hi.
  Qed.

  (** Builders write nothing, so they may be left out. *)
  Lemma supplied_nonb O (A : nat -> Prop) ls :
    (forall l, l ∈ ls -> is_builder (l_cls l) = true -> O l = []) -> supplied O A ls -> supplied O A (nonb ls).
  Proof.
    revert A. induction ls as [|l ls IH]; intros A Hb Hs; [done|]. cbn in Hs. destruct Hs as [Hr Hs].
    assert (forall x, x ∈ ls -> is_builder (l_cls x) = true -> O x = []) as Hb'
      by (intros x Hx; apply Hb; by apply elem_of_list_further).
    unfold nonb. rewrite filter_cons. destruct (decide (is_builder (l_cls l) = false)) as [Hl|Hl].
    - cbn. split; [done|]. by apply IH.
    - apply not_false_is_true in Hl. apply IH; [done|]. eapply supplied_mono; [|exact Hs].
      intros s [?|Hs']; [done|]. rewrite (Hb l (elem_of_list_here _ _) Hl) in Hs'. by apply elem_of_nil in Hs'.
  Qed.

  (** From an executed list to a legal run. *)
  Lemma acts_legal dbg t O ls c c' cm (A : nat -> Prop) :
    acts dbg t ls c = Ok tt c' -> same_state c cm ->
    NoDup (map l_id ls) -> (forall l, l ∈ ls -> l_id l ∉ k_done cm) ->
    (forall l, l ∈ ls -> writes_exactly dbg O l) ->
    (forall s, A s -> assigned (k_store c) s = true) -> supplied O A ls ->
    exists cm', legal_run dbg t cm ls cm' /\ same_state c' cm'.
  Proof.
    revert c cm A. induction ls as [|l ls IH]; intros c cm A Ha Hsame Hn Hd Hw HA Hs; cbn in Ha.
    - unfold ret in Ha. simplify_eq. exists cm. split; [constructor|done].
    - unfold bnd in Ha. destruct (activate dbg l t c) as [[] c1| | |] eqn:E; try done.
      destruct (activate_same _ _ _ _ _ _ Hsame E) as (cm1 & Em & Hsame1).
      cbn in Hn. apply NoDup_cons in Hn as [Hni Hn]. cbn in Hs. destruct Hs as [Hr Hs].
      assert (pick cm l) as Hp.
      { split; [apply Hd, elem_of_list_here|]. intros s Hx. destruct Hsame as [<- _]. auto. }
      pose proof (legal_run_one dbg t cm l cm1 Hp Em) as H1.
      destruct (IH c1 (mark_done (l_id l) cm1) (fun s => A s \/ s ∈ O l) Ha) as (cm' & H2 & Hs2); [done|done| | | |done|].
      + intros x Hx. cbn. rewrite (activate_done _ _ _ _ _ Em). intros Hin.
        apply elem_of_union in Hin as [Hin|Hin].
        * apply elem_of_singleton in Hin. apply Hni. rewrite <- Hin. apply elem_of_list_fmap. eauto.
        * revert Hin. apply Hd. by apply elem_of_list_further.
      + intros x Hx. apply Hw. by apply elem_of_list_further.
      + intros s [Hx|Hx]; apply (Hw l (elem_of_list_here _ _) t c c1 E s); [left; auto|by right].
      + exists cm'. split; [|done]. change (l :: ls) with ([l] ++ ls). by eapply legal_run_app.
  Qed.
  Lemma legal_acts dbg t c ls c' :
    legal_run dbg t c ls c' -> exists c'', acts dbg t ls c = Ok tt c'' /\ same_state c'' c'.
  Proof.
    induction 1 as [|ls c1 l c2 H1 (c1' & IH & Hs1) Hd Hi Ha].
    - exists c. done.
    - destruct (activate_same _ _ _ _ _ _ (same_state_sym _ _ Hs1) Ha) as (c2' & Ha' & Hs2).
      exists c2'. rewrite acts_app. unfold bnd. rewrite IH. unfold acts. cbn [forM]. unfold bnd. rewrite Ha'.
      split; [done|]. by apply same_state_sym.
  Qed.

  (** If some complete debug schedule exists, the supplied list runs. *)
  Lemma supplied_runs t O L cm lsA cA ls (A : nat -> Prop) :
    store_ok (k_store cm) -> NoDup (map l_id L) -> (forall l, l ∈ L -> local (dom (k_store cm)) l) ->
    legal_run true t cm lsA cA -> (forall l, l ∈ lsA -> l ∈ L) -> exhausted L cA ->
    (forall l, l ∈ L -> writes_exactly true O l) ->
    NoDup (map l_id ls) -> (forall l, l ∈ ls -> l ∈ L /\ l_id l ∉ k_done cm) ->
    (forall s, A s -> assigned (k_store cm) s = true) -> supplied O A ls ->
    exists cB, legal_run true t cm ls cB.
  Proof.
    intros Hok HL Hloc HrA HA HexA Hw.
    assert (forall ls1 ls2 c1, ls = ls1 ++ ls2 -> legal_run true t cm ls1 c1 ->
      (forall l, l ∈ ls1 -> l ∈ L) -> NoDup (map l_id ls2) ->
      (forall l, l ∈ ls2 -> l ∈ L /\ l_id l ∉ k_done c1) ->
      forall A : nat -> Prop, (forall s, A s -> assigned (k_store c1) s = true) -> supplied O A ls2 ->
      exists cB, legal_run true t cm ls cB) as Hgen.
    { intros ls1 ls2. revert ls1. induction ls2 as [|l ls2 IH]; intros ls1 c1 Heq Hr1 Hin1 Hn Hd A' HA' Hs.
      - rewrite app_nil_r in Heq. subst. eauto.
      - cbn in Hs. destruct Hs as [Hreq Hs]. cbn in Hn. apply NoDup_cons in Hn as [Hni Hn].
        destruct (Hd l (elem_of_list_here _ _)) as [Hl Hld].
        assert (pick c1 l) as Hp by (split; [done|intros s Hx; auto]).
        assert (exists c2, activate true l t c1 = Ok tt c2) as [c2 Hact].
        { assert (forall r, ~ failed true t (A:=unit) L cm r) as Hnf.
          { intros r. by apply (no_failure t cm L lsA cA r). }
          destruct (activate true l t c1) as [[] c2|e c2|u|] eqn:E; [eauto|exfalso..].
          - apply (Hnf (Exn e c2)). exists ls1, c1, l. split_and!; done.
          - apply (Hnf (UB u)). exists ls1, c1, l. split_and!; done.
          - by apply activate_not_oof in E. }
        pose proof (legal_run_one true t c1 l c2 Hp Hact) as H1.
        apply (IH (ls1 ++ [l]) (mark_done (l_id l) c2)) with (A := fun s => A' s \/ s ∈ O l).
        + by rewrite <- app_assoc.
        + by eapply legal_run_app.
        + intros x Hx. apply elem_of_app in Hx as [Hx|Hx]; [auto|]. by apply elem_of_list_singleton in Hx as ->.
        + done.
        + intros x Hx. split; [apply Hd; by apply elem_of_list_further|].
          cbn. rewrite (activate_done _ _ _ _ _ Hact). intros Hin. apply elem_of_union in Hin as [Hin|Hin].
          * apply elem_of_singleton in Hin. apply Hni. rewrite <- Hin. apply elem_of_list_fmap. eauto.
          * revert Hin. apply Hd. by apply elem_of_list_further.
        + intros s Hx. cbn. apply (Hw l Hl t c1 c2 Hact s). naive_solver.
        + done. }
    intros Hn Hd HAs Hs. apply (Hgen [] ls cm eq_refl (lr_nil _ _ _)) with (A := A); try done.
    intros l Hl. by apply elem_of_nil in Hl.
  Qed.

  (** An order found at [c0] can be used wherever the signals assigned at [c0] are. *)
  Lemma order_supplied tr t0 O ls c0 c0' dbg0 :
    (forall l dbg, l ∈ leaves tr -> writes_exactly dbg O l) ->
    (forall l, l ∈ leaves tr -> is_builder (l_cls l) = true -> O l = []) ->
    legal_run dbg0 t0 c0 ls c0' -> ls ≡ₚ leaves tr ->
    supplied O (fun s => assigned (k_store c0) s = true) (nonb ls).
  Proof.
    intros HO Hb Horder Hall. apply supplied_nonb.
    - intros l Hl. apply Hb. by rewrite <- Hall.
    - eapply run_supplied; [done|]. intros l Hl. apply HO. by rewrite <- Hall.
  Qed.

  (** An order that is supplied by the signals [A], used from [d], agrees with Simulator. *)
  Section agree.
    Context (tr : tree D) (t : D) (O : leaf D -> list nat) (order : list (list (leaf D))).
    Context (A : nat -> Prop) (d : dyn D).
    Context (Hw : wf_tree tr) (Hloc : forall l, l ∈ leaves tr -> local (dom (k_store (d_core d))) l).
    Context (HO : forall l dbg, l ∈ leaves tr -> writes_exactly dbg O l).
    Context (Hb : forall l, l ∈ leaves tr -> is_builder (l_cls l) = true -> O l = []).
    Context (Hall : concat order ≡ₚ leaves tr).
    Context (Horder : supplied O A (nonb (concat order))).
    Context (Hasg : forall s, A s -> assigned (k_store (d_core d)) s = true).
    Context (Hok : store_ok (k_store (d_core d))).

    Let cm := d_core (mark_unprocessed tr d).
    Lemma cm_local : forall l, l ∈ leaves tr -> local (dom (k_store cm)) l.
    Proof. unfold cm. by rewrite marked_store. Qed.
    Lemma cm_same : same_state (d_core d) cm.
    Proof. unfold cm. split; [by rewrite marked_store|]. intros b. unfold lst_of. by rewrite marked_lst. Qed.

    Lemma order_nodup : NoDup (map l_id (nonb (concat order))).
    Proof.
      assert (NoDup (map l_id (concat order))) as Hnd by (rewrite Hall; by apply wf_leaves).
      eapply sublist_NoDup; [|exact Hnd]. clear -D.
      unfold nonb. generalize (concat order). clear. intros ls.
      induction ls as [|l ls IH]; [constructor|]. rewrite filter_cons.
      case_decide; cbn; [by apply sublist_skip|by apply sublist_cons].
    Qed.
    Lemma order_in l : l ∈ nonb (concat order) -> l ∈ leaves tr /\ l_id l ∉ k_done cm.
    Proof.
      unfold nonb. rewrite elem_of_list_filter. intros [Hnb Hl]. rewrite Hall in Hl. split; [done|].
      unfold cm. rewrite marked_leaf by done. by rewrite Hnb.
    Qed.
    Lemma order_exhausted c' : legal_run true t cm (nonb (concat order)) c' -> exhausted (leaves tr) c'.
    Proof.
      intros Hr l Hl. left. destruct (is_builder (l_cls l)) eqn:E.
      - eapply legal_run_done_mono; [exact Hr|]. unfold cm. by apply marked_leaf.
      - apply legal_run_basic in Hr as (_ & _ & -> & _).
        apply elem_of_union_l, elem_of_list_to_set, elem_of_list_fmap. exists l. split; [done|].
        unfold nonb. apply elem_of_list_filter. split; [done|]. by rewrite Hall.
    Qed.

    Lemma fast_then_evaluate c2 :
      fast_eval true order t (d_core d) = Ok tt c2 ->
      exists d1, evaluate true tr t d = Ok tt d1 /\ same_state c2 (d_core d1).
    Proof.
      rewrite fast_eval_acts. intros Ha. apply acts_nonb in Ha as (c3 & Ha & Hs3).
      destruct (acts_legal true t O (nonb (concat order)) (d_core d) c3 cm A Ha)
        as (c4 & Hr4 & Hs4); [apply cm_same|apply order_nodup| | |done|exact Horder|].
      { intros l Hl. by apply order_in. }
      { intros l Hl. apply HO. by apply order_in. }
      assert (store_ok (k_store cm)) as Hokm by (unfold cm; by rewrite marked_store).
      assert (forall l, l ∈ nonb (concat order) -> l ∈ leaves tr) as Hin by (intros l Hl; by apply order_in).
      pose proof (order_exhausted _ Hr4) as Hex4.
      pose proof (evaluate_spec true tr t d Hw) as He. fold cm in He.
      assert (forall r, ~ failed true t (A:=unit) (leaves tr) cm r) as Hnf.
      { intros r. by apply (no_failure t cm (leaves tr) _ c4 r Hokm (wf_leaves _ Hw) cm_local Hr4 Hin Hex4). }
      destruct (evaluate true tr t d) as [[] d1|e d1|u|]; cbn [res_core eval_post] in He;
        try (exfalso; by eapply Hnf).
      destruct He as (ls1 & Hr1 & Hin1 & Hex1). exists d1. split; [done|].
      destruct (confluence t cm (leaves tr) _ c4 ls1 (d_core d1) Hokm (wf_leaves _ Hw) cm_local
                  Hr4 Hin Hex4 Hr1 Hin1 Hex1) as (_ & Hst & Hl & _).
      eapply same_state_trans; [exact Hs3|]. eapply same_state_trans; [exact Hs4|].
      split; [done|]. intros b. unfold lst_of. by rewrite Hl.
    Qed.

    Lemma evaluate_then_fast d1 :
      evaluate true tr t d = Ok tt d1 ->
      exists c2, fast_eval true order t (d_core d) = Ok tt c2 /\ same_state c2 (d_core d1).
    Proof.
      intros Hr. destruct (evaluate_ok _ _ _ _ _ _ Hw Hr) as (ls1 & Hr1 & Hin1 & Hex1). fold cm in Hr1.
      assert (store_ok (k_store cm)) as Hokm by (unfold cm; by rewrite marked_store).
      destruct (supplied_runs t O (leaves tr) cm ls1 (d_core d1) (nonb (concat order))
                  A) as (cB & HrB); try done.
      { by apply wf_leaves. }
      { apply cm_local. }
      { intros l Hl. by apply HO. }
      { apply order_nodup. }
      { apply order_in. }
      { intros s Hs. unfold cm. rewrite marked_store by done. auto. }
      assert (forall l, l ∈ nonb (concat order) -> l ∈ leaves tr) as Hin by (intros l Hl; by apply order_in).
      destruct (confluence t cm (leaves tr) ls1 (d_core d1) _ cB Hokm (wf_leaves _ Hw) cm_local
                  Hr1 Hin1 Hex1 HrB Hin (order_exhausted _ HrB)) as (_ & Hst & Hl & _).
      destruct (legal_acts _ _ _ _ _ HrB) as (c5 & Ha5 & Hs5).
      destruct (acts_same true t _ cm (d_core d) c5 (same_state_sym _ _ cm_same) Ha5) as (c6 & Ha6 & Hs6).
      apply nonb_acts in Ha6 as (c7 & Ha7 & Hs7).
      exists c7. rewrite fast_eval_acts. split; [done|].
      eapply same_state_trans; [apply same_state_sym, Hs7|].
      eapply same_state_trans; [apply same_state_sym, Hs6|].
      eapply same_state_trans; [exact Hs5|].
      split; [by symmetry|]. intros b. unfold lst_of. by rewrite Hl.
    Qed.
  End agree.
End fast.
