(** mark_unprocessed, the reuse-order evaluation and the FastSimulator order
    search, all as sequences of legal activations. *)
From stdpp Require Import prelude gmap.
From Coq Require Import ZArith.
From Verif Require Import Num Res Store Leaf Sched SpecSched Util P_Sched.

Section modes.
  Context {D : Type} `{NumOps D}.
  Implicit Types (c : core D) (d : dyn D) (l : leaf D) (tr : tree D).

  (** ** Distinct identities *)
  Lemma nodes_leaves tr : forall l, l ∈ leaves tr <-> NLeaf l ∈ nodes tr.
  Proof.
    induction tr as [l0|b k ch IH] using tree_ind'; intros l; cbn [leaves nodes].
    - rewrite !elem_of_list_singleton. split; [by intros ->|by injection 1].
    - rewrite elem_of_cons, !elem_of_concat_map. rewrite Forall_forall in IH.
      split.
      + intros (c & Hc & Hl). right. exists c. split; [done|]. by apply IH.
      + intros [Hx|(c & Hc & Hl)]; [done|]. exists c. split; [done|]. by apply IH.
  Qed.
  Definition node_leaf (n : node D) : list (leaf D) := match n with NLeaf l => [l] | NSub _ _ => [] end.
  Definition node_sub (n : node D) : list nat := match n with NLeaf _ => [] | NSub b _ => [b] end.
  Definition po_leaves (po : list (node D)) : list (leaf D) := concat (map node_leaf po).
  Definition po_subs (po : list (node D)) : list nat := concat (map node_sub po).

  Lemma po_leaves_nodes tr : po_leaves (nodes tr) = leaves tr.
  Proof.
    induction tr as [l0|b k ch IH] using tree_ind'; [done|].
    cbn [nodes leaves]. unfold po_leaves. cbn [map node_leaf concat app].
    induction IH as [|c ch Hc _ IHch]; [done|]. cbn [map concat].
    rewrite map_app, concat_app. by rewrite IHch, <- Hc.
  Qed.
  Lemma po_subs_nodes tr : po_subs (nodes tr) = map fst (subs tr).
  Proof.
    induction tr as [l0|b k ch IH] using tree_ind'; [done|].
    cbn [nodes subs]. unfold po_subs. cbn [map node_sub concat app fst]. f_equal.
    induction IH as [|c ch Hc _ IHch]; [done|]. cbn [map concat].
    rewrite !map_app, concat_app. by rewrite IHch, <- Hc.
  Qed.
  Lemma po_leaves_sublist (po : list (node D)) : map l_id (po_leaves po) `sublist_of` map node_id po.
  Proof.
    induction po as [|[l|b k] po IH]; cbn; [constructor|by apply sublist_skip|by apply sublist_cons].
  Qed.
  Lemma po_subs_sublist (po : list (node D)) : po_subs po `sublist_of` map node_id po.
  Proof.
    induction po as [|[l|b k] po IH]; cbn; [constructor|by apply sublist_cons|by apply sublist_skip].
  Qed.
  Lemma sublist_NoDup {A} (l1 l2 : list A) : l1 `sublist_of` l2 -> NoDup l2 -> NoDup l1.
  Proof.
    induction 1 as [|x l1 l2 Hs IH|x l1 l2 Hs IH]; intros Hn; [done| |].
    - apply NoDup_cons in Hn as [Hx Hn]. apply NoDup_cons. split; [|auto].
      intros Hin. apply Hx. by eapply elem_of_submseteq; [|apply sublist_submseteq].
    - apply NoDup_cons in Hn as [Hx Hn]. auto.
  Qed.
  Lemma wf_leaves tr : wf_tree tr -> NoDup (map l_id (leaves tr)).
  Proof. intros Hw. rewrite <- po_leaves_nodes. by eapply sublist_NoDup; [apply po_leaves_sublist|]. Qed.
  Lemma wf_subs tr : wf_tree tr -> NoDup (map fst (subs tr)).
  Proof. intros Hw. rewrite <- po_subs_nodes. by eapply sublist_NoDup; [apply po_subs_sublist|]. Qed.

  (** ** mark_unprocessed *)
  Definition marked_done (L : list (leaf D)) (dn : gset nat) (b : nat) : Prop :=
    (b ∉ map l_id L /\ b ∈ dn) \/ (exists l, l ∈ L /\ l_id l = b /\ is_builder (l_cls l) = true).

  Lemma mark_spec tr d :
    NoDup (map l_id (leaves tr)) ->
    k_store (d_core (mark_unprocessed tr d)) = k_store (d_core d) /\
    k_lst (d_core (mark_unprocessed tr d)) = k_lst (d_core d) /\
    k_log (d_core (mark_unprocessed tr d)) = k_log (d_core d) /\
    (forall b, b ∈ d_sdone (mark_unprocessed tr d) <-> b ∈ d_sdone d /\ b ∉ map fst (subs tr)) /\
    (forall b, b ∈ k_done (d_core (mark_unprocessed tr d)) <-> marked_done (leaves tr) (k_done (d_core d)) b).
  Proof.
    revert d. induction tr as [l|b k ch IH] using tree_ind'; intros d Hn; cbn [mark_unprocessed].
    - cbn [d_core d_sdone k_store k_lst k_log k_done leaves subs map].
      split_and!; [done|done|done| |].
      + intros b. set_solver.
      + intros b. unfold marked_done. cbn [map]. destruct (is_builder (l_cls l)) eqn:Hb.
        * rewrite elem_of_union, elem_of_singleton. split.
          -- intros [->|Hbd]; [right; exists l; split_and!; [apply elem_of_list_here|done|done]|].
             destruct (decide (b = l_id l)) as [->|Hne].
             ++ right; exists l; split_and!; [apply elem_of_list_here|done|done].
             ++ left. split; [|done]. by rewrite elem_of_list_singleton.
          -- intros [[_ Hbd]|(l' & Hl' & <- & _)]; [by right|]. apply elem_of_list_singleton in Hl' as ->. by left.
        * rewrite elem_of_difference, elem_of_singleton. split.
          -- intros [Hbd Hne]. left. by rewrite elem_of_list_singleton.
          -- intros [[Hne Hbd]|(l' & Hl' & <- & Hbl)]; [by rewrite elem_of_list_singleton in Hne|].
             apply elem_of_list_singleton in Hl' as ->. congruence.
    - assert (forall d0,
        let d' := fold_left (fun d (c : tree D) => mark_unprocessed c d) ch d0 in
        k_store (d_core d') = k_store (d_core d0) /\ k_lst (d_core d') = k_lst (d_core d0) /\
        k_log (d_core d') = k_log (d_core d0) /\
        (forall b, b ∈ d_sdone d' <-> b ∈ d_sdone d0 /\ b ∉ concat (map (fun c : tree D => map fst (subs c)) ch)) /\
        (forall b, b ∈ k_done (d_core d') <-> marked_done (concat (map leaves ch)) (k_done (d_core d0)) b)) as Hl.
      { clear d. cbn [leaves] in Hn. revert Hn. induction IH as [|c ch Hc _ IHch]; intros Hn d0; cbn [fold_left map concat].
        - split_and!; [done|done|done| |].
          + intros b'. split; [intros Hb; split; [done|apply not_elem_of_nil]|by intros []].
          + intros b'. unfold marked_done. cbn. split.
            * intros Hb. left. split; [apply not_elem_of_nil|done].
            * intros [[_ Hb]|(l & Hl & _)]; [done|by apply elem_of_nil in Hl].
        - cbn [map concat] in Hn. rewrite map_app in Hn. apply NoDup_app in Hn as (Hn1 & Hdis & Hn2).
          specialize (Hc d0 Hn1) as (Hs & Hlst & Hlog & Hsd & Hdn).
          specialize (IHch Hn2 (mark_unprocessed c d0)) as (Hs2 & Hlst2 & Hlog2 & Hsd2 & Hdn2).
          cbn zeta in *. split_and!; [congruence|congruence|congruence| |].
          + intros b'. rewrite Hsd2, Hsd, not_elem_of_app. tauto.
          + intros b'. rewrite Hdn2. unfold marked_done at 1. rewrite Hdn. unfold marked_done.
            rewrite map_app. rewrite not_elem_of_app. split.
            * intros [[Hni [[Hni' Hb]|(l & Hl & <- & Hbl)]]|(l & Hl & <- & Hbl)].
              -- by left.
              -- right. exists l. rewrite elem_of_app. auto.
              -- right. exists l. rewrite elem_of_app. auto.
            * intros [[[Hni' Hni] Hb]|(l & Hl & <- & Hbl)]; [by auto|].
              apply elem_of_app in Hl as [Hl|Hl]; [|right; eauto].
              left. split; [|right; eauto]. apply Hdis. by apply elem_of_list_fmap_1. }
      destruct (Hl (Dyn (d_core d) (d_sdone d ∖ {[b]}))) as (Hs & Hlst & Hlog & Hsd & Hdn).
      split_and!; [done|done|done| |done].
      intros b'. rewrite Hsd, map_fst_subs_sub. cbn [d_sdone].
      rewrite elem_of_difference, elem_of_singleton, not_elem_of_cons. tauto.
  Qed.

  Lemma mark_inv tr d : NoDup (map l_id (leaves tr)) -> inv tr (mark_unprocessed tr d).
  Proof.
    intros Hn b ls Hb Hd. apply (mark_spec tr d Hn) in Hd as [_ Hni]. exfalso. apply Hni.
    apply elem_of_list_fmap. by exists (b, ls).
  Qed.

  Section dbg.
  Context (dbg : bool) (t : D).

  (** ** Assigned flags never go down during an evaluation *)
  Lemma run_prog_assigned {A} (p : prog D A) σ r σ' s :
    run_prog dbg p σ = Ok r σ' -> assigned σ s = true -> assigned σ' s = true.
  Proof.
    revert σ. induction p as [a|x k IH|x v p IH|b e p IH|e|u]; intros σ Hr Ha; cbn in Hr.
    - unfold ret in Hr. by simplify_eq.
    - unfold bnd in Hr. destruct (get_value dbg x σ) as [v σ1| | |] eqn:E; try done.
      assert (σ1 = σ) as -> by (unfold get_value in E; repeat case_match; by simplify_eq). eauto.
    - unfold bnd in Hr. destruct (set_value dbg x v σ) as [y σ1| | |] eqn:E; try done.
      apply (IH _ Hr). unfold set_value in E. repeat case_match; simplify_eq.
      unfold assigned in *. destruct (decide (s = x)) as [->|Hne].
      + by rewrite lookup_insert.
      + by rewrite lookup_insert_ne.
    - unfold bnd, debug_verify, verify in Hr. destruct dbg, b; cbn in Hr; try done; eauto.
    - done.
    - done.
  Qed.
  Lemma activate_assigned l c c' s :
    activate dbg l t c = Ok tt c' -> assigned (k_store c) s = true -> assigned (k_store c') s = true.
  Proof.
    unfold activate, run_leaf. destruct (run_prog _ _ _) eqn:E; intros ?; simplify_eq. cbn.
    by eapply run_prog_assigned.
  Qed.
  Lemma legal_run_assigned c ls c' s :
    legal_run dbg t c ls c' -> assigned (k_store c) s = true -> assigned (k_store c') s = true.
  Proof.
    induction 1 as [|ls c1 l c2 H1 IH Hd Hi Ha]; intros Hs; [done|]. cbn.
    eapply activate_assigned; [done|auto].
  Qed.

  (** ** The reuse-order evaluation *)
  Definition unproc (d : dyn D) (po : list (node D)) : list (node D) :=
    List.filter (fun n => negb (node_processed n d)) po.

  Lemma node_processed_ext n d d' :
    (node_id n ∈ k_done (d_core d') <-> node_id n ∈ k_done (d_core d)) ->
    (node_id n ∈ d_sdone d' <-> node_id n ∈ d_sdone d) ->
    node_processed n d' = node_processed n d.
  Proof.
    intros H1 H2. destruct n as [l|b k]; cbn in *; unfold is_done, is_sdone; by apply bool_decide_ext.
  Qed.

  Definition pass_post (po : list (node D)) d (r : res (dyn D) (list (node D))) : Prop :=
    match r with
    | Ok r d' =>
        legal_run dbg t (d_core d) (po_leaves r) (d_core d') /\
        r `sublist_of` po /\
        (forall b, b ∈ d_sdone d' <-> b ∈ po_subs r \/ b ∈ d_sdone d) /\
        unproc d po ≡ₚ r ++ unproc d' po /\
        (r = [] -> d' = d /\ exhausted (po_leaves po) (d_core d))
    | Exn e d' => failed dbg t (A:=unit) (po_leaves po) (d_core d) (Exn e (d_core d'))
    | UB u => failed dbg t (A:=unit) (po_leaves po) (d_core d) (UB u)
    | OOF => False
    end.

  Lemma po_leaves_cons n po : po_leaves (n :: po) = node_leaf n ++ po_leaves po.
  Proof. done. Qed.

  Lemma sublist_elem {A} (l1 l2 : list A) x : l1 `sublist_of` l2 -> x ∈ l1 -> x ∈ l2.
  Proof. intros Hs Hx. by eapply elem_of_submseteq; [|apply sublist_submseteq]. Qed.
  Lemma po_leaves_elem po l : l ∈ po_leaves po <-> NLeaf l ∈ po.
  Proof.
    unfold po_leaves. rewrite elem_of_concat_map. split.
    - intros ([l'|b k] & Hn & Hl); cbn in Hl; [|by apply elem_of_nil in Hl].
      by apply elem_of_list_singleton in Hl as ->.
    - intros Hl. exists (NLeaf l). split; [done|]. apply elem_of_list_here.
  Qed.
  Lemma po_subs_elem po b : b ∈ po_subs po <-> exists k, NSub b k ∈ po.
  Proof.
    unfold po_subs. rewrite elem_of_concat_map. split.
    - intros ([l'|b' k] & Hn & Hl); cbn in Hl; [by apply elem_of_nil in Hl|].
      apply elem_of_list_singleton in Hl as ->. eauto.
    - intros [k Hl]. exists (NSub b k). split; [done|]. apply elem_of_list_here.
  Qed.

  Lemma unproc_ext d d' po :
    (forall n, n ∈ po -> node_processed n d' = node_processed n d) -> unproc d' po = unproc d po.
  Proof.
    induction po as [|n po IH]; intros He; [done|]. unfold unproc in *. cbn.
    rewrite (He n (elem_of_list_here _ _)). rewrite IH; [done|].
    intros n' Hn'. apply He. by apply elem_of_list_further.
  Qed.

  Lemma processed_mono n d d' ls (X : gset nat) :
    legal_run dbg t (d_core d) ls (d_core d') ->
    (forall b, b ∈ d_sdone d' <-> b ∈ X \/ b ∈ d_sdone d) ->
    node_processed n d = true -> node_processed n d' = true.
  Proof.
    intros Hr Hs. destruct n as [l|b k]; cbn; unfold is_done, is_sdone; rewrite !bool_decide_eq_true.
    - by eapply legal_run_done_mono.
    - intros Hb. apply Hs. by right.
  Qed.

  Lemma reuse_pass_spec po d :
    NoDup (map node_id po) -> pass_post po d (reuse_pass dbg po t d).
  Proof.
    revert d. induction po as [|n po IH]; intros d Hn; cbn [reuse_pass].
    - cbn. split_and!; [constructor|constructor|set_solver|done|].
      intros _. split; [done|]. intros l Hl. by apply elem_of_nil in Hl.
    - cbn [map] in Hn. apply NoDup_cons in Hn as [Hni Hn].
      unfold bnd at 1, gets. cbn beta iota.
      destruct (node_processed n d) eqn:Hp.
      + (* already processed: skipped *)
        specialize (IH d Hn). destruct (reuse_pass dbg po t d) as [r d'|e d'|u|]; cbn [pass_post] in *.
        * destruct IH as (Hr & Hsub & Hs & Hperm & Hnil). split_and!; [done|by apply sublist_cons|done| |].
          -- unfold unproc in *. cbn [List.filter]. rewrite Hp.
             rewrite (processed_mono n d d' (po_leaves r) (list_to_set (po_subs r))); [done|done| |done].
             intros b. by rewrite elem_of_list_to_set.
          -- intros Hr0. destruct (Hnil Hr0) as [-> Hex]. split; [done|].
             intros l Hl. rewrite po_leaves_cons in Hl. apply elem_of_app in Hl as [Hl|Hl]; [|by apply Hex].
             destruct n as [l'|b k]; cbn in Hl; [|by apply elem_of_nil in Hl].
             apply elem_of_list_singleton in Hl as ->. cbn in Hp. left. by apply bool_decide_eq_true in Hp.
        * eapply (failed_app dbg t _ _ _ []); [constructor|intros x Hx; by apply elem_of_nil in Hx| |exact IH].
          intros x Hx. rewrite po_leaves_cons, elem_of_app. by right.
        * eapply (failed_app dbg t _ _ _ []); [constructor|intros x Hx; by apply elem_of_nil in Hx| |exact IH].
          intros x Hx. rewrite po_leaves_cons, elem_of_app. by right.
        * done.
      + (* step: after processing n, state d1 *)
        assert (forall d1 r0,
          legal_run dbg t (d_core d) r0 (d_core d1) ->
          (node_processed n d1 = true -> r0 = node_leaf n) ->
          (node_processed n d1 = false -> r0 = [] /\ d1 = d) ->
          (forall b, b ∈ d_sdone d1 <-> (node_processed n d1 = true /\ b ∈ node_sub n) \/ b ∈ d_sdone d) ->
          (node_processed n d1 = false -> exhausted (node_leaf n) (d_core d1)) ->
          pass_post (n :: po) d
            ((q <~ gets (node_processed n) ;; r <~ reuse_pass dbg po t ;;
              ret (if q : bool then n :: r else r)) d1)) as Hcont.
        { intros d1 r0 Hr0 Ht Hf Hs0 Hex0.
          assert (forall x, x ∈ r0 -> x ∈ po_leaves (n :: po)) as Hsub0.
          { intros x Hx. rewrite po_leaves_cons. apply elem_of_app. left.
            destruct (node_processed n d1); [by rewrite Ht in Hx|].
            destruct Hf as [-> _]; [done|]. by apply elem_of_nil in Hx. }
          assert (forall n', n' ∈ po -> node_processed n' d1 = node_processed n' d) as Hsame.
          { intros n' Hn'. assert (node_id n' ≠ node_id n) as Hne.
            { intros He. apply Hni. rewrite <- He. by apply elem_of_list_fmap_1. }
            apply node_processed_ext.
            - apply legal_run_basic in Hr0 as (_ & _ & -> & _).
              rewrite elem_of_union, elem_of_list_to_set. split; [|by auto]. intros [Hin|?]; [|done].
              destruct (node_processed n d1).
              + rewrite Ht in Hin by done. destruct n as [l|b k]; cbn in *.
                * by apply elem_of_list_singleton in Hin.
                * by apply elem_of_nil in Hin.
              + destruct Hf as [-> _]; [done|]. by apply elem_of_nil in Hin.
            - rewrite Hs0. split; [|by auto]. intros [[_ Hb]|?]; [|done].
              destruct n as [l|b k]; cbn in *.
              + by apply elem_of_nil in Hb.
              + by apply elem_of_list_singleton in Hb. }
          unfold bnd, gets. cbn beta iota. specialize (IH d1 Hn).
          destruct (reuse_pass dbg po t d1) as [r d'|e d'|u|]; cbn [pass_post ret] in *.
          - destruct IH as (Hr & Hsub & Hs & Hperm & Hnil).
            destruct (node_processed n d1) eqn:Hp1.
            + split_and!.
              * rewrite po_leaves_cons. rewrite <- Ht by done. by eapply legal_run_app.
              * by apply sublist_skip.
              * intros b. rewrite Hs, Hs0. change (po_subs (n :: r)) with (node_sub n ++ po_subs r).
                rewrite elem_of_app. tauto.
              * rewrite (unproc_ext d d1 po) in Hperm by done.
                unfold unproc in *. cbn [List.filter]. rewrite Hp. cbn [negb].
                rewrite (processed_mono n d1 d' (po_leaves r) (list_to_set (po_subs r))); [|done| |done].
                2:{ intros b. by rewrite elem_of_list_to_set. }
                cbn [negb app]. by constructor.
              * done.
            + destruct Hf as [-> ->]; [done|]. split_and!.
              * done.
              * by apply sublist_cons.
              * done.
              * unfold unproc in *. cbn [List.filter]. rewrite Hp. cbn [negb].
                assert (node_processed n d' = false) as ->.
                { rewrite <- Hp. apply node_processed_ext.
                  - apply legal_run_basic in Hr as (_ & _ & -> & _). rewrite elem_of_union, elem_of_list_to_set.
                    split; [|by auto]. intros [Hin|?]; [|done]. exfalso. apply Hni.
                    eapply sublist_elem; [apply po_leaves_sublist|].
                    apply elem_of_list_fmap in Hin as (l & -> & Hl). apply elem_of_list_fmap_1.
                    apply po_leaves_elem. apply po_leaves_elem in Hl. by eapply sublist_elem.
                  - rewrite Hs. split; [|by auto]. intros [Hin|?]; [|done]. exfalso. apply Hni.
                    eapply sublist_elem; [apply po_subs_sublist|].
                    apply po_subs_elem. apply po_subs_elem in Hin as [k Hk]. exists k. by eapply sublist_elem. }
                cbn [negb]. rewrite Hperm. apply Permutation_middle.
              * intros Hr0'. destruct (Hnil Hr0') as [-> Hex]. split; [done|].
                intros l Hl. rewrite po_leaves_cons in Hl. apply elem_of_app in Hl as [Hl|Hl]; [|by apply Hex].
                by apply Hex0.
          - eapply (failed_app dbg t (po_leaves po)); [exact Hr0|done| |exact IH].
            intros x Hx. rewrite po_leaves_cons, elem_of_app. by right.
          - eapply (failed_app dbg t (po_leaves po)); [exact Hr0|done| |exact IH].
            intros x Hx. rewrite po_leaves_cons, elem_of_app. by right.
          - done. }
        destruct n as [l|b k].
        * cbn [node_process]. unfold bnd at 1. unfold bnd at 1. unfold on_core, lift.
          pose proof (leaf_process_spec dbg t l (d_core d)) as Hl.
          destruct (leaf_process dbg l t (d_core d)) as [k c'|e c'|u|].
          -- cbn [ret]. unfold ret. destruct k as [|[|k]]; [| |done].
             ++ destruct Hl as [-> Hl]. replace (Dyn (d_core d) (d_sdone d)) with d by (by destruct d).
                apply (Hcont d []); [constructor| |done| |].
                ** intros Hp'. congruence.
                ** intros b. split; [by auto|]. intros [[Hx _]|?]; [congruence|done].
                ** intros _ l' Hl'. cbn in Hl'. apply elem_of_list_singleton in Hl' as ->. done.
             ++ destruct Hl as (Hpick & c1 & Ha & ->).
                assert (node_processed (NLeaf l) (Dyn (mark_done (l_id l) c1) (d_sdone d)) = true) as Hpt.
                { cbn. unfold is_done. apply bool_decide_eq_true. cbn. set_solver. }
                apply (Hcont _ [l]); [by apply legal_run_one|done|by rewrite Hpt| |by rewrite Hpt].
                intros b. cbn [d_sdone node_sub]. split; [by auto|]. intros [[_ Hx]|?]; [by apply elem_of_nil in Hx|done].
          -- destruct Hl as [Hpick Ha]. cbn [pass_post]. exists [], (d_core d), l.
             split_and!; [constructor|intros x Hx; by apply elem_of_nil in Hx| |done|done].
             rewrite po_leaves_cons. apply elem_of_app. left. apply elem_of_list_here.
          -- destruct Hl as [Hpick Ha]. cbn [pass_post]. exists [], (d_core d), l.
             split_and!; [constructor|intros x Hx; by apply elem_of_nil in Hx| |done|done].
             rewrite po_leaves_cons. apply elem_of_app. left. apply elem_of_list_here.
          -- done.
        * cbn [node_process]. unfold bnd at 1, set_sdone, modify.
          set (d1 := Dyn (d_core d) ({[b]} ∪ d_sdone d)).
          assert (node_processed (NSub b k) d1 = true) as Hpt.
          { cbn. unfold is_sdone. apply bool_decide_eq_true. cbn. set_solver. }
          apply (Hcont d1 []); [constructor|done|by rewrite Hpt| |by rewrite Hpt].
          intros b'. rewrite Hpt. cbn. rewrite elem_of_union, elem_of_singleton, elem_of_list_singleton.
          tauto.
  Qed.

  Lemma po_leaves_app r1 r2 : po_leaves (r1 ++ r2) = po_leaves r1 ++ po_leaves r2.
  Proof. unfold po_leaves. by rewrite map_app, concat_app. Qed.

  (** [r] is what was appended to the list so far in this evaluation. *)
  Definition loop_post (po acc : list (node D)) d (r : res (dyn D) (list (node D))) : Prop :=
    match r with
    | Ok po' d' => exists r, po' = acc ++ r /\
        legal_run dbg t (d_core d) (po_leaves r) (d_core d') /\
        (forall n, n ∈ r -> n ∈ po) /\
        unproc d po ≡ₚ r ++ unproc d' po /\
        exhausted (po_leaves po) (d_core d')
    | Exn e d' => failed dbg t (A:=unit) (po_leaves po) (d_core d) (Exn e (d_core d'))
    | UB u => failed dbg t (A:=unit) (po_leaves po) (d_core d) (UB u)
    | OOF => False
    end.

  Lemma reuse_loop_spec fuel po acc d :
    NoDup (map node_id po) -> length (unproc d po) < fuel ->
    loop_post po acc d (reuse_loop dbg fuel po t acc d).
  Proof.
    intros Hn. revert acc d. induction fuel as [|fuel IH]; intros acc d Hf; [lia|].
    cbn [reuse_loop]. unfold bnd at 1. pose proof (reuse_pass_spec po d Hn) as Hp.
    destruct (reuse_pass dbg po t d) as [r d1|e d1|u|]; cbn [pass_post] in Hp; [|exact Hp..].
    destruct Hp as (Hr & Hsub & Hs & Hperm & Hnil).
    assert (forall x, x ∈ po_leaves r -> x ∈ po_leaves po) as Hin.
    { intros x Hx. apply po_leaves_elem. apply po_leaves_elem in Hx. by eapply sublist_elem. }
    destruct r as [|n r].
    - destruct (Hnil eq_refl) as [-> Hex]. cbn. exists []. rewrite app_nil_r.
      split_and!; [done|done|intros x Hx; by apply elem_of_nil in Hx|done|done].
    - pose proof (Permutation_length Hperm) as Hlen. rewrite app_length in Hlen. cbn [length] in Hlen.
      specialize (IH (acc ++ n :: r) d1 ltac:(lia)).
      destruct (reuse_loop dbg fuel po t (acc ++ n :: r) d1) as [po' d2|e d2|u|]; cbn [loop_post] in *.
      + destruct IH as (r2 & -> & Hr2 & Hin2 & Hperm2 & Hex). exists ((n :: r) ++ r2).
        split_and!.
        * by rewrite app_assoc.
        * rewrite po_leaves_app. by eapply legal_run_app.
        * intros x Hx. apply elem_of_app in Hx as [Hx|Hx]; [by eapply sublist_elem|auto].
        * rewrite Hperm, Hperm2. by rewrite app_assoc.
        * done.
      + by eapply (failed_app dbg t (po_leaves po)).
      + by eapply (failed_app dbg t (po_leaves po)).
      + done.
  Qed.

  (** The reuse-order evaluation: same kind of outcome as the plain one, and the
      new order is the old one without the blocks that were already marked
      processed when it started, rearranged.  In a debug build there must be none
      of these, otherwise the check of simulator.cpp:76 throws. *)
  Definition reuse_post (po : list (node D)) d (r : res (dyn D) (list (node D))) : Prop :=
    match r with
    | Ok po' d' =>
        (exists ls, legal_run dbg t (d_core d) ls (d_core d') /\ (forall x, x ∈ ls -> x ∈ po_leaves po) /\
                    exhausted (po_leaves po) (d_core d')) /\
        po' ≡ₚ unproc d po /\ (dbg = true -> unproc d po = po)
    | Exn e d' =>
        failed dbg t (A:=unit) (po_leaves po) (d_core d) (Exn e (d_core d')) \/
        (dbg = true /\ e = EAssert /\ unproc d po ≠ po /\
         exists ls, legal_run dbg t (d_core d) ls (d_core d') /\ (forall x, x ∈ ls -> x ∈ po_leaves po) /\
                    exhausted (po_leaves po) (d_core d'))
    | UB u => failed dbg t (A:=unit) (po_leaves po) (d_core d) (UB u)
    | OOF => False
    end.
  Lemma filter_le {A} (f : A -> bool) (l : list A) : length (List.filter f l) <= length l.
  Proof. induction l as [|a l IH]; cbn; [lia|]. destruct (f a); cbn; lia. Qed.
  Lemma filter_len_eq {A} (f : A -> bool) (l : list A) :
    length (List.filter f l) = length l -> List.filter f l = l.
  Proof.
    induction l as [|a l IH]; [done|]. cbn. pose proof (filter_le f l).
    destruct (f a); cbn; intros; [f_equal; apply IH; lia|lia].
  Qed.

  Lemma reuse_all_spec po d :
    NoDup (map node_id po) -> reuse_post po d (reuse_all dbg po t d).
  Proof.
    intros Hn. unfold reuse_all. unfold bnd at 1.
    pose proof (reuse_loop_spec (S (length po)) po [] d Hn) as Hl.
    assert (length (unproc d po) < S (length po)) as Hlen.
    { pose proof (filter_le (fun n => negb (node_processed n d)) po). unfold unproc. lia. }
    specialize (Hl Hlen).
    destruct (reuse_loop dbg (S (length po)) po t [] d) as [acc d1|e d1|u|]; cbn [loop_post] in Hl.
    - destruct Hl as (r & -> & Hr & Hin & Hperm & Hex). cbn [app].
      unfold bnd, gets. cbn beta iota.
      change (List.filter (fun n => negb (node_processed n d1)) po) with (unproc d1 po).
      assert (exists ls, legal_run dbg t (d_core d) ls (d_core d1) /\
                (forall x, x ∈ ls -> x ∈ po_leaves po) /\ exhausted (po_leaves po) (d_core d1)) as Hrun.
      { exists (po_leaves r). split_and!; [done| |done]. intros x Hx. apply po_leaves_elem.
        apply po_leaves_elem in Hx. auto. }
      rewrite <- (Permutation_length Hperm).
      unfold debug_verify, verify, reuse_post. revert Hrun. destruct dbg; intros Hrun.
      + destruct (Nat.eqb_spec (length po) (length (unproc d po))) as [He|He].
        * cbn. split; [exact Hrun|]. split; [by symmetry|]. intros _. by apply filter_len_eq.
        * cbn. right. split_and!; [done|done| |exact Hrun]. intros Hu. by rewrite Hu in He.
      + cbn. split; [exact Hrun|]. split; [by symmetry|done].
    - cbn. by left.
    - exact Hl.
    - done.
  Qed.

  (** ** The FastSimulator order search *)
  Lemma count_ready_spec po c :
    count_ready po c = length (List.filter (fun l => bool_decide (l_id l ∉ k_done c) && ready c l) po).
  Proof.
    unfold count_ready. f_equal. apply filter_ext. intros l. unfold is_done. by rewrite bool_decide_not.
  Qed.
  Lemma count_ready_zero po c : count_ready po c = 0 -> exhausted po c.
  Proof.
    unfold count_ready. induction po as [|l po IH]; intros Hc x Hx; [by apply elem_of_nil in Hx|].
    cbn in Hc. destruct (negb (is_done c (l_id l)) && ready c l) eqn:E; [done|].
    apply elem_of_cons in Hx as [->|Hx]; [|by apply IH].
    apply andb_false_iff in E as [E|E].
    - left. unfold is_done in E. apply negb_false_iff in E. by apply bool_decide_eq_true in E.
    - right. by apply ready_false.
  Qed.

  Lemma ready_mono l c ls c' : legal_run dbg t c ls c' -> ready c l = true -> ready c' l = true.
  Proof.
    intros Hr. rewrite !ready_true. intros Hi s Hs. eapply legal_run_assigned; [done|auto].
  Qed.

  Definition fpass_post (po : list (leaf D)) (n : nat) c (r : res (core D) (list (leaf D))) : Prop :=
    match r with
    | Ok r c' => legal_run dbg t c r c' /\ (forall x, x ∈ r -> x ∈ po) /\
                 length r <= n /\ (count_ready po c <= length r \/ length r = n)
    | Exn e c' => failed dbg t (A:=unit) po c (Exn e c')
    | UB u => failed dbg t (A:=unit) po c (UB u)
    | OOF => False
    end.

  Lemma count_ready_step l po c c1 :
    l_id l ∉ map l_id po -> pick c l -> activate dbg l t c = Ok tt c1 ->
    count_ready po c <= count_ready po (mark_done (l_id l) c1).
  Proof.
    intros Hni Hp Ha. assert (legal_run dbg t c [l] (mark_done (l_id l) c1)) as Hr by (by apply legal_run_one).
    unfold count_ready. induction po as [|x po IH]; [done|].
    cbn [map] in Hni. apply not_elem_of_cons in Hni as [Hne Hni]. specialize (IH Hni). cbn [List.filter].
    destruct (negb (is_done c (l_id x)) && ready c x) eqn:E.
    - apply andb_true_iff in E as [E1 E2].
      rewrite (ready_mono x c [l] _ Hr E2).
      assert (is_done (mark_done (l_id l) c1) (l_id x) = is_done c (l_id x)) as ->.
      { unfold is_done. apply bool_decide_ext. cbn. rewrite (activate_done dbg t _ _ _ Ha). set_solver. }
      rewrite E1. cbn. lia.
    - destruct (negb _ && ready (mark_done _ _) x); cbn; lia.
  Qed.

  Lemma fast_pass_spec po n c :
    NoDup (map l_id po) -> fpass_post po n c (fast_pass dbg po t n c).
  Proof.
    revert n c. induction po as [|l po IH]; intros n c Hn; cbn [fast_pass].
    - cbn. split_and!; [constructor|done|lia|left; cbn; lia].
    - cbn [map] in Hn. apply NoDup_cons in Hn as [Hni Hn]. destruct n as [|n].
      + cbn. split_and!; [constructor|intros x Hx; by apply elem_of_nil in Hx|lia|by right].
      + unfold bnd at 1, gets. cbn beta iota.
        destruct (is_done c (l_id l) || negb (ready c l)) eqn:Hskip.
        * specialize (IH (S n) c Hn). destruct (fast_pass dbg po t (S n) c) as [r c'|e c'|u|]; cbn [fpass_post] in *.
          -- destruct IH as (Hr & Hin & Hle & Hcr). split_and!; [done| |done|].
             ++ intros x Hx. apply elem_of_list_further. auto.
             ++ unfold count_ready in *. cbn [List.filter].
                replace (negb (is_done c (l_id l)) && ready c l) with false; [done|].
                symmetry. rewrite <- (negb_involutive (ready c l)), <- negb_orb. by rewrite Hskip.
          -- eapply (failed_app dbg t _ _ _ []); [constructor|intros x Hx; by apply elem_of_nil in Hx| |exact IH].
             intros x Hx. by apply elem_of_list_further.
          -- eapply (failed_app dbg t _ _ _ []); [constructor|intros x Hx; by apply elem_of_nil in Hx| |exact IH].
             intros x Hx. by apply elem_of_list_further.
          -- done.
        * apply orb_false_iff in Hskip as [Hd Hr].
          apply negb_false_iff in Hr. unfold is_done in Hd. apply bool_decide_eq_false in Hd.
          unfold bnd at 1. pose proof (leaf_process_spec dbg t l c) as Hl.
          destruct (leaf_process dbg l t c) as [k c1|e c1|u|].
          -- destruct k as [|[|k]]; [| |done].
             { destruct Hl as [_ [Hx|Hw]]; [done|]. apply ready_false in Hw. congruence. }
             destruct Hl as (Hpick & c2 & Ha & ->).
             unfold bnd at 1, gets. cbn beta iota.
             assert (is_done (mark_done (l_id l) c2) (l_id l) = true) as ->.
             { unfold is_done. apply bool_decide_eq_true. cbn. set_solver. }
             unfold bnd. specialize (IH n (mark_done (l_id l) c2) Hn).
             pose proof (legal_run_one dbg t c l c2 Hpick Ha) as Hone.
             destruct (fast_pass dbg po t n (mark_done (l_id l) c2)) as [r c'|e c'|u|]; cbn [fpass_post ret] in *.
             ++ destruct IH as (Hr' & Hin & Hle & Hcr). split_and!.
                ** by apply (legal_run_app dbg t c [l] (mark_done (l_id l) c2) r c').
                ** intros x Hx. apply elem_of_cons in Hx as [->|Hx]; [apply elem_of_list_here|].
                   apply elem_of_list_further. auto.
                ** cbn. lia.
                ** pose proof (count_ready_step l po c c2 Hni Hpick Ha) as Hcs.
                   unfold count_ready in Hcs at 1. unfold count_ready at 1. cbn [List.filter].
                   destruct (negb (is_done c (l_id l)) && ready c l); cbn [length]; lia.
             ++ eapply (failed_app dbg t _ _ _ [l]); [exact Hone| | |exact IH].
                ** intros x Hx. apply elem_of_list_singleton in Hx as ->. apply elem_of_list_here.
                ** intros x Hx. by apply elem_of_list_further.
             ++ eapply (failed_app dbg t _ _ _ [l]); [exact Hone| | |exact IH].
                ** intros x Hx. apply elem_of_list_singleton in Hx as ->. apply elem_of_list_here.
                ** intros x Hx. by apply elem_of_list_further.
             ++ done.
          -- destruct Hl as [Hpick Ha]. cbn. exists [], c, l.
             split_and!; [constructor|intros x Hx; by apply elem_of_nil in Hx|apply elem_of_list_here|done|done].
          -- destruct Hl as [Hpick Ha]. cbn. exists [], c, l.
             split_and!; [constructor|intros x Hx; by apply elem_of_nil in Hx|apply elem_of_list_here|done|done].
          -- done.
  Qed.

  Definition floop_post (po : list (leaf D)) (acc : list (list (leaf D))) (added : nat) c
      (r : res (core D) (list (list (leaf D)) * nat)) : Prop :=
    match r with
    | Ok (order, n) c' => exists o,
        order = acc ++ o /\ legal_run dbg t c (concat o) c' /\ (forall x, x ∈ concat o -> x ∈ po) /\
        n = added + length (concat o) /\ exhausted po c'
    | Exn e c' => failed dbg t (A:=unit) po c (Exn e c')
    | UB u => failed dbg t (A:=unit) po c (UB u)
    | OOF => False
    end.
  Lemma fast_loop_spec fuel po acc added c :
    NoDup (map l_id po) -> undone po c < fuel ->
    floop_post po acc added c (fast_loop dbg fuel po t acc added c).
  Proof.
    intros Hn. revert acc added c. induction fuel as [|fuel IH]; intros acc added c Hf; [lia|].
    cbn [fast_loop]. unfold bnd at 1, gets. cbn beta iota.
    destruct (count_ready po c) as [|n] eqn:Hc.
    - cbn. exists []. rewrite app_nil_r. split_and!; [done|constructor|intros x Hx; by apply elem_of_nil in Hx|cbn; lia|].
      by apply count_ready_zero.
    - unfold bnd at 1. pose proof (fast_pass_spec po (S n) c Hn) as Hp.
      destruct (fast_pass dbg po t (S n) c) as [r c1|e c1|u|]; cbn [fpass_post] in Hp; [|exact Hp..].
      destruct Hp as (Hr & Hin & Hle & Hcr). rewrite Hc in Hcr.
      assert (length r = S n) as Hlen by lia. rewrite Hlen, Nat.eqb_refl.
      pose proof (undone_run dbg t po c r c1 Hn Hr Hin) as Hu.
      specialize (IH (acc ++ [r]) (added + S n) c1 ltac:(lia)).
      destruct (fast_loop dbg fuel po t (acc ++ [r]) (added + S n) c1) as [[order m] c2|e c2|u|];
        cbn [floop_post] in *.
      + destruct IH as (o & -> & Hro & Hino & -> & Hex). exists (r :: o). cbn [concat]. split_and!.
        * by rewrite <- app_assoc.
        * by eapply legal_run_app.
        * intros x Hx. apply elem_of_app in Hx as [Hx|Hx]; auto.
        * rewrite app_length. lia.
        * done.
      + by eapply (failed_app dbg t po).
      + by eapply (failed_app dbg t po).
      + done.
  Qed.

  Lemma fast_schedule_spec po c :
    NoDup (map l_id po) ->
    match fast_schedule dbg po t c with
    | Ok (order, n) c' =>
        legal_run dbg t c (concat order) c' /\ (forall x, x ∈ concat order -> x ∈ po) /\
        n = length (concat order) /\ exhausted po c'
    | Exn e c' => failed dbg t (A:=unit) po c (Exn e c')
    | UB u => failed dbg t (A:=unit) po c (UB u)
    | OOF => False
    end.
  Proof.
    intros Hn. unfold fast_schedule.
    pose proof (fast_loop_spec (S (length po)) po [] 0 c Hn) as Hl.
    assert (undone po c < S (length po)) as Hu by (pose proof (undone_le po c); lia).
    specialize (Hl Hu). destruct (fast_loop _ _ _ _ _ _ _) as [[order n] c'|e c'|u|]; cbn in *; [|done..].
    destruct Hl as (o & -> & ? & ? & -> & ?). cbn. done.
  Qed.
  End dbg.
End modes.
