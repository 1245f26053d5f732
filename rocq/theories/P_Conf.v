(** In a debug build all complete schedules of the same leaves have the same result. *)
From stdpp Require Import prelude gmap.
From Coq Require Import ZArith.
From Verif Require Import Num Res Store Leaf Sched SpecSched P_Store P_Prog Util P_Sched P_Modes.

(** Among the value signals [X], [l] reads nothing but what it waits for and what
    it has written itself. *)
Definition local {D} `{NumOps D} (X : gset nat) (l : leaf D) : Prop :=
  forall t st, reads_in (fun s => s ∈ X -> s ∈ required l) (act l t st).

Section conf.
  Context {D : Type} `{NumOps D}.
  Implicit Types (c : core D) (l : leaf D).
  Notation entry := (leaf D * (lstate D * list (nat * val D)))%type.

  Definition e_ws (e : entry) : list (nat * val D) := snd (snd e).
  Definition writes (tr : list entry) : list (nat * val D) := concat (map e_ws tr).
  Fixpoint states (tr : list entry) (m : gmap nat (lstate D)) : gmap nat (lstate D) :=
    match tr with
    | [] => m
    | e :: tr' => states tr' (<[l_id (fst e) := fst (snd e)]> m)
    end.

  Lemma states_app tr1 tr2 m : states (tr1 ++ tr2) m = states tr2 (states tr1 m).
  Proof. revert m. induction tr1; intros; cbn; auto. Qed.
  Lemma writes_app tr1 tr2 : writes (tr1 ++ tr2) = writes tr1 ++ writes tr2.
  Proof. unfold writes. by rewrite map_app, concat_app. Qed.
  Lemma states_notin tr m b : b ∉ map (fun e : entry => l_id (fst e)) tr -> states tr m !! b = m !! b.
  Proof.
    revert m. induction tr as [|e tr IH]; intros m Hb; cbn [states map] in *; [done|].
    apply not_elem_of_cons in Hb as [Hne Hb]. rewrite IH by done. by rewrite lookup_insert_ne.
  Qed.
  Lemma states_in tr m e :
    NoDup (map (fun e : entry => l_id (fst e)) tr) -> e ∈ tr ->
    states tr m !! l_id (fst e) = Some (fst (snd e)).
  Proof.
    revert m. induction tr as [|x tr IH]; intros m Hn He; cbn [states map] in *; [by apply elem_of_nil in He|].
    apply NoDup_cons in Hn as [Hx Hn]. apply elem_of_cons in He as [->|He].
    - rewrite states_notin by done. by rewrite lookup_insert.
    - by apply IH.
  Qed.
  Lemma states_perm tr tr' m :
    NoDup (map (fun e : entry => l_id (fst e)) tr) -> tr ≡ₚ tr' -> states tr m = states tr' m.
  Proof.
    intros Hn Hp. assert (NoDup (map (fun e : entry => l_id (fst e)) tr')) as Hn'.
    { by rewrite <- (fmap_Permutation (fun e : entry => l_id (fst e)) _ _ Hp). }
    apply map_eq. intros b. destruct (decide (b ∈ map (fun e : entry => l_id (fst e)) tr)) as [Hin|Hni].
    - apply elem_of_list_fmap in Hin as (e & -> & He). rewrite states_in by done.
      symmetry. apply states_in; [done|]. by rewrite <- Hp.
    - rewrite states_notin by done. rewrite states_notin; [done|].
      by rewrite <- (fmap_Permutation (fun e : entry => l_id (fst e)) _ _ Hp).
  Qed.

  (** What a legal run did. *)
  Definition traced (t : D) c (tr : list entry) c' : Prop :=
    k_store c' = write_all (writes tr) (k_store c) /\
    writable (k_store c) (writes tr) /\
    k_lst c' = states tr (k_lst c) /\
    Forall (fun e : entry => forall τ, ext (k_store c') τ ->
      ceval (value τ) (act (fst e) t (lst_of c (l_id (fst e)))) = Some (snd e)) tr.

  Lemma traced_ext t c tr c' : traced t c tr c' -> ext (k_store c) (k_store c').
  Proof. intros (Hs & Hw & _). rewrite Hs. by apply write_all_ext. Qed.

  Lemma activate_traced t l c c' :
    activate true l t c = Ok tt c' -> exists st ws,
      k_store c' = write_all ws (k_store c) /\ writable (k_store c) ws /\
      k_lst c' = <[l_id l := st]> (k_lst c) /\
      (forall τ, ext (k_store c') τ -> ceval (value τ) (act l t (lst_of c (l_id l))) = Some (st, ws)).
  Proof.
    unfold activate, run_leaf. intros Ha.
    destruct (run_prog true (act l t (lst_of c (l_id l))) (k_store c)) as [st σ| | |] eqn:E; try done.
    simplify_eq. apply run_prog_dbg in E as (ws & -> & Hw & Hc). cbn. eauto 8.
  Qed.

  Lemma legal_run_traced t c ls c' :
    legal_run true t c ls c' -> exists tr, map fst tr = ls /\ traced t c tr c'.
  Proof.
    induction 1 as [|ls c1 l c2 H1 (tr & Hls & Htr) Hd Hi Ha].
    - exists []. split; [done|]. split_and!; [done|apply writable_nil|done|constructor].
    - pose proof (legal_run_basic true t _ _ _ H1) as (Hnd & Hnew & Hdone & _).
      destruct Htr as (Hs & Hw & Hlst & Hall).
      destruct (activate_traced t l c1 c2 Ha) as (st & ws & Hs2 & Hw2 & Hlst2 & Hc2).
      exists (tr ++ [(l, (st, ws))]). split; [by rewrite map_app, Hls|].
      assert (writes (tr ++ [(l, (st, ws))]) = writes tr ++ ws) as Hwr.
      { rewrite writes_app. unfold writes at 2. cbn. by rewrite app_nil_r. }
      unfold traced. rewrite Hwr. cbn [mark_done k_store k_lst]. split_and!.
      + by rewrite write_all_app, <- Hs.
      + apply writable_app. by rewrite <- Hs.
      + rewrite states_app, <- Hlst. cbn. done.
      + apply Forall_app. split.
        * eapply Forall_impl; [exact Hall|]. intros e He τ Hτ. apply He.
          eapply ext_trans; [|exact Hτ]. rewrite Hs2. by apply write_all_ext.
        * constructor; [|constructor]. intros τ Hτ. cbn [fst snd].
          assert (lst_of c1 (l_id l) = lst_of c (l_id l)) as <-; [|by apply Hc2].
          unfold lst_of. rewrite Hlst, states_notin; [done|].
          intros Hin. apply Hd. rewrite Hdone. apply elem_of_union_l, elem_of_list_to_set.
          rewrite <- Hls. rewrite map_map. done.
  Qed.

  Lemma writes_elem e tr : e ∈ tr -> forall w, w ∈ e_ws e -> w ∈ writes tr.
  Proof. intros He w Hw. unfold writes. apply elem_of_concat_map. eauto. Qed.

  (** Entries of a trace are determined by the leaf. *)
  Section fixA.
    Context (t : D) (c : core D) (L lsA : list (leaf D)) (cA : core D) (trA : list entry).
    Hypothesis Hok : store_ok (k_store c).
    Hypothesis HL : NoDup (map l_id L).
    Hypothesis HrA : legal_run true t c lsA cA.
    Hypothesis HtA : traced t c trA cA.
    Hypothesis HlsA : map fst trA = lsA.
    Hypothesis HA : forall l, l ∈ lsA -> l ∈ L.
    Hypothesis HexA : exhausted L cA.
    Hypothesis Hloc : forall l, l ∈ L -> local (dom (k_store c)) l.

    Lemma writes_A_disjoint e1 e2 s v1 v2 :
      e1 ∈ trA -> e2 ∈ trA -> (s, v1) ∈ e_ws e1 -> (s, v2) ∈ e_ws e2 -> e1 = e2.
    Proof.
      destruct HtA as (_ & [Hn _] & _). revert Hn. generalize trA. clear.
      intros tr. unfold writes. induction tr as [|x tr IH]; intros Hn H1 H2 Hw1 Hw2; [by apply elem_of_nil in H1|].
      cbn in Hn. rewrite map_app in Hn. apply NoDup_app in Hn as (Hn1 & Hdis & Hn2).
      apply elem_of_cons in H1 as [->|H1]; apply elem_of_cons in H2 as [->|H2]; [done| | |by apply IH].
      - exfalso. apply (Hdis s); apply elem_of_list_fmap.
        + by exists (s, v1).
        + exists (s, v2). split; [done|]. by apply (writes_elem e2).
      - exfalso. apply (Hdis s); apply elem_of_list_fmap.
        + by exists (s, v2).
        + exists (s, v1). split; [done|]. by apply (writes_elem e1).
    Qed.

    Lemma writes_A_nodup e : e ∈ trA -> NoDup (map fst (e_ws e)).
    Proof.
      destruct HtA as (_ & [Hn _] & _). revert Hn. generalize trA. clear.
      intros tr. unfold writes. induction tr as [|x tr IH]; intros Hn H1; [by apply elem_of_nil in H1|].
      cbn in Hn. rewrite map_app in Hn. apply NoDup_app in Hn as (Hn1 & Hdis & Hn2).
      apply elem_of_cons in H1 as [->|H1]; auto.
    Qed.

    (** A sub-trace of A's trace in any order leads below A's final store. *)
    Lemma sub_writable trB :
      NoDup (map (fun e : entry => l_id (fst e)) trB) -> (forall e, e ∈ trB -> e ∈ trA) ->
      writable (k_store c) (writes trB).
    Proof.
      intros Hn Hsub. destruct HtA as (_ & [_ Hcw] & _). split.
      - induction trB as [|e tr IH]; [constructor|]. unfold writes in *. cbn [map concat].
        cbn [map] in Hn. apply NoDup_cons in Hn as [Hne Hn].
        rewrite map_app. apply NoDup_app. split_and!.
        + apply writes_A_nodup. apply Hsub. apply elem_of_list_here.
        + intros s Hs1 Hs2. apply elem_of_list_fmap in Hs1 as ([s1 v1] & -> & Hw1).
          apply elem_of_list_fmap in Hs2 as ([s2 v2] & Heq & Hw2). cbn in Heq. subst s2.
          apply elem_of_concat_map in Hw2 as (e2 & He2 & Hw2).
          assert (e = e2) as ->.
          { eapply writes_A_disjoint; [apply Hsub, elem_of_list_here|apply Hsub, elem_of_list_further; done|done|done]. }
          apply Hne. by apply (elem_of_list_fmap_1 (fun e : entry => l_id (fst e))).
        + apply IH; [done|]. intros e' He'. apply Hsub. by apply elem_of_list_further.
      - apply Forall_forall. intros w Hw. unfold writes in Hw. apply elem_of_concat_map in Hw as (e & He & Hw).
        rewrite Forall_forall in Hcw. apply Hcw. by eapply writes_elem; [apply Hsub|].
    Qed.

    Lemma sub_ext trB :
      NoDup (map (fun e : entry => l_id (fst e)) trB) -> (forall e, e ∈ trB -> e ∈ trA) ->
      ext (write_all (writes trB) (k_store c)) (k_store cA).
    Proof.
      intros Hn Hsub. pose proof (sub_writable trB Hn Hsub) as [HnB HwB].
      destruct HtA as (HsA & [HnA HwA] & _). rewrite HsA. intros s cc Hcc.
      destruct (decide (s ∈ map fst (writes trB))) as [Hin|Hni].
      - apply elem_of_list_fmap in Hin as ([s' v] & -> & Hin). cbn in *.
        rewrite Forall_forall in HwB. destruct (HwB _ Hin) as (c0 & Hc0 & _). cbn in Hc0.
        rewrite (write_all_in _ _ s' v c0) in Hcc by done. simplify_eq.
        rewrite (write_all_in _ _ s' v c0); [|done| |done].
        + eexists. split_and!; done.
        + unfold writes in Hin. apply elem_of_concat_map in Hin as (e & He & Hw).
          eapply writes_elem; [by apply Hsub|done].
      - rewrite write_all_notin in Hcc by done.
        destruct (write_all_ext (k_store c) (writes trA) (conj HnA HwA) s cc Hcc) as (c' & Hc' & Hk & Hd & Ha). eauto.
    Qed.

    (** Whatever has been done in A's trace is exactly the leaves done in A. *)
    Lemma A_entry l : l ∈ L -> l_id l ∉ k_done c -> l_id l ∈ k_done cA ->
      exists st ws, (l, (st, ws)) ∈ trA /\
        ceval (value (k_store cA)) (act l t (lst_of c (l_id l))) = Some (st, ws).
    Proof.
      intros Hl Hnd Hd. pose proof (legal_run_basic true t _ _ _ HrA) as (_ & _ & Hdone & _).
      rewrite Hdone in Hd. apply elem_of_union in Hd as [Hd|Hd]; [|done].
      apply elem_of_list_to_set in Hd. apply elem_of_list_fmap in Hd as (l' & Hid & Hl').
      assert (l = l') as <-.
      { pose proof (HA l' Hl') as HlL. revert Hid Hl HlL HL. clear. intros Hid Hl Hl' HL.
        induction L as [|x L' IH]; [by apply elem_of_nil in Hl|]. cbn in HL. apply NoDup_cons in HL as [Hx HL].
        apply elem_of_cons in Hl as [->|Hl]; apply elem_of_cons in Hl' as [->|Hl']; [done| | |by apply IH].
        - exfalso. apply Hx. rewrite Hid. by apply elem_of_list_fmap_1.
        - exfalso. apply Hx. rewrite <- Hid. by apply elem_of_list_fmap_1. }
      rewrite <- HlsA in Hl'. apply elem_of_list_fmap in Hl' as ([l' [st ws]] & Heq & He). cbn in Heq. subst l'.
      exists st, ws. split; [done|]. destruct HtA as (_ & _ & _ & Hall).
      rewrite Forall_forall in Hall. specialize (Hall _ He). cbn in Hall. apply Hall. apply ext_refl.
    Qed.

    (** One step of another schedule. *)
    Lemma step_B trB cB l :
      NoDup (map (fun e : entry => l_id (fst e)) trB) -> (forall e, e ∈ trB -> e ∈ trA) ->
      k_store cB = write_all (writes trB) (k_store c) ->
      k_lst cB = states trB (k_lst c) ->
      k_done cB = list_to_set (map (fun e : entry => l_id (fst e)) trB) ∪ k_done c ->
      l ∈ L -> pick cB l ->
      exists st ws, (l, (st, ws)) ∈ trA /\
        activate true l t cB =
          Ok tt (Core (write_all ws (k_store cB)) (<[l_id l := st]> (k_lst cB)) (k_done cB)
                      (k_log cB ++ [EvAct (l_id l) t])).
    Proof.
      intros Hn Hsub HsB HlstB HdB Hl [Hnd Hin].
      pose proof (sub_ext trB Hn Hsub) as Hext. rewrite <- HsB in Hext.
      assert (l_id l ∈ k_done cA) as HdA.
      { destruct (HexA l Hl) as [Hd|(s & Hs & Ha)]; [done|].
        rewrite (ext_assigned _ _ s Hext) in Ha; [done|]. by apply Hin. }
      assert (l_id l ∉ k_done c) as Hndc by (rewrite HdB in Hnd; set_solver).
      destruct (A_entry l Hl Hndc HdA) as (st & ws & He & Hc).
      exists st, ws. split; [done|].
      assert (l_id l ∉ map (fun e : entry => l_id (fst e)) trB) as Hni.
      { intros Hi. apply Hnd. rewrite HdB. apply elem_of_union_l. by apply elem_of_list_to_set. }
      set (trB' := trB ++ [(l, (st, ws))]).
      assert (NoDup (map (fun e : entry => l_id (fst e)) trB')) as Hn'.
      { unfold trB'. rewrite map_app. apply NoDup_app. split_and!; [done| |apply NoDup_singleton].
        intros x Hx Hx2. cbn in Hx2. by apply elem_of_list_singleton in Hx2 as ->. }
      assert (forall e, e ∈ trB' -> e ∈ trA) as Hsub'.
      { intros e Hee. apply elem_of_app in Hee as [Hee|Hee]; [auto|]. by apply elem_of_list_singleton in Hee as ->. }
      assert (writes trB' = writes trB ++ ws) as Hwr.
      { unfold trB'. rewrite writes_app. unfold writes at 2. cbn. by rewrite app_nil_r. }
      pose proof (sub_writable trB' Hn' Hsub') as Hw'. rewrite Hwr in Hw'.
      apply writable_app in Hw' as [HwB Hww]. rewrite <- HsB in Hww.
      pose proof (sub_ext trB' Hn' Hsub') as Hext'. rewrite Hwr, write_all_app, <- HsB in Hext'.
      assert (lst_of cB (l_id l) = lst_of c (l_id l)) as Hst.
      { unfold lst_of. by rewrite HlstB, states_notin. }
      unfold activate, run_leaf. rewrite Hst.
      assert (dom (k_store cB) = dom (k_store c)) as HdcB by (by rewrite HsB, write_all_dom).
      rewrite (run_prog_avail (fun s => s ∈ dom (k_store c) -> s ∈ required l) (act l t (lst_of c (l_id l)))
        (k_store cB) (k_store cA) st ws); [done| | | | | | |done].
      - rewrite HsB. by apply write_all_ok.
      - by apply Hloc.
      - destruct HtA as (-> & _). by rewrite write_all_dom.
      - rewrite HdcB. intros s Hsd Hs. apply Hin. auto.
      - done.
      - done.
    Qed.

    (** Every other schedule stays inside A's trace. *)
    Lemma run_B lsB cB :
      legal_run true t c lsB cB -> (forall l, l ∈ lsB -> l ∈ L) ->
      exists trB, map fst trB = lsB /\ (forall e, e ∈ trB -> e ∈ trA) /\
        NoDup (map (fun e : entry => l_id (fst e)) trB) /\
        k_store cB = write_all (writes trB) (k_store c) /\
        k_lst cB = states trB (k_lst c) /\
        k_done cB = list_to_set (map (fun e : entry => l_id (fst e)) trB) ∪ k_done c.
    Proof.
      induction 1 as [|ls c1 l c2 H1 IH Hd Hi Ha]; intros HB.
      - exists []. split_and!; [done|intros e He; by apply elem_of_nil in He|constructor|done|done|cbn; set_solver].
      - destruct IH as (trB & HlsB & Hsub & Hn & HsB & HlstB & HdB).
        { intros x Hx. apply HB. apply elem_of_app. by left. }
        destruct (step_B trB c1 l Hn Hsub HsB HlstB HdB) as (st & ws & He & Hact).
        { apply HB. apply elem_of_app. right. apply elem_of_list_here. }
        { done. }
        rewrite Hact in Ha. simplify_eq. exists (trB ++ [(l, (st, ws))]).
        assert (l_id l ∉ map (fun e : entry => l_id (fst e)) trB) as Hni.
        { intros Hx. apply Hd. rewrite HdB. apply elem_of_union_l. by apply elem_of_list_to_set. }
        split_and!.
        + by rewrite map_app.
        + intros e Hee. apply elem_of_app in Hee as [Hee|Hee]; [auto|]. by apply elem_of_list_singleton in Hee as ->.
        + rewrite map_app. apply NoDup_app. split_and!; [done| |apply NoDup_singleton].
          intros x Hx Hx2. cbn in Hx2. by apply elem_of_list_singleton in Hx2 as ->.
        + cbn. rewrite writes_app, write_all_app, <- HsB. unfold writes. cbn. by rewrite app_nil_r.
        + cbn. rewrite states_app, <- HlstB. done.
        + cbn. rewrite HdB, map_app, list_to_set_app_L. cbn. set_solver.
    Qed.

    Lemma progress_B lsB cB l :
      legal_run true t c lsB cB -> (forall l, l ∈ lsB -> l ∈ L) ->
      l ∈ L -> pick cB l -> exists c', activate true l t cB = Ok tt c'.
    Proof.
      intros HrB HB Hl Hp. destruct (run_B lsB cB HrB HB) as (trB & _ & Hsub & Hn & Hs & Hlst & Hd).
      destruct (step_B trB cB l Hn Hsub Hs Hlst Hd Hl Hp) as (st & ws & _ & Ha). eauto.
    Qed.
  End fixA.

  (** A complete schedule excludes failure of any other. *)
  Lemma no_failure {A} t c L lsA cA (r : res (core D) A) :
    store_ok (k_store c) -> NoDup (map l_id L) -> (forall l, l ∈ L -> local (dom (k_store c)) l) ->
    legal_run true t c lsA cA -> (forall l, l ∈ lsA -> l ∈ L) -> exhausted L cA ->
    ~ failed true t L c r.
  Proof.
    intros Hok HL Hloc HrA HA HexA (ls & c1 & l & Hr & Hin & Hl & Hp & Hf).
    destruct (legal_run_traced t c lsA cA HrA) as (trA & HlsA & HtA).
    destruct (progress_B t c L lsA cA trA Hok HL HrA HtA HlsA HA HexA Hloc ls c1 l Hr Hin Hl Hp) as [c' Ha].
    destruct r; try done; congruence.
  Qed.

  (** Two complete schedules agree. *)
  Lemma confluence t c L lsA cA lsB cB :
    store_ok (k_store c) -> NoDup (map l_id L) -> (forall l, l ∈ L -> local (dom (k_store c)) l) ->
    legal_run true t c lsA cA -> (forall l, l ∈ lsA -> l ∈ L) -> exhausted L cA ->
    legal_run true t c lsB cB -> (forall l, l ∈ lsB -> l ∈ L) -> exhausted L cB ->
    lsA ≡ₚ lsB /\ k_store cA = k_store cB /\ k_lst cA = k_lst cB /\ k_done cA = k_done cB.
  Proof.
    intros Hok HL Hloc HrA HA HexA HrB HB HexB.
    destruct (legal_run_traced t c lsA cA HrA) as (trA & HlsA & HtA).
    destruct (run_B t c L lsA cA trA Hok HL HrA HtA HlsA HA HexA Hloc lsB cB HrB HB)
      as (trB & HlsB & Hsub & Hn & Hs & Hlst & Hd).
    destruct (legal_run_traced t c lsB cB HrB) as (trB' & HlsB' & HtB).
    destruct (run_B t c L lsB cB trB' Hok HL HrB HtB HlsB' HB HexB Hloc lsA cA HrA HA)
      as (trA' & HlsA' & Hsub' & Hn' & Hs' & Hlst' & Hd').
    pose proof (legal_run_basic true t _ _ _ HrA) as (HnA & _ & HdA & _).
    pose proof (legal_run_basic true t _ _ _ HrB) as (HnB & _ & HdB & _).
    assert (forall l, l ∈ lsA <-> l ∈ lsB) as Hiff.
    { intros l. split.
      - intros Hl. rewrite <- HlsA' in Hl. apply elem_of_list_fmap in Hl as (e & -> & He).
        rewrite <- HlsB'. apply elem_of_list_fmap_1. auto.
      - intros Hl. rewrite <- HlsB in Hl. apply elem_of_list_fmap in Hl as (e & -> & He).
        rewrite <- HlsA. apply elem_of_list_fmap_1. auto. }
    assert (lsA ≡ₚ lsB) as Hperm.
    { apply NoDup_Permutation; [by eapply NoDup_fmap_1|by eapply NoDup_fmap_1|done]. }
    assert (NoDup (map (fun e : entry => l_id (fst e)) trA)) as HnA'.
    { rewrite <- HlsA in HnA. by rewrite map_map in HnA. }
    assert (trB ≡ₚ trA) as Htr.
    { apply NoDup_Permutation.
      - by eapply NoDup_fmap_1.
      - by eapply NoDup_fmap_1.
      - intros e. split; [by apply Hsub|]. intros He.
        assert (fst e ∈ lsB) as Hl. { apply Hiff. rewrite <- HlsA. by apply elem_of_list_fmap_1. }
        rewrite <- HlsB in Hl. apply elem_of_list_fmap in Hl as (e2 & Heq & He2).
        assert (e = e2) as ->; [|done].
        pose proof (Hsub e2 He2) as He2A. revert He He2A HnA' Heq. clear. intros He He2 Hn Heq.
        induction trA as [|x tr IH]; [by apply elem_of_nil in He|].
        cbn in Hn. apply NoDup_cons in Hn as [Hx Hn].
        apply elem_of_cons in He as [->|He]; apply elem_of_cons in He2 as [->|He2]; [done| | |by apply IH].
        + exfalso. apply Hx. rewrite Heq. by apply (elem_of_list_fmap_1 (fun e : entry => l_id (fst e))).
        + exfalso. apply Hx. rewrite <- Heq. by apply (elem_of_list_fmap_1 (fun e : entry => l_id (fst e))). }
    destruct HtA as (HsA & HwA & HlstA & _). split_and!.
    - done.
    - rewrite HsA, Hs. apply write_all_perm; [apply HwA|]. unfold writes. by apply concat_map_perm.
    - rewrite HlstA, Hlst. by apply states_perm.
    - rewrite HdA, HdB. f_equal. apply list_to_set_perm_L. by rewrite (fmap_Permutation l_id _ _ Hperm).
  Qed.
End conf.
