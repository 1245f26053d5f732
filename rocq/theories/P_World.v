(** Invariants of reachable worlds. *)
From stdpp Require Import prelude gmap strings.
From Coq Require Import ZArith.
From Verif Require Import Num Res Name SpecName P_Name Store Leaf Sched World Api Steps P_Steps P_Ops.

Section inv.
  Context {D : Type} `{NumOps D}.
  Implicit Types (w : world D).

  (** ** Names *)
  Definition names_ok w : Prop :=
    (forall s o, w_sigs w !! s = Some o -> legal_name (so_name o) /\ forall e, e ∈ so_mem o -> legal_name (fst e)) /\
    (forall b o, w_blks w !! b = Some o -> legal_name (bo_name o)).

  Lemma addsig_some w x s o :
    w_sigs (addsig w x) !! s = Some o -> w_sigs w !! s = Some o \/ (s = length (w_sigs w) /\ o = x).
  Proof. cbn. intros Hl. apply lookup_app_Some in Hl as [?|[? Hl]]; [by left|]. right.
    apply list_lookup_singleton_Some in Hl as [? <-]. split; [lia|done]. Qed.
  Lemma putsig_some w x s s' o :
    w_sigs (putsig w s x) !! s' = Some o -> (s' = s /\ o = x) \/ (s' ≠ s /\ w_sigs w !! s' = Some o).
  Proof. cbn. intros Hl. apply list_lookup_insert_Some in Hl. naive_solver. Qed.

  Lemma step_names w w' : step w w' -> names_ok w -> names_ok w'.
  Proof.
    intros Hs [H1 H2].
    assert (forall b f, (forall x, legal_name (bo_name x) -> legal_name (bo_name (f x))) -> forall w0, w_sigs w0 = w_sigs w ->
       (forall b o, w_blks w0 !! b = Some o -> legal_name (bo_name o)) -> names_ok (upd w0 b f)) as Hupd.
    { intros b f Hf w0 He H0. split; [cbn; by rewrite He|]. intros b' o' Ho'. apply upd_some in Ho' as (o & Ho & ->).
      case_decide; [apply Hf|]; eauto. }
    assert (forall x, legal_name (bo_name x) -> forall b o, w_blks (addblk w x) !! b = Some o -> legal_name (bo_name o)) as Hadd.
    { intros x Hx b o Ho. apply addblk_some in Ho as [Ho|[_ ->]]; eauto. }
    destruct Hs; try (apply Hupd; [done|done|done]); try (split; [|done]).
    - intros s o Ho. apply addsig_some in Ho as [Ho|[_ ->]]; [eauto|]. split; [apply emend_legal|].
      intros e He. by apply elem_of_nil in He.
    - intros s o Ho. apply addsig_some in Ho as [Ho|[_ ->]]; [eauto|]. split; [apply emend_legal|]. naive_solver.
    - intros s' o' Ho. apply putsig_some in Ho as [[-> ->]|[_ Ho]]; [|eauto]. split; [done|]. cbn. by eapply H1.
    - intros s' o' Ho. apply putsig_some in Ho as [[-> ->]|[_ Ho]]; [|eauto]. split; cbn; by eapply H1.
    - split; [done|]. apply Hadd, emend_legal.
    - apply Hupd; [done|done|]. apply Hadd, emend_legal.
    - apply Hupd; [done|done|]. intros b' o' Ho'. apply upd_some in Ho' as (o1 & Ho1 & ->). case_decide; cbn; eauto.
  Qed.

  (** ** Signals: members of buses are older than the bus *)
  Definition sigs_ok w : Prop :=
    forall s o, w_sigs w !! s = Some o ->
      (forall e, e ∈ so_mem o -> snd e < s) /\ (so_kind o ≠ KBus -> so_mem o = []) /\
      (forall ds, so_deriv o = Some ds -> exists T, ty_fits T (so_kind o) = true /\ tsig w T ds).
  Lemma step_sigs w w' : step w w' -> sigs_ok w -> sigs_ok w'.
  Proof.
    intros Hs HI s o Ho.
    assert (forall s o, w_sigs w !! s = Some o ->
      (forall e, e ∈ so_mem o -> snd e < s) /\ (so_kind o ≠ KBus -> so_mem o = []) /\
      (forall ds, so_deriv o = Some ds -> exists T, ty_fits T (so_kind o) = true /\ tsig w' T ds)) as HI'.
    { intros s' o' Ho'. destruct (HI s' o' Ho') as (? & ? & Hd). split_and!; [done|done|].
      intros ds Hds. destruct (Hd ds Hds) as (T & ? & Ht). exists T. split; [done|].
      eapply stable_tsig; [by apply one_step|done]. }
    destruct Hs; try (by apply HI').
    - apply addsig_some in Ho as [Ho|[-> ->]]; [by apply HI'|]. cbn. split_and!; [|done|done].
      intros e He. by apply elem_of_nil in He.
    - apply addsig_some in Ho as [Ho|[-> ->]]; [by apply HI'|]. cbn. split_and!; [|done|done]. naive_solver.
    - apply putsig_some in Ho as [[-> ->]|[_ Ho]]; [|by apply HI']. cbn. by apply HI'.
    - apply putsig_some in Ho as [[-> ->]|[_ Ho]]; [|by apply HI']. cbn.
      destruct (HI' s0 o0 H0) as (? & ? & _). split_and!; [done|done|]. intros ds' [= <-]. exists T. split; [done|].
      eapply stable_tsig; [|done]. apply one_step. by eapply st_deriv.
  Qed.

  (** ** The hierarchy *)
  Record tree_ok w : Prop := {
    t_child : forall p op b, w_blks w !! p = Some op -> b ∈ bo_children op ->
      exists o, w_blks w !! b = Some o /\ bo_parent o = Some p;
    t_parent : forall b o p, w_blks w !! b = Some o -> bo_parent o = Some p ->
      exists op, w_blks w !! p = Some op /\ is_submodel (bo_cls op) = true /\ b ∈ bo_children op;
    t_nodup : forall p op, w_blks w !! p = Some op -> NoDup (bo_children op)
  }.
  Lemma tree_same w w' : tree_ok w -> length (w_blks w') = length (w_blks w) ->
    (forall b o', w_blks w' !! b = Some o' -> exists o, w_blks w !! b = Some o /\ bo_parent o' = bo_parent o /\
       bo_children o' = bo_children o /\ is_submodel (bo_cls o') = is_submodel (bo_cls o)) ->
    tree_ok w'.
  Proof.
    intros [T1 T2 T3] Hlen Hl.
    assert (forall b o, w_blks w !! b = Some o -> exists o', w_blks w' !! b = Some o' /\ bo_parent o' = bo_parent o /\
       bo_children o' = bo_children o /\ is_submodel (bo_cls o') = is_submodel (bo_cls o)) as Hl'.
    { intros b o Ho. assert (b < length (w_blks w')) as Hb by (rewrite Hlen; by eapply lookup_lt_Some).
      apply lookup_lt_is_Some_2 in Hb as [o' Ho']. exists o'. split; [done|].
      destruct (Hl b o' Ho') as (o1 & Ho1 & ?). by simplify_eq. }
    split.
    - intros p op b Hp Hb. destruct (Hl p op Hp) as (op0 & Hp0 & _ & Hc & _). rewrite Hc in Hb.
      destruct (T1 p op0 b Hp0 Hb) as (o0 & Ho0 & Hpar). destruct (Hl' b o0 Ho0) as (o' & Ho' & Hpar' & _).
      exists o'. by rewrite Hpar'.
    - intros b o p Hb Hpar. destruct (Hl b o Hb) as (o0 & Ho0 & Hpar' & _). rewrite Hpar' in Hpar.
      destruct (T2 b o0 p Ho0 Hpar) as (op0 & Hop0 & Hs & Hin). destruct (Hl' p op0 Hop0) as (op & Hop & _ & Hc & Hs').
      exists op. by rewrite Hs', Hc.
    - intros p op Hp. destruct (Hl p op Hp) as (op0 & Hp0 & _ & Hc & _). rewrite Hc. eauto.
  Qed.
  Lemma child_added_in ch b : b ∈ ch -> child_added ch b = ch.
  Proof. intros Hb. unfold child_added. by rewrite bool_decide_eq_true_2. Qed.
  Lemma child_added_notin ch b : b ∉ ch -> child_added ch b = ch ++ [b].
  Proof. intros Hb. unfold child_added. by rewrite bool_decide_eq_false_2. Qed.
  Lemma elem_child_added ch b x : x ∈ child_added ch b <-> x ∈ ch \/ x = b.
  Proof.
    unfold child_added. case_bool_decide; [naive_solver|]. rewrite elem_of_app, elem_of_list_singleton. done.
  Qed.
  Lemma nodup_child_added ch b : NoDup ch -> NoDup (child_added ch b).
  Proof.
    intros Hn. unfold child_added. case_bool_decide; [done|]. apply NoDup_app. split_and!; [done| |apply NoDup_singleton].
    intros x Hx Hb. apply elem_of_list_singleton in Hb as ->. done.
  Qed.

  Lemma step_tree w w' : step w w' -> tree_ok w -> tree_ok w'.
  Proof.
    intros Hs HT.
    assert (forall b f, (forall x, w_blks w !! b = Some x -> bo_parent (f x) = bo_parent x /\ bo_children (f x) = bo_children x /\
        is_submodel (bo_cls (f x)) = is_submodel (bo_cls x)) -> tree_ok (upd w b f)) as Hupd.
    { intros b f Hf. eapply tree_same; [done|cbn; by rewrite alter_length|].
      intros b' o' Ho'. apply upd_some in Ho' as (o & Ho & ->). exists o. split; [done|].
      case_decide as Hd; [|done]. subst. by apply Hf. }
    assert (forall w0, w_blks w0 = w_blks w -> tree_ok w0) as Hsigs.
    { intros w0 He. eapply tree_same; [done|by rewrite He|]. intros b o Ho. rewrite He in Ho. eauto. }
    destruct HT as [T1 T2 T3].
    destruct Hs; try (by apply Hsigs); try (by apply Hupd).
    - (* st_blk *) split.
      + intros p op b Hp Hb. apply addblk_some in Hp as [Hp|[-> ->]]; [|by apply elem_of_nil in Hb].
        destruct (T1 p op b Hp Hb) as (o & Ho & ?). exists o. split; [|done]. cbn. by apply lookup_app_l_Some.
      + intros b o p Hb Hpar. apply addblk_some in Hb as [Hb|[-> ->]]; [|done].
        destruct (T2 b o p Hb Hpar) as (op & Hop & ?). exists op. split; [|done]. cbn. by apply lookup_app_l_Some.
      + intros p op Hp. apply addblk_some in Hp as [Hp|[-> ->]]; [eauto|]. cbn. apply NoDup_nil_2.
    - (* st_blk_in *) split.
      + intros p' op' b Hp Hb. apply upd_some in Hp as (o1 & Ho1 & ->).
        apply addblk_some in Ho1 as [Ho1|[-> ->]].
        * assert (b ∈ bo_children o1 \/ (p' = p /\ b = length (w_blks w))) as [Hb'|[-> ->]].
          { case_decide; [|by left]. cbn in Hb. apply elem_child_added in Hb. subst. naive_solver. }
          -- destruct (T1 p' o1 b Ho1 Hb') as (o & Ho & Hpar).
             exists (if decide (b = p) then set_children (child_added (bo_children o) (length (w_blks w))) o else o).
             split; [|by destruct (decide (b = p))]. cbn. destruct (decide (b = p)) as [->|Hne].
             ++ rewrite list_lookup_alter. rewrite (lookup_app_l_Some _ _ _ _ Ho). done.
             ++ rewrite list_lookup_alter_ne by done. by apply lookup_app_l_Some.
          -- assert (p ≠ length (w_blks w)) as Hne by (apply lookup_lt_Some in H1; lia).
             eexists. split; [cbn; rewrite list_lookup_alter_ne by done; by apply list_lookup_middle|done].
        * rewrite decide_False in Hb by (apply lookup_lt_Some in H1; lia). by apply elem_of_nil in Hb.
      + intros b o p' Hb Hpar. apply upd_some in Hb as (o1 & Ho1 & ->).
        assert (bo_parent o1 = Some p') as Hpar1 by (by case_decide).
        apply addblk_some in Ho1 as [Ho1|[-> ->]].
        * destruct (T2 b o1 p' Ho1 Hpar1) as (op1 & Hop1 & Hs1 & Hin1).
          exists (if decide (p' = p) then set_children (child_added (bo_children op1) (length (w_blks w))) op1 else op1).
          split_and!.
          -- cbn. destruct (decide (p' = p)) as [->|Hne].
             ++ rewrite list_lookup_alter. rewrite (lookup_app_l_Some _ _ _ _ Hop1). done.
             ++ rewrite list_lookup_alter_ne by done. by apply lookup_app_l_Some.
          -- by destruct (decide (p' = p)).
          -- destruct (decide (p' = p)); [|done]. cbn. apply elem_child_added. by left.
        * injection Hpar1 as <-. eexists. split_and!; [cbn; rewrite list_lookup_alter, (lookup_app_l_Some _ _ _ _ H1); done|done|].
          cbn. apply elem_child_added. by right.
      + intros p' op' Hp. apply upd_some in Hp as (o1 & Ho1 & ->). apply addblk_some in Ho1 as [Ho1|[-> ->]].
        * case_decide; [|eauto]. cbn. apply nodup_child_added. eauto.
        * rewrite decide_False by (apply lookup_lt_Some in H1; lia). cbn. apply NoDup_nil_2.
    - (* st_parent *)
      set (w1 := upd w b (set_par (Some p))).
      assert (forall b' o', w_blks (upd w1 p (fun x => set_children (child_added (bo_children x) b) x)) !! b' = Some o' ->
        exists o1, w_blks w !! b' = Some o1 /\ bo_cls o' = bo_cls o1 /\
          bo_parent o' = (if decide (b' = b) then Some p else bo_parent o1) /\
          bo_children o' = (if decide (b' = p) then child_added (bo_children o1) b else bo_children o1)) as Hinv.
      { intros b' o' Ho'. apply upd_some in Ho' as (o1 & Ho1 & ->). apply upd_some in Ho1 as (o2 & Ho2 & ->).
        exists o2. split; [done|]. repeat case_decide; done. }
      assert (forall b' o1, w_blks w !! b' = Some o1 ->
        exists o', w_blks (upd w1 p (fun x => set_children (child_added (bo_children x) b) x)) !! b' = Some o' /\ bo_cls o' = bo_cls o1 /\
          bo_parent o' = (if decide (b' = b) then Some p else bo_parent o1) /\
          bo_children o' = (if decide (b' = p) then child_added (bo_children o1) b else bo_children o1)) as Hdir.
      { intros b' o1 Ho1. destruct (w_blks (upd w1 p (fun x => set_children (child_added (bo_children x) b) x)) !! b') as [o'|] eqn:E.
        - exists o'. split; [done|]. destruct (Hinv b' o' E) as (o2 & Ho2 & ?). by simplify_eq.
        - apply lookup_ge_None in E. cbn in E. rewrite !alter_length in E. apply lookup_lt_Some in Ho1. lia. }
      split.
      + intros p' op' b' Hp Hb'. destruct (Hinv _ _ Hp) as (op1 & Hop1 & _ & _ & Hch). rewrite Hch in Hb'.
        assert (b' ∈ bo_children op1 \/ (p' = p /\ b' = b)) as [Hin|[-> ->]].
        { case_decide; [|by left]. apply elem_child_added in Hb'. naive_solver. }
        * destruct (T1 _ _ _ Hop1 Hin) as (o1 & Ho1 & Hpar). destruct (Hdir _ _ Ho1) as (o' & Ho' & _ & Hpar' & _).
          exists o'. split; [done|]. rewrite Hpar'. case_decide; [|done]. subst. congruence.
        * destruct (Hdir _ _ H0) as (o' & Ho' & _ & Hpar' & _). exists o'. split; [done|].
          by rewrite Hpar', decide_True.
      + intros b' o' p' Hb' Hpar. destruct (Hinv _ _ Hb') as (o1 & Ho1 & _ & Hpar1 & _). rewrite Hpar1 in Hpar.
        destruct (decide (b' = b)) as [->|Hne].
        * injection Hpar as <-. destruct (Hdir _ _ H2) as (op' & Hop' & Hcl & _ & Hch). exists op'. split_and!; [done|by rewrite Hcl|].
          rewrite Hch, decide_True by done. apply elem_child_added. by right.
        * destruct (T2 _ _ _ Ho1 Hpar) as (op1 & Hop1 & Hs1 & Hin). destruct (Hdir _ _ Hop1) as (op' & Hop' & Hcl & _ & Hch).
          exists op'. split_and!; [done|by rewrite Hcl|]. rewrite Hch. case_decide; [apply elem_child_added; by left|done].
      + intros p' op' Hp. destruct (Hinv _ _ Hp) as (op1 & Hop1 & _ & _ & Hch). rewrite Hch. case_decide; [apply nodup_child_added|]; eauto.
    - (* st_relink *) apply Hupd. intros x Hx. split_and!; [done| |done]. cbn. apply child_added_in.
      destruct (T2 _ _ _ H0 H1) as (op' & Hop' & _ & Hin). by simplify_eq.
    - (* st_cls *) apply Hupd. intros x Hx. simplify_eq. split_and!; [done|done|]. cbn. by rewrite H1.
  Qed.

  (** ** Wiring *)
  Notation IR := (N.lor fInput fRequired).
  Definition sub_flags (f g : N) : Prop := N.land g f = f.
  Lemma sub_flags_bits f g : sub_flags f g <-> forall n, N.testbit f n = true -> N.testbit g n = true.
  Proof.
    unfold sub_flags. split.
    - intros <- n. rewrite N.land_spec. by intros [? ?]%andb_true_iff.
    - intros Hb. apply N.bits_inj. intros n. rewrite N.land_spec. specialize (Hb n).
      destruct (N.testbit f n); [by rewrite Hb|]. by rewrite andb_false_r.
  Qed.
  Definition has (ls : list (nat * N)) (s : nat) (f : N) : Prop := exists f', (s, f') ∈ ls /\ sub_flags f f'.
  Lemma has_weak ls s f f0 : has ls s f -> sub_flags f0 f -> has ls s f0.
  Proof.
    intros (f' & Hin & Hs) H0. exists f'. split; [done|]. rewrite !sub_flags_bits in *. naive_solver.
  Qed.
  Lemma has_in ls s : has ls s IR -> has ls s fInput.
  Proof. intros Hh. by eapply has_weak. Qed.
  Lemma link_pair_elem ls s f s' f' :
    (s', f') ∈ link_pair ls s f -> (s', f') ∈ ls \/ (s' = s /\ (f' = f \/ exists f0, (s, f0) ∈ ls /\ f' = N.lor f0 f)).
  Proof.
    induction ls as [|[s1 f1] ls IH]; cbn.
    - intros Hin%elem_of_list_singleton. simplify_eq. auto.
    - destruct (Nat.eqb_spec s1 s) as [->|Hne]; intros [Hh|Hin]%elem_of_cons.
      + simplify_eq. right. split; [done|]. right. exists f1. split; [apply elem_of_list_here|done].
      + left. by apply elem_of_list_further.
      + left. rewrite Hh. apply elem_of_list_here.
      + destruct (IH Hin) as [?|[-> [->|(f0 & ? & ->)]]].
        * left. by apply elem_of_list_further.
        * auto.
        * right. split; [done|]. right. exists f0. split; [by apply elem_of_list_further|done].
  Qed.
  Lemma link_pair_ids ls s f : (link_pair ls s f).*1 = if bool_decide (s ∈ ls.*1) then ls.*1 else ls.*1 ++ [s].
  Proof.
    induction ls as [|[s1 f1] ls IH]; cbn [link_pair fmap list_fmap fst]; [done|].
    destruct (Nat.eqb_spec s1 s) as [->|Hne].
    - rewrite bool_decide_eq_true_2 by apply elem_of_list_here. done.
    - cbn [fmap list_fmap fst]. fold (fmap (M:=list) (@fst nat N)). rewrite IH.
      destruct (decide (s ∈ ls.*1)) as [Hin|Hin].
      + rewrite !bool_decide_eq_true_2; [done|by apply elem_of_list_further|done].
      + rewrite !bool_decide_eq_false_2; [done| |done]. intros [Heq|?]%elem_of_cons; [by apply Hne|done].
  Qed.
  Lemma link_pair_nodup ls s f : NoDup ls.*1 -> NoDup (link_pair ls s f).*1.
  Proof.
    intros Hn. rewrite link_pair_ids. case_bool_decide; [done|]. apply NoDup_app.
    split_and!; [done| |apply NoDup_singleton]. intros x Hx ->%elem_of_list_singleton. done.
  Qed.
  Lemma has_link ls s f s' g : has ls s' g -> has (link_pair ls s f) s' g.
  Proof.
    intros (f' & Hin & Hs). induction ls as [|[s1 f1] ls IH]; [by apply elem_of_nil in Hin|]. cbn.
    destruct (Nat.eqb_spec s1 s) as [->|Hne].
    - apply elem_of_cons in Hin as [Heq|Hin].
      + simplify_eq. exists (N.lor f1 f). split; [apply elem_of_list_here|]. rewrite sub_flags_bits in *.
        intros n Hb. rewrite N.lor_spec. by rewrite Hs.
      + exists f'. split; [by apply elem_of_list_further|done].
    - apply elem_of_cons in Hin as [Heq|Hin].
      + simplify_eq. exists f1. split; [apply elem_of_list_here|done].
      + destruct (IH Hin) as (f2 & ? & ?). exists f2. split; [by apply elem_of_list_further|done].
  Qed.
  Lemma has_link_new ls s f : has (link_pair ls s f) s f.
  Proof. destruct (linked_link_pair ls s f) as (f' & ? & ?). by exists f'. Qed.
  Lemma map_pair_ids ls s (g : N -> N) : (map_pair ls s g).*1 = ls.*1.
  Proof. induction ls as [|[s1 f1] ls IH]; cbn; [done|]. destruct (Nat.eqb s1 s); cbn; [done|]. f_equal. apply IH. Qed.
  Lemma has_map ls s (g : N -> N) s' f :
    (forall f', sub_flags f f' -> sub_flags f (g f')) -> has ls s' f -> has (map_pair ls s g) s' f.
  Proof.
    intros Hg (f' & Hin & Hs). induction ls as [|[s1 f1] ls IH]; [by apply elem_of_nil in Hin|]. cbn.
    destruct (Nat.eqb_spec s1 s) as [->|Hne]; apply elem_of_cons in Hin as [Heq|Hin].
    - simplify_eq. exists (g f1). split; [apply elem_of_list_here|auto].
    - exists f'. split; [by apply elem_of_list_further|done].
    - simplify_eq. exists f1. split; [apply elem_of_list_here|done].
    - destruct (IH Hin) as (f2 & ? & ?). exists f2. split; [by apply elem_of_list_further|done].
  Qed.
  Lemma sub_add_req f f' : sub_flags f f' -> sub_flags f (add_req f').
  Proof. rewrite !sub_flags_bits. intros Hs n Hn. unfold add_req. rewrite N.lor_spec. by rewrite Hs. Qed.
  Lemma sub_drop_req f f' : N.land f fRequired = 0%N -> sub_flags f f' -> sub_flags f (drop_req f').
  Proof.
    rewrite !sub_flags_bits. intros H0 Hs n Hn. unfold drop_req. rewrite N.ldiff_spec, (Hs n Hn).
    assert (N.testbit (N.land f fRequired) n = false) as Hz by (by rewrite H0, N.bits_0).
    rewrite N.land_spec, Hn, andb_true_l in Hz. by rewrite Hz.
  Qed.
  Lemma add_links_elem w f m ls s f' :
    (s, f') ∈ add_links w f m ls -> s ∈ ls.*1 \/ (vsig w s /\ s ∈ m.*2).
  Proof.
    unfold add_links. revert ls. induction m as [|e m IH]; intros ls; cbn [fold_left].
    - intros Hin. left. by apply (elem_of_list_fmap_1 fst) in Hin.
    - intros Hin. apply IH in Hin as [Hin|[? ?]]; [|right; split; [done|by apply elem_of_list_further]].
      destruct (vsigb w (snd e)) eqn:Ev; [|by left]. rewrite link_pair_ids in Hin.
      case_bool_decide; [by left|]. apply elem_of_app in Hin as [?|Hin]; [by left|]. apply elem_of_list_singleton in Hin as ->.
      right. split; [by apply vsigb_spec|apply elem_of_list_here].
  Qed.
  Lemma add_links_has w f m ls s g : has ls s g -> has (add_links w f m ls) s g.
  Proof.
    unfold add_links. revert ls. induction m as [|e m IH]; intros ls Hh; cbn [fold_left]; [done|].
    apply IH. destruct (vsigb w (snd e)); [by apply has_link|done].
  Qed.
  Lemma add_links_new w f m ls e : e ∈ m -> vsig w (snd e) -> has (add_links w f m ls) (snd e) f.
  Proof.
    unfold add_links. revert ls. induction m as [|e' m IH]; intros ls Hin Hv; [by apply elem_of_nil in Hin|]. cbn [fold_left].
    apply elem_of_cons in Hin as [->|Hin]; [|by apply IH].
    apply add_links_has. apply vsigb_spec in Hv. rewrite Hv. apply has_link_new.
  Qed.
  Lemma add_links_nodup w f m ls : NoDup ls.*1 -> NoDup (add_links w f m ls).*1.
  Proof.
    unfold add_links. revert ls. induction m as [|e m IH]; intros ls Hh; cbn [fold_left]; [done|].
    apply IH. destruct (vsigb w (snd e)); [by apply link_pair_nodup|done].
  Qed.

  (** Classes whose connect does not take Required back. *)
  Definition keeps_req (c : cls D) : Prop :=
    match c with CMemory _ | CInteg _ | CTrig _ => False | _ => True end.
  Definition in_ok w (o : blkobj D) (T : ty) (h : option nat) : Prop :=
    forall s, h = Some s -> tsig w T s /\ has (bo_linked o) s fInput /\
      (keeps_req (bo_cls o) -> has (bo_linked o) s IR).
  Record wired w (o : blkobj D) : Prop := {
    wi_nodup : NoDup (bo_linked o).*1;
    wi_vsig : forall s, s ∈ (bo_linked o).*1 -> vsig w s;
    wi_ids : forall e, e ∈ bo_ibus o ++ bo_obus o -> snd e < length (w_sigs w);
    wi_ports : bo_conn o = true -> port_ok (bo_nin o) (length (bo_ibus o)) = true /\
                                   port_ok (bo_nout o) (length (bo_obus o)) = true;
    wi_ibus : forall e, e ∈ bo_ibus o -> vsig w (snd e) -> has (bo_linked o) (snd e) fInput;
    wi_obus : forall e, e ∈ bo_obus o -> vsig w (snd e) -> has (bo_linked o) (snd e) fOutput;
    wi_req : keeps_req (bo_cls o) -> forall e, e ∈ bo_ibus o -> vsig w (snd e) -> has (bo_linked o) (snd e) IR;
    wi_in : in_ok w o (cls_ty (bo_cls o)) (h_in (bo_h o));
    wi_out : forall s, h_out (bo_h o) = Some s -> tsig w (cls_ty (bo_cls o)) s /\ has (bo_linked o) s fOutput;
    wi_x1 : in_ok w o TyD (h_x1 (bo_h o));
    wi_x2 : in_ok w o TyD (h_x2 (bo_h o));
    wi_delay : in_ok w o TyD (h_delay (bo_h o));
    wi_initial : in_ok w o (cls_ty (bo_cls o)) (h_initial (bo_h o));
    wi_trig : forall T s, bo_cls o = CTrig T -> h_trig (bo_h o) = Some s -> tsig w TyB s /\ has (bo_linked o) s IR;
    wi_ctor : ctor_ok (bo_cls o) (bo_st o) (bo_nin o) (bo_nout o)
  }.
  Definition wires_ok w : Prop := forall b o, w_blks w !! b = Some o -> wired w o.

  Lemma vsig_back w w' s : step w w' -> s < length (w_sigs w) -> vsig w' s -> vsig w s.
  Proof.
    intros Hst Hs (o' & Ho' & Hk). apply lookup_lt_is_Some_2 in Hs as [o Ho].
    destruct (step_sig _ _ _ _ Hst Ho) as (o1 & Ho1 & Hk1 & _). exists o. simplify_eq. split; [done|congruence].
  Qed.
  Lemma in_ok_mono w w' o T h : step w w' -> in_ok w o T h -> in_ok w' o T h.
  Proof.
    intros Hst Hi s Hs. destruct (Hi s Hs) as (Ht & ? & ?). split_and!; [|done|done].
    eapply stable_tsig; [by apply one_step|done].
  Qed.
  Lemma wired_mono w w' o : step w w' -> wired w o -> wired w' o.
  Proof.
    intros Hst [W1 W2 W3 W4 W5 W6 W7 W8 W9 W10 W11 W12 W13 W14 W15].
    assert (forall e, e ∈ bo_ibus o ++ bo_obus o -> vsig w' (snd e) -> vsig w (snd e)) as Hb.
    { intros e He Hv. eapply vsig_back; [done|by apply W3|done]. }
    split; try done; try (by eapply in_ok_mono).
    - intros s Hs. eapply stable_vsig; [by apply one_step|]. by apply W2.
    - intros e He. eapply stable_sig_lt; [by apply one_step|]. by apply W3.
    - intros e He Hv. apply W5; [done|]. apply Hb; [apply elem_of_app; by left|done].
    - intros e He Hv. apply W6; [done|]. apply Hb; [apply elem_of_app; by right|done].
    - intros Hk e He Hv. apply W7; [done|done|]. apply Hb; [apply elem_of_app; by left|done].
    - intros s Hs. destruct (W9 s Hs). split; [|done]. eapply stable_tsig; [by apply one_step|done].
    - intros T s HT Hs. destruct (W14 T s HT Hs). split; [|done]. eapply stable_tsig; [by apply one_step|done].
  Qed.
  (** Changes of the list of linked signals that keep roles. *)
  Lemma wired_links w o ls :
    wired w o -> NoDup ls.*1 -> (forall s, s ∈ ls.*1 -> vsig w s) ->
    (forall s, has (bo_linked o) s fInput -> has ls s fInput) ->
    (forall s, has (bo_linked o) s fOutput -> has ls s fOutput) ->
    (forall s, keeps_req (bo_cls o) -> has (bo_linked o) s IR -> has ls s IR) ->
    (forall T s, bo_cls o = CTrig T -> h_trig (bo_h o) = Some s -> has (bo_linked o) s IR -> has ls s IR) ->
    wired w (set_linked ls o).
  Proof.
    intros [W1 W2 W3 W4 W5 W6 W7 W8 W9 W10 W11 W12 W13 W14 W15] Hn Hv Hi Ho Hr Ht.
    assert (forall T h, in_ok w o T h -> in_ok w (set_linked ls o) T h) as Hin.
    { intros T h Hh s Hs. destruct (Hh s Hs) as (? & ? & ?). split_and!; [done|by apply Hi|].
      intros Hk. apply Hr; [done|]. auto. }
    split; cbn; try done; try (by apply Hin).
    - intros e He Hve. by apply Hi, W5.
    - intros e He Hve. by apply Ho, W6.
    - intros Hk e He Hve. apply Hr; [done|]. by apply W7.
    - intros s Hs. destruct (W9 s Hs). split; [done|]. by apply Ho.
    - intros T s HT Hs. destruct (W14 T s HT Hs). split; [done|]. by eapply Ht.
  Qed.
  Lemma link_pair_vsig w ls s f : (forall s, s ∈ ls.*1 -> vsig w s) -> vsig w s -> forall s', s' ∈ (link_pair ls s f).*1 -> vsig w s'.
  Proof.
    intros Hv Hs s'. rewrite link_pair_ids. case_bool_decide; [auto|].
    intros [?|Hin]%elem_of_app; [auto|]. apply elem_of_list_singleton in Hin as ->. auto.
  Qed.
  Lemma wired_fresh w c st name par nin nout : ctor_ok c st nin nout ->
    wired w (BlkObj name par [] nin nout false [] [] [] c no_handles st).
  Proof. intros Hc. split; cbn; try done; try (by intros ? ?%elem_of_nil); try (by intros ? ? ?%elem_of_nil). apply NoDup_nil_2. Qed.
  Lemma wired_same w o f :
    wired w o -> bo_linked (f o) = bo_linked o -> bo_ibus (f o) = bo_ibus o -> bo_obus (f o) = bo_obus o ->
    bo_conn (f o) = bo_conn o -> bo_nin (f o) = bo_nin o -> bo_nout (f o) = bo_nout o -> bo_cls (f o) = bo_cls o ->
    bo_h (f o) = bo_h o -> bo_st (f o) = bo_st o -> wired w (f o).
  Proof.
    intros [W1 W2 W3 W4 W5 W6 W7 W8 W9 W10 W11 W12 W13 W14 W15] E1 E2 E3 E4 E5 E6 E7 E8 E9.
    split; unfold in_ok in *; rewrite ?E1, ?E2, ?E3, ?E4, ?E5, ?E6, ?E7, ?E8, ?E9; done.
  Qed.

  Lemma step_wires w w' : step w w' -> unbound w -> wires_ok w -> wires_ok w'.
  Proof.
    intros Hst Hu HW. pose proof Hst as Hst0.
    assert (forall w0 b f, (forall b o, w_blks w0 !! b = Some o -> wired w' o) ->
        (forall o, w_blks w0 !! b = Some o -> wired w' o -> wired w' (f o)) ->
        forall b' o', w_blks (upd w0 b f) !! b' = Some o' -> wired w' o') as Hupd.
    { intros w0 b f H0 Hf b' o' Ho'. apply upd_some in Ho' as (o & Ho & ->). case_decide; [subst|]; eauto. }
    assert (forall b o, w_blks w !! b = Some o -> wired w' o) as HW'.
    { intros b o Ho. eapply wired_mono; [done|]. by eapply HW. }
    assert (forall x, wired w' x -> forall b o, w_blks (addblk w x) !! b = Some o -> wired w' o) as Hadd.
    { intros x Hx b o Ho. apply addblk_some in Ho as [Ho|[_ ->]]; eauto. }
    destruct Hst; intros b' o' Ho'; try (by eapply HW').
    - revert Ho'. apply Hadd. by apply wired_fresh.
    - revert Ho'. apply Hupd; [apply Hadd; by apply wired_fresh|]. intros x _ Hx. by apply wired_same.
    - revert Ho'. apply Hupd; [done|]. intros x _ Hx. by apply wired_same.
    - revert Ho'. apply Hupd; [apply Hupd; [done|]|]; intros x _ Hx; by apply wired_same.
    - revert Ho'. apply Hupd; [done|]. intros x _ Hx. by apply wired_same.
    - (* st_connect *) revert Ho'. apply Hupd; [done|]. intros x Hx HX.
      rewrite H0 in Hx. injection Hx as <-.
      destruct (Hu b o H0 H1) as (Fh & Fi & Fo & Fl). rewrite Fl.
      destruct HX as [W1 W2 W3 W4 W5 W6 W7 W8 W9 W10 W11 W12 W13 W14 W15].
      split; unfold in_ok; cbn; rewrite ?Fh; try done.
      + apply add_links_nodup, add_links_nodup, NoDup_nil_2.
      + intros s ([s1 f1] & -> & Hs)%elem_of_list_fmap. change (vsig w s1).
        apply add_links_elem in Hs as [Hs|[? _]]; [|done].
        apply elem_of_list_fmap in Hs as ([s2 f2] & Heq & Hs). cbn in Heq. subst s2.
        apply add_links_elem in Hs as [Hs|[? _]]; [by apply elem_of_nil in Hs|done].
      + intros e He Hv. apply add_links_has, has_in. by apply (add_links_new w).
      + intros e He Hv. by apply (add_links_new w).
      + intros Hk e He Hv. apply add_links_has. by apply (add_links_new w).
    - (* st_link *) revert Ho'. apply Hupd; [done|]. intros x Hx HX. apply wired_links; [done|..].
      + apply link_pair_nodup, HX.
      + apply link_pair_vsig; [apply HX|done].
      + intros s' Hs'. by apply has_link.
      + intros s' Hs'. by apply has_link.
      + intros s' _ Hs'. by apply has_link.
      + intros T s' _ _ Hs'. by apply has_link.
    - (* st_unreq *) revert Ho'. apply Hupd; [done|]. intros x Hx HX. rewrite H0 in Hx. injection Hx as <-. apply wired_links; [done|..].
      + rewrite map_pair_ids. apply HX.
      + rewrite map_pair_ids. apply HX.
      + intros s' Hs'. apply has_map; [|done]. intros f'. by apply sub_drop_req.
      + intros s' Hs'. apply has_map; [|done]. intros f'. by apply sub_drop_req.
      + intros s' Hk. by destruct (bo_cls o).
      + intros T s' HT Hs' _. rewrite HT in H2. congruence.
    - (* st_req *) revert Ho'. apply Hupd; [done|]. intros x Hx HX. apply wired_links; [done|..].
      + rewrite map_pair_ids. apply HX.
      + rewrite map_pair_ids. apply HX.
      + intros s' Hs'. apply has_map; [|done]. intros f'. apply sub_add_req.
      + intros s' Hs'. apply has_map; [|done]. intros f'. apply sub_add_req.
      + intros s' _ Hs'. apply has_map; [|done]. intros f'. apply sub_add_req.
      + intros T s' _ _ Hs'. apply has_map; [|done]. intros f'. apply sub_add_req.
    - (* st_h *) revert Ho'. apply Hupd; [done|]. intros x Hx HX. rewrite H0 in Hx. injection Hx as <-.
      assert (forall T h h1, in_ok w o T h -> new_in w o T h h1 -> in_ok w o T h1) as Hin.
      { intros T h h1 Hh [->|(s & -> & Ht & Hl)]; [done|]. intros s1 [= <-].
        split_and!; [done|by apply has_in|done]. }
      destruct HX as [W1 W2 W3 W4 W5 W6 W7 W8 W9 W10 W11 W12 W13 W14 W15].
      split; cbn [bo_linked bo_ibus bo_obus bo_conn bo_nin bo_nout bo_cls bo_h bo_st set_h]; try done;
        first [exact (Hin _ _ _ W8 H2)|exact (Hin _ _ _ W10 H4)|exact (Hin _ _ _ W11 H5)|exact (Hin _ _ _ W12 H6)|exact (Hin _ _ _ W13 H7)|idtac].
      + intros s Hs. destruct H3 as [Hh|(s1 & Hh & Ht & Hl)]; [apply W9; congruence|]. rewrite Hh in Hs. by injection Hs as <-.
      + intros T s HT Hs. destruct H8 as [Hh|(s1 & Hh & Ht & Hl)]; [apply (W14 T); congruence|]. rewrite Hh in Hs. by injection Hs as <-.
    - (* st_cls *) revert Ho'. apply Hupd; [done|]. intros x Hx HX. rewrite H0 in Hx. injection Hx as <-.
      destruct HX as [W1 W2 W3 W4 W5 W6 W7 W8 W9 W10 W11 W12 W13 W14 W15].
      rewrite H1 in *. split; cbn in *; try done.
      + intros s Hs. destruct (W8 s Hs) as (? & ? & Hk). split_and!; [done|done|]. intros _. apply Hk. by rewrite H1.
      + intros s Hs. destruct (W10 s Hs) as (? & ? & Hk). split_and!; [done|done|]. intros _. apply Hk. by rewrite H1.
      + intros s Hs. destruct (W11 s Hs) as (? & ? & Hk). split_and!; [done|done|]. intros _. apply Hk. by rewrite H1.
      + intros s Hs. destruct (W12 s Hs) as (? & ? & Hk). split_and!; [done|done|]. intros _. apply Hk. by rewrite H1.
      + intros s Hs. destruct (W13 s Hs) as (? & ? & Hk). split_and!; [done|done|]. intros _. apply Hk. by rewrite H1.
  Qed.

  (** ** Everything together *)
  Record world_ok w : Prop := {
    ok_names : names_ok w;
    ok_sigs : sigs_ok w;
    ok_tree : tree_ok w;
    ok_unbound : unbound w;
    ok_wires : wires_ok w
  }.
  Lemma world_ok_empty : world_ok empty_world.
  Proof. split; try done. Qed.
  Lemma step_ok w w' : step w w' -> world_ok w -> world_ok w'.
  Proof.
    intros Hs [? ? ? ? ?]. split; eauto using step_names, step_sigs, step_tree, step_unbound, step_wires.
  Qed.
  Lemma steps_ok w w' : steps w w' -> world_ok w -> world_ok w'.
  Proof. intros Hs. induction Hs; eauto using step_ok. Qed.
  Lemma reach_ok dbg w : wreach dbg w -> world_ok w.
  Proof. intros Hr. eapply steps_ok; [by eapply reach_steps|apply world_ok_empty]. Qed.
End inv.
