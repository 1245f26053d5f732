(** Models compiled from reachable worlds meet the assumptions of the scheduling
    theorems. *)
From stdpp Require Import prelude gmap strings.
From Coq Require Import ZArith.
From Verif Require Import Num Res Name Store P_Store Leaf Sched World Api Steps P_Steps P_Ops P_World
  Util P_Prog SpecSched P_Conf SpecBlock P_Lib.

(** The entries of a list of signals, as a map. *)
Lemma sigs_lookup {D : Type} (l : list sigobj) n s :
  (list_to_map (omap (fun p : nat * sigobj => let '(i, o) := p in
      if is_bus (so_kind o) then None else Some (i, Cell (D:=D) (so_kind o) (so_deriv o) false None))
      (imap (fun i o => (n + i, o)) l)) : store D) !! s =
    if decide (n <= s) then match l !! (s - n) with
      | Some o => if is_bus (so_kind o) then None else Some (Cell (so_kind o) (so_deriv o) false None)
      | None => None end else None.
Proof.
  revert n; induction l as [|o l IH]; intros n.
  - cbn. rewrite lookup_empty. by case_decide.
  - assert (imap (fun i o => (n + i, o)) (o :: l) = (n, o) :: imap (fun i o => (S n + i, o)) l) as Hi.
    { cbn. rewrite Nat.add_0_r. f_equal. apply imap_ext. intros i x _. cbn. f_equal. lia. }
    rewrite Hi. cbn [omap list_omap]. specialize (IH (S n)).
    destruct (is_bus (so_kind o)) eqn:Ek.
    + rewrite IH. destruct (decide (s = n)) as [->|Hne].
      * rewrite decide_False by lia. rewrite decide_True by lia. rewrite Nat.sub_diag. cbn. by rewrite Ek.
      * destruct (decide (S n <= s)); [rewrite decide_True by lia|by rewrite decide_False by lia].
        replace (s - n) with (S (s - S n)) by lia. done.
    + cbn [list_to_map foldr fst snd]. destruct (decide (s = n)) as [->|Hne].
      * rewrite lookup_insert. rewrite decide_True by lia. rewrite Nat.sub_diag. cbn. by rewrite Ek.
      * rewrite lookup_insert_ne by done. rewrite IH.
        destruct (decide (S n <= s)); [rewrite decide_True by lia|by rewrite decide_False by lia].
        replace (s - n) with (S (s - S n)) by lia. done.
Qed.

Section compile.
  Context {D : Type} `{NumOps D}.
  Implicit Types (w : world D).

  (** [below w k b x]: [x] is a child of a child ... ([k] times) of [b]. *)
  Inductive below w : nat -> nat -> nat -> Prop :=
  | below_0 b : below w 0 b b
  | below_S k b x y oy : below w k b y -> w_blks w !! y = Some oy -> x ∈ bo_children oy -> below w (S k) b x.

  Lemma below_trans w k1 k2 a b c : below w k1 a b -> below w k2 b c -> below w (k1 + k2) a c.
  Proof.
    intros H1 H2. induction H2 as [b|k b x y oy H2 IH Hy Hx]; [by rewrite Nat.add_0_r|].
    rewrite Nat.add_succ_r. econstructor; eauto.
  Qed.
  Lemma below_first w k b c o x :
    w_blks w !! b = Some o -> c ∈ bo_children o -> below w k c x -> below w (S k) b x.
  Proof. intros Hb Hc Hk. change (S k) with (1 + k). eapply below_trans; [|done]. econstructor; [constructor|done|done]. Qed.
  Lemma below_cycle w k b : below w k b b -> forall m, below w (m * k) b b.
  Proof. intros Hk m. induction m as [|m IH]; [constructor|]. cbn. by eapply below_trans. Qed.

  Section tree.
  Context (w : world D) (HT : tree_ok w).

  Lemma child_submodel y oy x : w_blks w !! y = Some oy -> x ∈ bo_children oy -> is_submodel (bo_cls oy) = true.
  Proof.
    intros Hy Hx. destruct (t_child _ HT _ _ _ Hy Hx) as (o & Ho & Hp).
    destruct (t_parent _ HT _ _ _ Ho Hp) as (oy' & Hy' & Hs & _). by simplify_eq.
  Qed.
  Lemma compile_fuel_below n b tr k x :
    compile n w b = Some tr -> below w k b x -> k < n /\ exists tr', compile (n - k) w x = Some tr'.
  Proof.
    intros Hc Hb. induction Hb as [b|k b x y oy Hb IH Hy Hx].
    - rewrite Nat.sub_0_r. destruct n; [done|]. split; [lia|eauto].
    - destruct (IH Hc) as (Hk & tr' & Ht'). destruct (n - k) as [|n'] eqn:En; [lia|]. cbn in Ht'.
      rewrite Hy, (child_submodel _ _ _ Hy Hx) in Ht'.
      destruct (mapM (compile n' w) (bo_children oy)) as [ch|] eqn:Em; [|done].
      apply mapM_Some in Em. apply elem_of_list_lookup in Hx as [i Hi].
      destruct (Forall2_lookup_l _ _ _ _ _ Em Hi) as (tx & _ & Htx).
      destruct n' as [|n'']; [done|]. split; [lia|]. replace (n - S k) with (S n'') by lia. eauto.
  Qed.
  (** A compiled block is not below itself. *)
  Lemma compile_acyclic n b tr k : compile n w b = Some tr -> ~ below w (S k) b b.
  Proof.
    intros Hc Hb. pose proof (below_cycle _ _ _ Hb n) as Hn.
    destruct (compile_fuel_below _ _ _ _ _ Hc Hn) as [Hlt _]. lia.
  Qed.
  Lemma below_parent k b x : below w (S k) b x ->
    exists y oy ox, below w k b y /\ w_blks w !! y = Some oy /\ x ∈ bo_children oy /\
      w_blks w !! x = Some ox /\ bo_parent ox = Some y.
  Proof.
    inversion 1 as [|? ? ? y oy Hb Hy Hx]; subst. destruct (t_child _ HT _ _ _ Hy Hx) as (ox & Hox & Hp).
    eauto 10.
  Qed.
  (** Two ancestors of a block are related. *)
  Lemma below_compare i j a b x : below w i a x -> below w (i + j) b x -> below w j b a.
  Proof.
    intros Ha. revert j. induction Ha as [a|i a x y oy Ha IH Hy Hx]; intros j Hb; [done|].
    cbn in Hb. apply below_parent in Hb as (y' & oy' & ox & Hb & Hy' & Hx' & Hox & Hp).
    destruct (t_child _ HT _ _ _ Hy Hx) as (ox1 & Hox1 & Hp1). simplify_eq. by apply IH.
  Qed.

  Definition ids (tr : tree D) : list nat := map node_id (nodes tr).
  Lemma ids_sub b k ch : ids (TSub b k ch) = b :: concat (map ids ch).
  Proof.
    unfold ids. cbn. f_equal. rewrite concat_map, map_map. done.
  Qed.
  Lemma compile_ids n b tr x : compile n w b = Some tr -> x ∈ ids tr -> exists k, below w k b x.
  Proof.
    revert b tr x. induction n as [|n IH]; intros b tr x Hc Hx; [done|]. cbn in Hc.
    destruct (w_blks w !! b) as [o|] eqn:Eb; [|done]. destruct (is_submodel (bo_cls o)).
    - destruct (mapM (compile n w) (bo_children o)) as [ch|] eqn:Em; [|done]. injection Hc as <-.
      rewrite ids_sub in Hx. apply elem_of_cons in Hx as [->|Hx]; [exists 0; constructor|].
      apply elem_of_concat_map in Hx as (t & Ht & Hx). apply mapM_Some in Em.
      apply elem_of_list_lookup in Ht as [i Hi]. destruct (Forall2_lookup_r _ _ _ _ _ Em Hi) as (c & Hc & Hct).
      destruct (IH c t x Hct Hx) as [k Hk]. exists (S k). eapply below_first; [done| |done]. by eapply elem_of_list_lookup_2.
    - injection Hc as <-. apply elem_of_list_singleton in Hx as ->. exists 0. constructor.
  Qed.
  Lemma compile_wf n b tr : compile n w b = Some tr -> wf_tree tr.
  Proof.
    unfold wf_tree. change (map node_id (nodes tr)) with (ids tr).
    revert b tr. induction n as [|n IH]; intros b tr Hc; [done|]. pose proof Hc as Hc0. cbn in Hc.
    destruct (w_blks w !! b) as [o|] eqn:Eb; [|done]. destruct (is_submodel (bo_cls o)) eqn:Es.
    - destruct (mapM (compile n w) (bo_children o)) as [ch|] eqn:Em; [|done]. injection Hc as <-.
      rewrite ids_sub. apply mapM_Some in Em. apply NoDup_cons. split.
      + intros Hb. apply elem_of_concat_map in Hb as (t & Ht & Hx).
        apply elem_of_list_lookup in Ht as [i Hi]. destruct (Forall2_lookup_r _ _ _ _ _ Em Hi) as (c & Hc & Hct).
        destruct (compile_ids _ _ _ _ Hct Hx) as [k Hk].
        eapply (compile_acyclic _ _ _ k Hc0). eapply below_first; [done| |done]. by eapply elem_of_list_lookup_2.
      + assert (forall c, c ∈ bo_children o -> exists oc, w_blks w !! c = Some oc /\ bo_parent oc = Some b) as Hpar.
        { intros c Hc. by eapply t_child. }
        assert (forall c, c ∈ bo_children o -> c ∈ bo_children o) as Hsub by done.
        pose proof (t_nodup _ HT _ _ Eb) as Hnd. revert Hpar Hsub Hnd Em.
        generalize (bo_children o) at 1 2 4 5. intros cs Hpar Hsub Hnd Em.
        assert (forall c, c ∈ cs -> below w 1 b c) as Hb1.
        { intros c Hc. eapply below_S; [constructor|done|auto]. }
        pose proof (fun j => compile_acyclic _ _ _ j Hc0) as Hac. clear Hsub Hc0. induction Em as [|c t cs ts Hct Em IHm]; cbn; [apply NoDup_nil_2|].
        apply NoDup_cons in Hnd as [Hnin Hnd]. apply NoDup_app. split_and!.
        * by eapply IH.
        * intros x Hx Hx'. apply elem_of_concat_map in Hx' as (t' & Ht' & Hx').
          apply elem_of_list_lookup in Ht' as [i Hi]. destruct (Forall2_lookup_r _ _ _ _ _ Em Hi) as (c' & Hc' & Hct').
          destruct (compile_ids _ _ _ _ Hct Hx) as [k Hk]. destruct (compile_ids _ _ _ _ Hct' Hx') as [k' Hk'].
          assert (c' ∈ cs) as Hin' by (by eapply elem_of_list_lookup_2).
          assert (forall a a' j, a ∈ c :: cs -> a' ∈ c :: cs -> ~ below w (S j) a' a) as Hno.
          { intros a a' j Ha Ha' Hj. apply below_parent in Hj as (y & oy & oa & Hj & Hy & _ & Hoa & Hpa).
            destruct (Hpar a Ha) as (oa' & Hoa' & Hpa'). simplify_eq.
            eapply (Hac j). change (S j) with (1 + j). eapply below_trans; [by apply Hb1|done]. }
          destruct (Nat.lt_trichotomy k k') as [Hlt|[->|Hlt]].
          -- replace k' with (k + S (k' - k - 1)) in Hk' by lia.
             pose proof (below_compare _ _ _ _ _ Hk Hk') as Hb. eapply Hno; [| |exact Hb]; [apply elem_of_list_here|by apply elem_of_list_further].
          -- rewrite <-(Nat.add_0_r k') in Hk at 1. pose proof (below_compare _ _ _ _ _ Hk' Hk) as Hb. inversion Hb; subst. done.
          -- replace k with (k' + S (k - k' - 1)) in Hk by lia.
             pose proof (below_compare _ _ _ _ _ Hk' Hk) as Hb. eapply Hno; [| |exact Hb]; [by apply elem_of_list_further|apply elem_of_list_here].
        * apply IHm; try done; intros c' Hc'; try (apply Hpar; by apply elem_of_list_further); try (apply Hb1; by apply elem_of_list_further).
    - injection Hc as <-. cbn. apply NoDup_singleton.
  Qed.

  (** Leaves of a compiled model are blocks of the world. *)
  Lemma compile_leaf n b tr l : compile n w b = Some tr -> l ∈ leaves tr ->
    exists o, w_blks w !! l_id l = Some o /\ is_submodel (bo_cls o) = false /\
      l = Leaf (l_id l) (bo_cls o) (bo_ibus o) (bo_obus o) (bo_h o) (bo_linked o).
  Proof.
    revert b tr. induction n as [|n IH]; intros b tr Hc Hl; [done|]. cbn in Hc.
    destruct (w_blks w !! b) as [o|] eqn:Eb; [|done]. destruct (is_submodel (bo_cls o)) eqn:Es.
    - destruct (mapM (compile n w) (bo_children o)) as [ch|] eqn:Em; [|done]. injection Hc as <-. cbn in Hl.
      apply elem_of_concat_map in Hl as (t & Ht & Hl). apply mapM_Some in Em.
      apply elem_of_list_lookup in Ht as [i Hi]. destruct (Forall2_lookup_r _ _ _ _ _ Em Hi) as (c & Hc & Hct).
      by eapply IH.
    - injection Hc as <-. cbn in Hl. apply elem_of_list_singleton in Hl as ->. cbn. exists o. done.
  Qed.
  End tree.

  (** ** The initial store *)
  Lemma initial_lookup w s :
    initial_store w !! s =
    match w_sigs w !! s with
    | Some o => if is_bus (so_kind o) then None else Some (Cell (so_kind o) (so_deriv o) false None)
    | None => None
    end.
  Proof.
    unfold initial_store.
    pose proof (sigs_lookup (D:=D) (w_sigs w) 0 s) as Hgen. cbn [Nat.add] in Hgen. rewrite Hgen. by rewrite Nat.sub_0_r.
  Qed.
  Lemma initial_dom w s : s ∈ dom (initial_store w) <-> vsig w s.
  Proof.
    rewrite elem_of_dom, initial_lookup. unfold vsig. destruct (w_sigs w !! s) as [o|].
    - destruct (is_bus (so_kind o)) eqn:Ek; split.
      + intros [? ?]. done.
      + intros (o' & [= <-] & ?). congruence.
      + intros _. eauto.
      + intros _. eauto.
    - split; [intros [? ?]; done|]. intros (? & ? & _). done.
  Qed.
  Lemma initial_ok w : store_ok (initial_store w).
  Proof.
    intros s c Hc. rewrite initial_lookup in Hc. destruct (w_sigs w !! s) as [o|]; [|done].
    destruct (is_bus (so_kind o)) eqn:Ek; [done|]. injection Hc as <-. unfold cell_ok. cbn. by destruct (so_kind o).
  Qed.
  Lemma initial_unassigned w s : assigned (initial_store w) s = false.
  Proof.
    unfold assigned. rewrite initial_lookup. destruct (w_sigs w !! s) as [o|]; [|done]. by destruct (is_bus (so_kind o)).
  Qed.

  (** ** Reads are wired *)
  Lemma has_required (l : leaf D) s : has (l_linked l) s (N.lor fInput fRequired) -> s ∈ required l.
  Proof.
    intros (f & Hin & Hf). unfold required. apply elem_of_list_fmap. exists (s, f). split; [done|].
    apply elem_of_list_filter. split; [|done]. cbn. rewrite sub_flags_bits in Hf. intros H0.
    assert (N.testbit (N.land f fRequired) 3 = true) as Ht.
    { rewrite N.land_spec. rewrite Hf by done. done. }
    by rewrite H0, N.bits_0 in Ht.
  Qed.
  Lemma compile_wired w n b tr l :
    world_ok w -> compile n w b = Some tr -> l ∈ leaves tr -> reads_wired (dom (initial_store w)) l.
  Proof.
    intros Hw Hc Hl. destruct (compile_leaf w n b tr l Hc Hl) as (o & Ho & Hs & Hle).
    pose proof (ok_wires _ Hw _ _ Ho) as HW.
    destruct HW as [W1 W2 W3 W4 W5 W6 W7 W8 W9 W10 W11 W12 W13 W14 W15].
    assert (forall T h, keeps_req (bo_cls o) -> in_ok w o T h -> forall s, h = Some s -> s ∈ dom (initial_store w) -> s ∈ required l) as Hok.
    { intros T h Hk Hi s Hs' _. destruct (Hi s Hs') as (_ & _ & Hr). apply has_required. rewrite Hle. cbn. auto. }
    unfold reads_wired. assert (l_cls l = bo_cls o) as -> by (by rewrite Hle).
    assert (l_h l = bo_h o) as -> by (by rewrite Hle). assert (l_ibus l = bo_ibus o) as -> by (by rewrite Hle).
    destruct (bo_cls o) eqn:Ec; try done; try (by eapply Hok); try (split; by eapply Hok).
    - intros e He Hv. apply has_required. rewrite Hle. cbn. apply W7; [done|done|]. by apply initial_dom.
    - intros e He Hv. apply has_required. rewrite Hle. cbn. apply W7; [done|done|]. by apply initial_dom.
    - intros s Hs' _. apply has_required. rewrite Hle. cbn. by eapply W14.
  Qed.
  Lemma compile_local w n b tr l :
    world_ok w -> compile n w b = Some tr -> l ∈ leaves tr -> user_reads (dom (initial_store w)) l ->
    local (dom (initial_store w)) l.
  Proof. intros Hw Hc Hl Hu. apply lib_local; [by eapply compile_wired|done]. Qed.

  (** ** Models without cycles compile *)
  Lemma compile_some w n b : tree_ok w -> b < length (w_blks w) ->
    (forall k x, below w k b x -> k < n) -> exists tr, compile n w b = Some tr.
  Proof.
    intros HT. revert b. induction n as [|n IH]; intros b Hb Hn.
    - specialize (Hn 0 b (below_0 w b)). lia.
    - cbn. apply lookup_lt_is_Some_2 in Hb as [o Ho]. rewrite Ho. destruct (is_submodel (bo_cls o)); [|eauto].
      assert (exists ch, mapM (compile n w) (bo_children o) = Some ch) as [ch ->]; [|eauto].
      apply mapM_is_Some. apply Forall_forall. intros c Hc.
      destruct (t_child _ HT _ _ _ Ho Hc) as (oc & Hoc & _).
      destruct (IH c) as [t Ht]; [by eapply lookup_lt_Some| |by exists t].
      intros k x Hk. specialize (Hn (S k) x). enough (S k < S n) by lia. apply Hn. by eapply below_first.
  Qed.
End compile.
