(** Reference counting. *)
From stdpp Require Import prelude gmap strings sorting.
From Verif Require Import Num Res Name Store Leaf Sched World Api Steps P_Steps P_Ops P_World Own SpecOwn.
Local Open Scope nat_scope.

Lemma occ_app s l k : occ s (l ++ k) = occ s l + occ s k.
Proof. unfold occ. by rewrite filter_app, app_length. Qed.
Lemma occ_cons s x l : occ s (x :: l) = (if decide (s = x) then 1 else 0) + occ s l.
Proof. unfold occ. rewrite filter_cons. by destruct (decide (s = x)). Qed.
Lemma occ_in s l : s ∈ l <-> 0 < occ s l.
Proof.
  induction l as [|x l IH]; [split; [by intros ?%elem_of_nil|unfold occ; cbn; lia]|].
  rewrite elem_of_cons, occ_cons, IH. destruct (decide (s = x)); split; intros; try lia; tauto.
Qed.
Lemma occ_perm s l k : l ≡ₚ k -> occ s l = occ s k.
Proof. intros E. unfold occ. by rewrite E. Qed.

Lemma bus_or_not (k : kind) : k = KBus \/ k ≠ KBus.
Proof. destruct k; (by left) || (by right). Qed.

Section own.
  Context {D : Type} `{NumOps D} (w : world D).
  Notation own := (owned w).
  (** References held by the objects of a list. *)
  Definition inner (l : list nat) : list nat := concat (map own l).
  Lemma inner_perm l k : l ≡ₚ k -> inner l ≡ₚ inner k.
  Proof.
    unfold inner. induction 1 as [|x l k _ IH|x y l|l k j _ IH1 _ IH2]; cbn; [done|by rewrite IH| |by rewrite IH1].
    by rewrite !app_assoc, (Permutation_app_comm (own y)).
  Qed.
  Lemma refers_owned s s' : refers w s s' <-> s' ∈ own s.
  Proof.
    unfold refers, has_deriv, owned. destruct (w_sigs w !! s) as [o|].
    2:{ split; [intros [(? & ? & ? & _)|(? & ? & _)]; done|by intros ?%elem_of_nil]. }
    rewrite elem_of_app, elem_of_list_fmap. split.
    - intros [(o' & lb & [= <-] & Hm)|(o' & [= <-] & Hd)].
      + left. by exists (lb, s').
      + right. rewrite Hd. by apply elem_of_list_singleton.
    - intros [([lb x] & -> & Hm)|Hd].
      + left. by exists o, lb.
      + right. exists o. split; [done|]. destruct (so_deriv o); [|by apply elem_of_nil in Hd]. apply elem_of_list_singleton in Hd. by subst.
  Qed.

  (** ** The counts are right: [l] are the objects alive, [refs] the references that
      do not come from them. *)
  Definition right (l refs : list nat) (h : gmap nat nat) : Prop :=
    NoDup l /\ (forall s, s ∈ l <-> s ∈ refs ++ inner l) /\ (forall s n, h !! s = Some n <-> s ∈ l /\ n = occ s (refs ++ inner l)).
  (** What is left to do. *)
  Definition work (l todo : list nat) : nat := length todo + length (inner l).

  Lemma release_right fuel l todo refs h : right l (todo ++ refs) h -> (work l todo <= fuel) ->
    exists h' l', release fuel w todo h = Ok tt h' /\ right l' refs h' /\
      forall P : nat -> Prop, (forall x, P x -> x ∈ l /\ exists o, P o /\ refers w o x) -> forall x, P x -> x ∈ l'.
  Proof.
    revert l todo h. induction fuel as [|fuel IH]; intros l todo h Hr Hf.
    { destruct todo as [|s todo]; [|unfold work in Hf; cbn in Hf; lia]. exists h, l. split_and!; [done|done|]. intros P HP x Hx. by apply HP. }
    destruct todo as [|s todo]; [exists h, l; split_and!; [done|done|]; intros P HP x Hx; by apply HP|]. cbn [release].
    destruct Hr as (Hn & Hin & Hc). assert (s ∈ l) as Hs by (apply Hin; by left).
    assert (h !! s = Some (occ s ((s :: todo ++ refs) ++ inner l))) as Es by (by apply Hc).
    rewrite Es. rewrite <-app_comm_cons, occ_cons. destruct (decide (s = s)) as [_|]; [|done]. cbn [Nat.add].
    destruct (occ s ((todo ++ refs) ++ inner l)) as [|n] eqn:En.
    - (* the last reference *)
      apply elem_of_Permutation in Hs as [l1 El]. assert (NoDup (s :: l1)) as Hn1 by (by rewrite <-El). apply NoDup_cons in Hn1 as [Hs1 Hn1].
      assert (inner l ≡ₚ own s ++ inner l1) as Ei by (by rewrite (inner_perm _ _ El)).
      assert (forall x, occ x (((own s ++ todo) ++ refs) ++ inner l1) = occ x ((todo ++ refs) ++ inner l)) as Eocc.
      { intros x. rewrite !occ_app. rewrite (occ_perm x (inner l) (own s ++ inner l1)) by done. rewrite occ_app. lia. }
      assert (forall x, x ∈ l <-> x = s \/ x ∈ l1) as Hl1 by (intros x; by rewrite El, elem_of_cons).
      destruct (IH l1 (own s ++ todo) (delete s h)) as (h' & l' & E & Hr' & Hsub).
      + split_and!; [done|..].
        * intros x. rewrite (occ_in x (_ ++ _)), Eocc. pose proof (Hin x) as Hx. rewrite Hl1, (occ_in x (_ ++ _)), <-!app_comm_cons, occ_cons in Hx. split.
          -- intros Hx1. destruct (decide (x = s)) as [->|]; [done|]. apply Hx. by right.
          -- intros Hp. destruct (decide (x = s)) as [->|]; [lia|]. destruct Hx as [_ [->|?]]; done.
        * intros x k. rewrite lookup_delete_Some, Hc, Hl1, Eocc, <-!app_comm_cons, occ_cons. split.
          -- intros (Hne & [->|Hx] & ->); [done|]. by destruct (decide (x = s)).
          -- intros (Hx & ->). assert (s ≠ x) by (by intros ->). destruct (decide (x = s)); [done|]. split_and!; [done|by right|done].
      + unfold work in *. rewrite app_length. rewrite Ei, app_length in Hf. cbn in Hf. lia.
      + exists h', l'. split_and!; [done|done|]. intros P HP. apply Hsub. intros x Hx. destruct (HP x Hx) as [Hxl (o & Ho & Hox)]. split; [|eauto].
        apply Hl1 in Hxl as [->|?]; [exfalso|done]. assert (0 < occ s ((todo ++ refs) ++ inner l)) as Hp; [|lia]. apply occ_in, elem_of_app. right.
        apply elem_of_list_In, in_concat. exists (own o). split; [|by apply elem_of_list_In, refers_owned]. apply in_map, elem_of_list_In. by apply HP.
    - apply IH.
      + split_and!; [done|..].
        * intros x. pose proof (Hin x) as Hx. rewrite (occ_in x (_ ++ _)) in Hx. rewrite (occ_in x (_ ++ _)), Hx, <-!app_comm_cons, occ_cons. destruct (decide (x = s)) as [->|]; [rewrite En; lia|lia].
        * intros x k. rewrite lookup_insert_Some, Hc, <-!app_comm_cons, occ_cons. split.
          -- intros [[<- <-]|(Hne & Hx & ->)]; [by split|]. destruct (decide (x = s)); [by subst|]. done.
          -- intros (Hx & ->). destruct (decide (x = s)) as [->|Hne]; [left; by rewrite En|]. right. by split_and!.
      + unfold work in *. cbn in Hf. lia.
  Qed.

  (** The counts at the start. *)
  Lemma heap_of_right refs : sigs_ok w -> (forall s, s ∈ refs <-> s < length (w_sigs w)) ->
    right (seq 0 (length (w_sigs w))) refs (heap_of w refs).
  Proof.
    intros Hok Hall. split_and!; [apply NoDup_seq|..].
    - intros s. rewrite elem_of_app, elem_of_seq. split; [intros Hs; left; apply Hall; lia|]. intros [Hs|Hs]; [split; [lia|by apply Hall]|].
      apply elem_of_list_In, in_concat in Hs as (x & Hx & Hs). apply in_map_iff in Hx as (y & <- & _). apply elem_of_list_In, refers_owned in Hs.
      split; [lia|]. destruct Hs as [(o & lb & Ho & Hm)|(o & Ho & Hd)]; destruct (Hok y o Ho) as (H1 & _ & H3).
      + apply H1 in Hm. cbn in Hm. apply lookup_lt_Some in Ho. lia.
      + destruct (H3 _ Hd) as (T & _ & od & Hod & _). by apply lookup_lt_Some in Hod.
    - intros s n. unfold heap_of. rewrite <-elem_of_list_to_map.
      2:{ rewrite <-list_fmap_compose. replace (_ <$> _) with (seq 0 (length (w_sigs w))); [apply NoDup_seq|]. symmetry. apply list_fmap_id. }
      rewrite elem_of_list_fmap. fold (inner (seq 0 (length (w_sigs w)))). split.
      + intros (x & [= -> ->] & Hx). done.
      + intros (Hs & ->). by exists s.
  Qed.

  (** ** Who is alive *)
  Lemma right_kept l refs h r s : right l refs h -> r ∈ refs -> rtc (refers w) r s -> s ∈ l.
  Proof.
    intros (_ & Hin & _) Hr Hp. assert (r ∈ l) as Hl by (apply Hin, elem_of_app; by left). clear Hr.
    induction Hp as [x|x y z Hxy _ IH]; [done|]. apply IH. apply Hin, elem_of_app. right.
    apply elem_of_list_In, in_concat. exists (own x). split; [by apply in_map, elem_of_list_In|]. by apply elem_of_list_In, refers_owned.
  Qed.
  Lemma right_owner l refs h s : right l refs h -> s ∈ l -> s ∈ refs \/ exists o, o ∈ l /\ refers w o s.
  Proof.
    intros (_ & Hin & _) Hs. apply Hin, elem_of_app in Hs as [?|Hp]; [by left|].
    right. apply elem_of_list_In, in_concat in Hp as (x & Hx & Hs'). apply in_map_iff in Hx as (o & <- & Ho). exists o. split; [by apply elem_of_list_In|].
    by apply refers_owned, elem_of_list_In.
  Qed.
  (** Going back from owner to owner one comes to a reference from outside, or there
      is a chain as long as one likes. *)
  Lemma right_back l refs h n s : right l refs h -> s ∈ l ->
    (exists r, r ∈ refs /\ rtc (refers w) r s) \/
    exists c, length c = n /\ (forall x, x ∈ c -> x ∈ l /\ tc (refers w) x s) /\ StronglySorted (fun a b => tc (refers w) b a) c.
  Proof.
    intros Hr. revert s. induction n as [|n IH]; intros s Hs.
    { right. exists []. split_and!; [done|by intros x ?%elem_of_nil|constructor]. }
    destruct (right_owner _ _ _ s Hr Hs) as [?|(o & Ho & Hos)]; [left; by exists s|].
    destruct (IH o Ho) as [(r & Hr' & Hp)|(c & <- & Hc & Hss)].
    - left. exists r. split; [done|]. by eapply rtc_r.
    - right. exists (o :: c). split_and!; [done|..].
      + intros x [->|Hx]%elem_of_cons; [split; [done|by apply tc_once]|]. destruct (Hc x Hx) as [? Ht]. split; [done|]. by eapply tc_r.
      + constructor; [done|]. apply Forall_forall. intros x Hx. by apply Hc.
  Qed.
  Lemma sorted_cycle {A} `{EqDecision A} (R : relation A) (c : list A) : StronglySorted R c -> NoDup c \/ exists x, x ∈ c /\ R x x.
  Proof.
    induction 1 as [|x c Hss IH Hf]; [left; constructor|]. destruct IH as [Hn|(y & Hy & HR)]; [|right; exists y; split; [by right|done]].
    destruct (decide (x ∈ c)) as [Hx|Hx].
    - right. exists x. split; [by left|]. rewrite Forall_forall in Hf. by apply Hf.
    - left. by constructor.
  Qed.
  Lemma right_alive l refs h s : right l refs h -> s ∈ l ->
    exists r, (r ∈ refs \/ tc (refers w) r r) /\ rtc (refers w) r s.
  Proof.
    intros Hr Hs. destruct (right_back _ _ _ (S (length l)) s Hr Hs) as [(r & ? & ?)|(c & Hl & Hc & Hss)]; [by eauto|].
    apply sorted_cycle in Hss as [Hn|(x & Hx & Ht)].
    - exfalso. assert (c ⊆+ l) as Hsub by (apply NoDup_submseteq; [done|]; intros x Hx; by apply Hc).
      apply submseteq_length in Hsub. lia.
    - exists x. split; [by right|]. apply tc_rtc. by apply Hc.
  Qed.

  (** ** Cycles consist of derivatives *)
  Lemma refers_value s s' o : sigs_ok w -> w_sigs w !! s = Some o -> so_kind o ≠ KBus -> refers w s s' ->
    has_deriv w s s' /\ exists o', w_sigs w !! s' = Some o' /\ so_kind o' ≠ KBus.
  Proof.
    intros Hok Ho Hk Hr. destruct (Hok s o Ho) as (_ & Hm & Hd). destruct Hr as [(o' & lb & Ho' & He)|Hr].
    - assert (o' = o) as -> by congruence. rewrite (Hm Hk) in He. by apply elem_of_nil in He.
    - split; [done|]. destruct Hr as (o' & Ho' & Hd'). assert (o' = o) as -> by congruence.
      destruct (Hd _ Hd') as (T & _ & od & Hod & Hf). exists od. split; [done|]. intros E. rewrite E in Hf. by destruct T.
  Qed.
  Lemma chain_value s s' : sigs_ok w -> tc (refers w) s s' -> forall o, w_sigs w !! s = Some o -> so_kind o ≠ KBus ->
    tc (has_deriv w) s s' /\ exists o', w_sigs w !! s' = Some o' /\ so_kind o' ≠ KBus.
  Proof.
    intros Hok. induction 1 as [x y Hr|x y z Hr _ IH]; intros o Ho Hk; destruct (refers_value _ _ _ Hok Ho Hk Hr) as [Hd (o' & Ho' & Hk')].
    - split; [by apply tc_once|]. by exists o'.
    - destruct (IH o' Ho' Hk') as [Ht He]. split; [|done]. by eapply tc_l.
  Qed.
  Lemma refers_bus s s' o : sigs_ok w -> w_sigs w !! s = Some o -> so_kind o = KBus -> refers w s s' -> s' < s.
  Proof.
    intros Hok Ho Hk Hr. destruct (Hok s o Ho) as (Hm & _ & Hd). destruct Hr as [(o' & lb & Ho' & He)|(o' & Ho' & Hd')]; assert (o' = o) as -> by congruence.
    - by apply Hm in He.
    - destruct (Hd _ Hd') as (T & Hf & _). rewrite Hk in Hf. by destruct T.
  Qed.
  Lemma chain_bus s s' : sigs_ok w -> tc (refers w) s s' -> forall o o', w_sigs w !! s = Some o -> so_kind o = KBus ->
    w_sigs w !! s' = Some o' -> so_kind o' = KBus -> s' < s.
  Proof.
    intros Hok. induction 1 as [x y Hr|x y z Hr Ht IH]; intros o o' Ho Hk Ho' Hk'; pose proof (refers_bus _ _ _ Hok Ho Hk Hr) as Hlt; [done|].
    assert (exists oy, w_sigs w !! y = Some oy) as [oy Hy].
    { inversion Ht as [? ? Hr'|? ? ? Hr' _]; subst; destruct Hr' as [(q & ? & ? & _)|(q & ? & _)]; eauto. }
    destruct (bus_or_not (so_kind oy)) as [Hb|Hb]; [specialize (IH _ _ Hy Hb Ho' Hk'); lia|].
    destruct (chain_value _ _ Hok Ht oy Hy Hb) as [_ (oz & Hz & Hbz)]. congruence.
  Qed.
  Lemma cycle_deriv s : sigs_ok w -> tc (refers w) s s -> tc (has_deriv w) s s.
  Proof.
    intros Hok Ht. assert (exists o, w_sigs w !! s = Some o) as [o Ho].
    { inversion Ht as [? ? Hr'|? ? ? Hr' _]; subst; destruct Hr' as [(q & ? & ? & _)|(q & ? & _)]; eauto. }
    destruct (bus_or_not (so_kind o)) as [Hb|Hb].
    - pose proof (chain_bus _ _ Hok Ht _ _ Ho Hb Ho Hb). lia.
    - by eapply chain_value.
  Qed.
  Lemma deriv_refers s s' : tc (has_deriv w) s s' -> tc (refers w) s s'.
  Proof. induction 1; [apply tc_once; by right|]. eapply tc_l; [by right|done]. Qed.
End own.
