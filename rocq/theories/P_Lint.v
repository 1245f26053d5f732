(** What the checker accepts is well built. *)
From stdpp Require Import prelude gmap strings.
From Coq Require Import ZArith.
From Verif Require Import Num Res Store Leaf Sched Stepper Sim World NumOrd P_Store P_Sched P_World P_Compile P_Modes P_Log SpecSched SpecSafe SpecGoes SpecGoes2 SpecLint P_Safe3 P_Goes P_Goes2 P_Goes3 P_Goes5.
Local Open Scope nat_scope.

Lemma kind_eqb_eq a b : kind_eqb a b = true -> a = b.
Proof. destruct a, b; cbn; try done. intros E. apply Nat.eqb_eq in E. by subst. Qed.
Lemma memb_elem s l : memb s l = true <-> s ∈ l.
Proof.
  unfold memb. rewrite existsb_exists. split.
  - intros (x & Hx & E). apply Nat.eqb_eq in E. subst. by apply elem_of_list_In.
  - intros Hs. exists s. split; [by apply elem_of_list_In|by apply Nat.eqb_eq].
Qed.
Lemma nodupb_ok l : nodupb l = true -> NoDup l.
Proof.
  induction l as [|x l IH]; cbn; [constructor|]. intros [H1 H2]%andb_true_iff. constructor; [|by apply IH].
  intros Hx. apply memb_elem in Hx. by rewrite Hx in H1.
Qed.
Lemma forallb_elem {A} (f : A -> bool) l : forallb f l = true -> forall x, x ∈ l -> f x = true.
Proof. intros Hf x Hx. eapply forallb_forall in Hf; [exact Hf|]. by apply elem_of_list_In. Qed.

Section kinds.
  Context {D : Type} `{NumOps D} (K : nat -> option kind).
  Lemma on_ok o f : on o f = true -> exists s, o = Some s /\ f s = true.
  Proof. destruct o as [s|]; [|done]. intros ?. by exists s. Qed.
  Lemma thereb_ok s : thereb K s = true -> exists k, K s = Some k.
  Proof. unfold thereb. destruct (K s); [eauto|done]. Qed.
  Lemma isb_ok k s : isb K k s = true -> K s = Some k.
  Proof. unfold isb. destruct (K s); [|done]. intros E. f_equal. by apply kind_eqb_eq. Qed.
  Lemma floatb_ok s : floatb K s = true -> exists k, K s = Some k /\ floating k.
  Proof. unfold floatb. destruct (K s) as [[]|]; try done; intros _; eexists; (split; [done|]); exact I. Qed.
  Lemma sameb_ok s s' k : sameb K s s' = true -> K s = Some k -> K s' = Some k.
  Proof. unfold sameb. intros E Hk. rewrite Hk in E. by apply isb_ok. Qed.
  Lemma sameb_ok' s s' k : sameb K s s' = true -> K s' = Some k -> K s = Some k.
  Proof. unfold sameb. destruct (K s) as [k'|]; [|done]. intros E%isb_ok Hk. congruence. Qed.
  Lemma sameb_some s s' : sameb K s s' = true -> exists k, K s = Some k /\ K s' = Some k.
  Proof. unfold sameb. destruct (K s) as [k|]; [|done]. intros E%isb_ok. eauto. Qed.
  Lemma fitsb_ok s (v : val D) : fitsb K s v = true -> exists k, K s = Some k /\ fits k v.
  Proof. unfold fitsb. destruct (K s) as [k|]; [|done]. intros [? ?]%andb_true_iff. exists k. done. Qed.
End kinds.


Ltac handle E s Es := apply on_ok in E as (s & Es & E).
Ltac ands E := repeat setoid_rewrite andb_true_iff in E.

Section lint.
  Context {D : Type} `{NumOps D} {Ho : NumOrd D} (K : nat -> option kind) (nxt : D -> D -> Prop) (X : list nat).

  Lemma suitsb_ok (l : leaf D) : suitsb K X l = true -> user_ok K nxt l -> suits K nxt X l.
  Proof.
    unfold suitsb, user_ok, suits, out_of, in_of. destruct (l_cls l) as [T v|T f|f|f|T f|T f|T c|T v|T v| | |T|T|T ls| |T|T|ini ex|ex|u1 u2 u3|] eqn:Ec; intros E Hu; try done.
    - handle E o Eo. apply fitsb_ok in E as (k & Hk & Hf). eauto.
    - handle E o Eo. apply thereb_ok in E as (k & Hk). exists k. split; [eauto|]. intros t. eapply goes_weak; [| |apply Hu]; [done|].
      intros v (o' & k' & Eo' & Ek & Hf). congruence.
    - handle E i Ei. handle E o Eo. rewrite !andb_true_iff in E. destruct E as [[E1 E2] E3]. apply memb_elem in E1.
      apply thereb_ok in E2 as (ki & Hki). apply thereb_ok in E3 as (k & Hk). exists ki, k. split; [eauto|]. split; [eauto|].
      intros t x Hx. eapply goes_weak; [| |eapply Hu; eauto]; [done|]. intros v (o' & k' & Eo' & Ek & Hf). congruence.
    - handle E o Eo. apply thereb_ok in E as (k & Hk). exists k. split; [eauto|]. intros t. eapply goes_weak; [| |apply Hu]; [done|].
      intros v (o' & k' & Eo' & Ek & Hf). congruence.
    - destruct c as [c| | |]; try done. handle E i Ei. handle E o Eo. rewrite !andb_true_iff in E. destruct E as [[E1 E2] E3]. apply memb_elem in E1.
      apply floatb_ok in E2 as (k & Hk & Hf). apply (sameb_ok _ _ _ _ E3) in Hk as Hk'. exists k, c. eauto 10.
    - handle E o Eo. rewrite !andb_true_iff in E. destruct E as [[E1 E2] E3]. apply floatb_ok in E1 as (k & Hk & Hf).
      apply fitsb_ok in E2 as (k' & Hk' & Hv). assert (k' = k) as -> by congruence. exists k. split; [done|]. split; [eauto|]. split; [done|].
      intros e He. pose proof (forallb_elem _ _ E3 e He) as E. apply andb_true_iff in E as [E4 E5]. apply memb_elem in E4. eauto using sameb_ok.
    - handle E o Eo. rewrite !andb_true_iff in E. destruct E as [[E1 E2] E3]. apply floatb_ok in E1 as (k & Hk & Hf).
      apply fitsb_ok in E2 as (k' & Hk' & Hv). assert (k' = k) as -> by congruence. exists k. split; [done|]. split; [eauto|]. split; [done|].
      intros e He. pose proof (forallb_elem _ _ E3 e He) as E. apply andb_true_iff in E as [E4 E5]. apply memb_elem in E4. eauto using sameb_ok.
    - handle E a Ea. handle E b Eb. handle E o Eo. rewrite !andb_true_iff in E. destruct E as [[[E1 E2] [E3 E4]] E5].
      apply memb_elem in E1, E3. apply isb_ok in E2, E4, E5. split; [eauto|]. split; eauto.
    - handle E a Ea. handle E b Eb. handle E o Eo. rewrite !andb_true_iff in E. destruct E as [[[E1 E2] [E3 E4]] E5].
      apply memb_elem in E1, E3. apply isb_ok in E2, E4, E5. split; [eauto|]. split; eauto.
    - handle E i Ei. handle E o Eo. rewrite !andb_true_iff in E. destruct E as [E1 E2]. apply memb_elem in E1. apply sameb_some in E2 as (k & Hk & Hk'). eauto 10.
    - handle E i Ei. handle E o Eo. rewrite !andb_true_iff in E. destruct E as [E1 E2]. apply memb_elem in E1. apply sameb_some in E2 as (k & Hk & Hk'). eauto 10.
    - handle E i Ei. handle E a Ea. handle E d Ed. handle E o Eo. rewrite !andb_true_iff in E. destruct E as [[[[E1 E2] [E3 E4]] [E5 E6]] E7].
      apply memb_elem in E1, E3, E5. apply isb_ok in E6. apply floatb_ok in E2 as (k & Hk & Hf). exists k.
      pose proof (sameb_ok _ _ _ _ E4 Hk). pose proof (sameb_ok _ _ _ _ E7 Hk). split; [done|]. repeat (split; [eauto|]). done.
    - handle E i Ei. handle E o Eo. rewrite !andb_true_iff in E. destruct E as [[[E1 E2] E3] E4]. apply memb_elem in E1, E2. apply isb_ok in E3, E4.
      split; [eauto|]. split; [|eauto]. intros s Es. congruence.
    - handle E o Eo. rewrite !andb_true_iff in E. destruct E as [E1 E2]. apply memb_elem in E2. apply floatb_ok in E1 as (k & Hk & Hf). exists k.
      split; [done|]. split; [eauto|]. intros s Es. congruence.
    - handle E o Eo. handle E t Et. rewrite !andb_true_iff in E. destruct E as [[E1 E2] [E3 E4]]. apply memb_elem in E2, E3. apply isb_ok in E4.
      apply floatb_ok in E1 as (k & Hk & Hf). exists k. split; [done|]. split; [eauto|]. split; [|eauto]. intros s Es. congruence.
    - intros s Hs. apply memb_elem. by apply (forallb_elem _ _ E).
  Qed.
  Lemma beginsb_ok (l : leaf D) st : beginsb K l st = true -> user_begins K l st -> y_inv (lib K) l None st.
  Proof.
    unfold beginsb. cbn [lib y_inv]. unfold lib_inv, stored. unfold user_begins, lib_inv, stored. destruct (l_cls l); intros E Hub; try done.
    - destruct st as [|v| | | |]; try done. handle E o Eo. apply fitsb_ok in E as (k & Hk & Hf). eauto 10.
    - destruct st as [| |[] []| | |]; try done. exists [], []. split; [done|]. split; [done|]. split; [done|]. intros x Hx. by apply elem_of_nil in Hx.
    - destruct st as [| | |[] ? ? ?| |]; try done. do 4 eexists. split; [reflexivity|]. done.
    - destruct st as [| | | |v ?|]; try done. handle E o Eo. apply fitsb_ok in E as (k & Hk & Hf). eauto 10.
    - destruct st as [| | | |v ?|]; try done. handle E o Eo. apply fitsb_ok in E as (k & Hk & Hf). eauto 10.
  Qed.

  (** ** The order *)
  Lemma pick_ok have (past ls : list (leaf D)) l r : pick have past ls = Some (l, r) ->
    l :: r ≡ₚ past ++ ls /\ forall s, s ∈ required l -> s ∈ have.
  Proof.
    revert past. induction ls as [|l0 ls IH]; intros past; cbn; [done|]. destruct (forallb _ _) eqn:E.
    - intros [= <- <-]. split.
      + rewrite rev_append_rev. rewrite <- Permutation_middle. constructor. apply Permutation_app; [|done]. symmetry. apply Permutation_rev.
      + intros s Hs. apply memb_elem. by apply (forallb_elem _ _ E).
    - intros Hp. apply IH in Hp as [Hp Hr]. split; [|done]. rewrite Hp. cbn. apply Permutation_middle.
  Qed.
  Lemma schedule_ok n have (ls r : list (leaf D)) : NoDup (map l_id ls) -> schedule n have ls = Some r ->
    exists rank : leaf D -> nat, forall l s, l ∈ ls -> s ∈ required l ->
      s ∈ have \/ exists l', l' ∈ ls /\ rank l' < rank l /\ s ∈ lib_out l'.
  Proof.
    revert have ls r. induction n as [|n IH]; intros have ls r Hnd Hsch.
    - destruct ls; [|done]. exists (fun _ => 0). intros l s Hl. by apply elem_of_nil in Hl.
    - cbn [schedule] in Hsch. destruct ls as [|l1 ls]; [exists (fun _ => 0); intros l s Hl; by apply elem_of_nil in Hl|].
      destruct (pick have [] (l1 :: ls)) as [[l0 ls']|] eqn:Ep; [|done]. apply pick_ok in Ep as [Hp Hr]. cbn [app] in Hp.
      destruct (schedule n _ ls') as [r'|] eqn:Es; [|done]. 
      assert (NoDup (map l_id (l0 :: ls'))) as Hnd' by (rewrite Hp; exact Hnd).
      cbn in Hnd'. apply NoDup_cons in Hnd' as [Hn0 Hnd']. destruct (IH _ _ _ Hnd' Es) as [rank Hrank].
      exists (fun l => if decide (l_id l = l_id l0) then 0 else S (rank l)). intros l s Hl Hs. rewrite <- Hp in Hl.
      apply elem_of_cons in Hl as [->|Hl]; [left; by apply Hr|].
      assert (forall l', l' ∈ ls' -> l_id l' ≠ l_id l0) as Hne.
      { intros l' Hl' E. apply Hn0. rewrite <- E. apply elem_of_list_fmap. by exists l'. }
      destruct (Hrank l s Hl Hs) as [Hh|(l' & Hl' & Hlt & Hs')].
      + apply elem_of_app in Hh as [Hh|Hh]; [by left|]. right. exists l0. split; [rewrite <- Hp; by left|]. split; [|done].
        rewrite decide_True by done. rewrite decide_False by (by apply Hne). lia.
      + right. exists l'. split; [rewrite <- Hp; by right|]. split; [|done]. rewrite !decide_False by (by apply Hne). lia.
  Qed.
  Lemma nodup_filter (p : leaf D -> bool) ls : NoDup (map l_id ls) -> NoDup (map l_id (List.filter p ls)).
  Proof.
    induction ls as [|l ls IH]; intros Hn; [done|]. cbn in Hn. apply NoDup_cons in Hn as [Hn Hnd]. cbn [List.filter]. destruct (p l); [|by apply IH]. cbn [map]. constructor; [|by apply IH].
    intros Hx. apply Hn. apply elem_of_list_fmap in Hx as (l' & -> & Hx). apply elem_of_list_In, filter_In in Hx as [Hx _]. apply elem_of_list_fmap. exists l'. split; [done|]. by apply elem_of_list_In.
  Qed.
  (** If there is an order, one is found; fewer blocks to wait for do no harm. *)
  Lemma pick_some have (past ls : list (leaf D)) l : l ∈ ls -> (forall s, s ∈ required l -> s ∈ have) -> pick have past ls ≠ None.
  Proof.
    intros Hl Hr. revert past. induction ls as [|l0 ls IH]; intros past; [by apply elem_of_nil in Hl|]. cbn [pick].
    destruct (forallb _ (required l0)) eqn:E; [done|]. apply elem_of_cons in Hl as [->|Hl]; [|by apply IH]. exfalso.
    assert (forallb (fun s => memb s have) (required l0) = true) as E'; [|congruence]. apply forallb_forall. intros s Hs. apply memb_elem, Hr. by apply elem_of_list_In.
  Qed.
  Lemma least_rank (rank : leaf D -> nat) (ls : list (leaf D)) : ls ≠ [] -> exists l, l ∈ ls /\ forall l', l' ∈ ls -> rank l <= rank l'.
  Proof.
    induction ls as [|l ls IH]; intros Hn; [done|]. destruct ls as [|l2 ls].
    - exists l. split; [by left|]. intros l' Hl'. apply elem_of_list_singleton in Hl' as ->. done.
    - destruct IH as (m & Hm & Hmin); [done|]. destruct (decide (rank l <= rank m)) as [Hle|Hle].
      + exists l. split; [by left|]. intros l' Hl'. apply elem_of_cons in Hl' as [->|Hl']; [done|]. specialize (Hmin l' Hl'). lia.
      + exists m. split; [by right|]. intros l' Hl'. apply elem_of_cons in Hl' as [->|Hl']; [lia|by apply Hmin].
  Qed.
  Lemma schedule_complete (rank : leaf D -> nat) n have (ls : list (leaf D)) : length ls <= n ->
    (forall l s, l ∈ ls -> s ∈ required l -> s ∈ have \/ exists l', l' ∈ ls /\ rank l' < rank l /\ s ∈ lib_out l') -> exists r, schedule n have ls = Some r.
  Proof.
    revert have ls. induction n as [|n IH]; intros have ls Hlen Hr.
    - destruct ls; [by exists []|cbn in Hlen; lia].
    - destruct ls as [|l1 ls0] eqn:El; [by exists []|]. rewrite <- El in *. assert (ls ≠ []) as Hne by (by rewrite El).
      destruct (least_rank rank ls Hne) as (l & Hl & Hmin).
      assert (pick have [] ls ≠ None) as Hp. { eapply pick_some; [exact Hl|]. intros s Hs. destruct (Hr l s Hl Hs) as [|(l' & Hl' & Hlt & _)]; [done|]. specialize (Hmin l' Hl'). lia. }
      destruct (pick have [] ls) as [[l0 ls']|] eqn:Ep; [|done]. pose proof Ep as Ep'. apply pick_ok in Ep as [Hperm _]. cbn [app] in Hperm.
      destruct (IH (have ++ lib_out l0) ls') as [r Er].
      { apply Permutation_length in Hperm. cbn in Hperm. lia. }
      { intros l' s Hl' Hs. destruct (Hr l' s) as [Hh|(l2 & Hl2 & Hlt & Hso)]; [rewrite <- Hperm; by right|done|left; apply elem_of_app; by left|].
        rewrite <- Hperm in Hl2. apply elem_of_cons in Hl2 as [->|Hl2]; [left; apply elem_of_app; by right|right; eauto]. }
      exists (l0 :: r). rewrite El. cbn [schedule]. rewrite El in Ep'. rewrite Ep'. by rewrite Er.
  Qed.
  Lemma lint_default m (w : world D) ins1 ins2 (tr : tree D) : NoDup (map l_id (leaves tr)) -> lint m w ins1 ins2 tr = true -> lint MDefault w ins1 ins2 tr = true.
  Proof.
    intros Hnd. destruct m; [done|done|]. unfold lint. cbv zeta. rewrite !andb_true_iff. intros (E & Es). split; [exact E|]. clear E.
    destruct (schedule _ _ (List.filter (waitsb MFast) _)) as [r|] eqn:E; [|done]. clear Es. apply schedule_ok in E as [rank Hr]; [|by apply nodup_filter].
    assert (forall l, l ∈ List.filter (waitsb MFast) (leaves tr) <-> l ∈ leaves tr) as Hall. { intros l. rewrite !elem_of_list_In, filter_In. unfold waitsb. tauto. }
    destruct (schedule_complete rank (length (leaves tr)) (ins1 ++ ins2 ++ concat (map lib_pre (leaves tr))) (List.filter (waitsb MDefault) (leaves tr))) as [r' ->]; [| |done].
    - clear. induction (leaves tr) as [|l ls IH]; [done|]. cbn [List.filter]. destruct (waitsb MDefault l); cbn [length]; lia.
    - intros l s Hl Hs. apply elem_of_list_In, filter_In in Hl as [Hl _]. destruct (Hr l s) as [Hh|(l' & Hl' & Hlt & Hso)]; [apply Hall; by apply elem_of_list_In|done|by left|].
      right. exists l'. split; [|done]. apply Hall, elem_of_list_In in Hl'. apply elem_of_list_In, filter_In. split; [done|]. unfold waitsb.
      unfold lib_out in Hso. destruct (l_cls l'); try done; by apply elem_of_nil in Hso.
  Qed.
End lint.

Section world.
  Context {D : Type} `{NumOps D} {Ho : NumOrd D} (w : world D) (b : bid) (g : cfg D) (nxt : D -> D -> Prop) (ins1 ins2 : list nat).
  Notation K := (sig_kinds w).
  Context (Hok : world_ok w) (Hc : compile_model w b = Some (g_tree g)) (Hl : lint (g_mode g) w ins1 ins2 (g_tree g) = true).

  Lemma initial_good : good K (sig_derivs w) (initial_store w).
  Proof.
    split; [apply initial_ok|]. split; intros s.
    - unfold kind_in, sig_kinds. rewrite initial_lookup. destruct (w_sigs w !! s) as [o|]; [|done]. by destruct (is_bus _).
    - unfold deriv_in, sig_derivs. rewrite initial_lookup. destruct (w_sigs w !! s) as [o|]; [|done]. by destruct (is_bus _).
  Qed.
  Lemma lint_wf : wf_tree (g_tree g).
  Proof. eapply compile_wf; [apply (ok_tree _ Hok)|exact Hc]. Qed.
  Context (Hdbg : g_dbg g = true) (Hit : forall l, g_iter g l ≡ₚ l) (Hck : clockwork nxt)
    (Hst : forall stp, g_stepper g = Some stp -> carries stp)
    (Hi : forall f t, g_inputs g = Some f -> goes K (fun _ => False) ins1 (fun _ => True) (f t))
    (Hi0 : g_inputs g = None -> ins1 = [])
    (Hicb : forall t, goes K (fun s => s ∈ ins1) ins2 (fun _ => True) (g_icb g t))
    (Hu : forall l, l ∈ leaves (g_tree g) -> user_ok K nxt l)
    (Hub : forall l o, l ∈ leaves (g_tree g) -> w_blks w !! l_id l = Some o -> user_begins K l (bo_st o)).

  Lemma lint_sane : sane g K (sig_derivs w) nxt (lib K) ins1 ins2.
  Proof.
    pose proof Hl as E. unfold lint in E. cbv zeta in E. rewrite !andb_true_iff in E. destruct E as [[[[[[[E1 E2] E3] E4] E5] E6] E7] E8].
    pose proof (forallb_elem _ _ E6) as F6. pose proof (forallb_elem _ _ E7) as F7. cbv beta in F6, F7.
    assert (forall s, s ∈ made ins1 ins2 (lib K) (g_tree g) -> s ∈ linked_signals (g_tree g)) as Hlinked.
    { intros s Hs. apply memb_elem. apply (forallb_elem _ _ E2). unfold made, givens in Hs. cbn [lib y_pre y_out] in Hs. exact Hs. }
    constructor; try done.
    - apply lint_wf.
    - by apply nodupb_ok.
    - intros s Hs. destruct (thereb_ok K s) as [k ->]; [|done]. by apply (forallb_elem _ _ E3).
    - intros l Hll. apply (lib_dutiful K nxt (made ins1 ins2 (lib K) (g_tree g)) l). apply suitsb_ok; [|by apply Hu]. by apply (forallb_elem _ _ E4).
    - intros l Hll Hb. cbn [lib y_out]. unfold lib_out. by destruct (l_cls l).
    - intros z. cbn [lib y_pre]. split.
      + intros Hz. assert (z ∈ linked_signals (g_tree g)) as Hzl.
        { apply Hlinked. unfold made, givens. cbn [lib y_pre]. rewrite !elem_of_app. auto. }
        split; [done|]. specialize (F6 z Hzl). specialize (F7 z Hz). apply andb_true_iff in F7 as [F7 _]. split.
        * destruct (sig_derivs w z); [done|]. apply memb_elem in Hz. by rewrite Hz in F6.
        * apply floatb_ok in F7 as (k & Hk & Hf). destruct k; try done; eauto.
      + intros (Hzl & [d Hd] & Hf). specialize (F6 z Hzl). rewrite Hd in F6. rewrite !andb_true_iff, orb_true_iff in F6. destruct F6 as [_ [F6|F6]]; [by apply memb_elem|].
        unfold floatb in F6. destruct Hf as [Hf|[n Hf]]; by rewrite Hf in F6.
    - intros z n Hz Hk ->. cbn [lib y_pre] in Hz. specialize (F7 z Hz). rewrite Hk in F7. by rewrite andb_false_r in F7.
    - intros z d Hz Hd. specialize (F6 z Hz). rewrite Hd in F6. rewrite !andb_true_iff in F6. destruct F6 as [[F1 F2] _].
      apply memb_elem in F1. split; [exact F1|]. apply sameb_some in F2 as (k & Hk & Hk'). congruence.
    - destruct (schedule _ _ _) as [r|] eqn:Es; [|done]. destruct (schedule_ok _ _ _ _ (nodup_filter _ _ (wf_leaves _ lint_wf)) Es) as [rank Hr]. exists rank.
      intros l s Hll Hw Hx. destruct (Hr l s) as [Hg|(l' & Hl' & Hlt & Hso)]; [|done|by left|].
      + apply elem_of_list_In, filter_In. split; [by apply elem_of_list_In|]. unfold waitsb. destruct Hw as [Hw|Hw]; rewrite Hw; [by destruct (g_mode g)|done].
      + right. exists l'. split; [|done]. apply elem_of_list_In in Hl'. apply filter_In in Hl' as [Hl' _]. by apply elem_of_list_In.
  Qed.
  Lemma lint_fresh t0 : (g_mode g = MReuse -> concat (map lib_pre (leaves (g_tree g))) ≠ [] /\ forall l, l ∈ leaves (g_tree g) -> is_builder (l_cls l) = false) ->
    fresh g K (sig_derivs w) nxt (lib K) None t0 (initial_dyn w).
  Proof.
    intros Hre. pose proof Hl as E. unfold lint in E. cbv zeta in E. rewrite !andb_true_iff in E. destruct E as [[[[[[[E1 E2] E3] E4] E5] E6] E7] E8].
    constructor.
    - apply initial_good.
    - intros l Hll. pose proof (forallb_elem _ _ E5 l Hll) as F. cbv beta in F. destruct (w_blks w !! l_id l) as [o|] eqn:Eo; [|done].
      change (d_core (initial_dyn w)) with (initial_core w). rewrite (initial_mem _ _ _ Eo). apply beginsb_ok; [done|by apply (Hub l o)].
    - exact I.
    - exact Hre.
    - intros l _ _. change (d_core (initial_dyn w)) with (initial_core w). apply not_elem_of_empty.
  Qed.
End world.
