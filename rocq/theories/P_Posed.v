(** In a model without algebraic loops the derivative of the states is unique. *)
From stdpp Require Import prelude gmap.
From Coq Require Import ZArith.
From Verif Require Import Num Res Store Leaf Sched Stepper Sim SpecSched P_Store P_Prog P_Conf P_Lib P_Trace P_Pack SpecBlock SpecField.

Section prog.
  Context {D : Type}.
  Implicit Types σ : store D.
  Lemma ceval_none {A} (p : prog D A) a ws ρ : ceval (fun _ => None) p = Some (a, ws) -> ceval ρ p = Some (a, ws).
  Proof.
    revert a ws. induction p as [x|s k IH|s v p IH|b e p IH|e|u]; intros a ws; cbn; try done.
    - destruct (ceval (fun _ => None) p) as [[a1 w1]|]; [|done]. intros [= <- <-]. by rewrite (IH _ _ eq_refl).
    - destruct b; [apply IH|done].
  Qed.
  Lemma ceval_agree {A} (p : prog D A) R σ1 σ2 a1 ws1 a2 ws2 : reads_in R p ->
    (forall s, R s -> value σ1 s = None \/ value σ2 s = value σ1 s) ->
    ceval (value σ1) p = Some (a1, ws1) -> (forall s v, (s, v) ∈ ws1 -> value σ1 s = Some v) ->
    ceval (value σ2) p = Some (a2, ws2) -> (forall s v, (s, v) ∈ ws2 -> value σ2 s = Some v) -> a1 = a2 /\ ws1 = ws2.
  Proof.
    revert R a1 ws1 a2 ws2. induction p as [x|s k IH|s v p IH|b e p IH|e|u]; intros R a1 ws1 a2 ws2 Hr Ha H1 W1 H2 W2; cbn in *; try done.
    - by simplify_eq.
    - destruct Hr as [Hs Hk]. destruct (value σ1 s) as [v|] eqn:E1; [|done]. destruct (value σ2 s) as [v2|] eqn:E2; [|done].
      destruct (Ha s Hs) as [E|E]; [congruence|]. rewrite E1, E2 in E. injection E as ->. by eapply IH.
    - destruct (ceval (value σ1) p) as [[b1 w1]|] eqn:E1; [|done]. destruct (ceval (value σ2) p) as [[b2 w2]|] eqn:E2; [|done].
      injection H1 as <- <-. injection H2 as <- <-.
      destruct (IH (fun x => R x \/ x = s) b1 w1 b2 w2) as [-> ->]; try done.
      + intros x [Hx| ->]; [by apply Ha|right]. rewrite (W1 s v), (W2 s v); [done|apply elem_of_list_here..].
      + intros x y Hx. apply W1. by apply elem_of_list_further.
      + intros x y Hx. apply W2. by apply elem_of_list_further.
    - destruct b; [|done]. by eapply IH.
  Qed.
  Lemma ceval_assigns {A} (p : prog D A) s ρ a ws : assigns s p -> ceval ρ p = Some (a, ws) -> s ∈ map fst ws.
  Proof.
    revert ws. induction p as [x|s' k IH|s' v p IH|b e p IH|e|u]; intros ws Hp Hc; cbn in *; try done.
    - destruct (ρ s') as [v|]; [|done]. by eapply IH.
    - destruct (ceval ρ p) as [[a1 w1]|]; [|done]. injection Hc as <- <-. cbn.
      destruct Hp as [-> |Hp]; [apply elem_of_list_here|apply elem_of_list_further; by apply IH].
    - destruct b; [|done]. by eapply IH.
  Qed.
  Lemma paths_assigns {A} (p : prog D A) acc O s : paths_write acc O p -> s ∈ O -> s ∈ acc \/ assigns s p.
  Proof.
    revert acc. induction p as [x|s' k IH|s' v p IH|b e p IH|e|u]; intros acc Hp Hs; cbn in *; auto.
    - left. by apply Hp.
    - destruct (decide (s ∈ acc)); [by left|right]. intros v. destruct (IH v acc); auto. done.
    - destruct (IH (s' :: acc)) as [[-> |Hi]%elem_of_cons|Hi]; auto.
  Qed.
End prog.

Lemma derivs_same {D} (σ0 σ1 σ2 : store D) zs ds ds' :
  Forall2 (fun z d => exists c v, σ0 !! z = Some c /\ c_deriv c = Some d /\ value σ1 d = Some v) zs ds ->
  Forall2 (fun z d => exists c v, σ0 !! z = Some c /\ c_deriv c = Some d /\ value σ2 d = Some v) zs ds' -> ds = ds'.
Proof.
  intros H1. revert ds'. induction H1 as [|z d zs ds (c & v & Hc & Hd & _) _ IH]; intros ds' H2; inversion H2 as [|? d' ? ds2 (c' & v' & Hc' & Hd' & _) H2']; [done|].
  f_equal; [congruence|]. by apply IH.
Qed.

Section unique.
  Context {D : Type} `{NumOps D} (g : cfg D) (σ0 : store D) (zs : list nat) (t : D) (m : nat -> lstate D) (x : list D).
  Context (Hloc : forall l, l ∈ leaves (g_tree g) -> local (dom σ0) l).
  Context (dx1 dx2 : list D) (σ1 σ2 : store D) (I1 : instant σ0 g zs t m x dx1 σ1) (I2 : instant σ0 g zs t m x dx2 σ2).
  Definition both_have (s : nat) : Prop := exists v, value σ1 s = Some v /\ value σ2 s = Some v.
  Lemma both_pack ds : Forall both_have ds -> pack σ1 ds = pack σ2 ds.
  Proof. induction 1 as [|d ds (v & E1 & E2) _ IH]; [done|]. by rewrite !pack_cons, E1, E2, IH. Qed.
  Lemma flat_len (v : val D) (c : cell D) : kind_fits (c_kind c) v = true -> size_fits (c_kind c) v = true -> (c_kind c = KScalar \/ exists n, c_kind c = KArray n) -> 
    length (flat v) = match c_kind c with KScalar => 1 | KArray n => n | _ => 0 end.
  Proof. intros H1 H2 [E|[n E]]; rewrite E in *; destruct v as [y| | |xs]; try discriminate H1; [done|]. cbn in H2 |- *. by apply Nat.eqb_eq in H2. Qed.
  Lemma states_both : (forall z, z ∈ zs -> exists c, σ0 !! z = Some c /\ (c_kind c = KScalar \/ exists n, c_kind c = KArray n)) -> forall z, z ∈ zs -> both_have z.
  Proof.
    pose proof (in_state _ _ _ _ _ _ _ _ I1) as E1. pose proof (in_state _ _ _ _ _ _ _ _ I2) as E2. rewrite E1 in E2. clear E1.
    pose proof (in_known _ _ _ _ _ _ _ _ I1) as K1. pose proof (in_known _ _ _ _ _ _ _ _ I2) as K2.
    pose proof (in_typed _ _ _ _ _ _ _ _ I1) as T1. pose proof (in_typed _ _ _ _ _ _ _ _ I2) as T2. revert E2 K1 K2. clear I1 I2 Hloc.
    induction zs as [|z zs' IH]; intros E K1 K2 Hk z' Hz'; [by apply elem_of_nil in Hz'|].
    destruct (K1 z) as [v1 Ev1]; [apply elem_of_list_here|]. destruct (K2 z) as [v2 Ev2]; [apply elem_of_list_here|].
    destruct (Hk z) as (c & Hc & Hkc); [apply elem_of_list_here|].
    destruct (T1 z v1 Ev1) as (c1 & Hc1 & A1 & B1). rewrite Hc in Hc1. injection Hc1 as <-.
    destruct (T2 z v2 Ev2) as (c2 & Hc2 & A2 & B2). rewrite Hc in Hc2. injection Hc2 as <-.
    rewrite !pack_cons, Ev1, Ev2 in E. apply app_inj_1 in E as [Ef Er]; [|by rewrite (flat_len v1 c), (flat_len v2 c)].
    apply elem_of_cons in Hz' as [-> |Hz'].
    - exists v1. split; [done|]. rewrite Ev2. f_equal. destruct Hkc as [Ek|[n Ek]]; rewrite Ek in *; destruct v1, v2; try done; cbn in Ef; congruence.
    - apply IH; try done; [intros; apply K1|intros; apply K2|intros; apply Hk]; by apply elem_of_list_further.
  Qed.
  Context (Hk : forall z, z ∈ zs -> exists c, σ0 !! z = Some c /\ (c_kind c = KScalar \/ exists n, c_kind c = KArray n)).
  Lemma given_both s : given g zs t s -> both_have s.
  Proof.
    intros [Hs|(p & ws & Hp & Hc & Hs)]; [by apply states_both|].
    assert (shows σ1 (p t) tt /\ shows σ2 (p t) tt) as [(w1 & C1 & W1) (w2 & C2 & W2)].
    { destruct Hp as [Hp|<-]; [split; eapply in_inputs; eauto|split; eapply in_icb; eauto]. }
    rewrite (ceval_none _ _ _ (value σ1) Hc) in C1. rewrite (ceval_none _ _ _ (value σ2) Hc) in C2. injection C1 as <-. injection C2 as <-.
    apply elem_of_list_fmap in Hs as ([s' v] & -> & Hin). exists v. split; [by apply W1|by apply W2].
  Qed.
  Lemma value_assigned (σ : store D) s v : value σ s = Some v -> assigned σ s = true.
  Proof. unfold value, assigned. destruct (σ !! s) as [c|]; [|done]. by destruct (c_asg c). Qed.
  Lemma law_both l : l ∈ leaves (g_tree g) -> is_builder (l_cls l) = false -> (forall s, s ∈ required l -> both_have s) -> forall s, gives l s -> both_have s.
  Proof.
    intros Hl Hb Hr s Hgv.
    assert (forall σ dx, instant σ0 g zs t m x dx σ -> (forall s, s ∈ required l -> exists v, value σ s = Some v) -> exists m', shows σ (act l t (m (l_id l))) m') as Hlaw.
    { intros σ dx Hi Hv. destruct (in_laws _ _ _ _ _ _ _ _ Hi l Hl Hb) as [(s' & Hs' & Ha)|[_ ?]]; [|done].
      destruct (Hv s' Hs') as [v Ev]. apply value_assigned in Ev. congruence. }
    destruct (Hlaw σ1 dx1 I1) as (m1 & w1 & C1 & W1). { intros s' Hs'. destruct (Hr s' Hs') as (v & ? & _). by exists v. }
    destruct (Hlaw σ2 dx2 I2) as (m2 & w2 & C2 & W2). { intros s' Hs'. destruct (Hr s' Hs') as (v & _ & ?). by exists v. }
    destruct (ceval_agree _ _ σ1 σ2 m1 w1 m2 w2 (Hloc l Hl t (m (l_id l)))) as [_ ->]; try done.
    - intros s' Hin. destruct (value σ1 s') as [v|] eqn:Ev; [|by left]. right.
      destruct (in_typed _ _ _ _ _ _ _ _ I1 s' v Ev) as (c & Hc & _).
      destruct (Hr s') as (v' & E1 & E2); [apply Hin; apply elem_of_dom; eauto|]. congruence.
    - pose proof (ceval_assigns _ s _ _ _ (Hgv t (m (l_id l))) C1) as Hn.
      apply elem_of_list_fmap in Hn as ([s' v] & -> & Hin). exists v. split; [by apply W1|by apply W2].
  Qed.
  Lemma posed_unique : well_posed σ0 g zs t -> dx1 = dx2.
  Proof.
    intros (rank & Hreq & Hder).
    assert (forall n l, rank l < n -> l ∈ leaves (g_tree g) -> is_builder (l_cls l) = false -> forall s, gives l s -> both_have s) as Hall.
    { induction n as [|n IH]; intros l Hn Hl Hb; [lia|]. apply law_both; [done|done|]. intros s Hs.
      destruct (Hreq l s Hl Hb Hs) as [Hgi|(l' & Hl' & Hb' & Hlt & Hgi)]; [by apply given_both|]. apply (IH l'); [lia|done..]. }
    destruct (in_deriv _ _ _ _ _ _ _ _ I1) as (ds & Hds & Edx1). destruct (in_deriv _ _ _ _ _ _ _ _ I2) as (ds2 & Hds2 & Edx2).
    assert (ds2 = ds) as ->.
    { symmetry. eapply derivs_same; [exact Hds|exact Hds2]. }
    rewrite Edx1, Edx2. apply both_pack. apply Forall_forall. intros d Hd. apply elem_of_list_lookup in Hd as [i Hi].
    destruct (Forall2_lookup_r _ _ _ _ _ Hds Hi) as (z & Hz & c & v & Hc & Hdc & _). apply elem_of_list_lookup_2 in Hz.
    destruct (Hder z c d Hz Hc Hdc) as [Hgi|(l' & Hl' & Hb' & Hgi)]; [by apply given_both|]. apply (Hall (S (rank l')) l'); [lia|done..].
  Qed.
End unique.
