(** Programs in a debug build: write-once discipline, evaluation against the
    final store, and reads from a given set of signals. *)
From stdpp Require Import prelude gmap.
From Coq Require Import ZArith.
From Verif Require Import Num Res Store P_Store.

(** Result and writes of a program when every read returns the value given by [ρ]. *)
Fixpoint ceval {D A} (ρ : nat -> option (val D)) (p : prog D A) : option (A * list (nat * val D)) :=
  match p with
  | PRet a => Some (a, [])
  | PGet s k => match ρ s with Some v => ceval ρ (k v) | None => None end
  | PSet s v p' => match ceval ρ p' with Some (a, ws) => Some (a, (s, v) :: ws) | None => None end
  | PDebug c e p' => if c then ceval ρ p' else None
  | PThrow _ | PUB _ => None
  end.

(** The program reads only signals in [R] or ones it has written itself. *)
Fixpoint reads_in {D A} (R : nat -> Prop) (p : prog D A) : Prop :=
  match p with
  | PRet _ | PThrow _ | PUB _ => True
  | PGet s k => R s /\ forall v, reads_in R (k v)
  | PSet s _ p' => reads_in (fun x => R x \/ x = s) p'
  | PDebug _ _ p' => reads_in R p'
  end.

Definition write1 {D} (w : nat * val D) (σ : store D) : store D :=
  match σ !! fst w with
  | Some c => <[fst w := Cell (c_kind c) (c_deriv c) true (Some (snd w))]> σ
  | None => σ
  end.
Fixpoint write_all {D} (ws : list (nat * val D)) (σ : store D) : store D :=
  match ws with [] => σ | w :: ws' => write_all ws' (write1 w σ) end.

Definition can_write {D} (σ : store D) (w : nat * val D) : Prop :=
  exists c, σ !! fst w = Some c /\ c_asg c = false /\
    kind_fits (c_kind c) (snd w) = true /\ size_fits (c_kind c) (snd w) = true.
Definition writable {D} (σ : store D) (ws : list (nat * val D)) : Prop :=
  NoDup (map fst ws) /\ Forall (can_write σ) ws.

(** [τ] extends [σ]: same signals or more, and what is assigned in [σ] is the same. *)
Definition ext {D} (σ τ : store D) : Prop :=
  forall s c, σ !! s = Some c ->
    exists c', τ !! s = Some c' /\ c_kind c' = c_kind c /\ c_deriv c' = c_deriv c /\
      (c_asg c = true -> c' = c).

Section prog.
  Context {D : Type}.
  Implicit Types σ τ : store D.
  Implicit Types ws : list (nat * val D).

  Lemma ext_refl σ : ext σ σ.
  Proof. intros s c Hc. eauto 6. Qed.
  Lemma ext_trans σ1 σ2 σ3 : ext σ1 σ2 -> ext σ2 σ3 -> ext σ1 σ3.
  Proof.
    intros H1 H2 s c Hc. destruct (H1 s c Hc) as (c1 & Hc1 & Hk1 & Hd1 & Ha1).
    destruct (H2 s c1 Hc1) as (c2 & Hc2 & Hk2 & Hd2 & Ha2).
    exists c2. split_and!; [done|congruence|congruence|]. intros Ha.
    specialize (Ha1 Ha). subst c1. auto.
  Qed.
  Lemma ext_assigned σ τ s : ext σ τ -> assigned σ s = true -> assigned τ s = true.
  Proof.
    unfold assigned. intros He. destruct (σ !! s) as [c|] eqn:E; [|done]. intros Ha.
    destruct (He s c E) as (c' & -> & _ & _ & Hc). by rewrite Hc.
  Qed.
  Lemma ext_value σ τ s v : ext σ τ -> value σ s = Some v -> value τ s = Some v.
  Proof.
    unfold value. intros He. destruct (σ !! s) as [c|] eqn:E; [|done].
    destruct (c_asg c) eqn:Ha; [|done]. intros Hv.
    destruct (He s c E) as (c' & -> & _ & _ & Hc). rewrite Hc by done. by rewrite Ha.
  Qed.

  Lemma write1_ext σ w : can_write σ w -> ext σ (write1 w σ).
  Proof.
    intros (c & Hc & Ha & _ & _) s c' Hs. unfold write1. rewrite Hc.
    destruct (decide (s = fst w)) as [->|Hne].
    - rewrite lookup_insert. simplify_eq. eexists. split_and!; [done|done|done|]. congruence.
    - rewrite lookup_insert_ne by done. eauto 6.
  Qed.
  Lemma can_write_write1 σ w w' :
    fst w ≠ fst w' -> can_write σ w' -> can_write (write1 w σ) w'.
  Proof.
    intros Hne (c & Hc & Hr). exists c. split; [|done]. unfold write1.
    destruct (σ !! fst w); [|done]. by rewrite lookup_insert_ne.
  Qed.
  Lemma can_write_write1_inv σ w w' :
    can_write σ w -> can_write (write1 w σ) w' -> fst w ≠ fst w' /\ can_write σ w'.
  Proof.
    intros (c & Hc & Ha & _) (c' & Hc' & Ha' & Hr). unfold write1 in Hc'. rewrite Hc in Hc'.
    destruct (decide (fst w = fst w')) as [He|Hne].
    - rewrite He, lookup_insert in Hc'. by simplify_eq.
    - rewrite lookup_insert_ne in Hc' by done. split; [done|]. exists c'. done.
  Qed.
  Lemma writable_cons σ w ws :
    writable σ (w :: ws) <-> can_write σ w /\ writable (write1 w σ) ws.
  Proof.
    unfold writable. split.
    - intros [Hn Hf]. cbn in Hn. apply NoDup_cons in Hn as [Hni Hn].
      inversion Hf as [|? ? Hw Hf']; subst. split; [done|]. split; [done|].
      apply Forall_forall. intros w' Hw'. apply can_write_write1.
      + intros He. apply Hni. rewrite He. by apply elem_of_list_fmap_1.
      + by eapply Forall_forall in Hf'.
    - intros (Hw & Hn & Hf). split.
      + cbn. apply NoDup_cons. split; [|done]. intros Hin.
        apply elem_of_list_fmap in Hin as (w' & He & Hw').
        rewrite Forall_forall in Hf. specialize (Hf w' Hw').
        by apply (can_write_write1_inv σ w w' Hw) in Hf as [].
      + constructor; [done|]. rewrite Forall_forall in *. intros w' Hw'.
        specialize (Hf w' Hw'). by apply (can_write_write1_inv σ w w' Hw) in Hf as [].
  Qed.
  Lemma writable_nil σ : writable σ [].
  Proof. split; constructor. Qed.
  Lemma writable_app σ ws1 ws2 :
    writable σ (ws1 ++ ws2) <-> writable σ ws1 /\ writable (write_all ws1 σ) ws2.
  Proof.
    revert σ. induction ws1 as [|w ws1 IH]; intros σ; cbn [app write_all].
    - split; [|by intros []]. intros. split; [apply writable_nil|done].
    - rewrite !writable_cons, IH. tauto.
  Qed.
  Lemma write_all_app σ ws1 ws2 : write_all (ws1 ++ ws2) σ = write_all ws2 (write_all ws1 σ).
  Proof. revert σ. induction ws1; intros; cbn; auto. Qed.
  Lemma write_all_ext σ ws : writable σ ws -> ext σ (write_all ws σ).
  Proof.
    revert σ. induction ws as [|w ws IH]; intros σ Hw; cbn; [apply ext_refl|].
    apply writable_cons in Hw as [Hw Hws]. eapply ext_trans; [by apply write1_ext|]. by apply IH.
  Qed.

  Lemma write_all_notin σ ws s : s ∉ map fst ws -> write_all ws σ !! s = σ !! s.
  Proof.
    revert σ. induction ws as [|w ws IH]; intros σ Hn; cbn [write_all map] in *; [done|].
    apply not_elem_of_cons in Hn as [Hn1 Hn2]. rewrite IH by done. unfold write1.
    destruct (σ !! fst w); [|done]. by rewrite lookup_insert_ne.
  Qed.
  Lemma write_all_in σ ws s v c :
    NoDup (map fst ws) -> (s, v) ∈ ws -> σ !! s = Some c ->
    write_all ws σ !! s = Some (Cell (c_kind c) (c_deriv c) true (Some v)).
  Proof.
    revert σ. induction ws as [|w ws IH]; intros σ Hn Hin Hc; cbn [write_all map] in *; [by inversion Hin|].
    apply NoDup_cons in Hn as [Hni Hn].
    apply elem_of_cons in Hin as [<-|Hin].
    - cbn in *. rewrite write_all_notin by done. unfold write1; cbn. rewrite Hc. by rewrite lookup_insert.
    - apply IH; [done|done|]. unfold write1.
      assert (fst w ≠ s). { intros <-. apply Hni. apply elem_of_list_fmap. by exists (fst w, v). }
      destruct (σ !! fst w); [|done]. by rewrite lookup_insert_ne.
  Qed.
  Lemma write_all_perm σ ws ws' :
    NoDup (map fst ws) -> ws ≡ₚ ws' -> write_all ws σ = write_all ws' σ.
  Proof.
    intros Hn Hp. assert (NoDup (map fst ws')) as Hn'.
    { by rewrite <- (fmap_Permutation fst _ _ Hp). }
    apply map_eq. intros s. destruct (decide (s ∈ map fst ws)) as [Hin|Hni].
    - apply elem_of_list_fmap in Hin as ([s' v] & -> & Hin). cbn.
      destruct (σ !! s') as [c|] eqn:Hc.
      + rewrite (write_all_in σ ws s' v c) by done.
        rewrite (write_all_in σ ws' s' v c); [done|done|by rewrite <- Hp|done].
      + assert (forall us, write_all us σ !! s' = None) as Hnone.
        { intros us. revert Hc. clear. revert σ. induction us as [|u us IH]; intros σ Hc; cbn; [done|].
          apply IH. unfold write1. destruct (σ !! fst u) eqn:E; [|done].
          rewrite lookup_insert_ne; [done|]. intros He. congruence. }
        by rewrite !Hnone.
    - rewrite (write_all_notin σ ws) by done. rewrite write_all_notin; [done|].
      intros Hin. apply Hni. apply elem_of_list_fmap in Hin as (x & -> & Hx).
      apply elem_of_list_fmap_1. by rewrite Hp.
  Qed.

  Lemma write1_ok σ w : store_ok σ -> can_write σ w -> store_ok (write1 w σ).
  Proof.
    intros Hok (c & Hc & Ha & Hk & Hs). unfold write1. rewrite Hc.
    apply map_Forall_insert_2; [|done]. split; cbn; [by eauto|]. intros v [= <-]. done.
  Qed.
  Lemma write_all_ok σ ws : store_ok σ -> writable σ ws -> store_ok (write_all ws σ).
  Proof.
    revert σ. induction ws as [|w ws IH]; intros σ Hok Hw; cbn; [done|].
    apply writable_cons in Hw as [Hw Hws]. apply IH; [by apply write1_ok|done].
  Qed.

  (** What the two operations do in a debug build. *)
  Lemma get_value_dbg σ s v σ' :
    get_value true s σ = Ok v σ' -> σ' = σ /\ value σ s = Some v.
  Proof.
    unfold get_value, value. destruct (σ !! s) as [c|]; [|done]. cbn.
    destruct (payload_size_ok c); cbn; [|done]. destruct (c_asg c); cbn; [|done].
    destruct (c_val c); intros; by simplify_eq.
  Qed.
  Lemma set_value_dbg σ s v u σ' :
    set_value true s v σ = Ok u σ' -> can_write σ (s, v) /\ σ' = write1 (s, v) σ.
  Proof.
    unfold set_value, can_write, write1. cbn. destruct (σ !! s) as [c|] eqn:Hc; [|done]. cbn.
    destruct (kind_fits (c_kind c) v) eqn:Hk; cbn; [|done].
    destruct (payload_size_ok c); cbn; [|done]. destruct (c_asg c) eqn:Ha; cbn; [done|].
    destruct (size_fits (c_kind c) v) eqn:Hs; cbn; [|done]. intros; simplify_eq. eauto 6.
  Qed.
  Lemma get_value_avail σ s v :
    store_ok σ -> value σ s = Some v -> get_value true s σ = Ok v σ.
  Proof.
    intros Hok. unfold get_value, value. destruct (σ !! s) as [c|] eqn:Hc; [|done].
    rewrite (payload_ok c) by (by eapply Hok). cbn. destruct (c_asg c); [|done]. by intros ->.
  Qed.
  Lemma set_value_avail σ s v :
    store_ok σ -> can_write σ (s, v) -> set_value true s v σ = Ok tt (write1 (s, v) σ).
  Proof.
    intros Hok (c & Hc & Ha & Hk & Hs). unfold set_value, write1. cbn in *. rewrite Hc, Hk, Hs, Ha.
    rewrite (payload_ok c) by (by eapply Hok). done.
  Qed.

  (** A normal debug run is its writes, and re-evaluating against any extension of
      its final store gives the same. *)
  Lemma run_prog_dbg {A} (p : prog D A) σ a σ' :
    run_prog true p σ = Ok a σ' ->
    exists ws, σ' = write_all ws σ /\ writable σ ws /\
      forall τ, ext σ' τ -> ceval (value τ) p = Some (a, ws).
  Proof.
    revert σ. induction p as [a0|s k IH|s v p IH|c e p IH|e|u]; intros σ Hr; cbn in Hr.
    - unfold ret in Hr. simplify_eq. exists []. split; [done|]. split; [apply writable_nil|]. done.
    - unfold bnd in Hr. destruct (get_value true s σ) as [v σ1| | |] eqn:E; try done.
      apply get_value_dbg in E as [-> Hv]. destruct (IH v σ Hr) as (ws & Hσ & Hw & Hc).
      exists ws. split; [done|]. split; [done|]. intros τ Hτ. cbn.
      rewrite (ext_value σ τ s v); [by apply Hc| |done].
      subst σ'. eapply ext_trans; [by apply write_all_ext|done].
    - unfold bnd in Hr. destruct (set_value true s v σ) as [u σ1| | |] eqn:E; try done.
      apply set_value_dbg in E as [Hw1 ->]. destruct (IH _ Hr) as (ws & Hσ & Hw & Hc).
      exists ((s, v) :: ws). cbn. split; [done|]. split; [by apply writable_cons|].
      intros τ Hτ. by rewrite (Hc τ Hτ).
    - unfold bnd, debug_verify, verify in Hr. destruct c; [|done]. cbn in Hr.
      destruct (IH _ Hr) as (ws & ? & ? & ?). eauto.
    - done.
    - done.
  Qed.

  (** Conversely a program that evaluates against [τ] runs from any earlier store
      where its reads are available and its writes are free. *)
  Lemma write1_dom σ w : dom (write1 w σ) = dom σ.
  Proof.
    unfold write1. destruct (σ !! fst w) as [c|] eqn:E; [|done]. rewrite dom_insert_L.
    assert (fst w ∈ dom σ) by (apply elem_of_dom; eauto). set_solver.
  Qed.
  Lemma write_all_dom σ ws : dom (write_all ws σ) = dom σ.
  Proof. revert σ. induction ws as [|w ws IH]; intros σ; cbn; [done|]. by rewrite IH, write1_dom. Qed.

  Lemma run_prog_avail {A} (R : nat -> Prop) (p : prog D A) σ τ a ws :
    store_ok σ -> reads_in R p -> dom τ = dom σ -> (forall s, s ∈ dom σ -> R s -> assigned σ s = true) ->
    ext (write_all ws σ) τ -> writable σ ws ->
    ceval (value τ) p = Some (a, ws) ->
    run_prog true p σ = Ok a (write_all ws σ).
  Proof.
    revert R σ ws. induction p as [a0|s k IH|s v p IH|c e p IH|e|u];
      intros R σ ws Hok Hr Hdom HR Hτ Hw Hc; cbn in *.
    - by simplify_eq.
    - destruct Hr as [Hs Hk]. destruct (value τ s) as [v|] eqn:Hv; [|done].
      assert (value σ s = Some v) as Hv'.
      { assert (s ∈ dom σ) as Hd.
        { rewrite <- Hdom. apply elem_of_dom. unfold value in Hv. destruct (τ !! s); [eauto|done]. }
        specialize (HR s Hd Hs). unfold assigned in HR.
        destruct (σ !! s) as [c|] eqn:Ec; [|done].
        assert (ext σ τ) as Hστ by (eapply ext_trans; [by apply write_all_ext|done]).
        destruct (Hστ s c Ec) as (c' & Ec' & _ & _ & Heq). rewrite Heq in Ec' by done.
        unfold value in *. rewrite Ec' in Hv. by rewrite Ec. }
      unfold bnd. rewrite (get_value_avail σ s v) by done. by eapply IH.
    - destruct (ceval (value τ) p) as [[a' ws']|] eqn:E; [|done]. simplify_eq.
      apply writable_cons in Hw as [Hw1 Hw]. cbn in *. unfold bnd.
      rewrite (set_value_avail σ s v) by done.
      apply (IH (fun x => R x \/ x = s)); [by apply write1_ok|done|by rewrite write1_dom| |done|done|done].
      rewrite write1_dom. intros x Hxd [Hx| ->].
      + eapply ext_assigned; [by apply write1_ext|auto].
      + destruct Hw1 as (c & Hcs & _). unfold assigned, write1. cbn in *. rewrite Hcs.
        by rewrite lookup_insert.
    - destruct c; [|done]. unfold bnd, debug_verify, verify. by eapply IH.
    - done.
    - done.
  Qed.
End prog.
