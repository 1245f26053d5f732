From stdpp Require Import prelude gmap.
From Coq Require Import ZArith.
From Verif Require Import Num Res Store SpecStore.

(** Executing client operations on the model; an exception is caught by the
    client, undefined behaviour ends everything ([None]). *)
Definition exec_op {D} (dbg : bool) (o : sop D) (σ : store D) : option (store D * obs D) :=
  match o with
  | Assign s v => match set_value dbg s v σ with
                  | Ok _ σ' => Some (σ', Done) | Exn _ σ' => Some (σ', Threw) | _ => None end
  | Clear s => match clear_sig s σ with
               | Ok _ σ' => Some (σ', Done) | Exn _ σ' => Some (σ', Threw) | _ => None end
  | Read s => match get_value dbg s σ with
              | Ok v σ' => Some (σ', Got v) | Exn _ σ' => Some (σ', Threw) | _ => None end
  end.
Fixpoint exec_ops {D} (dbg : bool) (os : list (sop D)) (σ : store D) : option (store D * list (obs D)) :=
  match os with
  | [] => Some (σ, [])
  | o :: os' => match exec_op dbg o σ with
                | Some (σ1, b) => match exec_ops dbg os' σ1 with
                                  | Some (σ2, bs) => Some (σ2, b :: bs)
                                  | None => None
                                  end
                | None => None
                end
  end.

(** Invariant of cells in a debug build: an assigned cell holds a value, and any
    value held has the declared type and size. *)
Definition cell_ok {D} (c : cell D) : Prop :=
  (c_asg c = true -> is_Some (c_val c)) /\
  (forall v, c_val c = Some v -> kind_fits (c_kind c) v = true /\ size_fits (c_kind c) v = true).
Definition store_ok {D} (σ : store D) : Prop := map_Forall (fun _ c => cell_ok c) σ.

Definition op_sig {D} (o : sop D) : nat :=
  match o with Assign s _ | Clear s | Read s => s end.

Section store.
  Context {D : Type}.
  Implicit Types σ : store D.

  Lemma payload_ok c : cell_ok (D:=D) c -> payload_size_ok c = true.
  Proof. intros [_ Hv]. unfold payload_size_ok. destruct (c_val c); [by apply Hv|done]. Qed.

  (** Frame: an operation changes at most its own signal, in both builds. *)
  Lemma exec_op_frame dbg o σ σ' b s :
    exec_op dbg o σ = Some (σ', b) -> s ≠ op_sig o -> σ' !! s = σ !! s.
  Proof.
    intros He Hs. destruct o as [x v|x|x]; cbn in *;
      unfold set_value, clear_sig, get_value in He; repeat case_match; simplify_eq; try done;
      by rewrite lookup_insert_ne.
  Qed.

  Lemma exec_ops_frame dbg os σ σ' bs s :
    exec_ops dbg os σ = Some (σ', bs) -> Forall (fun o => op_sig o ≠ s) os -> σ' !! s = σ !! s.
  Proof.
    revert σ bs. induction os as [|o os IH]; intros σ bs He Hf; cbn in He; simplify_eq; [done|].
    inversion Hf; subst.
    destruct (exec_op dbg o σ) as [[σ1 b]|] eqn:E1; [|done].
    destruct (exec_ops dbg os σ1) as [[σ2 bs2]|] eqn:E2; [|done]. simplify_eq.
    rewrite (IH _ _ E2) by done. eapply exec_op_frame; [done|]. done.
  Qed.

  (** Kinds never change and signals never disappear. *)
  Lemma exec_op_kind dbg o σ σ' b s :
    exec_op dbg o σ = Some (σ', b) -> c_kind <$> σ' !! s = c_kind <$> σ !! s.
  Proof.
    intros He. destruct (decide (s = op_sig o)) as [->|Hs].
    - destruct o as [x v|x|x]; cbn in *;
        unfold set_value, clear_sig, get_value in He; repeat case_match; simplify_eq; try done;
        by simplify_map_eq.
    - by rewrite (exec_op_frame dbg o σ σ' b s He Hs).
  Qed.

  Lemma exec_op_ok o σ σ' b :
    store_ok σ -> exec_op true o σ = Some (σ', b) -> store_ok σ'.
  Proof.
    intros Hok He. destruct o as [x v|x|x]; cbn in He;
      unfold set_value, clear_sig, get_value in He; repeat case_match; simplify_eq; try done.
    - apply map_Forall_insert_2; [|done]. split; cbn; [by eauto|]. intros v' [= <-].
      match goal with H : negb (kind_fits _ _) = false |- _ => apply negb_false_iff in H end.
      split; [done|]. by destruct (size_fits _ _).
    - apply map_Forall_insert_2; [|done].
      match goal with H : σ !! x = Some _ |- _ => destruct (Hok x _ H) as [H1 H2] end.
      split; cbn; [done|]. done.
  Qed.

  (** The observer's view of a store. *)
  Definition view σ : regs D := fun s => value σ s.
  Definition kinds_of σ : nat -> kind :=
    fun s => match σ !! s with Some c => c_kind c | None => KBus end.

  Lemma exec_op_refines o σ :
    store_ok σ -> well_typed (kinds_of σ) (fun s => is_Some (σ !! s)) o ->
    exists σ', exec_op true o σ = Some (σ', snd (spec_op (kinds_of σ) (view σ) o)) /\
      (forall s, view σ' s = fst (spec_op (kinds_of σ) (view σ) o) s).
  Proof.
    intros Hok Hwt. destruct o as [x v|x|x]; cbn in *.
    - destruct Hwt as [[c Hc] Hk]. unfold set_value, view, value, kinds_of in *. rewrite Hc in *.
      pose proof (Hok _ _ Hc) as Hcell. rewrite (payload_ok _ Hcell). cbn.
      assert (kind_fits (c_kind c) v = true) as ->.
      { destruct (c_kind c), v; done. }
      cbn. destruct (c_asg c) eqn:Ha.
      + destruct Hcell as [Hs _]. destruct (Hs Ha) as [v0 Hv0]. rewrite Hv0. cbn. eauto.
      + replace (size_fits (c_kind c) v) with (right_size (c_kind c) v) by done.
        destruct (right_size (c_kind c) v); cbn; eexists; (split; [done|]); [|done].
        intros s. unfold reg_set. destruct (Nat.eqb_spec s x) as [->|Hne].
        * by rewrite lookup_insert.
        * by rewrite lookup_insert_ne.
    - destruct Hwt as [c Hc]. unfold clear_sig, view, value in *. rewrite Hc.
      eexists; split; [done|]. intros s. unfold reg_set.
      destruct (Nat.eqb_spec s x) as [->|Hne].
      + by rewrite lookup_insert.
      + by rewrite lookup_insert_ne.
    - destruct Hwt as [c Hc]. unfold get_value, view, value, kinds_of in *. rewrite Hc.
      pose proof (Hok _ _ Hc) as Hcell. rewrite (payload_ok _ Hcell). cbn.
      destruct (c_asg c) eqn:Ha; cbn.
      + destruct Hcell as [Hs _]. destruct (Hs Ha) as [v0 Hv0]. rewrite Hv0. cbn. eauto.
      + eauto.
  Qed.

  Lemma spec_op_ext kinds (r r' : regs D) o :
    (forall s, r s = r' s) ->
    snd (spec_op kinds r o) = snd (spec_op kinds r' o) /\
    (forall s, fst (spec_op kinds r o) s = fst (spec_op kinds r' o) s).
  Proof.
    intros Hr. destruct o; cbn; rewrite ?Hr; repeat case_match; cbn; split; try done;
      intros x; unfold reg_set; case_match; done.
  Qed.

  Lemma spec_ops_ext kinds (r r' : regs D) os :
    (forall s, r s = r' s) ->
    snd (spec_ops kinds r os) = snd (spec_ops kinds r' os) /\
    (forall s, fst (spec_ops kinds r os) s = fst (spec_ops kinds r' os) s).
  Proof.
    revert r r'. induction os as [|o os IH]; intros r r' Hr; cbn; [done|].
    destruct (spec_op_ext kinds r r' o Hr) as [E1 E2].
    destruct (spec_op kinds r o) as [r1 b1], (spec_op kinds r' o) as [r1' b1']. cbn in *.
    destruct (IH r1 r1' E2) as [F1 F2].
    destruct (spec_ops kinds r1 os), (spec_ops kinds r1' os). cbn in *. by subst.
  Qed.

  Lemma exec_op_dom dbg o σ σ' b s :
    exec_op dbg o σ = Some (σ', b) -> is_Some (σ !! s) -> is_Some (σ' !! s).
  Proof.
    intros He [c Hc]. pose proof (exec_op_kind _ _ _ _ _ s He) as Hk. rewrite Hc in Hk.
    destruct (σ' !! s); [eauto|done].
  Qed.

  Lemma exec_op_kinds_of dbg o σ σ' b s :
    exec_op dbg o σ = Some (σ', b) -> kinds_of σ' s = kinds_of σ s.
  Proof.
    intros He. pose proof (exec_op_kind _ _ _ _ _ s He) as Hk. unfold kinds_of.
    destruct (σ' !! s), (σ !! s); cbn in Hk; congruence.
  Qed.

  Lemma spec_op_kinds kinds kinds' (r : regs D) o :
    (forall s, kinds s = kinds' s) -> spec_op kinds r o = spec_op kinds' r o.
  Proof. intros Hk. destruct o; cbn; rewrite ?Hk; done. Qed.
  Lemma spec_ops_kinds kinds kinds' (r : regs D) os :
    (forall s, kinds s = kinds' s) -> spec_ops kinds r os = spec_ops kinds' r os.
  Proof.
    intros Hk. revert r. induction os as [|o os IH]; intros r; cbn; [done|].
    rewrite (spec_op_kinds kinds kinds' r o Hk). destruct (spec_op kinds' r o). by rewrite IH.
  Qed.

  Lemma exec_ops_refines os σ :
    store_ok σ -> Forall (well_typed (kinds_of σ) (fun s => is_Some (σ !! s))) os ->
    exists σ', exec_ops true os σ = Some (σ', snd (spec_ops (kinds_of σ) (view σ) os)) /\
      (forall s, view σ' s = fst (spec_ops (kinds_of σ) (view σ) os) s) /\ store_ok σ'.
  Proof.
    revert σ. induction os as [|o os IH]; intros σ Hok Hwt; cbn; [by eauto|].
    inversion Hwt as [|? ? Hw1 Hw2]; subst.
    destruct (exec_op_refines o σ Hok Hw1) as (σ1 & He1 & Hv1).
    pose proof (exec_op_ok _ _ _ _ Hok He1) as Hok1.
    destruct (IH σ1 Hok1) as (σ2 & He2 & Hv2 & Hok2).
    { eapply Forall_impl; [exact Hw2|]. intros o' Ho'. destruct o'; cbn in *.
      - rewrite (exec_op_kinds_of _ _ _ _ _ s He1). destruct Ho'. split; [|done].
        eapply exec_op_dom; eauto.
      - eapply exec_op_dom; eauto.
      - eapply exec_op_dom; eauto. }
    rewrite He1. destruct (spec_op (kinds_of σ) (view σ) o) as [r1 b1] eqn:E1. cbn in *.
    rewrite He2.
    rewrite (spec_ops_kinds (kinds_of σ1) (kinds_of σ)) in *
      by (intros s; apply (exec_op_kinds_of _ _ _ _ _ s He1)).
    destruct (spec_ops_ext (kinds_of σ) (view σ1) r1 os Hv1) as [F1 F2].
    destruct (spec_ops (kinds_of σ) (view σ1) os), (spec_ops (kinds_of σ) r1 os). cbn in *.
    subst. eexists; split; [done|]. split; [|done]. intros s. by rewrite Hv2, F2.
  Qed.
End store.
