(** Names and value signals: C01, C03, C04, C06. *)
From stdpp Require Import prelude gmap strings.
From Coq Require Import ZArith QArith Ascii.
From Verif Require Import Num NumQ Res Name SpecName P_Name Store SpecStore P_Store Leaf World Api P_World
  P_Compile Ex_Models.

Local Open Scope nat_scope.

(** C01.  Sanitising, and every name and label in every reachable world. *)
Theorem C01_sanitised : forall s, sanitised s (valid_name s) /\ legal_name (valid_name s) /\
  valid_name (valid_name s) = valid_name s.
Proof. intros s. split; [apply emend_sanitised|]. split; [apply emend_legal|apply emend_idem]. Qed.
Example C01_ex : valid_name "a.b/c-1 x_Y" = "a_b_c_1_x_Y"%string /\ sanitised "a.b/c-1 x_Y" "a_b_c_1_x_Y"%string.
Proof. split; [vm_compute; reflexivity|]. exact (emend_sanitised "a.b/c-1 x_Y"). Qed.

Theorem C01_reachable : forall D `{NumOps D} dbg (w : world D), wreach dbg w ->
  (forall s o, w_sigs w !! s = Some o -> legal_name (so_name o) /\ forall e, e ∈ so_mem o -> legal_name (fst e)) /\
  (forall b o, w_blks w !! b = Some o -> legal_name (bo_name o)).
Proof. intros D ? dbg w Hw. exact (ok_names _ (reach_ok dbg w Hw)). Qed.
Example C01_reach_ex : wreach true ex1_world /\ length (w_sigs ex1_world) = 8 /\ length (w_blks ex1_world) = 5.
Proof. split; [exact ex1_reach|]. by vm_compute. Qed.
Print Assumptions C01_sanitised.
Print Assumptions C01_reachable.

(** The signals of a world, seen by a client: their types and which exist. *)
Definition world_kinds {D} (w : world D) (s : nat) : kind :=
  match w_sigs w !! s with Some o => so_kind o | None => KBus end.
Definition value_signal {D} (w : world D) (s : nat) : Prop :=
  exists o, w_sigs w !! s = Some o /\ so_kind o ≠ KBus.

(** C03.  The value signals of any reachable world, in a debug build, behave as
    write-once registers under every sequence of operations by a client. *)
Lemma initial_view {D} (w : world D) s : view (initial_store w) s = None.
Proof.
  unfold view, value. rewrite initial_lookup. destruct (w_sigs w !! s) as [o|]; [|done].
  by destruct (is_bus (so_kind o)).
Qed.
Lemma initial_kinds {D} (w : world D) s : kinds_of (initial_store w) s = world_kinds w s.
Proof.
  unfold kinds_of, world_kinds. rewrite initial_lookup. destruct (w_sigs w !! s) as [o|]; [|done].
  by destruct (so_kind o).
Qed.
Lemma initial_some {D} (w : world D) s : value_signal w s <-> is_Some (initial_store w !! s).
Proof.
  rewrite initial_lookup. unfold value_signal. destruct (w_sigs w !! s) as [o|].
  - destruct (is_bus (so_kind o)) eqn:E; split.
    + intros (o' & [= <-] & Hk). by destruct (so_kind o).
    + by intros [? ?].
    + eauto.
    + intros _. exists o. split; [done|]. intros Hk. by rewrite Hk in E.
  - split; [intros (? & ? & _); done|by intros [? ?]].
Qed.
Theorem C03_write_once : forall D `{NumOps D} dbg (w : world D) (os : list (sop D)),
  wreach dbg w -> Forall (well_typed (world_kinds w) (value_signal w)) os ->
  exists σ', exec_ops true os (initial_store w) = Some (σ', snd (spec_ops (world_kinds w) (fun _ => None) os)) /\
    forall s, value σ' s = fst (spec_ops (world_kinds w) (fun _ => None) os) s.
Proof.
  intros D ? dbg w os _ Hwt.
  destruct (exec_ops_refines os (initial_store w) (initial_ok w)) as (σ' & He & Hv & _).
  { eapply Forall_impl; [exact Hwt|]. intros o Ho. destruct o as [s v|s|s]; cbn in *.
    - destruct Ho as [Hs Hv]. split; [by apply initial_some|]. by rewrite initial_kinds.
    - by apply initial_some.
    - by apply initial_some. }
  exists σ'.
  rewrite (spec_ops_kinds _ (world_kinds w)) in He by apply initial_kinds.
  rewrite (spec_ops_kinds _ (world_kinds w)) in Hv by apply initial_kinds.
  destruct (spec_ops_ext (world_kinds w) (view (initial_store w)) (fun _ => None) os (initial_view w)) as [E1 E2].
  rewrite E1 in He. split; [done|]. intros s. rewrite <- E2, <- Hv. done.
Qed.
Example C03_ex :
  Forall (well_typed (world_kinds ex1_world) (value_signal ex1_world)) [Read 0; Assign 0 (VS 1%Q); Assign 0 (VS 2%Q); Read 0; Clear 0; Read 0] /\
  snd (spec_ops (D:=Q) (world_kinds ex1_world) (fun _ => None) [Read 0; Assign 0 (VS 1%Q); Assign 0 (VS 2%Q); Read 0; Clear 0; Read 0])
  = [Threw; Done; Threw; Got (VS 1%Q); Done; Threw].
Proof.
  split; [|by vm_compute].
  assert (value_signal ex1_world 0) as H0 by (eexists; split; [vm_compute; reflexivity|discriminate]).
  assert (world_kinds ex1_world 0 = KScalar) as K0 by (by vm_compute).
  repeat (apply Forall_cons; split; [first [exact H0|split; [exact H0|rewrite K0; exact I]]|]). apply Forall_nil. exact I.
Qed.
Print Assumptions C03_write_once.

(** C04.  Whatever sequence of operations is performed on other signals, in either
    build, a signal's cell (flag and value) stays. *)
Theorem C04_frame : forall D dbg (os : list (sop D)) (σ σ' : store D) bs s,
  exec_ops dbg os σ = Some (σ', bs) -> Forall (fun o => op_sig o ≠ s) os -> σ' !! s = σ !! s.
Proof. intros D. exact exec_ops_frame. Qed.
Example C04_ex :
  match exec_ops (D:=Q) false [Assign 0 (VS 1%Q); Assign 2 (VS 2%Q); Clear 0; Read 2] (initial_store ex1_world) with
  | Some (σ', _) => value σ' 2 = Some (VS 2%Q) /\ σ' !! 1 = initial_store ex1_world !! 1
  | None => False
  end.
Proof. by vm_compute. Qed.
Print Assumptions C04_frame.

(** C06.  In a debug build, after any sequence of operations by a client, an assigned
    array signal holds as many elements as declared; an assignment of another size
    throws and changes nothing. *)
Theorem C06_array_size : forall D `{NumOps D} dbg (w : world D) (os : list (sop D)) σ' bs s o n l,
  wreach dbg w -> w_sigs w !! s = Some o -> so_kind o = KArray n ->
  exec_ops true os (initial_store w) = Some (σ', bs) ->
  (value σ' s = Some (VA l) -> length l = n) /\
  (length l ≠ n -> exists e, set_value true s (VA l) σ' = Exn e σ').
Proof.
  intros D ? dbg w os σ' bs s o n l _ Ho Hk He.
  assert (store_ok σ') as Hok.
  { revert He. generalize (initial_ok w). generalize (initial_store w). revert bs. induction os as [|op os IH]; cbn; intros bs σ Hσ He; [by simplify_eq|].
    destruct (exec_op true op σ) as [[σ1 b]|] eqn:E1; [|done].
    destruct (exec_ops true os σ1) as [[σ2 bs2]|] eqn:E2; [|done]. simplify_eq.
    eapply IH; [|exact E2]. by eapply exec_op_ok. }
  assert (exists c, σ' !! s = Some c /\ c_kind c = KArray n) as (c & Hc & Hkc).
  { assert (c_kind <$> initial_store w !! s = Some (KArray n)) as H0.
    { rewrite initial_lookup, Ho, Hk. done. }
    revert H0 He. generalize (initial_store w). revert bs. induction os as [|op os IH]; cbn; intros bs σ Hσ He.
    - simplify_eq. destruct (σ' !! s) as [c|]; cbn in Hσ; [|done]. injection Hσ as Hσ. eauto.
    - destruct (exec_op true op σ) as [[σ1 b]|] eqn:E1; [|done].
      destruct (exec_ops true os σ1) as [[σ2 bs2]|] eqn:E2; [|done]. simplify_eq.
      eapply IH; [|exact E2]. rewrite <- Hσ. by eapply exec_op_kind. }
  destruct (Hok _ _ Hc) as [Ha Hv]. split.
  - unfold value. rewrite Hc. destruct (c_asg c); [|done]. intros Hl. destruct (Hv _ Hl) as [_ Hs].
    rewrite Hkc in Hs. cbn in Hs. by apply Nat.eqb_eq in Hs.
  - intros Hl. unfold set_value. rewrite Hc, Hkc. cbn. destruct (payload_size_ok c); cbn; [|eauto].
    destruct (c_asg c); [eauto|]. apply Nat.eqb_neq in Hl. rewrite Hl. cbn. eauto.
Qed.
Example C06_ex :
  let w := world_of (D:=Q) true [ONewSig (KArray 2) "a"] in
  wreach true w /\ w_sigs w !! 0 = Some (SigObj "a" (KArray 2) None []) /\
  match exec_ops (D:=Q) true [Assign 0 (VA [1%Q]); Assign 0 (VA [1%Q; 2%Q]); Read 0] (initial_store w) with
  | Some (σ', bs) => bs = [Threw; Done; Got (VA [1%Q; 2%Q])] /\ value σ' 0 = Some (VA [1%Q; 2%Q])
  | None => False
  end.
Proof.
  split; [|by vm_compute].
  eapply (exec_all_reach true [ONewSig (KArray 2) "a"]); [constructor|by repeat constructor|vm_compute; reflexivity].
Qed.
Print Assumptions C06_array_size.
