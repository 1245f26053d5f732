(** Full names, typed handles and buses: C02, C05, C07 - C10. *)
From stdpp Require Import prelude gmap strings pretty.
From Coq Require Import ZArith QArith Ascii.
From Verif Require Import Num NumQ Res Name SpecName P_Name Util Store Leaf World Api P_Prog Steps P_Steps P_Ops P_World
  P_Compile Ex_Models.

Local Open Scope nat_scope.

(** C02.  [path w b ns]: [ns] are the names met on the way from the root of the
    hierarchy down to block [b]. *)
Inductive path {D} (w : world D) : nat -> list string -> Prop :=
| path_root b o : w_blks w !! b = Some o -> bo_parent o = None -> path w b [bo_name o]
| path_child b o p ns : w_blks w !! b = Some o -> bo_parent o = Some p -> path w p ns ->
    path w b (ns ++ [bo_name o]).

(** "/a/b/c" for [a; b; c] *)
Fixpoint slashed (ns : list string) : string :=
  match ns with [] => "" | n :: ns' => "/" +:+ n +:+ slashed ns' end.

Lemma slashed_full ns : slashed ns = full ns.
Proof. induction ns as [|n ns IH]; cbn; [done|]. by rewrite IH. Qed.

Lemma path_legal {D} (w : world D) b ns : names_ok w -> path w b ns -> Forall legal_name ns.
Proof.
  intros [_ Hn]. induction 1 as [b o Ho _|b o p ns Ho _ _ IH].
  - apply Forall_singleton. by eapply Hn.
  - apply Forall_app. split; [done|]. apply Forall_singleton. by eapply Hn.
Qed.

Lemma full_snoc ns n : name_slash (full ns) n = full (ns ++ [n]).
Proof.
  rewrite full_app. cbn [full]. unfold name_slash, append_valid.
  by rewrite append_nil_r, ?append_assoc.
Qed.

Theorem C02_full_name : forall D (w : world D) b s,
  (exists fuel, full_name fuel w b = Some s) <-> (exists ns, path w b ns /\ s = slashed ns).
Proof.
  intros D w b s. split.
  - intros [fuel Hf]. revert b s Hf. induction fuel as [|fuel IH]; intros b s Hf; cbn in Hf; [done|].
    destruct (w_blks w !! b) as [o|] eqn:Ho; [|done].
    destruct (bo_parent o) as [p|] eqn:Hp.
    + destruct (full_name fuel w p) as [fp|] eqn:Hfp; [|done]. injection Hf as <-.
      destruct (IH _ _ Hfp) as (ns & Hpath & ->). exists (ns ++ [bo_name o]).
      split; [by eapply path_child|]. rewrite !slashed_full. apply full_snoc.
    + injection Hf as <-. exists [bo_name o]. split; [by apply path_root|].
      rewrite slashed_full. apply (full_snoc []).
  - intros (ns & Hpath & ->). induction Hpath as [b o Ho Hp|b o p ns Ho Hp Hpath [fuel IH]].
    + exists 1. cbn [full_name]. rewrite Ho, Hp. rewrite slashed_full. f_equal. apply (full_snoc []).
    + exists (S fuel). cbn [full_name]. rewrite Ho, Hp, IH. rewrite !slashed_full. f_equal. apply full_snoc.
Qed.

Theorem C02_decodes : forall D `{NumOps D} dbg (w : world D) b1 b2 f1 f2 s,
  wreach dbg w -> full_name f1 w b1 = Some s -> full_name f2 w b2 = Some s ->
  exists ns, path w b1 ns /\ path w b2 ns /\ s = slashed ns.
Proof.
  intros D ? dbg w b1 b2 f1 f2 s Hw H1 H2. pose proof (ok_names _ (reach_ok dbg w Hw)) as Hn.
  destruct (proj1 (C02_full_name D w b1 s)) as (ns1 & P1 & E1); [by eexists|].
  destruct (proj1 (C02_full_name D w b2 s)) as (ns2 & P2 & E2); [by eexists|].
  assert (ns1 = ns2) as ->.
  { apply full_inj; [by eapply path_legal|by eapply path_legal|]. rewrite slashed_full in E1, E2. congruence. }
  by exists ns2.
Qed.
Lemma path_fun {D} (w : world D) b ns1 ns2 : path w b ns1 -> path w b ns2 -> ns1 = ns2.
Proof.
  intros H1. revert ns2. induction H1 as [b o Ho Hp|b o p ns Ho Hp H1 IH]; intros ns2 H2.
  - inversion H2; simplify_eq. done.
  - inversion H2; simplify_eq. f_equal. auto.
Qed.

(** A model /main with a submodel /main/a_b holding a block, and a block with the
    name that a careless concatenation would confuse with it. *)
Definition names_ops : list (wop Q) :=
  [ ONewBlock CSubmodel LNone None "main" NoIOLimit NoIOLimit;
    ONewBlock CSubmodel LNone (Some 0) "a/b" NoIOLimit NoIOLimit;
    ONewBlock (CGain TyD (VS 2%Q)) LNone (Some 1) "c" 1 1;
    ONewBlock (CGain TyD (VS 2%Q)) LNone (Some 0) "a/b/c" 1 1 ].
Definition names_world : world Q := world_of true names_ops.
Lemma names_reach : wreach true names_world.
Proof. reach_ops names_world names_ops. Qed.
Example C02_ex :
  wreach true names_world /\
  full_name 5 names_world 2 = Some "/main/a_b/c"%string /\ full_name 5 names_world 3 = Some "/main/a_b_c"%string.
Proof. split; [exact names_reach|]. by vm_compute. Qed.
Print Assumptions C02_full_name.
Print Assumptions C02_decodes.

(** C05.  [of_type T k]: a signal object of kind [k] is a ScalarSignalImpl,
    IntSignalImpl, BoolSignalImpl, ArraySignalImpl. *)
Inductive of_type : ty -> kind -> Prop :=
| of_scalar : of_type TyD KScalar
| of_int : of_type TyI KInt
| of_bool : of_type TyB KBool
| of_array n : of_type TyA (KArray n).
Lemma fits_of T k : ty_fits T k = true <-> of_type T k.
Proof. split; [|by intros []]. destruct T, k; cbn; try discriminate; constructor. Qed.

Theorem C05_handles : forall D (w : world D) s o T, w_sigs w !! s = Some o ->
  (of_type T (so_kind o) -> bind_handle T s w = Ok s w) /\
  (~ of_type T (so_kind o) -> bind_handle T s w = Exn EType w) /\
  (so_kind o = KBus -> bind_bus s w = Ok s w) /\
  (so_kind o ≠ KBus -> bind_bus s w = Exn EType w).
Proof.
  intros D w s o T Ho. unfold bind_handle, bind_bus, get_sig, bnd. rewrite Ho, <- fits_of.
  repeat split.
  - intros E. by rewrite E.
  - intros E. by destruct (ty_fits T (so_kind o)).
  - intros E. by rewrite E.
  - intros E. by destruct (so_kind o).
Qed.

(** ... so that every typed member that a connected block of the library holds
    refers to a signal of the declared type. *)
Definition member_types {D} (c : cls D) (h : handles) : list (ty * option nat) :=
  match c with
  | CConst T _ | CSource T _ | CSO T _ | CAdd T _ | CMul T _ | CInteg T => [(T, h_out h)]
  | CSISO T _ | CGain T _ | CPipe T | CMemory T => [(T, h_in h); (T, h_out h)]
  | CDeriv => [(TyD, h_in h); (TyD, h_out h)]
  | CSub | CDiv => [(TyD, h_x1 h); (TyD, h_x2 h); (TyD, h_out h)]
  | CDelay T _ => [(T, h_in h); (TyD, h_delay h); (T, h_initial h); (T, h_out h)]
  | CTrig T => [(T, h_out h); (TyB, h_trig h)]
  | CSources _ | CFunction _ | CUser _ _ _ | CSubmodel | CBusMem _ _ | CBusPipe _ => []
  end.
Theorem C05_members : forall D `{NumOps D} dbg (w : world D) b o T s, wreach dbg w ->
  w_blks w !! b = Some o -> (T, Some s) ∈ member_types (bo_cls o) (bo_h o) ->
  exists os, w_sigs w !! s = Some os /\ of_type T (so_kind os).
Proof.
  intros D ? dbg w b o T s Hw Ho Hin.
  pose proof (ok_wires _ (reach_ok dbg w Hw) _ _ Ho) as Hwi.
  assert (tsig w T s) as (os & Hos & Hk); [|exists os; by rewrite <- fits_of].
  pose proof (wi_in _ _ Hwi) as W1. pose proof (wi_out _ _ Hwi) as W2. pose proof (wi_x1 _ _ Hwi) as W3.
  pose proof (wi_x2 _ _ Hwi) as W4. pose proof (wi_delay _ _ Hwi) as W5. pose proof (wi_initial _ _ Hwi) as W6.
  pose proof (wi_trig _ _ Hwi) as W7. clear Hwi.
  destruct (bo_cls o); cbn in Hin; repeat (apply elem_of_cons in Hin as [[= -> E]|Hin]);
    try (by apply elem_of_nil in Hin); cbn [cls_ty] in *; symmetry in E;
    first [by eapply W1|by eapply W2|by eapply W3|by eapply W4|by eapply W5|by eapply W6|by eapply W7].
Qed.
Example C05_ex :
  bind_handle TyD 0 ex1_world = Ok 0 ex1_world /\ bind_handle TyI 0 ex1_world = Exn EType ex1_world /\
  bind_bus 3 ex1_world = Ok 3 ex1_world /\ bind_bus 0 ex1_world = Exn EType ex1_world /\
  match w_blks ex1_world !! 3 with
  | Some o => (TyD, Some 1) ∈ member_types (bo_cls o) (bo_h o)
  | None => False
  end.
Proof.
  split; [vm_compute; reflexivity|]. split; [vm_compute; reflexivity|]. split; [vm_compute; reflexivity|].
  split; [vm_compute; reflexivity|].
  vm_compute. right. left.
Qed.
Print Assumptions C05_handles.
Print Assumptions C05_members.

(** C07, C10.  What a bus constructor does.  The first non-empty label under which a
    signal is listed: *)
Fixpoint first_label (m : list (string * nat)) (s : nat) : string :=
  match m with
  | [] => ""
  | (lb, s') :: m' => if bool_decide (s' = s /\ lb ≠ "") then lb else first_label m' s
  end.
Definition named_as (m : list (string * nat)) (s : nat) (o : sigobj) : sigobj :=
  SigObj (if bool_decide (so_name o = "") then first_label m s else so_name o)
         (so_kind o) (so_deriv o) (so_mem o).

Lemma bus_entries_spec {D} (l : list (string * nat)) : forall w : world D,
  (forall e, e ∈ l -> is_Some (w_sigs w !! snd e)) ->
  exists m w', bus_entries l w = Ok m w' /\
    Forall2 (fun e e' => sanitised (fst e) (fst e') /\ snd e' = snd e) l m /\
    w_blks w' = w_blks w /\ length (w_sigs w') = length (w_sigs w) /\
    forall s o, w_sigs w !! s = Some o -> w_sigs w' !! s = Some (named_as m s o).
Proof.
  induction l as [|[lb s] l IH]; intros w Hl.
  - exists [], w. split_and!; [done|constructor|done|done|].
    intros s o Ho. rewrite Ho. f_equal. unfold named_as. destruct o as [n k d m]; cbn.
    destruct (bool_decide_reflect (n = "")) as [->|]; done.
  - destruct (Hl (lb, s)) as [o Ho]; [left|]. cbn in Ho.
    assert (exists w1, bus_entry lb s w = Ok (valid_name lb, s) w1 /\
      w_blks w1 = w_blks w /\ length (w_sigs w1) = length (w_sigs w) /\
      (forall s' o', w_sigs w !! s' = Some o' -> w_sigs w1 !! s' = Some
        (SigObj (if bool_decide (so_name o' = "" /\ s' = s) then valid_name lb else so_name o') (so_kind o') (so_deriv o') (so_mem o'))))
      as (w1 & E1 & B1 & L1 & S1).
    { unfold bus_entry, bnd, get_sig. rewrite Ho.
      destruct (String.eqb_spec (so_name o) "") as [En|En].
      - unfold rename_sig, bnd, get_sig, put_sig, modify. rewrite Ho. eexists. split; [done|]. cbn.
        split; [done|]. split; [by rewrite insert_length|].
        intros s' o' Ho'. destruct (decide (s' = s)) as [->|Hne].
        + rewrite list_lookup_insert by (by eapply lookup_lt_Some). simplify_eq.
          rewrite bool_decide_true by done. unfold valid_name. by rewrite emend_idem.
        + rewrite list_lookup_insert_ne by done. rewrite bool_decide_false by naive_solver.
          rewrite Ho'. by destruct o'.
      - eexists. split; [done|]. split; [done|]. split; [done|].
        intros s' o' Ho'. rewrite bool_decide_false; [rewrite Ho'; by destruct o'|].
        intros [? ->]. simplify_eq. }
    destruct (IH w1) as (m & w' & E2 & F2 & B2 & L2 & S2).
    { intros e He. rewrite <- not_eq_None_Some. intros Hn. apply lookup_ge_None in Hn. rewrite L1 in Hn.
      apply lookup_ge_None in Hn. destruct (Hl e) as [? ?]; [by right|]. congruence. }
    exists ((valid_name lb, s) :: m), w'. split_and!.
    + cbn. unfold bnd. rewrite E1. unfold bnd. rewrite E2. done.
    + constructor; [|done]. split; [apply emend_sanitised|done].
    + congruence.
    + congruence.
    + intros s' o' Ho'. rewrite (S2 _ _ (S1 _ _ Ho')). f_equal. unfold named_as; cbn [so_name so_kind so_deriv so_mem first_label].
      f_equal. destruct (bool_decide_reflect (so_name o' = "")) as [En|En].
      * rewrite En. destruct (decide (s' = s)) as [->|Hne].
        -- rewrite (bool_decide_true ("" = "" /\ s = s)) by done.
           destruct (bool_decide_reflect (valid_name lb = "")) as [Ev|Ev].
           ++ rewrite bool_decide_false by naive_solver. done.
           ++ rewrite bool_decide_true by done. done.
        -- rewrite (bool_decide_false ("" = "" /\ s' = s)) by naive_solver. rewrite bool_decide_true by done.
           rewrite bool_decide_false by naive_solver. done.
      * rewrite (bool_decide_false (so_name o' = "" /\ s' = s)) by naive_solver. by rewrite bool_decide_false by done.
Qed.

Lemma new_bus_spec {D} (l : list (string * nat)) name (w : world D) :
  (forall e, e ∈ l -> is_Some (w_sigs w !! snd e)) ->
  exists m w', new_bus_labelled l name w = Ok (length (w_sigs w)) w' /\
    Forall2 (fun e e' => sanitised (fst e) (fst e') /\ snd e' = snd e) l m /\
    w_blks w' = w_blks w /\ length (w_sigs w') = S (length (w_sigs w)) /\
    w_sigs w' !! length (w_sigs w) = Some (SigObj (valid_name name) KBus None m) /\
    forall s o, w_sigs w !! s = Some o -> w_sigs w' !! s = Some (named_as m s o).
Proof.
  intros Hl. destruct (bus_entries_spec l w Hl) as (m & w1 & E & F & B & L & S).
  exists m. eexists. unfold new_bus_labelled, bnd. rewrite E. unfold alloc_sig. rewrite L.
  split; [done|]. cbn. split_and!; [done|done| | |].
  - rewrite app_length. cbn. lia.
  - rewrite <- L. by rewrite list_lookup_middle.
  - intros s o Ho. rewrite lookup_app_l; [by apply S|]. rewrite L. by eapply lookup_lt_Some.
Qed.

Theorem C07_labelled : forall D (w : world D) l name,
  (forall e, e ∈ l -> is_Some (w_sigs w !! snd e)) ->
  exists id w' o, new_bus_labelled l name w = Ok id w' /\ w_sigs w !! id = None /\
    w_sigs w' !! id = Some o /\ so_kind o = KBus /\
    Forall2 (fun e e' => sanitised (fst e) (fst e') /\ snd e' = snd e) l (so_mem o).
Proof.
  intros D w l name Hl. destruct (new_bus_spec l name w Hl) as (m & w' & E & F & _ & _ & Hid & _).
  eexists _, w', _. split_and!; [done|by apply lookup_ge_None|done|done|done].
Qed.

(** Decimal digits are legal in names. *)
Lemma digit_legal x : (x < 10)%N -> legal (pretty_N_char x).
Proof.
  intros Hx. rewrite <- keepable_legal.
  assert (x = 0 \/ x = 1 \/ x = 2 \/ x = 3 \/ x = 4 \/ x = 5 \/ x = 6 \/ x = 7 \/ x = 8 \/ x = 9)%N as Hc by lia.
  repeat (destruct Hc as [->|Hc]; [by vm_compute|]). subst. by vm_compute.
Qed.
Lemma pretty_N_legal x : forall s, legal_name s -> legal_name (pretty_N_go x s).
Proof.
  induction (N.lt_wf_0 x) as [x _ IH]. intros s Hs.
  destruct (decide (0 < x)%N) as [Hx|Hx].
  - rewrite pretty_N_go_step by done. apply IH; [apply N.div_lt; lia|].
    apply legal_name_cons. split; [|done]. apply digit_legal. apply N.mod_lt. lia.
  - assert (x = 0%N) as -> by lia. by rewrite pretty_N_go_0.
Qed.
Lemma pretty_nat_legal (k : nat) : legal_name (pretty k).
Proof.
  change (pretty k) with (pretty (N.of_nat k)). unfold pretty, pretty_N.
  case_decide; [|apply pretty_N_legal, legal_name_nil].
  apply legal_name_cons. split; [by apply (digit_legal 0)|apply legal_name_nil].
Qed.
Lemma auto_legal k : legal_name (auto_label k).
Proof.
  unfold auto_label. cbn. repeat (apply legal_name_cons; split; [rewrite <- keepable_legal; by vm_compute|]).
  apply pretty_nat_legal.
Qed.
Lemma sanitised_legal s r : legal_name s -> sanitised s r -> r = s.
Proof.
  revert r. induction s as [|c s IH]; intros r Hs [Hlen Hr].
  - by destruct r.
  - apply legal_name_cons in Hs as [Hc Hs]. destruct r as [|c' r]; [done|].
    destruct (Hr 0 c eq_refl) as [H1 _]. specialize (H1 Hc). cbn in H1. injection H1 as ->.
    f_equal. apply IH; [done|]. split; [by injection Hlen|]. intros i a Ha. exact (Hr (S i) a Ha).
Qed.
Lemma auto_pairs_lookup k l i : auto_pairs k l !! i = (fun s => (auto_label (k + i), s)) <$> l !! i.
Proof.
  revert k i. induction l as [|s l IH]; intros k [|i]; cbn; try done.
  - by rewrite Nat.add_0_r.
  - rewrite IH. by rewrite Nat.add_succ_r.
Qed.

Theorem C07_unlabelled : forall D (w : world D) l name,
  (forall s, s ∈ l -> is_Some (w_sigs w !! s)) ->
  exists id w' o, new_bus l name w = Ok id w' /\ w_sigs w !! id = None /\
    w_sigs w' !! id = Some o /\ so_kind o = KBus /\ length (so_mem o) = length l /\
    (forall i s, l !! i = Some s -> so_mem o !! i = Some ("sig" +:+ pretty i, s)) /\
    NoDup (so_mem o).*1.
Proof.
  intros D w l name Hl. unfold new_bus.
  destruct (new_bus_spec (auto_pairs 0 l) name w) as (m & w' & E & F & _ & _ & Hid & _).
  { intros [lb s] He. apply Hl. apply elem_of_list_lookup in He as [i Hi].
    rewrite auto_pairs_lookup in Hi. destruct (l !! i) as [s'|] eqn:Hs; [|done].
    injection Hi as _ <-. by eapply elem_of_list_lookup_2. }
  assert (forall i s, l !! i = Some s -> m !! i = Some ("sig" +:+ pretty i, s)) as Hm.
  { intros i s Hi. destruct (Forall2_lookup_l _ _ _ i (auto_label i, s) F) as ([lb s'] & Hm & Hsan & Hs').
    - by rewrite auto_pairs_lookup, Hi.
    - cbn in Hsan, Hs'. subst s'. rewrite Hm. do 2 f_equal. apply (sanitised_legal (auto_label i)); [apply auto_legal|done]. }
  assert (length m = length l) as Hlen.
  { rewrite <- (Forall2_length _ _ _ F). clear. generalize 0. induction l as [|s l IH]; intros k; cbn; [done|]. by rewrite IH. }
  eexists _, w', _. split_and!; [done|by apply lookup_ge_None|done|done|done|done|]. cbn.
  apply NoDup_alt. intros i j x Hi Hj. rewrite list_lookup_fmap in Hi, Hj.
  destruct (l !! i) as [si|] eqn:Li; [|by rewrite (lookup_ge_None_2 m i) in Hi by (apply lookup_ge_None in Li; lia)].
  destruct (l !! j) as [sj|] eqn:Lj; [|by rewrite (lookup_ge_None_2 m j) in Hj by (apply lookup_ge_None in Lj; lia)].
  rewrite (Hm _ _ Li) in Hi. rewrite (Hm _ _ Lj) in Hj. cbn in Hi, Hj. rewrite <- Hj in Hi.
  injection Hi as Hi. by apply (inj pretty) in Hi.
Qed.

Theorem C07_index : forall D (w : world D) (m : bus) i,
  (forall lb s, m !! i = Some (lb, s) -> at_index m i w = Ok s w) /\
  (length m <= i -> at_index m i w = Exn EIndex w) /\
  (forall lb s dbg, m !! i = Some (lb, s) -> sub_index dbg m i w = Ok s w) /\
  (length m <= i -> sub_index true m i w = Exn EIndex w).
Proof.
  intros D w m i. unfold at_index, sub_index. split_and!.
  - intros lb s E. by rewrite E.
  - intros E. by rewrite lookup_ge_None_2.
  - intros lb s dbg E. unfold bnd, debug_verify, verify. rewrite E.
    assert (i < length m) as Hlt by (by eapply lookup_lt_Some).
    apply Nat.ltb_lt in Hlt. rewrite Hlt. by destruct dbg.
  - intros E. unfold bnd, debug_verify, verify. apply Nat.ltb_ge in E. by rewrite E.
Qed.

(** Three signals, two of them without a name; a bus, and a bus holding that bus. *)
Definition buses_ops : list (wop Q) :=
  [ ONewSig KScalar "x"; ONewSig KScalar ""; ONewSig (KArray 2) "";
    ONewBusL [("a b", 0); ("y", 1); ("y", 0); ("z", 1)] "in.ner";
    ONewBusL [("p", 3); ("", 2); ("q", 2); ("p", 0)] "outer";
    ONewBus [0; 3; 0] "" ].
Definition buses_world : world Q := world_of true buses_ops.
Lemma buses_reach : wreach true buses_world.
Proof. reach_ops buses_world buses_ops. Qed.
Example C07_ex :
  w_sigs buses_world !! 3 = Some (SigObj "in_ner" KBus None [("a_b", 0); ("y", 1); ("y", 0); ("z", 1)]%string) /\
  w_sigs buses_world !! 5 = Some (SigObj "" KBus None [("sig0", 0); ("sig1", 3); ("sig2", 0)]%string).
Proof. by vm_compute. Qed.
Print Assumptions C07_labelled.
Print Assumptions C07_unlabelled.
Print Assumptions C07_index.

(** C10.  Everything a bus constructor does to existing objects: a signal without a
    name gets the first non-empty of its labels, all else stays. *)
Theorem C10_names : forall D (w w' : world D) l name id o,
  (forall e, e ∈ l -> is_Some (w_sigs w !! snd e)) ->
  new_bus_labelled l name w = Ok id w' -> w_sigs w' !! id = Some o ->
  w_blks w' = w_blks w /\
  forall s os, w_sigs w !! s = Some os -> exists os', w_sigs w' !! s = Some os' /\
    so_kind os' = so_kind os /\ so_deriv os' = so_deriv os /\ so_mem os' = so_mem os /\
    (so_name os ≠ "" -> so_name os' = so_name os) /\
    (so_name os = "" -> so_name os' = first_label (so_mem o) s).
Proof.
  intros D w w' l name id o Hl E Hid.
  destruct (new_bus_spec l name w Hl) as (m & w1 & E1 & F & B & L & Hid1 & S).
  rewrite E1 in E. injection E as <- <-. rewrite Hid1 in Hid. injection Hid as <-. cbn [so_mem].
  split; [done|]. intros s os Hs. eexists. split; [by apply S|]. unfold named_as. cbn. split_and!; try done.
  - intros Hn. by rewrite bool_decide_false.
  - intros Hn. by rewrite bool_decide_true.
Qed.
Example C10_ex :
  so_name <$> w_sigs buses_world !! 0 = Some "x"%string /\ so_name <$> w_sigs buses_world !! 1 = Some "y"%string /\
  so_name <$> w_sigs buses_world !! 2 = Some "q"%string.
Proof. by vm_compute. Qed.
Print Assumptions C10_names.

(** C08.  [dotted [a; b; c]] = "a.b.c". *)
Fixpoint dotted (cs : list string) : string :=
  match cs with
  | [] => ""
  | [c] => c
  | c :: cs' => c +:+ "." +:+ dotted cs'
  end.
Definition dot_free (s : string) : Prop := forall i c, String.get i s = Some c -> c ≠ "."%char.
(** [s] is the signal of the first entry labelled [lb]. *)
Definition first_entry (m : list (string * nat)) (lb : string) (s : nat) : Prop :=
  exists i, m !! i = Some (lb, s) /\ forall j e, j < i -> m !! j = Some e -> fst e ≠ lb.
Inductive descends {D} (w : world D) : list (string * nat) -> list string -> nat -> Prop :=
| desc_last m lb s : first_entry m lb s -> descends w m [lb] s
| desc_more m lb s o cs r : first_entry m lb s -> w_sigs w !! s = Some o -> so_kind o = KBus ->
    cs ≠ [] -> descends w (so_mem o) cs r -> descends w m (lb :: cs) r.

Lemma dot_free_cons c s : dot_free (String c s) <-> c ≠ "."%char /\ dot_free s.
Proof.
  split.
  - intros Hn. split; [apply (Hn 0 c eq_refl)|]. intros i a Hi. apply (Hn (S i) a Hi).
  - intros [Hc Hs] [|i] a; cbn; [by intros [= <-]|apply Hs].
Qed.
Lemma cut_dot_free c : dot_free c -> cut_dot c = (c, None).
Proof.
  induction c as [|a c IH]; [done|]. rewrite dot_free_cons. intros [Ha Hc].
  apply Ascii.eqb_neq in Ha. cbn -[Ascii.eqb]. rewrite Ha. cbn -[Ascii.eqb] in IH. by rewrite IH.
Qed.
Lemma cut_dot_app c s : dot_free c -> cut_dot (c +:+ "." +:+ s) = (c, Some s).
Proof.
  induction c as [|a c IH]; [done|]. rewrite dot_free_cons. intros [Ha Hc].
  change (String a c +:+ "." +:+ s) with (String a (c +:+ "." +:+ s)). cbn [cut_dot].
  apply Ascii.eqb_neq in Ha. rewrite Ha. by rewrite IH.
Qed.
Lemma dotted_cons c cs : cs ≠ [] -> dotted (c :: cs) = c +:+ "." +:+ dotted cs.
Proof. by destruct cs. Qed.
Lemma length_append a b : String.length (a +:+ b) = String.length a + String.length b.
Proof. induction a as [|c a IH]; [done|]. change (String c a +:+ b) with (String c (a +:+ b)). cbn. by rewrite IH. Qed.

(** Every label is a dotted list of components. *)
Lemma components (s : string) : exists cs, cs ≠ [] /\ Forall dot_free cs /\ s = dotted cs.
Proof.
  induction s as [|c s (cs & Hne & Hcs & ->)].
  - exists [""%string]. split_and!; [done| |done]. apply Forall_singleton. intros [|i] c; cbn; discriminate.
  - destruct (decide (c = "."%char)) as [->|Hc].
    + exists (""%string :: cs). split_and!; [done| |].
      * constructor; [|done]. intros [|i] c; cbn; discriminate.
      * by rewrite dotted_cons.
    + destruct cs as [|d cs]; [done|]. exists (String c d :: cs). split_and!; [done| |].
      * inversion Hcs; subst. constructor; [|done]. by apply dot_free_cons.
      * by destruct cs.
Qed.

Lemma find_label_first m lb s : find_label m lb = Some s <-> first_entry m lb s.
Proof.
  induction m as [|[l s'] m IH]; cbn.
  - split; [done|]. by intros (i & Hi & _).
  - destruct (String.eqb_spec l lb) as [->|Hne].
    + split.
      * intros [= ->]. exists 0. split; [done|]. intros; lia.
      * intros (i & Hi & Hj). destruct i as [|i]; [by injection Hi as ->|].
        exfalso. apply (Hj 0 (lb, s')); [lia|done|done].
    + rewrite IH. split.
      * intros (i & Hi & Hj). exists (S i). split; [done|]. intros [|j] e Hlt He.
        -- cbn in He. injection He as <-. done.
        -- eapply Hj; [|exact He]. lia.
      * intros (i & Hi & Hj). destruct i as [|i]; [by injection Hi as ->|].
        exists i. split; [done|]. intros j e Hlt He. apply (Hj (S j) e); [lia|done].
Qed.
Lemma find_label_elem m lb s : find_label m lb = Some s -> (lb, s) ∈ m.
Proof. rewrite find_label_first. intros (i & Hi & _). by eapply elem_of_list_lookup_2. Qed.

(** Bus members exist. *)
Definition members_exist {D} (w : world D) (m : list (string * nat)) : Prop :=
  forall e, e ∈ m -> snd e < length (w_sigs w).
Lemma reach_members {D} `{NumOps D} dbg (w : world D) s o : wreach dbg w ->
  w_sigs w !! s = Some o -> members_exist w (so_mem o).
Proof.
  intros Hw Ho e He. destruct (ok_sigs _ (reach_ok dbg w Hw) _ _ Ho) as (Hm & _).
  apply lookup_lt_Some in Ho. specialize (Hm e He). lia.
Qed.

Lemma descends_cons {D} (w : world D) m lb cs r : descends w m (lb :: cs) r <->
  exists s, first_entry m lb s /\
    ((cs = [] /\ r = s) \/ (cs ≠ [] /\ exists o, w_sigs w !! s = Some o /\ so_kind o = KBus /\ descends w (so_mem o) cs r)).
Proof.
  split.
  - inversion 1; subst; eexists; (split; [eassumption|]); [by left|right; eauto].
  - intros (s & Hf & [[-> ->]|(Hne & o & Ho & Hk & Hd)]); [by apply desc_last|by eapply desc_more].
Qed.
Lemma first_entry_fun m lb s s' : first_entry m lb s -> first_entry m lb s' -> s = s'.
Proof. rewrite <- !find_label_first. congruence. Qed.

Lemma at_fuel_spec {D} (w : world D) : (forall s o, w_sigs w !! s = Some o -> members_exist w (so_mem o)) ->
  forall cs fuel m, members_exist w m -> cs ≠ [] -> Forall dot_free cs -> String.length (dotted cs) < fuel ->
  (exists r, at_fuel fuel m (dotted cs) w = Ok r w /\ descends w m cs r) \/
  (exists e, at_fuel fuel m (dotted cs) w = Exn e w /\ (e = ELabel \/ e = EType) /\ ~ exists r, descends w m cs r).
Proof.
  intros Hw. induction cs as [|c cs IH]; intros fuel m Hm Hne Hdf Hfuel; [done|].
  destruct fuel as [|fuel]; [lia|]. inversion Hdf as [|? ? Hc Hcs]; subst. cbn [at_fuel].
  destruct (decide (cs = [])) as [->|Hcs0].
  - cbn [dotted]. rewrite cut_dot_free by done. cbn [fst snd].
    destruct (find_label m c) as [s|] eqn:E.
    + left. exists s. split; [done|]. apply desc_last. by apply find_label_first.
    + right. exists ELabel. split_and!; [done|by left|]. intros [r Hr].
      apply descends_cons in Hr as (s & Hf & _). apply find_label_first in Hf. congruence.
  - rewrite dotted_cons in * by done. rewrite cut_dot_app by done. cbn [fst snd].
    rewrite !length_append in Hfuel. cbn in Hfuel.
    destruct (find_label m c) as [s|] eqn:E.
    + pose proof E as Ef. apply find_label_first in Ef.
      destruct (lookup_lt_is_Some_2 (w_sigs w) s) as [o Ho]; [by apply (Hm (c, s)), find_label_elem|].
      unfold bnd, get_sig, verify. rewrite Ho.
      destruct (is_bus (so_kind o)) eqn:Ek.
      * assert (so_kind o = KBus) as Hk by (by destruct (so_kind o)).
        destruct (IH fuel (so_mem o)) as [(r & Er & Hd)|(e & Er & He & Hd)]; try done; [by eapply Hw|lia| |].
        -- left. exists r. split; [exact Er|]. by eapply desc_more.
        -- right. exists e. split_and!; [exact Er|done|]. intros [r Hr]. apply Hd. exists r.
           apply descends_cons in Hr as (s' & Hf' & [[? ?]|(_ & o' & Ho' & _ & Hd')]); [done|].
           assert (s' = s) as -> by (by eapply first_entry_fun). simplify_eq. done.
      * right. exists EType. split_and!; [done|by right|]. intros [r Hr].
        apply descends_cons in Hr as (s' & Hf' & [[? ?]|(_ & o' & Ho' & Hk' & Hd')]); [done|].
        assert (s' = s) as -> by (by eapply first_entry_fun). simplify_eq. by rewrite Hk' in Ek.
    + right. exists ELabel. split_and!; [done|by left|]. intros [r Hr].
      apply descends_cons in Hr as (s & Hf & _). apply find_label_first in Hf. congruence.
Qed.

Theorem C08_at : forall D `{NumOps D} dbg (w : world D) b o cs, wreach dbg w ->
  w_sigs w !! b = Some o -> so_kind o = KBus -> cs ≠ [] -> Forall dot_free cs ->
  (exists r, at_label (so_mem o) (dotted cs) w = Ok r w /\ descends w (so_mem o) cs r) \/
  (exists e, at_label (so_mem o) (dotted cs) w = Exn e w /\ (e = ELabel \/ e = EType) /\
             ~ exists r, descends w (so_mem o) cs r).
Proof.
  intros D ? dbg w b o cs Hw Ho _ Hne Hcs. unfold at_label. apply at_fuel_spec; try done.
  - intros. by eapply reach_members.
  - by eapply reach_members.
  - lia.
Qed.
Lemma dotted_inj cs cs' : cs ≠ [] -> cs' ≠ [] -> Forall dot_free cs -> Forall dot_free cs' ->
  dotted cs = dotted cs' -> cs = cs'.
Proof.
  revert cs'. induction cs as [|c cs IH]; intros [|c' cs'] H1 H2 F1 F2 E; [done..|].
  inversion F1 as [|? ? Hc Hcs]; inversion F2 as [|? ? Hc' Hcs']; subst.
  apply (f_equal cut_dot) in E.
  destruct (decide (cs = [])) as [->|N1], (decide (cs' = [])) as [->|N2].
  - cbn [dotted] in E. rewrite !cut_dot_free in E by done. by injection E as ->.
  - rewrite (dotted_cons c') in E by done. cbn [dotted] in E. rewrite cut_dot_free, cut_dot_app in E by done. done.
  - rewrite (dotted_cons c) in E by done. cbn [dotted] in E. rewrite cut_dot_app, cut_dot_free in E by done. done.
  - rewrite !dotted_cons, !cut_dot_app in E by done. injection E as -> E. f_equal. by apply IH.
Qed.
Theorem C08_components : forall label, exists cs, cs ≠ [] /\ Forall dot_free cs /\ label = dotted cs /\
  forall cs', cs' ≠ [] -> Forall dot_free cs' -> label = dotted cs' -> cs' = cs.
Proof.
  intros label. destruct (components label) as (cs & H1 & H2 & ->). exists cs. split_and!; [done..|].
  intros cs' H3 H4 E. symmetry. by apply dotted_inj.
Qed.
Example C08_ex :
  let m := [("p", 3); ("", 2); ("q", 2); ("p", 0)]%string in
  so_mem <$> w_sigs buses_world !! 4 = Some m /\
  at_label m "p.y" buses_world = Ok 1 buses_world /\ descends buses_world m ["p"; "y"]%string 1 /\
  at_label m "p.y.z" buses_world = Exn EType buses_world /\ at_label m "p.t" buses_world = Exn ELabel buses_world.
Proof.
  cbv zeta. split; [by vm_compute|]. split; [by vm_compute|]. split; [|by vm_compute].
  eapply (desc_more _ _ _ 3); [by apply find_label_first|vm_compute; reflexivity|done|done|].
  apply desc_last. by apply find_label_first.
Qed.
Print Assumptions C08_at.
Print Assumptions C08_components.

Lemma cut_dot_len s r : snd (cut_dot s) = Some r -> String.length r < String.length s.
Proof.
  induction s as [|c s IH]; cbn; [done|]. destruct (Ascii.eqb c "."); cbn.
  - intros [= ->]. lia.
  - destruct (cut_dot s) as [a [r'|]]; cbn in *; [|done]. intros [= ->]. specialize (IH eq_refl). lia.
Qed.
Lemma at_fuel_enough {D} (w : world D) fuel : forall fuel' m label,
  String.length label < fuel -> String.length label < fuel' -> at_fuel fuel m label w = at_fuel fuel' m label w.
Proof.
  induction fuel as [|fuel IH]; intros [|fuel'] m label H1 H2; [lia..|]. cbn [at_fuel].
  destruct (find_label m (fst (cut_dot label))) as [s|]; [|done].
  destruct (snd (cut_dot label)) as [r|] eqn:E; [|done]. apply cut_dot_len in E.
  unfold bnd, get_sig, verify. destruct (w_sigs w !! s) as [o|]; [|done].
  destruct (is_bus (so_kind o)); [|done]. cbn. apply IH; lia.
Qed.

(** C09.  try_at agrees with at for a label without dots; it reports the absence of
    the first component of a dotted label; if the first component is a bus, it
    returns, or throws, what at returns or throws. *)
Theorem C09_try_at : forall D `{NumOps D} dbg (w : world D) b o label, wreach dbg w ->
  w_sigs w !! b = Some o -> so_kind o = KBus ->
  (dot_free label -> forall e w', at_label (so_mem o) label w = Exn e w' -> try_at (so_mem o) label w = Ok None w) /\
  (forall s w', at_label (so_mem o) label w = Ok s w' -> try_at (so_mem o) label w = Ok (Some s) w) /\
  (forall c cs, dot_free c -> Forall dot_free cs -> label = dotted (c :: cs) ->
     ((forall s, ~ first_entry (so_mem o) c s) -> try_at (so_mem o) label w = Ok None w) /\
     (forall s os, first_entry (so_mem o) c s -> w_sigs w !! s = Some os -> so_kind os = KBus -> cs ≠ [] ->
        forall e w', at_label (so_mem o) label w = Exn e w' -> try_at (so_mem o) label w = Exn e w)).
Proof.
  intros D ? dbg w b o label Hw Ho _.
  assert (forall s o, w_sigs w !! s = Some o -> members_exist w (so_mem o)) as Hmem.
  { intros. by eapply reach_members. }
  assert (forall c, dot_free c -> at_label (so_mem o) c w =
    match find_label (so_mem o) c with Some s => Ok s w | None => Exn ELabel w end) as H1.
  { intros c Hc. unfold at_label. cbn [at_fuel]. rewrite cut_dot_free by done. cbn [fst snd].
    by destruct (find_label _ c). }
  assert (forall c, dot_free c -> try_at (so_mem o) c w = Ok (find_label (so_mem o) c) w) as H2.
  { intros c Hc. unfold try_at. rewrite cut_dot_free by done. cbn [fst snd]. by destruct (find_label _ c). }
  assert (forall c cs s os, dot_free c -> cs ≠ [] -> find_label (so_mem o) c = Some s -> w_sigs w !! s = Some os ->
    at_label (so_mem o) (dotted (c :: cs)) w =
    if is_bus (so_kind os) then at_label (so_mem os) (dotted cs) w else Exn EType w) as H3.
  { intros c cs s os Hc Hne Hs Hos. unfold at_label at 1. cbn [at_fuel]. rewrite dotted_cons by done.
    rewrite cut_dot_app by done. cbn [fst snd]. rewrite Hs. unfold bnd, get_sig. rewrite Hos.
    unfold verify, ret. destruct (is_bus (so_kind os)); [|done]. unfold at_label. apply at_fuel_enough; [|lia].
    rewrite !length_append. cbn. lia. }
  assert (forall c cs s os, dot_free c -> cs ≠ [] -> find_label (so_mem o) c = Some s -> w_sigs w !! s = Some os ->
    so_kind os = KBus -> try_at (so_mem o) (dotted (c :: cs)) w =
    bnd (at_label (so_mem os) (dotted cs)) (fun r => ret (Some r)) w) as H4.
  { intros c cs s os Hc Hne Hs Hos Hk. unfold try_at. rewrite dotted_cons by done.
    rewrite cut_dot_app by done. cbn [fst snd]. rewrite Hs. unfold bnd, get_sig. rewrite Hos, Hk. done. }
  assert (forall s, (exists c, find_label (so_mem o) c = Some s) -> is_Some (w_sigs w !! s)) as H5.
  { intros s [c Hs]. apply lookup_lt_is_Some_2. by apply (Hmem _ _ Ho (c, s)), find_label_elem. }
  split_and!.
  - intros Hd e w' E. rewrite H1 in E by done. rewrite H2 by done. by destruct (find_label (so_mem o) label).
  - intros s w' E. destruct (components label) as (cs & Hne & Hcs & ->).
    destruct cs as [|c cs]; [done|]. inversion Hcs as [|? ? Hc Hcs']; subst.
    destruct (decide (cs = [])) as [->|Hcs0].
    + cbn [dotted] in *. rewrite H1 in E by done. rewrite H2 by done.
      destruct (find_label (so_mem o) c); [|done]. by injection E as -> _.
    + destruct (find_label (so_mem o) c) as [s1|] eqn:Es.
      * destruct (H5 s1) as [os Hos]; [by eexists|]. rewrite (H3 c cs s1 os) in E by done.
        destruct (is_bus (so_kind os)) eqn:Ek; [|done]. rewrite (H4 c cs s1 os) by (by destruct (so_kind os)).
        unfold bnd. rewrite E. f_equal.
        destruct (at_fuel_spec w Hmem cs (S (String.length (dotted cs))) (so_mem os)) as [(r & Er & _)|(e & Er & _)];
          try done; [by eapply Hmem|lia| |]; unfold at_label in E; rewrite Er in E; [|done]. by injection E.
      * unfold at_label in E. cbn [at_fuel] in E. rewrite dotted_cons, cut_dot_app in E by done. cbn [fst snd] in E.
        by rewrite Es in E.
  - intros c cs Hc Hcs ->. split.
    + intros Hno. assert (find_label (so_mem o) c = None) as Hn.
      { destruct (find_label (so_mem o) c) as [s|] eqn:E; [|done]. apply find_label_first in E. by destruct (Hno s). }
      destruct (decide (cs = [])) as [->|Hcs0]; [cbn [dotted]; by rewrite H2, Hn|].
      unfold try_at. rewrite dotted_cons, cut_dot_app by done. cbn [fst snd]. by rewrite Hn.
    + intros s os Hf Hos Hk Hcs0 e w' E. apply find_label_first in Hf.
      rewrite (H3 c cs s os), Hk in E by done. cbn [is_bus] in E. rewrite (H4 c cs s os) by done. unfold bnd.
      destruct (at_fuel_spec w Hmem cs (S (String.length (dotted cs))) (so_mem os)) as [(r & Er & _)|(e' & Er & _)];
        try done; [by eapply Hmem|lia| |]; unfold at_label in *; rewrite Er in *; [done|]. by injection E as ->.
Qed.
Example C09_ex :
  let m := [("p", 3); ("", 2); ("q", 2); ("p", 0)]%string in
  try_at m "p.y" buses_world = Ok (Some 1) buses_world /\ try_at m "x.y" buses_world = Ok None buses_world /\
  try_at m "x" buses_world = Ok None buses_world.
Proof. by vm_compute. Qed.
(** The full claim fails: with a missing nested label try_at throws, and through a
    first component that is not a bus it has undefined behaviour. *)
Theorem C09_refuted :
  exists (w : world Q) (m : bus) label1 label2, wreach true w /\ so_mem <$> w_sigs w !! 4 = Some m /\
    at_label m label1 w = Exn ELabel w /\ try_at m label1 w = Exn ELabel w /\
    at_label m label2 w = Exn EType w /\ try_at m label2 w = UB UType.
Proof.
  exists buses_world, [("p", 3); ("", 2); ("q", 2); ("p", 0)]%string, "p.t"%string, "q.t"%string.
  split; [exact buses_reach|]. by vm_compute.
Qed.
Print Assumptions C09_try_at.
Print Assumptions C09_refuted.
