(** Whole runs of two simulators of different kinds on the same model: if their
    evaluations agree, so do the runs. *)
From stdpp Require Import prelude gmap.
From Coq Require Import ZArith.
From Verif Require Import Num Res Store Leaf Sched Stepper Sim SpecSched P_Store P_Prog P_Modes P_Conf P_Sched P_Eval P_Fast P_Sim P_Evolve.

(** Whenever [m1] returns, so does [m2], with the same result and related states. *)
Definition mrel {S1 S2 A} (R : S1 -> S2 -> Prop) (m1 : M S1 A) (m2 : M S2 A) : Prop :=
  forall x1 x2, R x1 x2 -> match m1 x1 with Ok a y1 => exists y2, m2 x2 = Ok a y2 /\ R y1 y2 | _ => True end.

(** The same with different relations before and after. *)
Definition mrelt {S1 S2 A} (R Q : S1 -> S2 -> Prop) (m1 : M S1 A) (m2 : M S2 A) : Prop :=
  forall x1 x2, R x1 x2 -> match m1 x1 with Ok a y1 => exists y2, m2 x2 = Ok a y2 /\ Q y1 y2 | _ => True end.
Lemma mrelt_bnd {S1 S2 A B} (R Q T : S1 -> S2 -> Prop) (m1 : M S1 A) m2 (k1 : A -> M S1 B) k2 :
  mrelt R Q m1 m2 -> (forall a, mrelt Q T (k1 a) (k2 a)) -> mrelt R T (bnd m1 k1) (bnd m2 k2).
Proof.
  intros Hm Hk x1 x2 Hr. unfold bnd. specialize (Hm x1 x2 Hr). destruct (m1 x1) as [a y1| | |]; try done.
  destruct Hm as (y2 & -> & Hy). specialize (Hk a y1 y2 Hy). done.
Qed.
Lemma mrelt_weak {S1 S2 A} (R R' Q Q' : S1 -> S2 -> Prop) (m1 : M S1 A) m2 :
  mrelt R Q m1 m2 -> (forall x y, R' x y -> R x y) -> (forall x y, Q x y -> Q' x y) -> mrelt R' Q' m1 m2.
Proof.
  intros Hm H1 H2 x1 x2 Hr. specialize (Hm x1 x2 (H1 _ _ Hr)). destruct (m1 x1); try done.
  destruct Hm as (y2 & ? & ?). eauto.
Qed.

Section mrel.
  Context {S1 S2 : Type} (R : S1 -> S2 -> Prop).
  Lemma mrel_ret {A} (a : A) : mrel R (ret a) (ret a).
  Proof. intros x1 x2 Hr. cbn. eauto. Qed.
  Lemma mrel_throw {A} e (m : M S2 A) : mrel R (throw e) m.
  Proof. by intros x1 x2 Hr. Qed.
  Lemma mrel_undef {A} u (m : M S2 A) : mrel R (undef u) m.
  Proof. by intros x1 x2 Hr. Qed.
  Lemma mrel_oof {A} (m : M S2 A) : mrel R (fun _ => OOF) m.
  Proof. by intros x1 x2 Hr. Qed.
  Lemma mrel_bnd {A B} (m1 : M S1 A) m2 (k1 : A -> M S1 B) k2 :
    mrel R m1 m2 -> (forall a, mrel R (k1 a) (k2 a)) -> mrel R (bnd m1 k1) (bnd m2 k2).
  Proof.
    intros Hm Hk x1 x2 Hr. unfold bnd. specialize (Hm x1 x2 Hr). destruct (m1 x1) as [a y1| | |]; try done.
    destruct Hm as (y2 & -> & Hy). specialize (Hk a y1 y2 Hy). done.
  Qed.
  Lemma mrel_assoc {A B C} (m1 : M S1 A) (m2 : M S2 A) (k1 : A -> M S1 B) (k2 : A -> M S2 B) (j1 : B -> M S1 C) (j2 : B -> M S2 C) :
    mrel R (bnd (bnd m1 k1) j1) (bnd (bnd m2 k2) j2) -> mrel R (bnd m1 (fun a => bnd (k1 a) j1)) (bnd m2 (fun a => bnd (k2 a) j2)).
  Proof.
    intros Hm x1 x2 Hr. specialize (Hm x1 x2 Hr). unfold bnd in *.
    destruct (m1 x1); try done; destruct (m2 x2); done.
  Qed.
  Lemma mrel_gets {A} (f1 : S1 -> A) f2 : (forall x1 x2, R x1 x2 -> f1 x1 = f2 x2) -> mrel R (gets f1) (gets f2).
  Proof. intros Hf x1 x2 Hr. cbn. exists x2. unfold gets. by rewrite (Hf x1 x2 Hr). Qed.
  Lemma mrel_modify f1 f2 : (forall x1 x2, R x1 x2 -> R (f1 x1) (f2 x2)) -> mrel R (modify f1) (modify f2).
  Proof. intros Hf x1 x2 Hr. cbn. exists (f2 x2). split; [done|auto]. Qed.
  Lemma mrel_verify c e : mrel R (verify c e) (verify c e).
  Proof. destruct c; [apply mrel_ret|apply mrel_throw]. Qed.
  Lemma mrel_debug dbg c e : mrel R (debug_verify dbg c e) (debug_verify dbg c e).
  Proof. destruct dbg; [apply mrel_verify|apply mrel_ret]. Qed.
  Lemma mrel_if {A} (b : bool) (m1 m1' : M S1 A) m2 m2' : mrel R m1 m2 -> mrel R m1' m2' ->
    mrel R (if b then m1 else m1') (if b then m2 else m2').
  Proof. by destruct b. Qed.
End mrel.

(** Steppers treat the state the callback works on as abstract. *)
Definition stepper_rel {D} (stp : stepper D) : Prop :=
  forall S1 S2 (R : S1 -> S2 -> Prop) f1 f2 t0 v0 t1,
    (forall t v, mrel R (f1 t v) (f2 t v)) -> mrel R (stp S1 f1 t0 v0 t1) (stp S2 f2 t0 v0 t1).
Section stepper.
  Context {D : Type} `{NumOps D}.
  Lemma mrel_call {S1 S2} (R : S1 -> S2 -> Prop) f1 f2 n (t : D) v :
    (forall t v, mrel R (f1 t v) (f2 t v)) -> mrel R (call f1 n t v) (call f2 n t v).
  Proof.
    intros Hf. unfold call. apply mrel_bnd; [apply Hf|intros k]. apply mrel_if; [apply mrel_ret|apply mrel_undef].
  Qed.
  Lemma euler_rel : stepper_rel (D:=D) euler.
  Proof. intros S1 S2 R f1 f2 t0 v0 t1 Hf. unfold euler. apply mrel_bnd; [by apply mrel_call|intros k]. apply mrel_ret. Qed.
  Lemma rk4_rel : stepper_rel (D:=D) rk4.
  Proof.
    intros S1 S2 R f1 f2 t0 v0 t1 Hf. unfold rk4. cbv zeta.
    repeat (apply mrel_bnd; [by apply mrel_call|intros ?]). apply mrel_ret.
  Qed.
  Lemma rkf45_rel : stepper_rel (D:=D) rkf45.
  Proof.
    intros S1 S2 R f1 f2 t0 v0 t1 Hf. unfold rkf45. cbv zeta.
    repeat (apply mrel_bnd; [by apply mrel_call|intros ?]). destruct (max_coeff _); [apply mrel_ret|apply mrel_undef].
  Qed.
End stepper.

(** Evaluations from states with the same signals and block members. *)
Section same.
  Context {D : Type} `{NumOps D}.
  Lemma legal_run_same dbg t (c c2 : core D) ls c' :
    legal_run dbg t c ls c' -> same_state c c2 -> (forall l, l ∈ ls -> l_id l ∉ k_done c2) ->
    exists c2', legal_run dbg t c2 ls c2' /\ same_state c' c2'.
  Proof.
    intros Hr Hs. pose proof (legal_run_ids _ _ _ _ _ Hr) as [Hn _]. revert Hn.
    induction Hr as [|ls c1 l c1' Hr IH Hd Hi Ha]; intros Hn Hnd.
    - exists c2. split; [constructor|done].
    - rewrite map_app in Hn. apply NoDup_app in Hn as (Hn1 & Hn2 & _).
      destruct IH as (c3 & Hr3 & Hs3); [done|intros x Hx; apply Hnd, elem_of_app; by left|].
      destruct (activate_same _ _ _ _ _ _ Hs3 Ha) as (c4 & Ha4 & Hs4).
      exists (mark_done (l_id l) c4). split; [|by destruct Hs4].
      econstructor; [exact Hr3| | |exact Ha4].
      + apply legal_run_basic in Hr3 as (_ & _ & -> & _). intros [Hx|Hx]%elem_of_union.
        * apply elem_of_list_to_set in Hx. apply (Hn2 _ Hx). by apply elem_of_list_here.
        * revert Hx. apply Hnd, elem_of_app. right. by apply elem_of_list_here.
      + destruct Hs3 as [Hs3 _]. unfold inputs_there in *. by rewrite <- Hs3.
  Qed.
  Lemma evaluate_same (tr : tree D) t d d2 d1 :
    wf_tree tr -> (forall l, l ∈ leaves tr -> local (dom (k_store (d_core d))) l) -> store_ok (k_store (d_core d)) ->
    same_state (d_core d) (d_core d2) -> evaluate true tr t d = Ok tt d1 ->
    exists d2', evaluate true tr t d2 = Ok tt d2' /\ same_state (d_core d1) (d_core d2').
  Proof.
    intros Hw Hloc Hok Hs He. destruct (evaluate_ok _ _ _ _ _ _ Hw He) as (ls & Hr & Hin & Hex).
    assert (same_state (d_core (mark_unprocessed tr d)) (d_core (mark_unprocessed tr d2))) as Hsm.
    { destruct Hs as [Hs Hl]. split; [by rewrite !marked_store|]. intros b. unfold lst_of in *. rewrite !marked_lst by done. apply Hl. }
    destruct (legal_run_same _ _ _ (d_core (mark_unprocessed tr d2)) _ _ Hr Hsm) as (c2 & Hr2 & Hs2).
    { intros l Hl. rewrite marked_leaf by auto. intros Hb.
      apply (legal_run_basic) in Hr as (_ & Hnd & _). apply (Hnd l Hl). apply marked_leaf; auto. }
    assert (exhausted (leaves tr) c2) as Hex2.
    { intros l Hl. destruct (Hex l Hl) as [Hd|Hwt].
      - left. apply legal_run_basic in Hr as (_ & _ & Hd1 & _). apply legal_run_basic in Hr2 as (_ & _ & -> & _).
        rewrite Hd1 in Hd. apply elem_of_union in Hd as [Hd|Hd]; apply elem_of_union; [by left|right].
        by apply marked_leaf; [..|apply marked_leaf in Hd].
      - right. destruct Hs2 as [Hs2 _]. unfold waits in *. by rewrite <- Hs2. }
    assert (k_store (d_core (mark_unprocessed tr d2)) = k_store (d_core d)) as Hst.
    { rewrite marked_store by done. symmetry. apply Hs. }
    assert (store_ok (k_store (d_core (mark_unprocessed tr d2)))) as Hok2 by (by rewrite Hst).
    assert (forall l, l ∈ leaves tr -> local (dom (k_store (d_core (mark_unprocessed tr d2)))) l) as Hloc2 by (by rewrite Hst).
    pose proof (evaluate_spec true tr t d2 Hw) as He2.
    assert (forall r, ~ failed true t (A:=unit) (leaves tr) (d_core (mark_unprocessed tr d2)) r) as Hnf.
    { intros r. by apply (no_failure t _ (leaves tr) ls c2 r Hok2 (wf_leaves _ Hw) Hloc2 Hr2 Hin Hex2). }
    destruct (evaluate true tr t d2) as [[] d2'|e d2'|u|]; cbn [res_core eval_post] in He2;
      try (exfalso; by eapply Hnf).
    destruct He2 as (ls2 & Hr3 & Hin3 & Hex3). exists d2'. split; [done|].
    destruct (confluence t _ (leaves tr) ls c2 ls2 (d_core d2') Hok2 (wf_leaves _ Hw) Hloc2 Hr2 Hin Hex2 Hr3 Hin3 Hex3)
      as (_ & H1 & H2 & _).
    eapply same_state_trans; [exact Hs2|]. split; [done|]. intros b. unfold lst_of. by rewrite H2.
  Qed.
  Lemma evaluate_log dbg (tr : tree D) t d d' : wf_tree tr -> evaluate dbg tr t d = Ok tt d' ->
    exists ls, k_log (d_core d') = k_log (d_core d) ++ map (fun l : leaf D => EvAct (l_id l) t) ls.
  Proof.
    intros Hw He. destruct (evaluate_ok _ _ _ _ _ _ Hw He) as (ls & Hr & _). exists ls.
    apply legal_run_ids in Hr as [_ ->]. by rewrite marked_log.
  Qed.
  Lemma evaluate_reuse_log dbg (tr : tree D) po t d po' d' : wf_tree tr -> covers tr po -> evaluate_reuse dbg tr po t d = Ok po' d' ->
    exists ls, k_log (d_core d') = k_log (d_core d) ++ map (fun l : leaf D => EvAct (l_id l) t) ls.
  Proof.
    intros Hw Hc He. pose proof (reuse_all_spec dbg t po (mark_unprocessed tr d) (proj1 Hc)) as Hs. unfold evaluate_reuse in He.
    rewrite He in Hs. destruct Hs as ((ls & Hr & _) & _). exists ls.
    apply legal_run_ids in Hr as [_ ->]. by rewrite marked_log.
  Qed.
  Lemma acts_log dbg t ls (c c' : core D) : acts dbg t ls c = Ok tt c' -> k_log c' = k_log c ++ map (fun l => EvAct (l_id l) t) ls.
  Proof.
    revert c. induction ls as [|l ls IH]; intros c Ha; cbn in Ha.
    - injection Ha as <-. by rewrite app_nil_r.
    - unfold bnd in Ha. destruct (activate dbg l t c) as [[] c1| | |] eqn:E; try done.
      rewrite (IH _ Ha). unfold activate, run_leaf in E. destruct (run_prog _ _ _); try done. injection E as <-. cbn. by rewrite <- app_assoc.
  Qed.
End same.

(** reset_with_state_variables leaves every state signal assigned. *)
Section reset.
  Context {D : Type} `{NumOps D}.
  Lemma set_value_assigned dbg s (v : val D) σ u σ' : set_value dbg s v σ = Ok u σ' ->
    forall x, assigned σ' x = true <-> assigned σ x = true \/ x = s.
  Proof.
    intros E x. unfold set_value in E. repeat case_match; simplify_eq. unfold assigned.
    destruct (decide (x = s)) as [->|Hne]; [rewrite lookup_insert; cbn; split; [by right|done]|].
    rewrite lookup_insert_ne by done. split; [by left|by intros [?|?]].
  Qed.
  Lemma set_scalars_assigned (g : cfg D) ss sv (σ : store D) r σ' : set_scalars g ss sv σ = Ok r σ' ->
    forall x, assigned σ' x = true <-> assigned σ x = true \/ x ∈ ss.
  Proof.
    revert sv σ. induction ss as [|s ss IH]; intros sv σ He x; cbn in He.
    - injection He as <- <-. rewrite elem_of_nil. tauto.
    - destruct sv as [|y sv]; [done|]. unfold bnd in He. destruct (set_value _ s _ σ) as [u σ1| | |] eqn:E; try done.
      rewrite (IH _ _ He x), (set_value_assigned _ _ _ _ _ _ E x), elem_of_cons. tauto.
  Qed.
  Lemma set_arrays_assigned (g : cfg D) ss sv (σ : store D) r σ' : set_arrays g ss sv σ = Ok r σ' ->
    forall x, assigned σ' x = true <-> assigned σ x = true \/ x ∈ ss.
  Proof.
    revert sv σ. induction ss as [|s ss IH]; intros sv σ He x; cbn in He.
    - injection He as <- <-. rewrite elem_of_nil. tauto.
    - unfold bnd, gets in He. destruct (Nat.leb _ _); [|done].
      destruct (set_value _ s _ σ) as [u σ1| | |] eqn:E; try done.
      rewrite (IH _ _ He x), (set_value_assigned _ _ _ _ _ _ E x), elem_of_cons. tauto.
  Qed.
End reset.

Definition with_mode {D} (m : mode) (g : cfg D) : cfg D :=
  Cfg (g_dbg g) m (g_tree g) (g_inputs g) (g_icb g) (g_stepper g) (g_iter g) (g_junk g).

Section rel.
  Context {D : Type} `{NumOps D} (g : cfg D) (m1 m2 : mode).
  Notation g1 := (with_mode m1 g).
  Notation g2 := (with_mode m2 g).
  Context (Hdbg : g_dbg g = true).
  Context (Hstp : forall stp, g_stepper g = Some stp -> stepper_rel stp).
  (** Invariants of the two simulators about their own orders (and about the lists
      of state signals, which only init changes). *)
  Context (P1 P2 : simst D -> Prop).
  Definition order_only (P : simst D -> Prop) : Prop :=
    forall s s', s_po1 s' = s_po1 s -> s_po2 s' = s_po2 s -> s_cur s' = s_cur s -> s_fast s' = s_fast s -> P s -> P s'.
  Definition order_and_states (P : simst D -> Prop) : Prop :=
    forall s s', s_po1 s' = s_po1 s -> s_po2 s' = s_po2 s -> s_cur s' = s_cur s -> s_fast s' = s_fast s ->
      s_scal s' = s_scal s -> s_arr s' = s_arr s -> P s -> P s'.
  Lemma order_only_states P : order_only P -> order_and_states P.
  Proof. intros HP s s' ? ? ? ? _ _. by apply HP. Qed.
  Context (HP1 : order_and_states P1) (HP2 : order_and_states P2).
  Context (X : gset nat).
  (** What the two logs contained before, apart from activations. *)
  Context (L1 L2 : list (event D)).

  (** Everything but the activations. *)
  Definition quiet (e : event D) : bool := match e with EvAct _ _ => false | _ => true end.
  Definition core_agree (c1 c2 : core D) : Prop :=
    same_state c1 c2 /\ (exists v, List.filter quiet (k_log c1) = L1 ++ v /\ List.filter quiet (k_log c2) = L2 ++ v) /\
    store_ok (k_store c1) /\ dom (k_store c1) = X.
  Record agree (s1 s2 : simst D) : Prop := {
    ag_core : core_agree (s_core s1) (s_core s2);
    ag_tprev : s_tprev s1 = s_tprev s2;
    ag_vsigs : s_vsigs s1 = s_vsigs s2;
    ag_scal : s_scal s1 = s_scal s2;
    ag_arr : s_arr s1 = s_arr s2;
    ag_sv : s_sv s1 = s_sv s2;
    ag_svo : s_svo s1 = s_svo s2;
    ag_dv : s_dv s1 = s_dv s2;
    ag_init : s_init s1 = s_init s2;
    ag_1 : P1 s1;
    ag_2 : P2 s2
  }.

  Lemma filter_snoc (l : list (event D)) e : List.filter quiet (l ++ [e]) = List.filter quiet l ++ List.filter quiet [e].
  Proof. apply List.filter_app. Qed.

  Lemma rel_on_core' {A} (n1 n2 : M (core D) A) : mrel core_agree n1 n2 -> mrel agree (on_core' n1) (on_core' n2).
  Proof.
    intros Hn s1 s2 [Hc A1 A2 A3 A4 A5 A6 A7 A8 A9 A10]. specialize (Hn _ _ Hc).
    unfold on_core', on_dyn, on_core, lift. unfold s_core in Hn. destruct (n1 (d_core (s_dyn s1))) as [a c1| | |]; try done.
    destruct Hn as (c2 & Hn2 & Hc'). rewrite Hn2. eexists. split; [done|]. split; try done; [by apply (HP1 s1)|by apply (HP2 s2)].
  Qed.
  Lemma rel_on_store {A} (m : M (store D) A) : pres (shape true) m -> mrel core_agree (on_store m) (on_store m).
  Proof.
    intros Hm c1 c2 ([Hs Hl] & Hq & Hok & Hd). unfold on_store, lift. specialize (Hm (k_store c1)). rewrite <- Hs.
    destruct (m (k_store c1)) as [a σ| | |]; try done. eexists. split; [done|]. split; [by split|]. cbn.
    split; [done|]. split; [by apply (sh_ok _ _ _ Hm)|]. by rewrite (shape_dom _ _ _ Hm).
  Qed.
  Lemma rel_emit e : mrel core_agree (emit e) (emit e).
  Proof.
    apply mrel_modify. intros c1 c2 ([Hs Hl] & (v & H1 & H2) & Hok & Hd). split; [by split|]. split; [|done]. cbn.
    rewrite !filter_snoc, H1, H2. eexists. by rewrite <- !app_assoc.
  Qed.
  Lemma members_eq (c1 c2 : core D) : (forall b, lst_of c1 b = lst_of c2 b) -> members c1 = members c2.
  Proof.
    intros Hl. apply map_eq. intros b. unfold members. rewrite !lookup_omap. specialize (Hl b). unfold lst_of in Hl.
    destruct (k_lst c1 !! b) as [[]|], (k_lst c2 !! b) as [[]|]; cbn in *; congruence.
  Qed.
  Lemma rel_snap ev : mrel core_agree (snap ev) (snap ev).
  Proof.
    apply mrel_modify. intros c1 c2 ([Hs Hl] & (v & H1 & H2) & Hok & Hd). split; [by split|]. split; [|done]. cbn.
    rewrite !filter_snoc, H1, H2, Hs, (members_eq c1 c2 Hl). eexists. by rewrite <- !app_assoc.
  Qed.
  Lemma rel_leaf ev l p : mrel core_agree (run_leaf true ev l p) (run_leaf true ev l p).
  Proof.
    intros c1 c2 ([Hs Hl] & (v & H1 & H2) & Hok & Hd). unfold run_leaf.
    pose proof (pres_prog true (p (lst_of c1 (l_id l))) (k_store c1)) as Hp.
    rewrite <- Hs, <- (Hl (l_id l)). destruct (run_prog _ _ _) as [st σ| | |]; try done. eexists. split; [done|].
    split; [split; [done|]|].
    - intros b. unfold lst_of. cbn. destruct (decide (b = l_id l)) as [->|Hne].
      + by rewrite !lookup_insert.
      + rewrite !lookup_insert_ne by done. apply (Hl b).
    - cbn. rewrite !filter_snoc, H1, H2. split; [eexists; by rewrite <- !app_assoc|]. split; [by apply (sh_ok _ _ _ Hp)|]. by rewrite (shape_dom _ _ _ Hp).
  Qed.
  Lemma rel_pre_step : forall tr t, mrel core_agree (pre_step true tr t) (pre_step true tr t).
  Proof.
    fix IH 1. intros [l|b k ch] t; cbn [pre_step]; [apply rel_leaf|].
    induction ch as [|c ch IHc]; [apply mrel_ret|]. apply mrel_bnd; [apply IH|intros _; apply IHc].
  Qed.
  Lemma rel_post_step : forall tr t, mrel core_agree (post_step true tr t) (post_step true tr t).
  Proof.
    fix IH 1. intros [l|b k ch] t; cbn [post_step]; [apply rel_leaf|].
    induction ch as [|c ch IHc]; [apply mrel_ret|]. apply mrel_bnd; [apply IH|intros _; apply IHc].
  Qed.
  Lemma rel_inputs t : mrel core_agree (inputs g1 t) (inputs g2 t).
  Proof.
    unfold inputs. cbn [g_dbg g_inputs g_icb with_mode]. rewrite Hdbg. apply mrel_bnd; [apply rel_emit|intros _].
    apply mrel_bnd; [|intros _; apply rel_on_store, pres_prog].
    destruct (g_inputs g); [apply rel_on_store, pres_prog|apply mrel_ret].
  Qed.
  Lemma rel_on_store' {A} (m : M (store D) A) : pres (shape true) m -> mrel agree (on_store' m) (on_store' m).
  Proof. intros Hm. by apply rel_on_core', rel_on_store. Qed.

  (** One evaluation with the states set: by pre_step or from the state vector. *)
  Definition states_set (s : simst D) : Prop := forall x, x ∈ s_scal s ++ s_arr s -> assigned (s_store s) x = true.
  Lemma reset_sv_sets g' sv s u s' : reset_sv g' sv s = Ok u s' -> states_set s'.
  Proof.
    unfold reset_sv, bnd. destruct (clear_all s) as [[] s1| | |]; try done. unfold gets, on_store', on_core', on_dyn, on_core, on_store, lift.
    destruct (set_scalars g' (s_scal s1) sv (k_store (d_core (s_dyn s1)))) as [r σ1| | |] eqn:E1; try done.
    destruct (set_arrays g' (s_arr s1) r σ1) as [r' σ2| | |] eqn:E2; try done. cbn. intros [= <- <-].
    intros x. cbn. rewrite elem_of_app. intros Hx. unfold s_store, s_core. cbn.
    rewrite (set_arrays_assigned _ _ _ _ _ _ E2 x), (set_scalars_assigned _ _ _ _ _ _ E1 x). tauto.
  Qed.
  Context (Hproc : forall t b1 b2, mrelt (fun s1 s2 => agree s1 s2 /\ (b1 = true \/ states_set s1)) agree
                                     (process_model g1 t b1 b2) (process_model g2 t b1 b2)).
  Lemma rel_clear_all : mrel agree clear_all clear_all.
  Proof.
    unfold clear_all. apply mrel_bnd; [apply mrel_gets; by intros s1 s2 []|intros vs].
    apply rel_on_store'. apply pres_forM; [apply _|]. intros s. apply pres_clear.
  Qed.
  Lemma g_set_scalars ss sv : set_scalars g1 ss sv = set_scalars g2 ss sv.
  Proof. done. Qed.
  Lemma rel_reset_sv sv : mrel agree (reset_sv g1 sv) (reset_sv g2 sv).
  Proof.
    unfold reset_sv. apply mrel_bnd; [apply rel_clear_all|intros _].
    apply mrel_bnd; [apply mrel_gets; by intros s1 s2 []|intros ss]. apply mrel_bnd; [apply mrel_gets; by intros s1 s2 []|intros aa].
    change (set_scalars g1) with (set_scalars g2). change (set_arrays g1) with (set_arrays g2).
    apply rel_on_store'. assert (g_dbg g2 = true) as Hd2 by done. rewrite <- Hd2 at 1.
    apply pres_bnd; [apply _|apply pres_set_scalars|intros r]. apply pres_bnd; [apply _|apply pres_set_arrays|intros ?; apply pres_ret, _].
  Qed.
  (** Setting the state signals and evaluating. *)
  Lemma rel_reset_process sv t b1 b2 :
    mrel agree (reset_sv g1 sv ;;; process_model g1 t b1 b2) (reset_sv g2 sv ;;; process_model g2 t b1 b2).
  Proof.
    intros s1 s2 Ha. unfold bnd. pose proof (rel_reset_sv sv s1 s2 Ha) as Hr.
    destruct (reset_sv g1 sv s1) as [[] s1'| | |] eqn:E; try done. destruct Hr as (s2' & -> & Ha').
    apply (Hproc t b1 b2 s1' s2'). split; [done|]. right. by eapply reset_sv_sets.
  Qed.
  Lemma rel_get_sv arr : mrel agree (get_sv g1 arr) (get_sv g2 arr).
  Proof.
    unfold get_sv. apply mrel_bnd; [apply mrel_gets; intros s1 s2 []; congruence|intros n].
    apply mrel_bnd; [apply mrel_debug|intros _].
    apply mrel_bnd; [apply mrel_gets; by intros s1 s2 []|intros ss]. apply mrel_bnd; [apply mrel_gets; by intros s1 s2 []|intros aa].
    apply mrel_bnd; [|intros x; destruct (write_prefix x arr); [apply mrel_ret|apply mrel_undef]].
    change (get_scalar g1) with (get_scalar g2). change (get_array g1) with (get_array g2).
    apply rel_on_store'. assert (g_dbg g2 = true) as Hd2 by done. rewrite <- Hd2 at 1.
    apply pres_bnd; [apply _|apply pres_collect, pres_get_scalar|intros x1].
    apply pres_bnd; [apply _|apply pres_collect, pres_get_array|intros ?; apply pres_ret, _].
  Qed.
  Lemma agree_put s1 s2 f1 f2 : agree s1 s2 ->
    (s_dyn (f1 s1) = s_dyn s1 /\ s_po1 (f1 s1) = s_po1 s1 /\ s_po2 (f1 s1) = s_po2 s1 /\ s_cur (f1 s1) = s_cur s1 /\ s_fast (f1 s1) = s_fast s1 /\ s_scal (f1 s1) = s_scal s1 /\ s_arr (f1 s1) = s_arr s1) ->
    (s_dyn (f2 s2) = s_dyn s2 /\ s_po1 (f2 s2) = s_po1 s2 /\ s_po2 (f2 s2) = s_po2 s2 /\ s_cur (f2 s2) = s_cur s2 /\ s_fast (f2 s2) = s_fast s2 /\ s_scal (f2 s2) = s_scal s2 /\ s_arr (f2 s2) = s_arr s2) ->
    s_tprev (f1 s1) = s_tprev (f2 s2) -> s_vsigs (f1 s1) = s_vsigs (f2 s2) -> s_scal (f1 s1) = s_scal (f2 s2) ->
    s_arr (f1 s1) = s_arr (f2 s2) -> s_sv (f1 s1) = s_sv (f2 s2) -> s_svo (f1 s1) = s_svo (f2 s2) -> s_dv (f1 s1) = s_dv (f2 s2) ->
    s_init (f1 s1) = s_init (f2 s2) -> agree (f1 s1) (f2 s2).
  Proof.
    intros [Hc A1 A2 A3 A4 A5 A6 A7 A8 A9 A10] (E1 & E2 & E3 & E4 & E5 & E6 & E7) (F1 & F2 & F3 & F4 & F5 & F6 & F7) ? ? ? ? ? ? ? ?.
    split; try done.
    - unfold s_core in *. by rewrite E1, F1.
    - by apply (HP1 s1).
    - by apply (HP2 s2).
  Qed.
  Ltac put := let s1 := fresh in let s2 := fresh in let Ha := fresh in intros s1 s2 Ha; pose proof Ha as [? ? ? ? ? ? ? ? ? ? ?]; apply agree_put; [done|done|done|cbn; congruence..].
  Lemma rel_minor_cb t sv : mrel agree (minor_cb g1 t sv) (minor_cb g2 t sv).
  Proof.
    unfold minor_cb. apply (mrel_assoc _ (reset_sv g1 sv) (reset_sv g2 sv)).
    apply mrel_bnd; [apply rel_reset_process|intros _].
    apply mrel_bnd; [apply mrel_gets; by intros s1 s2 []|intros ss]. apply mrel_bnd; [apply mrel_gets; by intros s1 s2 []|intros aa].
    apply mrel_bnd; [|intros x].
    { change (get_scalar g1) with (get_scalar g2). change (get_array g1) with (get_array g2).
      apply rel_on_store'. assert (g_dbg g2 = true) as Hd2 by done. rewrite <- Hd2 at 1.
      apply pres_bnd; [apply _|apply pres_collect; intros s; apply pres_deriv_of, pres_get_scalar|intros x1].
      apply pres_bnd; [apply _|apply pres_collect; intros s; apply pres_deriv_of, pres_get_array|intros ?; apply pres_ret, _]. }
    apply mrel_bnd; [apply mrel_gets; by intros s1 s2 []|intros dv].
    destruct (write_prefix x dv); [|apply mrel_undef].
    apply mrel_bnd; [|intros ?; apply mrel_ret]. apply mrel_modify. put.
  Qed.
  Lemma rel_begin_step t : mrel agree (begin_step g1 t) (begin_step g2 t).
  Proof.
    unfold begin_step. cbn [g_dbg g_tree with_mode]. rewrite Hdbg. apply mrel_bnd; [apply rel_clear_all|intros _].
    apply mrel_bnd; [apply rel_on_core', rel_inputs|intros _]. apply rel_on_core'.
    apply mrel_bnd; [apply rel_pre_step|intros _; apply rel_snap].
  Qed.
  Lemma rel_run_loop fuel t lo hi t1 t2 force : mrel agree (run_loop g1 fuel t lo hi t1 t2 force) (run_loop g2 fuel t lo hi t1 t2 force).
  Proof.
    revert t1 t2 force. induction fuel as [|fuel IH]; intros t1 t2 force; cbn [run_loop].
    { apply mrel_if; [apply mrel_oof|apply mrel_ret]. }
    apply mrel_if; [|apply mrel_ret].
    apply mrel_bnd; [apply rel_begin_step|intros _].
    apply mrel_bnd; [apply mrel_gets; by intros s1 s2 []|intros o]. apply mrel_bnd; [apply rel_get_sv|intros x].
    apply mrel_bnd; [apply mrel_modify; put|intros _].
    cbn [g_stepper with_mode]. destruct (g_stepper g) as [stp|] eqn:Es; [|apply mrel_undef].
    apply mrel_bnd; [apply Hstp; [done|intros; apply rel_minor_cb]|intros r].
    apply mrel_bnd; [apply mrel_modify; put|intros _].
    apply mrel_bnd; [apply rel_on_core', rel_emit|intros _]. cbv zeta.
    apply mrel_if; [|apply IH].
    apply mrel_bnd; [|intros _; apply IH]. apply mrel_if; [|apply mrel_ret].
    apply mrel_bnd; [apply mrel_gets; by intros s1 s2 []|intros sv]. apply rel_reset_process.
  Qed.

  (** run of initialised simulators *)
  Lemma rel_run fuel t lo hi s1 s2 s1' : agree s1 s2 -> s_init s1 = true -> run g1 fuel t lo hi s1 = Ok tt s1' ->
    exists s2', run g2 fuel t lo hi s2 = Ok tt s2' /\ agree s1' s2'.
  Proof.
    intros Ha Hi. assert (s_init s2 = true) as Hi2 by (by rewrite <- (ag_init _ _ Ha)).
    unfold run. unfold bnd at 1, gets. rewrite Hi. intros Hr. unfold bnd at 1, gets. rewrite Hi2. cbn [negb] in Hr |- *.
    match type of Hr with ?k1 s1 = _ => match goal with |- exists s2', ?k2 s2 = _ /\ _ => assert (mrel agree k1 k2) as Hm end end.
    { apply mrel_bnd; [apply (mrel_gets _ (fun s => length (s_sv s)) (fun s => length (s_sv s))); intros x1 x2 []; congruence|intros n].
      apply mrel_bnd; [apply (mrel_gets _ s_tprev s_tprev); by intros x1 x2 []|intros tp].
      apply mrel_bnd; [|intros _].
      { destruct n; [apply mrel_ret|]. apply mrel_if; [apply mrel_throw|]. apply mrel_if.
        - apply mrel_bnd; [apply rel_begin_step|intros _].
          apply mrel_bnd; [apply (mrel_gets _ s_sv s_sv); by intros x1 x2 []|intros o]. apply mrel_bnd; [apply rel_get_sv|intros x].
          apply mrel_modify. put.
        - apply mrel_bnd; [apply mrel_debug|intros _]. apply mrel_bnd; [apply mrel_debug|intros _].
          apply mrel_bnd; [apply mrel_debug|intros _]. apply rel_run_loop. }
      apply mrel_bnd; [apply (mrel_gets _ s_sv s_sv); by intros x1 x2 []|intros sv]. apply (mrel_assoc _ (reset_sv g1 sv) (reset_sv g2 sv)).
      apply mrel_bnd; [apply rel_reset_process|intros _]. apply mrel_modify. put. }
    specialize (Hm s1 s2 Ha). rewrite Hr in Hm. exact Hm.
  Qed.
  Lemma rel_base_init t : order_only P1 -> order_only P2 -> mrel agree (base_init g1 t) (base_init g2 t).
  Proof.
    intros Q1 Q2. unfold base_init. apply mrel_bnd; [apply mrel_modify|intros _].
    { intros s1 s2 Ha. pose proof Ha as [? ? ? ? ? ? ? ? ? ? ?].
      assert (s_store s1 = s_store s2) as Hs by (destruct ag_core0 as [[? _] _]; done).
      split; try (cbn; rewrite ?Hs, ?ag_tprev0, ?ag_vsigs0, ?ag_scal0, ?ag_arr0, ?ag_sv0, ?ag_svo0, ?ag_dv0, ?ag_init0; reflexivity);
        [done|by apply (Q1 s1)|by apply (Q2 s2)]. }
    apply mrel_bnd; [apply rel_clear_all|intros _]. apply mrel_modify.
    intros s1 s2 Ha. pose proof Ha as [? ? ? ? ? ? ? ? ? ? ?].
    apply (agree_put s1 s2 (fun s => _) (fun s => _));
      [done|done|done|cbn; rewrite ?ag_tprev0, ?ag_vsigs0, ?ag_scal0, ?ag_arr0, ?ag_sv0, ?ag_svo0, ?ag_dv0, ?ag_init0; reflexivity..].
  Qed.
End rel.
