(** Whole runs of FastSimulator and Simulator. *)
From stdpp Require Import prelude gmap.
From Coq Require Import ZArith.
From Verif Require Import Num Res Store Leaf Sched Stepper Sim World Api SpecSched P_Store P_Prog P_Modes P_Conf P_Sched P_Eval P_Lib P_Fast P_Sim P_Evolve
  SpecSim P_Simulated P_World P_Compile P_Rel P_Rel2 Props_Sched Props_Sched2 Props_Sched3 SpecHist P_Trace SpecRun P_Log P_Pack P_Repeat SpecAgain P_Over P_Redo P_Both P_Fast2.

Definition is_integ {D} (l : leaf D) : Prop := match l_cls l with CInteg _ | CTrig _ => True | _ => False end.
Definition not_user {D} (l : leaf D) : Prop := match l_cls l with CUser _ _ _ => False | _ => True end.
(** The inputs assign the signals [I], whatever the time and the state of the model. *)
Definition inputs_set {D} `{NumOps D} (g : cfg D) (I : list nat) : Prop :=
  forall t c c', inputs g t c = Ok tt c' -> forall x, assigned (k_store c') x = true <-> assigned (k_store c) x = true \/ x ∈ I.

Section pre.
  Context {D : Type} `{NumOps D}.
  Lemma pre_leaf_assigned ev (l : leaf D) t c c' : not_user l -> run_leaf true ev l (pre l t) c = Ok tt c' ->
    forall x, assigned (k_store c') x = true <-> assigned (k_store c) x = true \/ (is_integ l /\ h_out (l_h l) = Some x).
  Proof.
    intros Hn. unfold run_leaf. destruct (run_prog true (pre l t _) (k_store c)) as [st σ| | |] eqn:E; try done. intros [= <-]. cbn.
    assert (forall (m m' : lstate D), run_prog true (PRet m) (k_store c) = Ok m' σ -> ~ is_integ l ->
      forall x, assigned σ x = true <-> assigned (k_store c) x = true \/ (is_integ l /\ h_out (l_h l) = Some x)) as Hret.
    { intros m m'. cbn. intros [= _ <-] Hi x. tauto. }
    assert (forall so v (m m' : lstate D), run_prog true (PSet so v (PRet m)) (k_store c) = Ok m' σ -> is_integ l -> h_out (l_h l) = Some so ->
      forall x, assigned σ x = true <-> assigned (k_store c) x = true \/ (is_integ l /\ h_out (l_h l) = Some x)) as Hset.
    { intros so v m m'. cbn. unfold bnd. destruct (set_value true so v (k_store c)) as [[] σ1| | |] eqn:E1; try done.
      unfold ret. intros [= _ <-] Hi Ho x. rewrite (set_value_assigned _ _ _ _ _ _ E1 x), Ho. split; intros [?|Hx]; [by left|right; by subst|by left|right; by destruct Hx as [_ [= ->]]]. }
    revert E. unfold pre, with_h, is_integ, not_user in *. destruct (l_cls l); intros E; try done; try (eapply Hret; [exact E|tauto]).
    - destruct (lst_of c (l_id l)); try done. destruct (h_out (l_h l)) eqn:Ho; [|done]. by eapply Hset.
    - destruct (lst_of c (l_id l)); try done. destruct (h_out (l_h l)) eqn:Ho; [|done]. by eapply Hset.
  Qed.
  Lemma pre_assigned tr t (c c' : core D) : (forall l, l ∈ leaves tr -> not_user l) -> pre_step true tr t c = Ok tt c' ->
    forall x, assigned (k_store c') x = true <-> assigned (k_store c) x = true \/ exists l, l ∈ leaves tr /\ is_integ l /\ h_out (l_h l) = Some x.
  Proof.
    rewrite pre_each. unfold each. generalize (leaves tr) as ls. intros ls. revert c. induction ls as [|l ls IH]; intros c Hn; cbn [forM].
    - unfold ret. intros [= <-] x. split; [by left|]. intros [?|(l & Hl & _)]; [done|]. by apply elem_of_nil in Hl.
    - unfold bnd. destruct (run_leaf _ _ _ _ c) as [[] c1| | |] eqn:E; try done. intros E2 x.
      rewrite (IH c1 ltac:(intros y Hy; apply Hn; by apply elem_of_list_further) E2 x).
      rewrite (pre_leaf_assigned _ _ _ _ _ (Hn l ltac:(apply elem_of_list_here)) E x). split.
      + intros [[?|?]|(y & Hy & ?)]; [by left|right; exists l; split; [apply elem_of_list_here|done]|right; exists y; split; [by apply elem_of_list_further|done]].
      + intros [?|(y & Hy & ?)]; [by left; left|]. apply elem_of_cons in Hy as [->|Hy]; [left; by right|right; eauto].
  Qed.
  (** Only required signals matter. *)
  Lemma supplied_narrow O ls (A A' : nat -> Prop) : supplied O A ls ->
    (forall (l : leaf D) s, l ∈ ls -> s ∈ required l -> A s -> A' s) -> supplied O A' ls.
  Proof.
    revert A A'. induction ls as [|l ls IH]; intros A A'; cbn; [done|]. intros [Hr Hs] Hm. split.
    - intros s Hx. eapply Hm; [apply elem_of_list_here|done|auto].
    - eapply IH; [exact Hs|]. intros l' s Hl Hx [Ha|Ho]; [left|by right]. eapply Hm; [by apply elem_of_list_further|done|done].
  Qed.
End pre.

Section run.
  Context {D : Type} `{NumOps D} (g : cfg D) (Hdbg : g_dbg g = true) (X : gset nat) (L1 L2 : list (event D)).
  Context (Hw : wf_tree (g_tree g)) (Hloc : forall l, l ∈ leaves (g_tree g) -> local X l).
  Context (Hnu : forall l, l ∈ leaves (g_tree g) -> not_user l).
  Context (O : leaf D -> list nat) (HO : forall l dbg, l ∈ leaves (g_tree g) -> writes_exactly dbg O l).
  Context (I : list nat) (HI : inputs_set g I).
  Context (o : list (list (leaf D))) (SC AR : list nat) (Hall : concat o ≡ₚ leaves (g_tree g)).
  Definition early (x : nat) : Prop := x ∈ I \/ exists l, l ∈ leaves (g_tree g) /\ is_integ l /\ h_out (l_h l) = Some x.
  Context (Hsup : supplied O early (nonb (concat o))).
  Context (Hstates : forall l x, l ∈ leaves (g_tree g) -> is_integ l -> h_out (l_h l) = Some x -> x ∈ SC ++ AR).
  Notation gd := (with_mode MDefault g).
  Notation gf := (with_mode MFast g).
  Definition follows (s : simst D) : Prop := s_fast s = o /\ s_scal s = SC /\ s_arr s = AR.
  Lemma follows_states : order_and_states follows.
  Proof. intros s s' _ _ _ E1 E2 E3 (? & ? & ?). split_and!; congruence. Qed.
  Lemma any_states' : order_and_states (anyst (D:=D)).
  Proof. done. Qed.

  Lemma acts_log dbg t ls (c c' : core D) : acts dbg t ls c = Ok tt c' -> k_log c' = k_log c ++ map (fun l => EvAct (l_id l) t) ls.
  Proof.
    revert c. induction ls as [|l ls IH]; intros c; cbn.
    - unfold ret. intros [= <-]. by rewrite app_nil_r.
    - unfold bnd. destruct (activate dbg l t c) as [[] c1| | |] eqn:E; try done. intros E2. rewrite (IH c1 E2).
      unfold activate, run_leaf in E. destruct (run_prog _ _ _); try done. injection E as <-. cbn. by rewrite <- app_assoc.
  Qed.
  Lemma eval_df t : mrelt (fun s1 s2 => agree anyst follows X L1 L2 s1 s2 /\ forall x, early x -> assigned (s_store s1) x = true)
    (agree anyst follows X L1 L2) (eval_model gd t) (eval_model gf t).
  Proof.
    intros s1 s2 [[Hc A1 A2 A3 A4 A5 A6 A7 A8 A9 A10] He]. pose proof (eval_evo g Hdbg MDefault t s1) as Hev.
    rewrite eval_default in * by done. cbn [g_dbg g_tree with_mode] in *. rewrite Hdbg in *.
    destruct (evaluate true (g_tree g) t (s_dyn s1)) as [[] d1| | |] eqn:E; try done. specialize (Hev _ eq_refl).
    pose proof Hc as (Hs & Hq & Hok & Hdom). unfold s_core in Hs, Hok, Hdom. pose proof A10 as (Ho & _ & _).
    destruct (evaluate_then_fast (g_tree g) t O o early (s_dyn s1) Hw ltac:(by rewrite Hdom) HO Hall Hsup He Hok d1 E) as (c2 & E2 & Hs2).
    rewrite fast_eval_acts in E2. destruct (acts_same true t _ _ _ _ Hs E2) as (c3 & E3 & Hs3).
    unfold eval_model. cbn [g_mode with_mode g_dbg]. rewrite Hdbg. unfold bnd, gets. rewrite Ho.
    unfold on_core', on_dyn, on_core, lift. rewrite fast_eval_acts, E3. eexists. split; [done|].
    pose proof (evaluate_log _ _ _ _ _ Hw E) as (ls & Hl1). pose proof (acts_log _ _ _ _ _ E3) as Hl3.
    split; cbn; try done. eapply core_agree_after; [exact Hc| |exact Hev|exact Hl1|exact Hl3].
    eapply same_state_trans; [apply same_state_sym, Hs2|exact Hs3].
  Qed.
  Lemma eval_fd t : mrelt (fun s1 s2 => agree follows anyst X L1 L2 s1 s2 /\ forall x, early x -> assigned (s_store s1) x = true)
    (agree follows anyst X L1 L2) (eval_model gf t) (eval_model gd t).
  Proof.
    intros s1 s2 [[Hc A1 A2 A3 A4 A5 A6 A7 A8 A9 A10] He]. pose proof (eval_evo g Hdbg MFast t s1) as Hev.
    rewrite (eval_default gd) by done. cbn [g_dbg g_tree with_mode] in *. rewrite Hdbg. pose proof A9 as (Ho & _ & _).
    unfold eval_model in *. cbn [g_mode with_mode g_dbg] in *. rewrite Hdbg in *. unfold bnd, gets in *. rewrite Ho in *.
    unfold on_core', on_dyn, on_core, lift in *. pose proof Hc as (Hs & Hq & Hok & Hdom). unfold s_core in Hs, Hok, Hdom.
    destruct (fast_eval true o t (d_core (s_dyn s1))) as [[] c1| | |] eqn:E; try done. specialize (Hev _ eq_refl).
    destruct (fast_then_evaluate (g_tree g) t O o early (s_dyn s1) Hw ltac:(by rewrite Hdom) HO Hall Hsup He Hok c1 E) as (d1 & E2 & Hs2).
    destruct (evaluate_same (g_tree g) t (s_dyn s1) (s_dyn s2) d1 Hw) as (d2 & E3 & Hs3); [by rewrite Hdom|done|done|done|].
    rewrite E3. eexists. split; [done|]. rewrite fast_eval_acts in E.
    pose proof (evaluate_log _ _ _ _ _ Hw E3) as (ls & Hl1). pose proof (acts_log _ _ _ _ _ E) as Hl3.
    split; cbn; try done. eapply core_agree_after; [exact Hc| |exact Hev|exact Hl3|exact Hl1].
    by eapply same_state_trans.
  Qed.

  (** process_model: the inputs assign [I], pre_step or the state vector the states. *)
  Lemma proc_early m1 m2 P1 P2 : order_and_states P1 -> order_and_states P2 ->
    (forall s1 s2, agree P1 P2 X L1 L2 s1 s2 -> s_scal s1 = SC /\ s_arr s1 = AR) ->
    (forall t, mrelt (fun s1 s2 => agree P1 P2 X L1 L2 s1 s2 /\ forall x, early x -> assigned (s_store s1) x = true)
       (agree P1 P2 X L1 L2) (eval_model (with_mode m1 g) t) (eval_model (with_mode m2 g) t)) ->
    forall t b1 b2, mrelt (fun s1 s2 => agree P1 P2 X L1 L2 s1 s2 /\ (b1 = true \/ P_Rel.states_set s1)) (agree P1 P2 X L1 L2)
      (process_model (with_mode m1 g) t b1 b2) (process_model (with_mode m2 g) t b1 b2).
  Proof.
    intros HP1 HP2 Hsa Hev t b1 b2. unfold process_model. cbn [g_dbg g_tree with_mode]. rewrite Hdbg.
    apply (mrelt_bnd _ (fun s1 s2 => agree P1 P2 X L1 L2 s1 s2 /\ (forall x, x ∈ I -> assigned (s_store s1) x = true) /\ (b1 = true \/ P_Rel.states_set s1)) _); [|intros _].
    { intros s1 s2 [Ha Hb]. assert (mrel (agree P1 P2 X L1 L2) (on_core' (inputs (with_mode m1 g) t)) (on_core' (inputs (with_mode m2 g) t))) as Hi
        by (by apply rel_on_core', rel_inputs).
      specialize (Hi s1 s2 Ha). pose proof (static_on_core (inputs (with_mode m1 g) t) s1) as Hst.
      destruct (on_core' (inputs (with_mode m1 g) t) s1) as [[] x1| | |] eqn:E1; try done. destruct Hst as (_ & _ & Esc & Ear & _).
      destruct Hi as (x2 & E2 & Hx). exists x2. split; [done|]. split; [done|]. apply on_core_ok in E1. change (inputs (with_mode m1 g) t) with (inputs g t) in E1.
      pose proof (HI t _ _ E1) as HI1. split; [intros x Hx'; apply HI1; by right|]. destruct Hb as [Hb|Hb]; [by left|]. right.
      intros x. rewrite Esc, Ear. intros Hx'. apply HI1. left. by apply Hb. }
    apply (mrelt_bnd _ (fun s1 s2 => agree P1 P2 X L1 L2 s1 s2 /\ forall x, early x -> assigned (s_store s1) x = true) _); [|intros _].
    { intros x1 x2 (Hx & Hi & Hb). destruct b1.
      - assert (mrel (agree P1 P2 X L1 L2) (on_core' (pre_step true (g_tree g) t;;; snap (EvBegin t))) (on_core' (pre_step true (g_tree g) t;;; snap (EvBegin t)))) as Hp.
        { apply rel_on_core'; [done|done|]. apply mrel_bnd; [apply rel_pre_step|intros _; apply rel_snap]. }
        specialize (Hp x1 x2 Hx). destruct (on_core' _ x1) as [[] y1| | |] eqn:E3; try done. destruct Hp as (y2 & E4 & Hy).
        exists y2. split; [done|]. split; [done|]. apply on_core_ok in E3. unfold bnd in E3.
        destruct (pre_step true (g_tree g) t (s_core x1)) as [[] c3| | |] eqn:E5; try done. unfold snap, modify in E3. injection E3 as E3.
        intros x Hex. unfold s_store. rewrite <- E3. cbn. apply (pre_assigned _ _ _ _ Hnu E5 x). destruct Hex as [Hex|Hex]; [left; by apply Hi|by right].
      - exists x2. split; [done|]. split; [done|]. destruct Hb as [?|Hb]; [done|]. intros x [Hex|(l & Hl & Hil & Ho)]; [by apply Hi|].
        apply Hb. destruct (Hsa _ _ Hx) as [-> ->]. by eapply Hstates. }
    apply (mrelt_bnd _ (agree P1 P2 X L1 L2) _); [apply Hev|intros _].
    match goal with |- mrelt _ _ ?m ?m' => change (mrel (agree P1 P2 X L1 L2) m m') end.
    apply mrel_bnd; [apply rel_on_core'; [done..|]; apply rel_snap|intros _]. apply mrel_if; [|apply mrel_ret].
    apply rel_on_core'; [done|done|]. apply mrel_bnd; [apply rel_post_step|intros _; apply rel_snap].
  Qed.
  Context (Hstp : forall stp, g_stepper g = Some stp -> stepper_rel stp) (Hso : forall stp, g_stepper g = Some stp -> stepper_ok stp).
  Lemma runs_df fuel ops s1 s2 s1' : agree anyst follows X L1 L2 s1 s2 -> s_init s1 = true -> runs gd fuel ops s1 = Ok tt s1' ->
    exists s2', runs gf fuel ops s2 = Ok tt s2' /\ agree anyst follows X L1 L2 s1' s2'.
  Proof.
    apply (runs_rel g Hdbg X L1 L2 Hstp Hso MDefault MFast anyst follows fuel ops any_states' follows_states).
    apply proc_early; [apply any_states'|apply follows_states| |apply eval_df].
    intros ? ? [? ? ? E1 E2 ? ? ? ? ? (_ & ? & ?)]. split; congruence.
  Qed.
  Lemma runs_fd fuel ops s1 s2 s1' : agree follows anyst X L1 L2 s1 s2 -> s_init s1 = true -> runs gf fuel ops s1 = Ok tt s1' ->
    exists s2', runs gd fuel ops s2 = Ok tt s2' /\ agree follows anyst X L1 L2 s1' s2'.
  Proof.
    apply (runs_rel g Hdbg X L1 L2 Hstp Hso MFast MDefault follows anyst fuel ops follows_states any_states').
    apply proc_early; [apply follows_states|apply any_states'| |apply eval_fd].
    by intros ? ? [? ? ? E1 E2 ? ? ? ? (_ & ? & ?) ?].
  Qed.
End run.

Section both.
  Context {D : Type} `{NumOps D} (g : cfg D) (Hw : wf_tree (g_tree g)) (Hdbg : g_dbg g = true).
  Context (Hst : forall l, l ∈ leaves (g_tree g) -> steady_class l) (Hnu : forall l, l ∈ leaves (g_tree g) -> not_user l).
  Context (O : leaf D -> list nat) (HO : forall l dbg, l ∈ leaves (g_tree g) -> writes_exactly dbg O l).
  Context (I : list nat) (HI : inputs_set g I) (Hiter : forall l, g_iter g l ≡ₚ l).
  Context (d : dyn D) (Hok : store_ok (k_store (d_core d))).
  Context (Hloc : forall l, l ∈ leaves (g_tree g) -> local (dom (k_store (d_core d))) l).
  Context (Hint : forall l x, l ∈ leaves (g_tree g) -> is_integ l -> h_out (l_h l) = Some x -> is_state_of g (k_store (d_core d)) x).
  Context (Hstp : forall stp, g_stepper g = Some stp -> stepper_rel stp) (Hso : forall stp, g_stepper g = Some stp -> stepper_ok stp).
  Notation gd := (with_mode MDefault g).
  Notation gf := (with_mode MFast g).
  Lemma required_linked (l : leaf D) x : l ∈ leaves (g_tree g) -> x ∈ required l -> x ∈ linked_signals (g_tree g).
  Proof.
    intros Hl Hx. unfold linked_signals. apply elem_of_remove_dups, elem_of_list_In, in_concat. exists (map fst (l_linked l)). split.
    2:{ apply elem_of_list_In. unfold required in Hx. apply elem_of_list_fmap in Hx as (p & -> & Hp). apply elem_of_list_filter in Hp as [_ Hp]. apply elem_of_list_fmap. eauto. }
    apply elem_of_list_In, elem_of_list_fmap. exists (NLeaf l). split; [done|]. by apply nodes_leaves.
  Qed.
  Lemma state_shape dbg σ σ' x : shape dbg σ σ' -> is_state_of g σ x -> is_state_of g σ' x.
  Proof.
    intros Hs (Hl & c & ds & Hc & Hk & Hd). split; [done|]. destruct (sh_cell _ _ _ Hs x c Hc) as (c' & Hc' & E1 & E2).
    exists c', ds. split; [done|]. rewrite E1, E2. done.
  Qed.
  Lemma both_runs t0 sd sf fuel ops : init gd t0 (new_sim d) = Ok tt sd -> init gf t0 (new_sim d) = Ok tt sf ->
    (forall s1, runs gd fuel ops sd = Ok tt s1 -> exists s2, runs gf fuel ops sf = Ok tt s2 /\
       agree anyst anyst (dom (s_store sd)) (List.filter P_Rel.quiet (s_log sd)) (List.filter P_Rel.quiet (s_log sf)) s1 s2) /\
    (forall s2, runs gf fuel ops sf = Ok tt s2 -> exists s1, runs gd fuel ops sd = Ok tt s1 /\
       agree anyst anyst (dom (s_store sd)) (List.filter P_Rel.quiet (s_log sf)) (List.filter P_Rel.quiet (s_log sd)) s2 s1).
  Proof.
    intros Hid Hif. pose proof (both_init g Hw Hdbg Hst t0 (new_sim d) sd sf eq_refl Hok Hloc Hid Hif) as [Hsame Hstat].
    pose proof (packed_init gd Hiter t0 d sd (fun _ => Hok) Hid) as Hpk.
    (* the search *)
    pose proof Hif as Hif'. rewrite C23_init in Hif' by done. unfold bnd at 1 in Hif'. destruct (search gf t0 (new_sim d)) as [[] s2| | |] eqn:Es; try done.
    destruct (search_run g Hw Hdbg t0 (new_sim d) s2 eq_refl Es) as (s1 & Esu & Hall & Hr & Hv).
    assert (s_fast sf = s_fast s2) as Hff.
    { assert (pres (evo gf) (on_core' (snap (EvEval t0));;; clear_all;;; process_model gf t0 true true)) as Hp.
      { apply pres_bnd; [apply _|apply pres_on_core', pres_snap|intros _]. apply pres_bnd; [apply _|apply pres_clear_all|intros _; apply pres_process_model]. }
      specialize (Hp s2). rewrite Hif' in Hp. apply (ev_fast _ _ _ Hp). }
    rewrite <- Hff in Hall, Hr.
    assert (forall l, l ∈ leaves (g_tree g) -> is_builder (l_cls l) = true -> O l = []) as Hb.
    { intros l Hl Hb. exact (builder_no_outs O l true t0 Hb (HO l true Hl)). }
    assert (supplied O (early g I) (nonb (concat (s_fast sf)))) as Hsup.
    { pose proof (order_supplied (g_tree g) t0 O _ _ _ _ HO Hb Hr Hall) as Hsup. eapply supplied_narrow; [exact Hsup|].
      intros l x Hl Hx Ha. cbn beta in Ha. unfold nonb in Hl. apply elem_of_list_filter in Hl as [_ Hl]. rewrite Hall in Hl.
      unfold setup in Esu. cbn [g_dbg g_tree with_mode] in Esu. rewrite Hdbg in Esu. change (base_init gf t0) with (base_init g t0) in Esu. change (inputs gf t0) with (inputs g t0) in Esu.
      unfold bnd at 1 in Esu. destruct (base_init g t0 (new_sim d)) as [[] x0| | |] eqn:E0; try done.
      unfold bnd at 1 in Esu. destruct (on_core' (inputs g t0) x0) as [[] x1| | |] eqn:E1; try done.
      apply on_core_ok in E1, Esu. unfold bnd in Esu. destruct (pre_step true (g_tree g) t0 (s_core x1)) as [[] c3| | |] eqn:E3; try done.
      unfold snap, modify in Esu. injection Esu as Esu. rewrite <- Esu in Ha. cbn in Ha.
      apply (pre_assigned _ _ _ _ Hnu E3 x) in Ha as [Ha|Ha]; [|by right]. apply (HI _ _ _ E1) in Ha as [Ha|Ha]; [|by left].
      exfalso. pose proof (packed_base g Hiter t0 d x0 (fun _ => Hok) E0) as Hp0.
      assert (assigned (s_store x0) x = false) as Hx0; [|unfold s_store in Hx0; congruence].
      eapply base_cleared; [exact E0|]. apply (pk_vsigs _ _ Hp0). by eapply required_linked. }
    assert (shape true (k_store (d_core d)) (s_store sd)) as Hsh.
    { pose proof (pres_init gd t0 (new_sim d)) as Hp. rewrite Hid in Hp. unfold sim_evo in Hp. cbn [g_dbg with_mode] in Hp. rewrite Hdbg in Hp. apply Hp. }
    assert (forall l x, l ∈ leaves (g_tree g) -> is_integ l -> h_out (l_h l) = Some x -> x ∈ s_scal sd ++ s_arr sd) as Hstates.
    { intros l x Hl Hi Ho. apply (pk_all _ _ Hpk). eapply state_shape; [exact Hsh|]. by eapply Hint. }
    assert (forall l, l ∈ leaves (g_tree g) -> local (dom (s_store sd)) l) as Hloc'.
    { rewrite (shape_dom _ _ _ Hsh). exact Hloc. }
    pose proof (sh_ok _ _ _ Hsh eq_refl Hok) as Hok'. destruct Hstat as (T1 & T2 & T3 & T4 & T5 & T6 & T7 & T8).
    split.
    - intros z Hz. destruct (runs_df g Hdbg (dom (s_store sd)) (List.filter P_Rel.quiet (s_log sd)) (List.filter P_Rel.quiet (s_log sf)) Hw Hloc' Hnu O HO I HI
        (s_fast sf) (s_scal sd) (s_arr sd) Hall Hsup Hstates Hstp Hso fuel ops sd sf z) as (z2 & Ez & Ha).
      + split; try done. split; [done|]. split; [exists []; by rewrite !app_nil_r|]. done.
      + by eapply init_sets.
      + done.
      + exists z2. split; [done|]. eapply agree_swap; [exact Ha|done|done].
    - intros z Hz. destruct (runs_fd g Hdbg (dom (s_store sd)) (List.filter P_Rel.quiet (s_log sf)) (List.filter P_Rel.quiet (s_log sd)) Hw Hloc' Hnu O HO I HI
        (s_fast sf) (s_scal sd) (s_arr sd) Hall Hsup Hstates Hstp Hso fuel ops sf sd z) as (z2 & Ez & Ha).
      + assert (s_store sf = s_store sd) as Es' by (by destruct Hsame). unfold s_store in Es'.
        split; try done. split; [by apply same_state_sym|]. split; [exists []; by rewrite !app_nil_r|]. unfold s_store in *. rewrite Es'. done.
      + by eapply init_sets.
      + done.
      + exists z2. split; [done|]. eapply agree_swap; [exact Ha|done|done].
  Qed.
End both.
