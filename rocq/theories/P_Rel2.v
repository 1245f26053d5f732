(** Simulator with and without reuse_order: whole sequences of run calls agree. *)
From stdpp Require Import prelude gmap.
From Coq Require Import ZArith.
From Verif Require Import Num Res Store Leaf Sched Stepper Sim SpecSched P_Store P_Prog P_Modes P_Conf P_Sched P_Eval P_Fast P_Sim P_Evolve P_Rel.

(** A sequence of calls run(t, min, max) on one simulator. *)
Definition runs {D} `{NumOps D} (g : cfg D) (fuel : nat) (ops : list (D * D * D)) : M (simst D) unit :=
  forM ops (fun o => run g fuel (fst (fst o)) (snd (fst o)) (snd o)).

(** Number of state variables of a model (simulator_base.cpp:81-97). *)
Definition n_states {D} (tr : tree D) (σ : store D) : nat :=
  let all := linked_signals tr in
  length (List.filter (is_scalar_state σ) all) + sum_list (map (sig_size σ) (List.filter (is_array_state σ) all)).

Section base.
  Context {D : Type} `{NumOps D} (g : cfg D).
  Lemma clear_all_frame s u s' : clear_all (D:=D) s = Ok u s' ->
    s_sv s' = s_sv s /\ s_svo s' = s_svo s /\ s_dv s' = s_dv s /\ s_scal s' = s_scal s /\ s_arr s' = s_arr s /\ s_vsigs s' = s_vsigs s /\
    s_po1 s' = s_po1 s /\ s_po2 s' = s_po2 s /\ s_cur s' = s_cur s /\ s_fast s' = s_fast s.
  Proof.
    unfold clear_all, bnd, gets, on_store', on_core', on_dyn, on_core, on_store, lift.
    destruct (forM _ _ _); try done. intros [= <- <-]. cbn. split_and!; done.
  Qed.
  Lemma base_init_sv t s u s' : base_init g t s = Ok u s' -> length (s_sv s') = n_states (g_tree g) (s_store s) /\
    s_po1 s' = s_po1 s /\ s_po2 s' = s_po2 s /\ s_cur s' = s_cur s /\ s_fast s' = s_fast s.
  Proof.
    unfold base_init, bnd, modify. destruct (clear_all _) as [[] s1| | |] eqn:E; try done. intros [= <- <-]. cbn.
    apply clear_all_frame in E as (-> & _ & _ & _ & _ & _ & -> & -> & -> & ->). cbn. split; [|done].
    unfold resize. destruct (Nat.eqb_spec (length (s_sv s)) (n_states (g_tree g) (s_store s))) as [He|Hne]; unfold n_states in *.
    - rewrite He, Nat.eqb_refl. done.
    - destruct (Nat.eqb_spec (length (s_sv s)) (length (List.filter (is_scalar_state (s_store s)) (linked_signals (g_tree g))) +
        sum_list (map (sig_size (s_store s)) (List.filter (is_array_state (s_store s)) (linked_signals (g_tree g)))))); [done|].
      by rewrite replicate_length.
  Qed.
End base.

Section reuse.
  Context {D : Type} `{NumOps D} (g : cfg D) (Hdbg : g_dbg g = true) (X : gset nat) (L1 L2 : list (event D)).
  Context (Hw : wf_tree (g_tree g)) (Hloc : forall l, l ∈ leaves (g_tree g) -> local X l).
  Context (Hb : forall l, l ∈ leaves (g_tree g) -> is_builder (l_cls l) = false).
  Context (Hstp : forall stp, g_stepper g = Some stp -> stepper_rel stp).
  Notation gd := (with_mode MDefault g).
  Notation gr := (with_mode MReuse g).
  Definition anyst (s : simst D) : Prop := True.
  Definition fresh (s : simst D) : Prop := s_cur s = None /\ s_po1 s = [] /\ s_po2 s = [].
  Lemma any_order : order_only anyst.
  Proof. done. Qed.
  Lemma fresh_order : order_only fresh.
  Proof. intros s s' H1 H2 H3 _ (? & ? & ?). split_and!; congruence. Qed.
  Lemma ordered_order : order_only (ordered gr).
  Proof.
    intros s s' H1 H2 H3 _ (po & Hp & Hc). exists po. split; [|done]. unfold remembered in *. by rewrite H1, H2, H3.
  Qed.
  Definition any_states := order_only_states anyst any_order.
  Definition fresh_states := order_only_states fresh fresh_order.
  Definition ordered_states := order_only_states (ordered gr) ordered_order.
  Lemma quiet_acts (l : list (event D)) t (ls : list (leaf D)) :
    List.filter quiet (l ++ map (fun l => EvAct (l_id l) t) ls) = List.filter quiet l.
  Proof.
    rewrite List.filter_app. assert (List.filter quiet (map (fun l => EvAct (l_id l) t) ls) = []) as ->; [|by rewrite app_nil_r].
    induction ls; done.
  Qed.
  Lemma remember_core po (s : simst D) : s_core (remember po s) = s_core s.
  Proof. unfold remember. by destruct (s_cur s) as [[]|]. Qed.

  (** Evaluations ending in the same signals and block members. *)
  Lemma core_agree_after (c1 c2 c1' c2' : core D) t (ls1 ls2 : list (leaf D)) :
    core_agree X L1 L2 c1 c2 -> same_state c1' c2' -> core_evo true c1 c1' ->
    k_log c1' = k_log c1 ++ map (fun l => EvAct (l_id l) t) ls1 ->
    k_log c2' = k_log c2 ++ map (fun l => EvAct (l_id l) t) ls2 -> core_agree X L1 L2 c1' c2'.
  Proof.
    intros (Hs & (v & Hq1 & Hq2) & Hok & Hdom) Hs' [Hsh _] H1 H2. split; [done|]. split; [exists v; by rewrite H1, H2, !quiet_acts|].
    split; [by apply (sh_ok _ _ _ Hsh)|]. by rewrite (shape_dom _ _ _ Hsh).
  Qed.
  Lemma eval_evo m t s s' : eval_model (with_mode m g) t s = Ok tt s' -> core_evo true (s_core s) (s_core s').
  Proof.
    intros E. pose proof (pres_eval_model (with_mode m g) t s) as Hp. rewrite E in Hp.
    pose proof (ev_dyn _ _ _ Hp) as Hx. cbn [g_dbg with_mode] in Hx. by rewrite Hdbg in Hx.
  Qed.

  Lemma eval_rel_dr t : mrel (agree anyst (ordered gr) X L1 L2) (eval_model gd t) (eval_model gr t).
  Proof.
    intros s1 s2 [Hc A1 A2 A3 A4 A5 A6 A7 A8 A9 A10]. pose proof (eval_evo MDefault t s1) as Hev.
    rewrite eval_default in * by done. cbn [g_dbg g_tree with_mode] in *. rewrite Hdbg in *.
    destruct (evaluate true (g_tree g) t (s_dyn s1)) as [[] d1| | |] eqn:E; try done. specialize (Hev _ eq_refl).
    pose proof Hc as (Hs & Hq & Hok & Hdom). unfold s_core in Hs, Hok, Hdom. destruct A10 as (po & Hp & Hcov).
    rewrite (eval_reuse gr t s2 po eq_refl Hp). cbn [g_dbg g_tree with_mode]. rewrite Hdbg.
    destruct (evaluate_same (g_tree g) t (s_dyn s1) (s_dyn s2) d1 Hw) as (d2 & E2 & Hs2); [by rewrite Hdom|done|done|done|].
    destruct (reuse_confluent_from (g_tree g) po t (s_dyn s2) d2 Hw Hcov) as (po' & d3 & ls1 & ls2 & E3 & H1 & H2 & H3 & H4 & H5 & H6).
    { destruct Hs as [Hs _]. unfold s_core in *. rewrite <- Hs. by rewrite Hdom. }
    { destruct Hs as [Hs _]. unfold s_core in *. by rewrite <- Hs. }
    { exact Hb. } { exact E2. }
    rewrite E3. eexists. split; [done|].
    assert (same_state (d_core d1) (d_core d3)) as Hs3.
    { eapply same_state_trans; [exact Hs2|]. split; [done|]. intros b. unfold lst_of. by rewrite H2. }
    pose proof (evaluate_log _ _ _ _ _ Hw E) as (ls & Hl1).
    split; rewrite ?remember_core; cbn;
      try (unfold remember; cbn; destruct (s_cur s2) as [[]|]; cbn; done).
    - by eapply core_agree_after.
    - exists po'. split; [|by eapply evaluate_reuse_covers].
      unfold remembered, remember in *. cbn. by destruct (s_cur s2) as [[]|].
  Qed.
  Lemma eval_rel_rd t : mrel (agree (ordered gr) anyst X L1 L2) (eval_model gr t) (eval_model gd t).
  Proof.
    intros s1 s2 [Hc A1 A2 A3 A4 A5 A6 A7 A8 A9 A10]. pose proof (eval_evo MReuse t s1) as Hev.
    destruct A9 as (po & Hp & Hcov). rewrite (eval_reuse gr t s1 po eq_refl Hp) in *. rewrite eval_default by done.
    cbn [g_dbg g_tree with_mode] in *. rewrite Hdbg in *.
    destruct (evaluate_reuse true (g_tree g) po t (s_dyn s1)) as [po' d1| | |] eqn:E; try done. specialize (Hev _ eq_refl).
    rewrite remember_core in Hev. cbn in Hev.
    pose proof Hc as (Hs & Hq & Hok & Hdom). unfold s_core in Hs, Hok, Hdom.
    destruct (reuse_confluent_to (g_tree g) po t (s_dyn s1) po' d1 Hw Hcov) as (d2 & E2 & H1 & H2 & H3); [by rewrite Hdom|done|done|].
    destruct (evaluate_same (g_tree g) t (s_dyn s1) (s_dyn s2) d2 Hw) as (d3 & E3 & Hs3); [by rewrite Hdom|done|done|done|].
    rewrite E3. eexists. split; [done|].
    assert (same_state (d_core d1) (d_core d3)) as Hs4.
    { eapply same_state_trans; [|exact Hs3]. split; [done|]. intros b. unfold lst_of. by rewrite H2. }
    pose proof (evaluate_reuse_log _ _ _ _ _ _ _ Hw Hcov E) as (ls & Hl1). pose proof (evaluate_log _ _ _ _ _ Hw E3) as (ls2 & Hl2).
    split; rewrite ?remember_core; cbn;
      try (unfold remember; cbn; destruct (s_cur s1) as [[]|]; cbn; done).
    - by eapply core_agree_after.
    - exists po'. split; [|by eapply evaluate_reuse_covers].
      unfold remembered, remember in *. cbn. by destruct (s_cur s1) as [[]|].
  Qed.

  (** From evaluations to process_model. *)
  Lemma proc_from_eval m1 m2 P1 P2 : order_and_states P1 -> order_and_states P2 ->
    (forall t, mrel (agree P1 P2 X L1 L2) (eval_model (with_mode m1 g) t) (eval_model (with_mode m2 g) t)) ->
    forall t b1 b2, mrelt (fun s1 s2 => agree P1 P2 X L1 L2 s1 s2 /\ (b1 = true \/ states_set s1)) (agree P1 P2 X L1 L2)
      (process_model (with_mode m1 g) t b1 b2) (process_model (with_mode m2 g) t b1 b2).
  Proof.
    intros HP1 HP2 Hev t b1 b2 s1 s2 [Ha _]. revert s1 s2 Ha. change (mrel (agree P1 P2 X L1 L2) (process_model (with_mode m1 g) t b1 b2) (process_model (with_mode m2 g) t b1 b2)).
    unfold process_model. cbn [g_dbg g_tree with_mode]. rewrite Hdbg.
    apply mrel_bnd; [by apply rel_on_core', rel_inputs|intros _].
    apply mrel_bnd; [apply mrel_if; [apply rel_on_core'; [done..|]; apply mrel_bnd; [apply rel_pre_step|intros _; apply rel_snap]|apply mrel_ret]|intros _].
    apply mrel_bnd; [apply Hev|intros _].
    apply mrel_bnd; [apply rel_on_core'; [done..|]; apply rel_snap|intros _]. apply mrel_if; [|apply mrel_ret].
    apply rel_on_core'; [done|done|]. apply mrel_bnd; [apply rel_post_step|intros _; apply rel_snap].
  Qed.

  Lemma agree_swap (P1 P2 P1' P2' : simst D -> Prop) s1 s2 : agree P1 P2 X L1 L2 s1 s2 -> P1' s1 -> P2' s2 -> agree P1' P2' X L1 L2 s1 s2.
  Proof. by intros []. Qed.
  Lemma order_put po p2 cur (s : simst D) : s_core (put_po po p2 cur s) = s_core s.
  Proof. done. Qed.

  (** init *)
  Lemma init_dr t s1 s2 s1' : agree anyst fresh X L1 L2 s1 s2 -> n_states (g_tree g) (s_store s1) ≠ 0 ->
    init gd t s1 = Ok tt s1' -> exists s2', init gr t s2 = Ok tt s2' /\ agree anyst (ordered gr) X L1 L2 s1' s2'.
  Proof.
    intros Ha Hn. unfold init, simulator_init. cbn [g_mode with_mode g_dbg g_tree]. unfold bnd at 1.
    pose proof (rel_base_init g MDefault MReuse anyst fresh any_states fresh_states X L1 L2 t any_order fresh_order s1 s2 Ha) as Hbi.
    destruct (base_init gd t s1) as [[] x1| | |] eqn:E1; try done. destruct Hbi as (x2 & E2 & Ha2).
    unfold bnd at 1, gets. intros Hr. unfold bnd at 1. rewrite E2. unfold bnd at 1, gets.
    destruct (base_init_sv _ _ _ _ _ E1) as [Hsv _]. cbn [g_tree with_mode] in Hsv.
    assert (length (s_sv x2) = length (s_sv x1)) as -> by (by rewrite (ag_sv _ _ _ _ _ _ _ Ha2)).
    destruct (length (s_sv x1)) as [|n] eqn:En; [congruence|].
    pose proof (ag_2 _ _ _ _ _ _ _ Ha2) as (F1 & F2 & F3). unfold bnd in Hr |- *. rewrite F2, F3, Hdbg. cbn in Hr |- *.
    pose proof (proc_from_eval MDefault MReuse anyst (ordered gr) any_states ordered_states eval_rel_dr t true true x1
      (put_po (s_po1 x2 ++ nodes (g_tree g)) (s_po2 x2) (Some true) x2)) as Hp.
    rewrite Hr in Hp. apply Hp. split; [|by left].
    destruct Ha2 as [Hc A1 A2 A3 A4 A5 A6 A7 A8 A9 A10]. split; try done. exists (nodes (g_tree g)).
    split; [unfold remembered; cbn; by rewrite F2|]. by apply covers_perm.
  Qed.
  Lemma init_rd t s1 s2 s1' : agree fresh anyst X L1 L2 s1 s2 ->
    init gr t s1 = Ok tt s1' -> exists s2', init gd t s2 = Ok tt s2' /\ agree (ordered gr) anyst X L1 L2 s1' s2'.
  Proof.
    intros Ha. unfold init, simulator_init. cbn [g_mode with_mode g_dbg g_tree]. unfold bnd at 1.
    pose proof (rel_base_init g MReuse MDefault fresh anyst fresh_states any_states X L1 L2 t fresh_order any_order s1 s2 Ha) as Hbi.
    destruct (base_init gr t s1) as [[] x1| | |] eqn:E1; try done. destruct Hbi as (x2 & E2 & Ha2).
    unfold bnd at 1, gets. intros Hr. unfold bnd at 1. rewrite E2. unfold bnd at 1, gets.
    pose proof (ag_1 _ _ _ _ _ _ _ Ha2) as (F1 & F2 & F3).
    destruct (length (s_sv x1)) as [|n] eqn:En.
    - exfalso. unfold bnd at 1 in Hr. cbn [ret] in Hr. unfold process_model in Hr. unfold bnd at 1 in Hr.
      destruct (on_core' (inputs gr t) x1) as [[] y1| | |] eqn:Ey; try done.
      unfold bnd at 1 in Hr. destruct (on_core' (pre_step (g_dbg gr) (g_tree gr) t ;;; snap (EvBegin t)) y1) as [[] y2| | |] eqn:Ey2; try done.
      assert (s_cur y2 = None) as Hcur.
      { unfold on_core', on_dyn, on_core, lift in Ey, Ey2. destruct (inputs gr t _); try done. injection Ey as _ <-.
        destruct ((pre_step _ _ _ ;;; snap (EvBegin t)) _); try done. by injection Ey2 as _ <-. }
      assert (eval_model gr t y2 = UB UNull) as Hu; [|unfold bnd at 1 in Hr; rewrite Hu in Hr; done].
      unfold eval_model, on_dyn, lift, bnd, gets, modify. cbn. by rewrite Hcur.
    - unfold bnd in Hr |- *. rewrite F2, F3 in Hr. cbn in Hr |- *. rewrite Hdbg in Hr. cbn in Hr.
      pose proof (proc_from_eval MReuse MDefault (ordered gr) anyst ordered_states any_states eval_rel_rd t true true
        (put_po (s_po1 x1 ++ nodes (g_tree g)) (s_po2 x1) (Some true) x1) x2) as Hp.
      rewrite Hr in Hp. apply Hp. split; [|by left].
      destruct Ha2 as [Hc A1 A2 A3 A4 A5 A6 A7 A8 A9 A10]. split; try done. exists (nodes (g_tree g)).
      split; [unfold remembered; cbn; by rewrite F2|]. by apply covers_perm.
  Qed.

  (** runs of an initialised simulator *)
  Lemma init_sets m t s s' : init (with_mode m g) t s = Ok tt s' -> s_init s' = true.
  Proof.
    assert (forall t s s', base_init (with_mode m g) t s = Ok tt s' -> s_init s' = true) as Hbi.
    { intros t0 s0 s0'. unfold base_init, bnd, modify. destruct (clear_all _) as [[] s1| | |]; try done. by intros [= <-]. }
    assert (forall {A} (k : M (simst D) A), pres (evo (with_mode m g)) k -> forall s a s', k s = Ok a s' -> s_init s' = s_init s) as Hk.
    { intros A k Hk s0 a s0' E. specialize (Hk s0). rewrite E in Hk. apply (ev_init _ _ _ Hk). }
    unfold init. destruct m; cbn [g_mode with_mode].
    1,2: unfold simulator_init, bnd at 1; destruct (base_init _ t s) as [[] s1| | |] eqn:E; try done; apply Hbi in E;
      unfold bnd at 1, gets; cbn [g_mode with_mode].
    - unfold bnd. cbn. intros Hp. apply Hk in Hp; [congruence|apply pres_process_model].
    - destruct (length (s_sv s1)).
      + unfold bnd. cbn. intros Hp. apply Hk in Hp; [congruence|apply pres_process_model].
      + unfold bnd. unfold debug_verify, verify, modify, ret. rewrite ?Hdbg. cbn. rewrite Hdbg.
        destruct (s_po1 s1); [|done]. destruct (s_po2 s1); [|done]. cbn.
        intros Hp. apply Hk in Hp; [cbn in Hp; congruence|apply pres_process_model].
    - unfold fast_init, bnd at 1. destruct (base_init _ t s) as [[] s1| | |] eqn:E; try done. apply Hbi in E.
      unfold bnd at 1, gets. unfold bnd at 1. destruct (debug_verify _ _ _ s1) as [[] s2| | |] eqn:E2; try done.
      assert (s2 = s1) as -> by (unfold debug_verify, verify, ret, throw in E2; repeat case_match; by simplify_eq). clear E2.
      unfold bnd at 1. destruct (on_core' (inputs _ t) s1) as [[] s2| | |] eqn:E2; try done.
      apply Hk in E2; [|apply pres_on_core', pres_inputs].
      unfold bnd at 1. destruct (on_core' (pre_step _ _ t ;;; snap _) s2) as [[] s3| | |] eqn:E3; try done.
      apply Hk in E3; [|apply pres_on_core', pres_pre_snap].
      unfold bnd at 1. destruct (on_core' (fast_schedule _ _ t) s3) as [r s4| | |] eqn:E4; try done.
      apply Hk in E4; [|apply pres_on_core', pres_fast_loop].
      unfold bnd at 1, modify. unfold bnd at 1. unfold verify. destruct (Nat.eqb _ _); [|done]. cbn [ret].
      unfold bnd at 1. cbn [on_core' on_dyn on_core lift snap modify]. unfold bnd at 1. destruct (clear_all _) as [[] s5| | |] eqn:E5; try done.
      apply (Hk _ _ (pres_clear_all (with_mode MFast g))) in E5.
      intros Hp. apply Hk in Hp; [cbn in E5; congruence|apply pres_process_model].
  Qed.

  Definition kept (s s' : simst D) : Prop := s_init s = true -> s_init s' = true.
  Local Instance kept_pre : PreOrder kept.
  Proof. split; [intros s Hi; exact Hi|]. intros s1 s2 s3. unfold kept. auto. Qed.
  Lemma run_inited m fuel t lo hi s s' : (forall stp, g_stepper g = Some stp -> stepper_ok stp) ->
    run (with_mode m g) fuel t lo hi s = Ok tt s' -> s_init s' = true.
  Proof.
    intros Hso Hr. destruct (s_init s) eqn:Hi.
    - assert (forall {A} (k : M (simst D) A), pres (evo (with_mode m g)) k -> pres kept k) as Hk.
      { intros A k Hk x. specialize (Hk x). destruct (k x); try done; intros Hx; by rewrite (ev_init _ _ _ Hk). }
      unfold run in Hr. unfold bnd at 1, gets in Hr. rewrite Hi in Hr. cbn [negb] in Hr.
      match type of Hr with ?k s = _ => assert (pres kept k) as Hp end.
      { apply pres_bnd; [apply _|apply (pres_gets _ (fun s => length (s_sv s)))|intros n].
        apply pres_bnd; [apply _|apply (pres_gets _ s_tprev)|intros tp].
        apply pres_bnd; [apply _| |intros _].
        { destruct n; [apply pres_ret, _|]. apply pres_if; [apply pres_throw, _|]. apply pres_if.
          - apply pres_bnd; [apply _|apply Hk, pres_begin_step|intros _].
            apply pres_bnd; [apply _|apply (pres_gets _ s_sv)|intros o]. apply pres_bnd; [apply _|apply Hk, pres_get_sv|intros x].
            apply pres_modify. intros x0 Hx. exact Hx.
          - apply pres_bnd; [apply _|apply pres_debug, _|intros _]. apply pres_bnd; [apply _|apply pres_debug, _|intros _].
            apply pres_bnd; [apply _|apply pres_debug, _|intros _]. by apply Hk, pres_run_loop. }
        apply pres_bnd; [apply _|apply (pres_gets _ s_sv)|intros sv]. apply pres_bnd; [apply _|apply Hk, pres_reset_sv|intros _].
        apply pres_bnd; [apply _|apply Hk, pres_process_model|intros _]. apply pres_modify. intros x0 Hx. exact Hx. }
      specialize (Hp s). rewrite Hr in Hp. by apply Hp.
    - unfold run, bnd, gets in Hr. rewrite Hi in Hr. cbn in Hr. by eapply init_sets.
  Qed.
  Context (Hso : forall stp, g_stepper g = Some stp -> stepper_ok stp).
  (** Sequences of runs from states that agree. *)
  Lemma runs_rel m1 m2 P1 P2 fuel ops : order_and_states P1 -> order_and_states P2 ->
    (forall t b1 b2, mrelt (fun s1 s2 => agree P1 P2 X L1 L2 s1 s2 /\ (b1 = true \/ states_set s1)) (agree P1 P2 X L1 L2)
      (process_model (with_mode m1 g) t b1 b2) (process_model (with_mode m2 g) t b1 b2)) ->
    forall s1 s2 s1', agree P1 P2 X L1 L2 s1 s2 -> s_init s1 = true -> runs (with_mode m1 g) fuel ops s1 = Ok tt s1' ->
    exists s2', runs (with_mode m2 g) fuel ops s2 = Ok tt s2' /\ agree P1 P2 X L1 L2 s1' s2'.
  Proof.
    intros H1 H2 Hp. induction ops as [|[[t lo] hi] ops IH]; intros s1 s2 s1' Ha Hi Hr; unfold runs in *; cbn in Hr |- *.
    - injection Hr as <-. eauto.
    - unfold bnd in Hr |- *. destruct (run (with_mode m1 g) fuel t lo hi s1) as [[] x1| | |] eqn:E; try done.
      destruct (rel_run g m1 m2 Hdbg Hstp P1 P2 H1 H2 X L1 L2 Hp fuel t lo hi s1 s2 x1 Ha Hi E) as (x2 & -> & Hx).
      apply (IH x1 x2 s1' Hx); [|done]. by eapply run_inited.
  Qed.
  Lemma runs_dr fuel ops s1 s2 s1' : agree anyst fresh X L1 L2 s1 s2 -> s_init s1 = false -> n_states (g_tree g) (s_store s1) ≠ 0 -> ops ≠ [] ->
    runs gd fuel ops s1 = Ok tt s1' -> exists s2', runs gr fuel ops s2 = Ok tt s2' /\ agree anyst (ordered gr) X L1 L2 s1' s2'.
  Proof.
    intros Ha Hi Hn Ho Hr. destruct ops as [|[[t lo] hi] ops]; [done|]. unfold runs in *. cbn in Hr |- *. unfold bnd in Hr |- *.
    assert (s_init s2 = false) as Hi2 by (by rewrite <- (ag_init _ _ _ _ _ _ _ Ha)).
    assert (run gd fuel t lo hi s1 = init gd t s1) as E1 by (unfold run, bnd, gets; by rewrite Hi).
    assert (run gr fuel t lo hi s2 = init gr t s2) as E2 by (unfold run, bnd, gets; by rewrite Hi2).
    rewrite E1 in Hr. rewrite E2. destruct (init gd t s1) as [[] x1| | |] eqn:E; try done.
    destruct (init_dr t s1 s2 x1 Ha Hn E) as (x2 & -> & Hx).
    apply (runs_rel MDefault MReuse anyst (ordered gr) fuel ops any_states ordered_states
      (proc_from_eval MDefault MReuse _ _ any_states ordered_states eval_rel_dr) x1 x2 s1' Hx); [|done].
    by apply (init_sets MDefault t s1).
  Qed.
  Lemma runs_rd fuel ops s1 s2 s1' : agree fresh anyst X L1 L2 s1 s2 -> s_init s1 = false -> ops ≠ [] ->
    runs gr fuel ops s1 = Ok tt s1' -> exists s2', runs gd fuel ops s2 = Ok tt s2' /\ agree (ordered gr) anyst X L1 L2 s1' s2'.
  Proof.
    intros Ha Hi Ho Hr. destruct ops as [|[[t lo] hi] ops]; [done|]. unfold runs in *. cbn in Hr |- *. unfold bnd in Hr |- *.
    assert (s_init s2 = false) as Hi2 by (by rewrite <- (ag_init _ _ _ _ _ _ _ Ha)).
    assert (run gr fuel t lo hi s1 = init gr t s1) as E1 by (unfold run, bnd, gets; by rewrite Hi).
    assert (run gd fuel t lo hi s2 = init gd t s2) as E2 by (unfold run, bnd, gets; by rewrite Hi2).
    rewrite E1 in Hr. rewrite E2. destruct (init gr t s1) as [[] x1| | |] eqn:E; try done.
    destruct (init_rd t s1 s2 x1 Ha E) as (x2 & -> & Hx).
    apply (runs_rel MReuse MDefault (ordered gr) anyst fuel ops ordered_states any_states
      (proc_from_eval MReuse MDefault _ _ ordered_states any_states eval_rel_rd) x1 x2 s1' Hx); [|done].
    by apply (init_sets MReuse t s1).
  Qed.
End reuse.
