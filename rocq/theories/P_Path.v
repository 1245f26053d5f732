(** From the loop of run to calls of run. *)
From stdpp Require Import prelude gmap.
From Coq Require Import ZArith.
From Verif Require Import Num Res Store Leaf Sched Stepper Sim World Api SpecSched P_Store P_Prog P_Modes P_Conf P_Sched P_Eval P_Lib P_Fast P_Sim P_Evolve SpecSim P_World P_Compile
  P_Simulated P_Rel P_Rel2 SpecHist P_Trace SpecRun P_Log P_Run P_Pack P_Repeat Props_Pack SpecBlock SpecAgain P_Over P_Redo Props_Again SpecField P_Field P_FieldRun.
Local Open Scope nat_scope.
Local Open Scope num_scope.

Section path.
  Context {D : Type} `{NumOps D}.
  Implicit Types (g : cfg D) (s : simst D).
  Lemma session_shape w b g s : session_of w b g s -> shape (g_dbg g) (initial_store w) (s_store s).
  Proof.
    intros (_ & _ & _ & Hstp & g0 & s0 & Hs0 & Hses).
    assert (forall stp, g_stepper g = Some stp -> stepper_rel stp) as Hrel by (intros stp E; by destruct (Hstp stp E)).
    destruct (simulated_comes _ _ _ _ _ Hs0) as [_ Hd].
    assert (comes (g_dbg g) (initial_dyn w) s) as [Hsh _]; [|exact Hsh].
    clear Hstp Hs0. induction Hses as [t s Hi|s fuel t lo hi s' _ IH Hr].
    - eapply (comes_pres _ _ g eq_refl); [apply (pres_init g t)| |exact Hi]. exact Hd.
    - eapply (comes_run _ _ g eq_refl Hrel); [exact IH|exact Hr].
  Qed.
  Lemma untried_moves (v : list (event D)) b : untried v -> moves_in b (marks v) = [].
  Proof.
    unfold untried. revert b. induction v as [|e v IH]; intros b; [done|]. cbn [forallb]. intros [He Hv]%andb_true_iff.
    unfold marks. cbn [List.filter]. change (List.filter is_mark v) with (marks v). destruct (is_mark e); [|by apply IH]. destruct e; try done; cbn; by apply IH.
  Qed.
  Lemma session_held w b g s zs : session_of w b g s -> g_dbg g = true -> (forall z, z ∈ zs -> integral g z) -> held g (s_core s) zs (pack (s_store s) zs).
  Proof.
    intros Hs Hg Hz. pose proof (session_wf _ _ _ _ Hs) as Hw. pose proof Hs as (_ & _ & _ & Hstp & g0 & s0 & Hs0 & Hses).
    destruct Hses as [t s Hi|s fuel t lo hi s' Hses Hr].
    - unfold init in Hi. assert (exists s1, process_model g t true true s1 = Ok tt s) as [s1 Hp]; [|by eapply post_held].
      destruct (g_mode g).
      1,2: unfold simulator_init in Hi; unfold bnd in Hi;
        repeat match type of Hi with match ?m with _ => _ end = _ => destruct m as [? ?| | |]; try done end; eauto.
      unfold fast_init in Hi. unfold bnd in Hi.
      repeat match type of Hi with match ?m with _ => _ end = _ => destruct m as [? ?| | |]; try done end; eauto.
    - assert (s_init s = true) as Hin.
      { assert (session_of w b g s) as Hs1. { destruct Hs as (H1 & H2 & H3 & H4 & _). split_and!; try done. by exists g0, s0. } by destruct (session_of_packed _ _ _ _ Hs1). }
      unfold run in Hr. unfold bnd at 1, gets at 1 in Hr. rewrite Hin in Hr. cbn [negb] in Hr.
      unfold bnd at 1, gets at 1 in Hr. unfold bnd at 1, gets at 1 in Hr. unfold bnd at 1 in Hr.
      match type of Hr with match ?m with _ => _ end = _ => destruct m as [[] s1| | |]; try done end.
      unfold bnd at 1, gets at 1 in Hr. unfold bnd at 1 in Hr. destruct (reset_sv g (s_sv s1) s1) as [[] s2| | |]; try done.
      unfold bnd at 1 in Hr. match type of Hr with match ?m with _ => _ end = _ => destruct m as [[] s3| | |] eqn:E3; try done end.
      injection Hr as <-. change (s_core (put_tprev t s3)) with (s_core s3). change (s_store (put_tprev t s3)) with (s_store s3). by eapply post_held.
  Qed.
  Lemma moves_attempts b (v : list (event D)) : attempts_in v = map (fun a => Attempt (mv_from a) (mv_to a) (mv_new a) (mv_ok a)) (moves_in b v).
  Proof. revert b. induction v as [|e v IH]; intros b; [done|]. destruct e; cbn; try apply IH. f_equal. apply IH. Qed.
  Lemma chained_last t x (ms : list (move D)) t' x' : chained t x ms t' x' ->
    t' = default t (last (map at_to (List.filter at_ok (map (fun a => Attempt (mv_from a) (mv_to a) (mv_new a) (mv_ok a)) ms)))).
  Proof.
    revert t x. induction ms as [|a ms IH]; intros t x; cbn; [by intros [-> _]|]. intros (_ & _ & Hc). destruct (mv_ok a); [|by eapply IH].
    cbn [map at_to]. rewrite (IH _ _ Hc), last_cons. by destruct (last _).
  Qed.

  Lemma run_moves w b g s stp fuel t lo hi s' : session_of w b g s -> g_dbg g = true -> (forall l, l ∈ leaves (g_tree g) -> steady_class l) ->
    derivs_fit (initial_store w) -> g_stepper g = Some stp -> run g fuel t lo hi s = Ok tt s' ->
    exists v, s_log s' = s_log s ++ v /\ Forall (along (initial_store w) g (layout s) stp) (moves v) /\
      (s_sv s ≠ [] -> (s_tprev s <? t) = true -> (t =? s_tprev s) = false -> (forall z, z ∈ layout s -> integral g z) ->
       exists te, (te <? t) = false /\ last (accepted_ends v) = Some te /\ chained (s_tprev s) (pack (s_store s) (layout s)) (moves v) te (pack (s_store s') (layout s))).
  Proof.
    intros Hs Hg Hst Hfit Es Hr. destruct (session_of_packed _ _ _ _ Hs) as [Hp Hi].
    pose proof (session_ready _ _ _ _ Hs Hg) as Hrd. pose proof (session_wf _ _ _ _ Hs) as Hw. pose proof Hs as (_ & _ & _ & Hstp & _).
    pose proof (session_shape _ _ _ _ Hs) as Hsh0. pose proof (fit_shape _ _ _ Hsh0 Hfit) as Hfit1. destruct (Hstp stp Es) as [Hok Hrel].
    assert (forall v : list (event D), untried v -> moves v = []) as Hnil. { intros v Hv. by apply untried_moves. }
    pose proof Hr as Hr0.
    unfold run in Hr. unfold bnd at 1, gets at 1 in Hr. rewrite Hi in Hr. cbn [negb] in Hr.
    unfold bnd at 1, gets at 1 in Hr. unfold bnd at 1, gets at 1 in Hr. unfold bnd at 1 in Hr.
    destruct (length (s_sv s)) as [|n] eqn:El.
    { unfold ret at 1 in Hr. assert (adds (first_at g t) (sv <~ gets s_sv ;; reset_sv g sv ;;; process_model g t true true ;;; modify (put_tprev t))) as Ha.
      { apply adds_skip; [apply adds_gets|intros sv]. apply adds_skip; [apply adds_reset|intros _].
        eapply (adds_bnd _ nothing); [apply adds_first|intros _; by apply adds_modify|]. intros u1 u2 Hu ->. by rewrite app_nil_r. }
      destruct (Ha _ _ _ Hr) as (v & Ev & Hv). exists v. split; [done|]. rewrite Hnil by (by eapply first_untried). split; [constructor|].
      intros Hn. by apply nil_length_inv in El. }
    destruct (t <? s_tprev s); [done|].
    assert (adds (major_at g t) (sv <~ gets s_sv ;; reset_sv g sv ;;; process_model g t false true ;;; modify (put_tprev t))) as Ha.
    { apply adds_skip; [apply adds_gets|intros sv]. apply adds_skip; [apply adds_reset|intros _].
      eapply (adds_bnd _ nothing); [apply adds_major|intros _; by apply adds_modify|]. intros u1 u2 Hu ->. by rewrite app_nil_r. }
    destruct (t =? s_tprev s).
    { unfold bnd at 1 in Hr. destruct (begin_step g t s) as [[] s0| | |] eqn:Eb; try done.
      unfold bnd at 1, gets at 1 in Hr. unfold bnd at 1 in Hr. destruct (get_sv g (s_sv s0) s0) as [x s1| | |] eqn:Eg; try done.
      pose proof (get_sv_same _ _ _ _ _ Eg) as ->. unfold modify at 1 in Hr. destruct (Ha _ _ _ Hr) as (v & Ev & v1 & v2 & -> & H1 & H2).
      destruct (adds_begin g t _ _ _ Eb) as (v0 & Ev0 & σ0 & ms0 & ->). eexists. split; [rewrite Ev; change (s_log (put_sv x s0)) with (s_log s0); by rewrite Ev0, <- app_assoc|].
      destruct H1 as (acts & σ1 & ms1 & ->), H2 as (σ2 & ms2 & ->). rewrite Hnil; [split; [constructor|done]|].
      change (untried (([EvInputs t] ++ map (fun b => EvPre b t) (map l_id (leaves (g_tree g))) ++ [EvBegin t σ0 ms0]) ++
        ([EvInputs t] ++ map (fun b => EvAct b t) acts ++ [EvEval t σ1 ms1]) ++ map (fun b => EvPost b t) (map l_id (leaves (g_tree g))) ++ [EvStep t σ2 ms2])).
      repeat apply untried_app; try done; by apply untried_map. }
    match type of Hr with match ?m s with _ => _ end = _ => destruct (m s) as [[] s1| | |] eqn:E1; try done end.
    assert (exists w, s_log s1 = s_log s ++ w /\ run_loop g fuel t lo hi (s_tprev s) t false s = Ok tt s1) as (lw & Elw & El1).
    { unfold bnd, debug_verify, verify, ret, throw in E1. rewrite Hg, Es in E1. destruct (n0 <? lo); [|done].
      destruct (lo <? hi); [|done]. destruct (adds_loop g (fun stp0 E => proj2 (Hstp stp0 E)) _ _ _ _ _ _ _ _ _ _ E1) as (w1 & Ew1 & _). by exists w1. }
    destruct (Ha _ _ _ Hr) as (v & Ev & v1 & v2 & -> & H1 & H2). exists (lw ++ v1 ++ v2). split; [by rewrite Ev, Elw, <- app_assoc|].
    destruct (loop_moves g Hw Hg (fun l Hl => steady_library l (Hst l Hl)) stp Es Hok Hrel (initial_store w) (layout s) fuel t lo hi (s_tprev s) t false s s1) as (u & Eu & _ & _ & Hre); [done..|].
    rewrite Elw, marks_app in Eu. apply app_inv_head in Eu.
    assert (after (marks (v1 ++ v2))) as Haf.
    { destruct H1 as (acts & σ1 & ms1 & ->), H2 as (σ2 & ms2 & ->).
      change (EvInputs t :: map (fun b => EvAct b t) acts ++ [EvEval t σ1 ms1]) with ([EvInputs t] ++ map (fun b => EvAct b t) acts ++ [EvEval t σ1 ms1]).
      rewrite !marks_app, !marks_one, !marks_quiet by done. done. }
    destruct (Hre _ Haf) as [Hal Hch]. unfold moves. rewrite marks_app, Eu. split; [exact Hal|].
    intros Hn Htp _ Hint. destruct (Hch Htp Hint (pack (s_store s) (layout s))) as (te & Hte & Hc); [by eapply session_held|].
    exists te. split; [done|]. split.
    { unfold accepted_ends, attempts. rewrite marks_app, Eu, (moves_attempts None). pose proof (chained_last _ _ _ _ _ Hc) as E.
      destruct (last _) as [e|]; cbn in E; [by rewrite E|]. congruence. }
    assert (pack (s_store s') (layout s) = s_sv s1) as ->; [|exact Hc].
    assert (packed g s1) as Hp1. { eapply packed_loop; [|exact Hp|exact El1]. intros stp' E'. by destruct (Hstp stp' E'). }
    unfold bnd at 1, gets at 1 in Hr. unfold bnd at 1 in Hr. destruct (reset_ok g (s_sv s1) s1 Hp1 eq_refl) as (s2 & E2 & Hpk & Hset & _).
    rewrite E2 in Hr. unfold bnd at 1 in Hr. destruct (process_model g t false true s2) as [[] s3| | |] eqn:E3; try done. injection Hr as <-.
    change (s_store (put_tprev t s3)) with (s_store s3).
    assert (pres (evo g) (run_loop g fuel t lo hi (s_tprev s) t false)) as Hpl. { apply pres_run_loop. intros stp' E'. by destruct (Hstp stp' E'). }
    specialize (Hpl s). rewrite El1 in Hpl. pose proof (pres_reset_sv g (s_sv s1) s1) as V2. rewrite E2 in V2.
    assert (layout s1 = layout s) as L1. { unfold layout. by rewrite (ev_scal _ _ _ Hpl), (ev_arr _ _ _ Hpl). }
    assert (layout s2 = layout s) as L2. { unfold layout. rewrite (ev_scal _ _ _ V2), (ev_arr _ _ _ V2). exact L1. }
    unfold layout in L1. rewrite L1 in Hpk. rewrite <- Hpk. apply ext_pack.
    { pose proof (P_Grow.grow_process g Hg t false true s2) as Hgr. rewrite E3 in Hgr. exact Hgr. }
    destruct Hset as [K1 K2]. change (s_scal s ++ s_arr s) with (layout s). rewrite <- L2. unfold layout. intros z [Hz'|Hz']%elem_of_app; [destruct (K1 z Hz'); eauto|destruct (K2 z Hz') as (? & ? & _); eauto].
  Qed.
End path.
