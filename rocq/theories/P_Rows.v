(** The rows of a table and the steps of the simulation. *)
From stdpp Require Import prelude gmap.
From Coq Require Import ZArith NArith.
From Verif Require Import Num NumOrd NumAdd Res Store Leaf Sched Stepper Sim World Api Hist P_Store P_Prog P_Sched P_Modes P_Evolve P_Rel P_Rel2 P_Log P_Compile P_Lib P_Grow P_Trace P_Life SpecHist SpecRun SpecBlock SpecRec SpecSched SpecSim SpecSafe SpecGoes SpecGoes2 SpecLint
  P_Goes P_Goes2 P_Goes3 P_Goes4 P_Goes6 P_Simulated SpecTable SpecRows P_Table Props_Block P_Pack P_Redo.
Local Open Scope nat_scope.

Lemma marks_app {D} (u v : list (event D)) : marks (u ++ v) = marks u ++ marks v.
Proof. unfold marks. apply List.filter_app. Qed.
Lemma marks_map {D A} (f : A -> event D) l : (forall a, is_mark (f a) = false) -> marks (map f l) = [].
Proof. intros Hf. induction l as [|a l IH]; [done|]. unfold marks in *. cbn. by rewrite Hf. Qed.

Section split.
  Context {D : Type} `{NumOps D} (g : cfg D).
  (** An evaluation with post_step: evaluation, post_step. *)
  Lemma process_split t b1 s s' : process_model g t b1 true s = Ok tt s' ->
    exists s4 X ms ms', process_model g t b1 false s = Ok tt s4 /\ marks (s_log s4) = X ++ [EvEval t (s_store s4) ms] /\
      marks (s_log s') = marks (s_log s4) ++ [EvStep t (s_store s') ms'].
  Proof.
    unfold process_model at 1. unfold bnd at 1. destruct (on_core' (inputs g t) s) as [[] s1| | |] eqn:E1; try done.
    unfold bnd at 1. destruct ((if b1 then on_core' (pre_step (g_dbg g) (g_tree g) t ;;; snap (EvBegin t)) else ret tt) s1) as [[] s2| | |] eqn:E2; try done.
    unfold bnd at 1. destruct (eval_model g t s2) as [[] s3| | |] eqn:E3; try done.
    unfold bnd at 1. destruct (on_core' (snap (EvEval t)) s3) as [[] s4| | |] eqn:E4; try done. intros E5.
    assert (exists ms, s_log s4 = s_log s3 ++ [EvEval t (s_store s4) ms]) as [ms L4].
    { unfold on_core', on_dyn, on_core, lift, snap, emit, modify, bnd, gets in E4. cbn in E4. injection E4 as <-. eexists. reflexivity. }
    assert (exists ms, s_log s' = s_log s4 ++ map (fun b => EvPost b t) (map l_id (leaves (g_tree g))) ++ [EvStep t (s_store s') ms]) as [ms' L5].
    { destruct (adds_post g t s4 tt s' E5) as (v & Hv & σ & ms5 & ->).
      assert (exists L ms, s_log s' = L ++ [EvStep t (s_store s') ms]) as (L & ms' & Hl).
      { unfold on_core', on_dyn, on_core, lift, bnd in E5. destruct (post_step _ _ _ _) as [[] c5| | |]; try done. unfold snap, emit, modify, bnd, gets in E5. injection E5 as <-. eexists _, _. reflexivity. }
      exists ms'. rewrite Hv in Hl |- *. rewrite app_assoc in Hl. apply app_inj_tail in Hl as [_ Hl]. by rewrite Hl. }
    exists s4, (marks (s_log s3)), ms, ms'. split; [unfold process_model; unfold bnd at 1; rewrite E1; unfold bnd at 1; rewrite E2; unfold bnd at 1; rewrite E3; unfold bnd at 1; by rewrite E4|]. split; [by rewrite L4, marks_app|]. rewrite L5, !marks_app. by rewrite marks_map.
  Qed.
End split.

Section logs.
  Context {D : Type} `{NumOps D} (g : cfg D).
  Notation ids := (map l_id (leaves (g_tree g))).
  Lemma first_steps t v : first_at g t v -> exists σ, steps (marks v) = [(t, σ)].
  Proof.
    intros (v1 & acts & σ & ms & v2 & -> & (σ0 & ms0 & ->) & (σ2 & ms2 & ->)). exists σ2.
    change (EvInputs t :: map (fun b => EvPre b t) ids ++ [EvBegin t σ0 ms0]) with ([EvInputs t] ++ map (fun b => EvPre b t) ids ++ [EvBegin t σ0 ms0]).
    rewrite !marks_app, !(marks_map (fun b => EvPre b t)), (marks_map (fun b => EvAct b t)), (marks_map (fun b => EvPost b t)); done.
  Qed.
  (** In a model without states a call of run is one step. *)
  Lemma run_steps fuel t lo hi s s' : s_init s = true -> length (s_sv s) = 0 -> run g fuel t lo hi s = Ok tt s' ->
    exists σ, steps (marks (s_log s')) = steps (marks (s_log s)) ++ [(t, σ)].
  Proof.
    intros Hi Hn. unfold run. unfold bnd at 1, gets at 1. rewrite Hi. cbn [negb]. unfold bnd at 1, gets at 1. unfold bnd at 1, gets at 1. rewrite Hn. unfold bnd at 1, ret at 1. intros E.
    assert (adds (first_at g t) (sv <~ gets s_sv ;; reset_sv g sv ;;; process_model g t true true ;;; modify (put_tprev t))) as Ha.
    { apply adds_skip; [apply adds_gets|intros sv]. apply adds_skip; [apply adds_reset|intros _].
      eapply (adds_bnd _ nothing); [apply adds_first| |intros v1 v2 Hv ->; by rewrite app_nil_r]. intros _. by apply adds_modify. }
    destruct (Ha _ _ _ E) as (v & -> & Hv). destruct (first_steps t v Hv) as [σ Hσ]. exists σ. rewrite marks_app, steps_app. by rewrite Hσ.
  Qed.
  Lemma init_steps t s s' : init g t s = Ok tt s' -> exists σ, steps (marks (s_log s')) = steps (marks (s_log s)) ++ [(t, σ)].
  Proof.
    assert (adds (fun v => exists σ, steps (marks v) = [(t, σ)]) (init g t)) as Ha.
    2:{ intros E. destruct (Ha _ _ _ E) as (v & -> & σ & Hv). exists σ. rewrite marks_app, steps_app. by rewrite Hv. }
    assert (adds (fun v => exists σ, steps (marks v) = [(t, σ)]) (simulator_init g t)) as Hsim.
    { unfold simulator_init. apply adds_skip; [apply adds_base|intros _]. apply adds_skip; [apply adds_gets|intros n].
      apply adds_skip.
      - destruct (g_mode g); try apply adds_ret. destruct n; [apply adds_ret|].
        apply adds_skip; [apply adds_gets|intros p1]. apply adds_skip; [apply adds_gets|intros p2].
        apply adds_skip; [apply adds_debug|intros _]. apply adds_skip; [apply adds_debug|intros _]. by apply adds_modify.
      - intros _. eapply adds_weak; [|apply adds_first]. apply first_steps. }
    unfold init. destruct (g_mode g); [exact Hsim|exact Hsim|].
    assert (forall v1 v2 : list (event D), steps (marks v1) = [] -> (exists σ, steps (marks v2) = [(t, σ)]) -> exists σ, steps (marks (v1 ++ v2)) = [(t, σ)]) as Hap.
    { intros v1 v2 E1 [σ E2]. exists σ. by rewrite marks_app, steps_app, E1, E2. }
    set (P := fun v : list (event D) => exists σ, steps (marks v) = [(t, σ)]) in *.
    unfold fast_init. apply adds_skip; [apply adds_base|intros _]. apply adds_skip; [apply adds_gets|intros n].
    apply adds_skip; [apply adds_debug|intros _].
    eapply (adds_bnd _ P); [apply adds_inputs| |intros v1 v2 -> Hv; apply (Hap [EvInputs t]); [done|exact Hv]]. intros _.
    eapply (adds_bnd _ P); [apply adds_pre| |intros v1 v2 (σ & ms & ->) Hv; apply Hap; [by rewrite marks_app, marks_map|exact Hv]]. intros _.
    eapply (adds_bnd (fun v => exists acts, v = map (fun b => EvAct b t) acts) P).
    - apply adds_core. intros c r c' Hr. pose proof (acted_fast_loop t (g_dbg g) (S (length (leaves (g_tree g)))) (leaves (g_tree g)) [] 0 c) as Hp.
      unfold fast_schedule in Hr. rewrite Hr in Hp. destruct Hp as [acts E]. eexists. split; [exact E|]. by exists acts.
    - intros r. apply adds_skip; [by apply adds_modify|intros _]. apply adds_skip; [apply adds_verify|intros _].
      eapply (adds_bnd _ P); [apply (adds_snap (EvEval t))| |intros v1 v2 (σ & ms & ->) Hv; apply (Hap [_]); [done|exact Hv]]. intros _.
      apply adds_skip; [apply adds_clear|intros _]. eapply adds_weak; [apply first_steps|apply adds_first].
    - intros v1 v2 (acts & ->) Hv. apply Hap; [by rewrite marks_map|done].
  Qed.
End logs.

(** What the callbacks of the input signals return shows in the signals. *)
Section given.
  Context {D : Type} `{NumOps D} (g : cfg D) (Hw : wf_tree (g_tree g)) (Hg : g_dbg g = true).
  Lemma inputs_shown t c c' τ : inputs g t c = Ok tt c' -> ext (k_store c') τ -> supplied g t τ.
  Proof.
    unfold inputs. rewrite Hg. unfold bnd, emit, modify, on_store, lift, supplied. destruct (g_inputs g) as [f|]; cbn [k_store].
    - destruct (run_prog true (f t) _) as [[] σ1| | |] eqn:E1; try done. cbn [k_store]. destruct (run_prog true _ σ1) as [[] σ2| | |] eqn:E2; try done.
      intros [= <-] He. cbn [k_store] in He. split; [|by eapply run_prog_shows]. intros f' [= <-]. eapply run_prog_shows; [exact E1|]. eapply ext_trans; [by eapply run_prog_ext|done].
    - unfold ret. cbn [k_store]. destruct (run_prog true _ _) as [[] σ2| | |] eqn:E2; try done.
      intros [= <-] He. cbn [k_store] in He. split; [done|]. by eapply run_prog_shows.
  Qed.
  Lemma each_ext ev p ls e (c c' : core D) : (each true ev p ls ;;; snap e) c = Ok tt c' -> NoDup (map l_id ls) -> ext (k_store c) (k_store c').
  Proof.
    unfold bnd at 1. destruct (each _ _ _ _ c) as [[] c1| | |] eqn:Ee; try done. intros [= <-] Hn.
    destruct (each_spec _ _ _ _ _ Ee Hn) as (H1 & _). exact H1.
  Qed.
  Lemma process_given t b1 s s' : P_Trace.ready g s -> process_model g t b1 true s = Ok tt s' -> supplied g t (s_store s').
  Proof.
    intros Hr. unfold process_model. unfold bnd at 1. destruct (on_core' (inputs g t) s) as [[] s1| | |] eqn:E1; try done.
    unfold bnd at 1. destruct ((if b1 then on_core' (pre_step (g_dbg g) (g_tree g) t ;;; snap (EvBegin t)) else ret tt) s1) as [[] s2| | |] eqn:E2; try done.
    unfold bnd at 1. destruct (eval_model g t s2) as [[] s3| | |] eqn:E3; try done.
    unfold bnd at 1. destruct (on_core' (snap (EvEval t)) s3) as [[] s4| | |] eqn:E4; try done. intros E5.
    assert (P_Trace.ready g s1) as Hr1. { eapply (ready_evo g Hw); [|exact Hr]. pose proof (pres_on_core' g _ (pres_inputs g t) s) as Hp. by rewrite E1 in Hp. }
    assert (P_Trace.ready g s2) as Hr2.
    { eapply (ready_evo g Hw); [|exact Hr1]. destruct b1; [|by injection E2 as <-]. pose proof (pres_on_core' g _ (pres_pre_snap (g_dbg g) (g_tree g) t (EvBegin t)) s1) as Hp. by rewrite E2 in Hp. }
    destruct (eval_ext g Hw Hg t s2 s3 Hr2 E3) as [X3 _].
    assert (ext (s_store s1) (s_store s2)) as X2.
    { destruct b1; [|injection E2 as <-; apply ext_refl]. unfold on_core', on_dyn, on_core, lift in E2.
      destruct ((pre_step (g_dbg g) (g_tree g) t ;;; snap (EvBegin t)) (d_core (s_dyn s1))) as [[] c2| | |] eqn:Ec; try done. injection E2 as <-. rewrite Hg in Ec.
      assert ((each true (fun b => EvPre b t) (fun l => pre l t) (leaves (g_tree g)) ;;; snap (EvBegin t)) (d_core (s_dyn s1)) = Ok tt c2) as Ec'. { unfold bnd at 1. rewrite <- pre_each. exact Ec. }
      exact (each_ext _ _ _ _ _ _ Ec' (wf_leaves _ Hw)). }
    assert (s_store s4 = s_store s3) as X4. { unfold on_core', on_dyn, on_core, lift, snap, emit, modify, bnd, gets in E4. injection E4 as <-. done. }
    assert (ext (s_store s4) (s_store s')) as X5.
    { unfold on_core', on_dyn, on_core, lift in E5.
      destruct ((post_step (g_dbg g) (g_tree g) t ;;; snap (EvStep t)) (d_core (s_dyn s4))) as [[] c5| | |] eqn:Ec; try done. injection E5 as <-. rewrite Hg in Ec.
      assert ((each true (fun b => EvPost b t) (fun l => post l t) (leaves (g_tree g)) ;;; snap (EvStep t)) (d_core (s_dyn s4)) = Ok tt c5) as Ec'. { unfold bnd at 1. rewrite <- post_each. exact Ec. }
      exact (each_ext _ _ _ _ _ _ Ec' (wf_leaves _ Hw)). }
    unfold on_core', on_dyn, on_core, lift in E1. destruct (inputs g t (d_core (s_dyn s))) as [[] c1| | |] eqn:Ec; try done. injection E1 as <-.
    eapply inputs_shown; [exact Ec|]. eapply ext_trans; [exact X2|]. eapply ext_trans; [exact X3|]. rewrite <- X4. exact X5.
  Qed.
End given.

Section rows.
  Context {D : Type} `{NumOps D} {Hord : NumOrd D} {Hadd : NumAdd D} (w : world D) (b : bid) (g : cfg D) (ins1 ins2 : list nat).
  Context (Hc : checked w b g ins1 ins2).
  Notation K := (sig_kinds w).
  Notation dv := (sig_derivs w).
  Notation y := (lib (sig_kinds w)).
  Notation nxt := (later (g_tree g)).
  Let Hs : sane g K dv nxt y ins1 ins2 := checked_sane w b g ins1 ins2 Hc.
  (** The record ends with an evaluation, in which nothing was missing, and the end of a
      step, at which the signals were what they are now. *)
  Definition row_end (t : D) (s : simst D) (X : list (event D)) : Prop :=
    exists (σe : store D) ms ms', marks (s_log s) = X ++ [EvEval t σe ms; EvStep t (s_store s) ms'] /\ (forall x, x ∈ made ins1 ins2 y (g_tree g) -> assigned σe x = true) /\ supplied g t (s_store s).
  Lemma sorted_facts ls : sorted g y ins1 ins2 ls -> NoDup ls /\ forall l, l ∈ ls -> l ∈ leaves (g_tree g).
  Proof.
    induction 1 as [|ls l Hso IH Hin Hl Hni _]; [split; [constructor|by intros l Hl%elem_of_nil]|]. destruct IH as [IH1 IH2]. split.
    - apply NoDup_app. split; [done|]. split; [|apply NoDup_singleton]. intros x Hx Hx'. apply elem_of_list_singleton in Hx' as ->. done.
    - intros x [Hx|Hx]%elem_of_app; [by apply IH2|]. by apply elem_of_list_singleton in Hx as ->.
  Qed.
  Lemma sound_ready s : sound g y ins1 ins2 s -> P_Trace.ready g s.
  Proof.
    intros [_ Ho]. unfold P_Trace.ready, order_ok in *. destruct (g_mode g); [done|right; apply Ho|].
    destruct Ho as [Hso Hall]. destruct (sorted_facts _ Hso) as [Hn Hin]. apply NoDup_Permutation; [done| |].
    - eapply NoDup_fmap_1, wf_leaves, (sn_wf _ _ _ _ _ _ _ Hs).
    - intros l. split; [apply Hin|apply Hall].
  Qed.
  Lemma process_row τ t (b1 : bool) s s' : sound g y ins1 ins2 s -> fine g K dv y τ (s_core s) -> has g y ins1 ins2 (s_core s) (fun x => if b1 then False else x ∈ concat (map (y_pre y) (leaves (g_tree g)))) ->
    process_model g t b1 true s = Ok tt s' -> exists X, row_end t s' X.
  Proof.
    intros Hso Hf Hh E. destruct (process_split g t b1 s s' E) as (s4 & X & ms & ms' & E4 & L4 & L5).
    destruct (process_ok g K dv nxt y ins1 ins2 Hs τ t s b1 false Hso Hf Hh) as (s4' & E4' & _ & _ & _ & Hh4 & _); [done|].
    assert (s4' = s4) as -> by congruence. exists X, (s_store s4), ms, ms'. rewrite L5, L4, <- app_assoc. split; [done|]. split; [intros x Hx; by apply (Hh4 x Hx)|].
    eapply process_given; [apply (sn_wf _ _ _ _ _ _ _ Hs)|apply (cd_dbg _ _ _ _ _ Hc)|by apply sound_ready|exact E].
  Qed.
  Lemma init_row t0 s : init g t0 (new_sim (initial_dyn w)) = Ok tt s -> exists X, row_end t0 s X.
  Proof.
    intros E. destruct (init_split g K dv nxt y ins1 ins2 Hs None t0 (initial_dyn w) (checked_fresh w b g ins1 ins2 Hc t0)) as (s1 & E1 & Hso & Hf & Hh).
    rewrite E1 in E. exact (process_row None t0 true s1 s Hso Hf Hh E).
  Qed.
  Lemma run_row fuel t lo hi s s' : prepared w g ins1 ins2 (s_tprev s) s -> allowed g (s_tprev s) t lo hi -> run g fuel t lo hi s = Ok tt s' -> exists X, row_end t s' X.
  Proof.
    intros Hr Ha E. pose proof (run_split g K dv nxt y ins1 ins2 Hs fuel t lo hi s (proj1 Hr) (allowed_may w g _ _ _ _ Ha)) as Hsp. rewrite E in Hsp.
    destruct Hsp as (a & s1 & (Hso & Hi & Hf) & Hnx & Hl & E1). rewrite <- Hl in E1. revert E1. unfold bnd at 1, gets at 1.
    destruct (reset_ok' g K dv nxt y ins1 ins2 Hs _ (s_sv s1) s1 Hso Hf eq_refl) as (s2 & E2 & Hso2 & Hb2 & Hf2 & Hh2). unfold bnd at 1. rewrite E2.
    unfold bnd at 1. destruct (process_model g t _ true s2) as [[] s3| | |] eqn:E3; try done. intros [= <-].
    change (exists X, row_end t s3 X). eapply process_row; [exact Hso2|exact Hf2| |exact E3].
    destruct (length (s_sv s1)) eqn:En; [|done]. intros x Hx. rewrite (Hh2 x Hx). split; [|done]. intros Hz.
    rewrite (some_states g K dv nxt y ins1 ins2 Hs s1 Hso (proj1 Hf) En) in Hz. by apply elem_of_nil in Hz.
  Qed.
  Lemma row_steps t s X : row_end t s X -> steps (marks (s_log s)) = steps X ++ [(t, s_store s)].
  Proof. intros (σe & ms & ms' & -> & _). by rewrite steps_app. Qed.

  Context (Hst : forall stp, g_stepper g = Some stp -> stepper_rel stp).
  Definition row_of (c : D * D * D) (s : simst D) : D * store D := (c.1.1, s_store s).
  Lemma later_rows fuel cs : forall s ss, permitted g (s_tprev s) cs -> prepared w g ins1 ins2 (s_tprev s) s -> simulation_of w b g s -> ends g fuel cs s ss ->
    forall k c sk, cs !! k = Some c -> ss !! k = Some sk ->
      simulation_of w b g sk /\ exists X, row_end c.1.1 sk X /\ (~ has_state (g_tree g) -> steps X = steps (marks (s_log s)) ++ take k (zip_with row_of cs ss)).
  Proof.
    induction cs as [|[[t lo] hi] cs IH]; intros s [|s1 ss] Hp Hr Hsim He k c sk Hk Hsk; try done.
    destruct He as [E He], Hp as [Ha Hp]. pose proof (checked_run w b g ins1 ins2 Hc fuel t lo hi s Hr Ha) as Hr1. rewrite E in Hr1. destruct Hr1 as [Hr1 Et].
    assert (simulation_of w b g s1) as Hsim1. { destruct Hsim as (Hw & tr & Hcm & Hso). split; [done|]. exists tr. split; [done|]. by eapply so_run. }
    destruct (run_row fuel t lo hi s s1 Hr Ha E) as [X HX].
    assert (~ has_state (g_tree g) -> steps X = steps (marks (s_log s))) as HXs.
    { intros Hns. assert (length (s_sv s) = 0) as Hl.
      { apply (no_states g K dv nxt y ins1 ins2 Hs s); [apply Hr|apply Hr|]. apply dec_stable. intros Hz. apply Hns. by apply (proj1 (states_there w g)). }
      destruct (run_steps g fuel t lo hi s s1 (proj1 (proj2 (proj1 Hr))) Hl E) as [σ Hσ]. rewrite (row_steps _ _ _ HX) in Hσ. by apply app_inj_tail in Hσ as [-> _]. }
    destruct k as [|k].
    - injection Hk as <-. injection Hsk as <-. split; [done|]. exists X. split; [done|]. intros Hns. cbn [take]. rewrite app_nil_r. by apply HXs.
    - rewrite <- Et in Hp, Hr1. destruct (IH s1 ss Hp Hr1 Hsim1 He k c sk Hk Hsk) as (Hsk1 & X' & HX' & Hst').
      split; [done|]. exists X'. split; [done|]. intros Hns. rewrite (Hst' Hns), (row_steps _ _ _ HX), (HXs Hns). cbn [zip_with take]. by rewrite <- app_assoc.
  Qed.
  Lemma all_rows fuel t0 lo0 hi0 cs ss : permitted g t0 cs -> ends g fuel ((t0, lo0, hi0) :: cs) (new_sim (initial_dyn w)) ss ->
    forall k c sk, ((t0, lo0, hi0) :: cs) !! k = Some c -> ss !! k = Some sk ->
      simulation_of w b g sk /\ exists X, row_end c.1.1 sk X /\ (~ has_state (g_tree g) -> steps X = take k (zip_with row_of ((t0, lo0, hi0) :: cs) ss)).
  Proof.
    intros Hp He k c sk Hk Hsk. destruct ss as [|s0 ss]; [done|]. destruct He as [E He].
    change (run g fuel t0 lo0 hi0 (new_sim (initial_dyn w))) with (init g t0 (new_sim (initial_dyn w))) in E.
    assert (simulation_of w b g s0) as Hsim0.
    { split; [exists true; apply (cd_built _ _ _ _ _ Hc)|]. exists (g_tree g). split; [apply (cd_tree _ _ _ _ _ Hc)|]. eapply so_init; [|exact E]. apply so_first; [apply (cd_dbg _ _ _ _ _ Hc)|done|done]. }
    destruct (checked_init w b g ins1 ins2 Hc t0) as (s0' & E' & Hr & Et). assert (s0' = s0) as -> by congruence.
    destruct (init_row t0 s0 E) as [X HX]. destruct (init_steps g t0 _ _ E) as [σ Hσ]. rewrite (row_steps _ _ _ HX) in Hσ.
    change (steps (marks (s_log (new_sim (initial_dyn w))))) with (@nil (D * store D)) in Hσ. apply app_inj_tail in Hσ as [HX0 _].
    destruct k as [|k].
    - injection Hk as <-. injection Hsk as <-. split; [done|]. by exists X.
    - rewrite <- Et in Hp, Hr. destruct (later_rows fuel cs s0 ss Hp Hr Hsim0 He k c sk Hk Hsk) as (Hsk1 & X' & HX' & Hst').
      split; [done|]. exists X'. split; [done|]. intros Hns. rewrite (Hst' Hns), (row_steps _ _ _ HX), HX0. done.
  Qed.
End rows.
