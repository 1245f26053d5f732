(** A run to the time of the previous step. *)
From stdpp Require Import prelude gmap.
From Coq Require Import ZArith.
From Verif Require Import Num Res Store Leaf Sched Stepper Sim SpecSched P_Store P_Prog P_Modes P_Eval P_Sim P_Evolve P_Rel SpecHist P_Trace P_Life
  SpecRun P_Log P_Pack P_Grow.
Local Open Scope num_scope.

Section repeat.
  Context {D : Type} `{NumOps D} (g : cfg D).
  Implicit Types s : simst D.
  Lemma snap_end (m : M (core D) unit) ev s s' : on_core' (m ;;; snap ev) s = Ok tt s' ->
    exists rest, s_log s' = rest ++ [ev (s_store s') (members (s_core s'))].
  Proof.
    unfold on_core', on_dyn, on_core, lift, bnd. destruct (m (d_core (s_dyn s))) as [[] c1| | |]; try done. intros [= <-]. cbn. by exists (k_log c1).
  Qed.
  Lemma begin_marks t s s' : begin_step g t s = Ok tt s' ->
    marks (s_log s') = marks (s_log s) ++ [EvBegin t (s_store s') (members (s_core s'))].
  Proof.
    intros Hr. destruct (adds_begin g t s tt s' Hr) as (v & Hv & σ & ms & ->).
    assert (exists rest, s_log s' = rest ++ [EvBegin t (s_store s') (members (s_core s'))]) as [rest E].
    { revert Hr. unfold begin_step, bnd at 1. destruct (clear_all s) as [[] s1| | |]; try done. unfold bnd at 1.
      destruct (on_core' (inputs g t) s1) as [[] s2| | |]; try done. apply snap_end. }
    rewrite E in Hv. rewrite app_comm_cons, !app_assoc in Hv. apply app_inj_tail in Hv as [-> He]. rewrite E. clear He.
    rewrite !marks_app, marks_one. cbn. f_equal. change (EvInputs t :: map (λ b, EvPre b t) _) with ([EvInputs t] ++ map (λ b, EvPre b t) (map l_id (leaves (g_tree g)))).
    rewrite marks_app, marks_one. cbn. rewrite marks_quiet by done. by rewrite app_nil_r.
  Qed.
  Lemma major_marks t s s' : process_model g t false true s = Ok tt s' ->
    exists σ ms, marks (s_log s') = marks (s_log s) ++ [EvEval t σ ms; EvStep t (s_store s') (members (s_core s'))].
  Proof.
    intros Hr. destruct (adds_major g t s tt s' Hr) as (v & Hv & v1 & v2 & -> & (acts & σ & ms & ->) & (σ' & ms' & ->)). exists σ, ms.
    assert (exists rest, s_log s' = rest ++ [EvStep t (s_store s') (members (s_core s'))]) as [rest E].
    { revert Hr. unfold process_model. unfold bnd at 1. destruct (on_core' (inputs g t) s) as [[] s2| | |]; try done. unfold bnd at 1, ret at 1.
      unfold bnd at 1. destruct (eval_model g t s2) as [[] s3| | |]; try done. unfold bnd at 1.
      destruct (on_core' (snap (EvEval t)) s3) as [[] s4| | |]; try done. apply snap_end. }
    rewrite E in Hv. rewrite !app_assoc in Hv. apply app_inj_tail in Hv as [-> He]. rewrite E. clear He.
    rewrite !marks_app, marks_one. cbn.
    change (EvInputs t :: map (λ b, EvAct b t) acts ++ [EvEval t σ ms]) with ([EvInputs t] ++ map (λ b, EvAct b t) acts ++ [EvEval t σ ms]).
    rewrite !marks_app, !marks_one. cbn. rewrite !marks_quiet by done. rewrite app_nil_r. cbn. by rewrite <- app_assoc.
  Qed.
  Lemma get_sv_same arr s x s' : get_sv g arr s = Ok x s' -> s' = s.
  Proof.
    unfold get_sv. unfold bnd at 1, gets at 1. unfold bnd at 1. destruct (debug_verify _ _ EAssert s) as [[] s1| | |] eqn:E1; try done.
    assert (s1 = s) as ->. { revert E1. unfold debug_verify, verify. destruct (g_dbg g), (Nat.eqb (length arr) (length (s_sv s))); cbn; by intros [= <-]. }
    unfold bnd at 1, gets at 1. unfold bnd at 1, gets at 1. unfold bnd at 1.
    set (m := bnd (collect (get_scalar g) (s_scal s)) _).
    destruct (m (s_store s)) as [y σ'| | |] eqn:Em; [|unfold on_store', on_core', on_dyn, on_core, on_store, lift; unfold s_store, s_core in Em; cbn; rewrite Em; done..].
    rewrite (on_store_ok m s y σ' Em). unfold m, bnd in Em.
    destruct (collect (get_scalar g) (s_scal s) (s_store s)) as [x1 σ1| | |] eqn:E2; try done.
    destruct (collect_inv _ _ _ _ _ (fun z y a b E => proj1 (get_scalar_inv g z y a b E)) E2) as (-> & _).
    destruct (collect (get_array g) (s_arr s) (s_store s)) as [x2 σ2| | |] eqn:E3; try done.
    destruct (collect_inv _ _ _ _ _ (fun z y a b E => proj1 (get_array_inv g z y a b E)) E3) as (-> & _).
    injection Em as _ <-. destruct (write_prefix y arr); [|done]. intros [= _ <-]. destruct s as [[[]] ]. done.
  Qed.
  (** The end of every run. *)
  Lemma run_finish fuel t lo hi s s' : run g fuel t lo hi s = Ok tt s' -> s_init s = true -> s_sv s ≠ [] ->
    exists s1 s2 s3, reset_sv g (s_sv s1) s1 = Ok tt s2 /\ process_model g t false true s2 = Ok tt s3 /\ s' = put_tprev t s3 /\
      ((t =? s_tprev s) = true -> exists s0 x, begin_step g t s = Ok tt s0 /\ get_sv g (s_sv s0) s0 = Ok x s0 /\ s1 = put_sv x s0) /\
      (packed g s -> (forall stp, g_stepper g = Some stp -> stepper_ok stp) -> packed g s1).
  Proof.
    intros Hr Hi Hn. unfold run in Hr. unfold bnd at 1, gets at 1 in Hr. rewrite Hi in Hr. cbn [negb] in Hr.
    unfold bnd at 1, gets at 1 in Hr. unfold bnd at 1, gets at 1 in Hr. destruct (length (s_sv s)) as [|n] eqn:En; [by destruct (s_sv s)|].
    unfold bnd at 1 in Hr. destruct (t <? s_tprev s); [done|].
    assert (exists s1, (bnd (gets s_sv) (fun sv => bnd (reset_sv g sv) (fun _ => bnd (process_model g t false true) (fun _ => modify (put_tprev t))))) s1 = Ok tt s' /\
      ((t =? s_tprev s) = true -> exists s0 x, begin_step g t s = Ok tt s0 /\ get_sv g (s_sv s0) s0 = Ok x s0 /\ s1 = put_sv x s0) /\
      (packed g s -> (forall stp, g_stepper g = Some stp -> stepper_ok stp) -> packed g s1)) as (s1 & Hr1 & He & Hp).
    { destruct (t =? s_tprev s).
      - unfold bnd at 1 in Hr. destruct (begin_step g t s) as [[] s0| | |] eqn:Eb; try done.
        unfold bnd at 1, gets at 1 in Hr. unfold bnd at 1 in Hr. destruct (get_sv g (s_sv s0) s0) as [x s1| | |] eqn:Eg; try done.
        assert (s1 = s0) as ->.
        { by eapply get_sv_same. }
        unfold modify at 1 in Hr. exists (put_sv x s0). split; [exact Hr|]. split; [eauto|]. intros Hp Hs.
        pose proof (packed_begin _ _ _ _ _ Hp Eb) as Hp0. apply packed_sv; [|done]. by rewrite (get_sv_len _ _ _ _ _ Eg).
      - unfold bnd at 1 in Hr. destruct (debug_verify _ _ EAssert s) as [[] s1| | |] eqn:E1; try done.
        assert (s1 = s) as ->. { revert E1. unfold debug_verify, verify. destruct (g_dbg g), (g_stepper g); cbn; by intros [= <-]. }
        unfold bnd at 1 in Hr. destruct (debug_verify _ (n0 <? lo)%num EAssert s) as [[] s1| | |] eqn:E2; try done.
        assert (s1 = s) as ->. { revert E2. unfold debug_verify, verify. destruct (g_dbg g), (n0 <? lo)%num; cbn; by intros [= <-]. }
        unfold bnd at 1 in Hr. destruct (debug_verify _ (lo <? hi)%num EAssert s) as [[] s1| | |] eqn:E3; try done.
        assert (s1 = s) as ->. { revert E3. unfold debug_verify, verify. destruct (g_dbg g), (lo <? hi)%num; cbn; by intros [= <-]. }
        destruct (run_loop _ _ _ _ _ _ _ _ s) as [[] s1| | |] eqn:El; try done. exists s1. split; [exact Hr|]. split; [done|].
        intros Hp Hs. by eapply packed_loop. }
    unfold bnd at 1, gets at 1 in Hr1. unfold bnd at 1 in Hr1. destruct (reset_sv g (s_sv s1) s1) as [[] s2| | |] eqn:Er; try done.
    unfold bnd at 1 in Hr1. destruct (process_model g t false true s2) as [[] s3| | |] eqn:Ep; try done. injection Hr1 as <-.
    exists s1, s2, s3. eauto.
  Qed.

  (** The lists of state signals are made by init. *)
  Definition laid (sc ar : list nat) s : Prop := s_scal s = sc /\ s_arr s = ar.
  Lemma laid_evo {A} (m : M (simst D) A) sc ar : pres (evo g) m -> keep (laid sc ar) m.
  Proof. intros Hm s a s' [E1 E2] Hr. specialize (Hm s). rewrite Hr in Hm. split; [by rewrite (ev_scal _ _ _ Hm)|by rewrite (ev_arr _ _ _ Hm)]. Qed.
  Lemma laid_run fuel t lo hi sc ar s s' : (forall stp, g_stepper g = Some stp -> stepper_rel stp) ->
    s_init s = true -> run g fuel t lo hi s = Ok tt s' -> laid sc ar s -> laid sc ar s'.
  Proof.
    intros Hstp Hi Hr. revert Hr. unfold run. unfold bnd at 1, gets at 1. rewrite Hi. cbn [negb].
    intros Hr Hj. clear Hi. revert s s' Hj Hr.
    match goal with |- forall s s', _ -> ?m s = _ -> _ => enough (keep (laid sc ar) m) as Hk by (intros s s' Hj Hr; by eapply Hk) end.
    apply keep_bnd; [apply keep_gets|intros n]. apply keep_bnd; [apply keep_gets|intros tp]. apply keep_bnd.
    - destruct n; [apply keep_ret|]. apply keep_if; [apply keep_throw|]. apply keep_if.
      + apply keep_bnd; [apply laid_evo, pres_begin_step|intros _]. apply keep_bnd; [apply keep_gets|intros o].
        apply keep_bnd; [apply laid_evo, pres_get_sv|intros x]. by apply keep_modify.
      + apply keep_bnd; [apply keep_debug|intros _]. apply keep_bnd; [apply keep_debug|intros _]. apply keep_bnd; [apply keep_debug|intros _].
        assert (forall fuel t1 t2 force, keep (laid sc ar) (run_loop g fuel t lo hi t1 t2 force)) as Hl; [|apply Hl].
        intros f. induction f as [|f IH]; intros t1 t2 force; cbn [run_loop]; (apply keep_if; [|apply keep_ret]); [done|].
        apply keep_bnd; [apply laid_evo, pres_begin_step|intros _]. apply keep_bnd; [apply keep_gets|intros o].
        apply keep_bnd; [apply laid_evo, pres_get_sv|intros x]. apply keep_bnd; [by apply keep_modify|intros _].
        destruct (g_stepper g) as [stp|] eqn:Es; [|apply keep_undef]. apply keep_bnd.
        { apply stepper_keep; [by apply Hstp|]. intros t' v. apply laid_evo, pres_minor_cb. }
        intros r. apply keep_bnd; [by apply keep_modify|intros _]. apply keep_bnd; [apply laid_evo, pres_on_core', pres_emit|intros _]. cbv zeta.
        apply keep_if; [|apply IH]. apply keep_bnd; [|intros _; apply IH]. apply keep_if; [|apply keep_ret].
        apply keep_bnd; [apply keep_gets|intros sv]. apply keep_bnd; [apply laid_evo, pres_reset_sv|intros _]. apply laid_evo, pres_process_model.
    - intros _. apply keep_bnd; [apply keep_gets|intros sv]. apply keep_bnd; [apply laid_evo, pres_reset_sv|intros _].
      apply keep_bnd; [apply laid_evo, pres_process_model|intros _]. by apply keep_modify.
  Qed.
End repeat.
