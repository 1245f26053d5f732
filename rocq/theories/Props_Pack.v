(** The state vector: C39, C40, C55. *)
From stdpp Require Import prelude gmap strings.
From Coq Require Import ZArith QArith.
From Verif Require Import Num NumQ Res Name Store Leaf Sched Stepper Sim World Api SpecSched P_Store P_Prog P_Modes P_World P_Evolve P_Simulated P_Rel P_Rel2
  SpecHist P_Trace P_Life Ex_Models Ex_Hist Props_Block P_Log Props_Run P_Pack P_Grow P_Again P_Repeat.

Local Open Scope nat_scope.
Local Open Scope num_scope.

(** [s] is the state of a simulator with settings [g] on block [b] of a world some
    client has built, which was initialised once and then run any number of times.
    Other simulators may have been used with the model before. *)
Definition session_of {D} `{NumOps D} (w : world D) (b : nat) (g : cfg D) (s : simst D) : Prop :=
  (exists dbg, wreach dbg w) /\ compile_model w b = Some (g_tree g) /\ (forall l, g_iter g l ≡ₚ l) /\
  (forall stp, g_stepper g = Some stp -> stepper_ok stp /\ stepper_rel stp) /\
  exists g0 s0, simulated_ok (g_dbg g) (g_tree g) (initial_dyn w) g0 s0 /\ session g (s_dyn s0) s.

Lemma session_sim {D} `{NumOps D} w b (g : cfg D) s : session_of w b g s -> g_dbg g = true -> simulation_of w b g s.
Proof.
  intros (Hw & Hc & _ & Hs & g0 & s0 & Hs0 & Hses) Hg. split; [done|]. exists (g_tree g). split; [done|]. rewrite Hg in Hs0.
  assert (forall stp, g_stepper g = Some stp -> stepper_rel stp) as Hr by (intros stp E; by destruct (Hs stp E)).
  induction Hses as [t s Hi|s fuel t lo hi s' _ IH Hr']; [|by eapply so_run].
  eapply so_init; [|exact Hi]. by eapply so_next.
Qed.
Lemma session_of_packed {D} `{NumOps D} w b (g : cfg D) s : session_of w b g s -> packed g s /\ s_init s = true.
Proof.
  intros ((dbg & Hw) & Hc & Hi & Hs & g0 & s0 & Hs0 & Hses). eapply session_packed; [|exact Hi| |exact Hses].
  - intros stp E. by destruct (Hs stp E).
  - intros Hg. rewrite Hg in Hs0. destruct (simulated_comes _ _ _ _ _ Hs0) as [_ Hd]. by eapply reach_store_ok.
Qed.

(** ** C39.  The state signals of a simulator: every signal linked to a block of the
    model that has a derivative, each once, the scalars before the arrays. *)
Definition layout {D} (s : simst D) : list nat := s_scal s ++ s_arr s.
Theorem C39_layout : forall D `{NumOps D} w b (g : cfg D) s, session_of w b g s ->
  NoDup (layout s) /\ (forall z, z ∈ layout s <-> is_state_of g (s_store s) z) /\
  (forall z, z ∈ s_scal s -> exists c, s_store s !! z = Some c /\ c_kind c = KScalar) /\
  (forall z, z ∈ s_arr s -> exists c n, s_store s !! z = Some c /\ c_kind c = KArray n) /\
  length (s_sv s) = sum_list (map (sig_size (s_store s)) (layout s)).
Proof.
  intros D ? w b g s Hs. destruct (session_of_packed _ _ _ _ Hs) as [Hp _].
  split_and!; [apply Hp|apply Hp|apply Hp|intros z Hz; destruct (pk_arr _ _ Hp z Hz) as (c & n & ? & ?); eauto|apply (pk_sv _ _ Hp)].
Qed.

(** Loading a vector of the right length always succeeds.  The values it leaves in
    the state signals, in the order of the layout, concatenate to that vector, and
    reading them into any vector of that length gives it back; no other signal
    linked to the model has a value. *)
Theorem C39_load : forall D `{NumOps D} w b (g : cfg D) s (x : list D), session_of w b g s -> length x = length (s_sv s) ->
  exists s1, reset_sv g x s = Ok tt s1 /\
    (forall o, length o = length x -> get_sv g o s1 = Ok x s1) /\
    x = concat (map (fun z => match value (s_store s1) z with Some v => flat v | None => [] end) (layout s)) /\
    (forall z, z ∈ s_scal s -> exists d, value (s_store s1) z = Some (VS d)) /\
    (forall z, z ∈ s_arr s -> exists ds, value (s_store s1) z = Some (VA ds) /\ length ds = sig_size (s_store s1) z) /\
    (forall z, z ∈ linked_signals (g_tree g) -> z ∉ layout s -> value (s_store s1) z = None).
Proof.
  intros D ? w b g s x Hs Hl. destruct (session_of_packed _ _ _ _ Hs) as [Hp _].
  destruct (reset_ok g x s Hp Hl) as (s1 & Hr & Hpk & Hset & Hoth & _). exists s1.
  pose proof (packed_reset _ _ _ _ _ Hp Hr) as Hp1.
  pose proof (pres_reset_sv g x s) as He. rewrite Hr in He. pose proof (ev_scal _ _ _ He) as E1. pose proof (ev_arr _ _ _ He) as E2.
  pose proof (vecs_reset_sv g x s) as Hv. rewrite Hr in Hv. destruct Hv as (E3 & _ & _).
  split_and!; [done| |by rewrite <- Hpk| | |].
  - intros o Ho. rewrite get_sv_ok; [|done|done|by rewrite E3, Ho]. by rewrite E1, E2, Hpk.
  - intros z Hz. apply Hset. by rewrite E1.
  - intros z Hz. apply Hset. by rewrite E2.
  - intros z Hz Hn. apply Hoth; [|done]. by apply (pk_vsigs _ _ Hp).
Qed.

(** The other way round: if the state variables can be read, loading what was read
    gives every state signal the value it had, whatever the order in which the hash
    sets were iterated. *)
Theorem C39_back : forall D `{NumOps D} w b (g : cfg D) s o x s', session_of w b g s -> length o = length (s_sv s) ->
  get_sv g o s = Ok x s' -> s' = s /\
  exists s1, reset_sv g x s = Ok tt s1 /\ forall z, is_state_of g (s_store s) z ->
    exists v, get_value (g_dbg g) z (s_store s) = Ok v (s_store s) /\ value (s_store s1) z = Some v.
Proof.
  intros D ? w b g s o x s' Hs Hl Hr. destruct (session_of_packed _ _ _ _ Hs) as [Hp _].
  destruct (get_reset g o s x s' Hp Hl Hr) as (-> & s1 & Hr1 & Hz). split; [done|]. exists s1. split; [done|].
  intros z Hi. apply Hz. by apply (pk_all _ _ Hp).
Qed.

(** ** C40.  A simulator of a model with a state that is initialised a second time is
    not usable: no later run returns.  (The state signals are listed twice while the
    vectors keep their size, so reading them writes past the end.) *)
Theorem C40_again : forall D `{NumOps D} w b (g : cfg D) s t s', session_of w b g s -> s_sv s ≠ [] -> init g t s = Ok tt s' ->
  forall fuel t' lo hi s'', run g fuel t' lo hi s' ≠ Ok tt s''.
Proof.
  intros D ? w b g s t s' Hs Hn Hi fuel t' lo hi s''. destruct (session_of_packed _ _ _ _ Hs) as [Hp _].
  destruct Hs as (_ & _ & Hit & _). destruct (again_init g Hit t s s' Hp Hn Hi) as [Hf Hf']. by apply overfull_run.
Qed.

(** ** C55.  A run to the time of the previous step does not change the value of an
    Integrator. *)
Section same.
  Context {D : Type} `{NumOps D}.
  Lemma reset_put (g : cfg D) y x s s' : reset_sv g y s = Ok tt s' -> reset_sv g y (put_sv x s) = Ok tt (put_sv x s').
  Proof.
    unfold reset_sv, clear_all, on_store', on_core', on_dyn, on_core, on_store, lift, bnd, gets. destruct s; cbn.
    destruct (forM _ _ _) as [[] σ| | |]; try done. cbn. destruct (set_scalars _ _ _ _) as [r σ1| | |]; try done. cbn.
    destruct (set_arrays _ _ _ _) as [r2 σ2| | |]; try done. cbn. by intros [= <-].
  Qed.
  Lemma repeat_integrator w b (g : cfg D) s l o T fuel t lo hi s' : session_of w b g s -> g_dbg g = true -> block_of w g l o -> bo_cls o = CInteg T ->
    (forall so, h_out (bo_h o) = Some so -> is_state_of g (s_store s) so) ->
    run g fuel t lo hi s = Ok tt s' -> (t =? s_tprev s) = true -> s_sv s ≠ [] -> forall x0 g0, bo_st o = LInteg x0 g0 ->
    lst_of (s_core s') (l_id l) = lst_of (s_core s) (l_id l) /\
    exists so x s0, h_out (bo_h o) = Some so /\ lst_of (s_core s) (l_id l) = LInteg x g0 /\ begin_step g t s = Ok tt s0 /\
      value (s_store s0) so = Some x /\ value (s_store s') so = Some x.
  Proof.
    intros Hs Hg Hb Hc Hst Hr Ht Hn x0 g0 Hx0. pose proof (session_sim _ _ _ _ Hs Hg) as Hsim. destruct (session_of_packed _ _ _ _ Hs) as [Hp Hi].
    assert (simulation_of w b g s') as Hsim'. { destruct Hsim as (Hw & tr & Htr & Hsi). split; [done|]. exists tr. split; [done|]. by eapply so_run. }
    destruct (run_finish g fuel t lo hi s s' Hr Hi Hn) as (s1 & s2 & s3 & Hre & Hpr & -> & He & _).
    destruct (He Ht) as (s0 & x & Hbe & Hge & ->). clear He.
    pose proof (begin_marks g t s s0 Hbe) as M1. destruct (major_marks g t s2 s3 Hpr) as (σe & mse & M2).
    assert (s_log s2 = s_log s0) as M3. { destruct (adds_reset g (s_sv (put_sv x s0)) _ _ _ Hre) as (v & -> & ->). by rewrite app_nil_r. }
    assert (marks (s_log (put_tprev t s3)) = ((marks (s_log s) ++ [EvBegin t (s_store s0) (members (s_core s0))]) ++ [EvEval t σe mse]) ++ [EvStep t (s_store s3) (members (s_core s3))]) as M.
    { change (s_log (put_tprev t s3)) with (s_log s3). rewrite M2, M3, M1. by rewrite <- !app_assoc. }
    destruct (simulation_life _ _ _ _ _ _ Hsim Hb) as (Hcl & Hh & Hl).
    destruct (simulation_life _ _ _ _ _ _ Hsim' Hb) as (_ & _ & Hl'). rewrite M in Hl'. change (s_core (put_tprev t s3)) with (s_core s3) in *.
    apply life_snoc in Hl' as (m2 & Hl2 & Hv3). pose proof Hl2 as Hl2'. apply life_snoc in Hl2 as (m1 & Hl1 & Hv2). pose proof Hl1 as Hl1'. apply life_snoc in Hl1 as (m0 & Hl0 & Hv1).
    rewrite Hc in Hcl. destruct Hv1 as [Hv1 Hm1]. unfold pre in Hv1. rewrite Hcl in Hv1.
    assert (exists so, h_out (l_h l) = Some so) as [so Hso].
    { destruct (h_out (l_h l)); [by eexists|]. destruct m0; cbn in Hv1; by apply shows_ub in Hv1. }
    rewrite Hx0 in *. destruct (integ_life l T so x0 g0 _ _ Hcl Hso Hl) as (xa & Ea & Ka).
    destruct (integ_life l T so x0 g0 _ _ Hcl Hso Hl0) as (xb & Eb & Kb).
    assert (xb = xa) as ->.
    { unfold kept in Ka, Kb. destruct (last (SpecHist.steps (marks (s_log s)))) as [[tn σn]|]; congruence. }
    subst m0. rewrite Hso in Hv1. cbn in Hv1. apply shows_set in Hv1 as [Hval Hv1]. apply shows_ret in Hv1 as ->.
    destruct (integ_life l T so x0 g0 _ _ Hcl Hso Hl2') as (xc & -> & Kc).
    assert (xc = xa) as ->.
    { unfold kept in Ka, Kc. rewrite !steps_snoc in Kc. cbn [step_of] in Kc. rewrite !app_nil_r in Kc.
      destruct (last (SpecHist.steps (marks (s_log s)))) as [[tn σn]|]; congruence. }
    assert (value (s_store s3) so = Some xa) as Hval3.
    { rewrite Hh in Hso. destruct (get_reset g (s_sv s0) s0 x s0) as (_ & s2' & Hre' & Hz); [by eapply packed_begin|done|done|].
      destruct (Hz so) as (v & Hgv & Hv2').
      { apply (pk_all g s0 (packed_begin _ _ _ _ _ Hp Hbe)). pose proof (pres_begin_step g t s) as Hev. rewrite Hbe in Hev.
        destruct (pk_all g s Hp so) as [_ Hin]. specialize (Hin (Hst so Hso)). rewrite <- (ev_scal _ _ _ Hev), <- (ev_arr _ _ _ Hev) in Hin.
        by apply (pk_all g s0 (packed_begin _ _ _ _ _ Hp Hbe)) in Hin. }
      apply get_inv in Hgv as (_ & c & Hcz & Hcv & Hca). specialize (Hca Hg).
      assert (v = xa) as ->. { unfold value in Hval. rewrite Hcz, Hca in Hval. congruence. }
      change (s_sv (put_sv x s0)) with x in Hre. rewrite (reset_put g x x s0 s2' Hre') in Hre. injection Hre as <-. pose proof (grow_process g Hg t false true (put_sv x s2')) as Hgr. rewrite Hpr in Hgr. eapply ext_value; [exact Hgr|]. exact Hv2'. }
    destruct Hv3 as (_ & Hv3 & _). unfold post in Hv3. rewrite Hcl, Hso in Hv3. cbn in Hv3. apply shows_get in Hv3 as (x' & Hx' & Hv3).
    apply shows_ret in Hv3 as ->. rewrite Hval3 in Hx'. injection Hx' as <-. rewrite Ea. split; [done|].
    exists so, xa, s0. rewrite <- Hh. done.
  Qed.
  (** What a run leaves in the state signals. *)
  Lemma run_states (g : cfg D) fuel t lo hi s s' : packed g s -> (forall stp, g_stepper g = Some stp -> stepper_ok stp) -> g_dbg g = true ->
    run g fuel t lo hi s = Ok tt s' -> s_init s = true -> s_sv s ≠ [] ->
    packed g s' /\ states_set s' /\ pack (s_store s') (layout s') = s_sv s'.
  Proof.
    intros Hp Hstp Hg Hr Hi Hn. destruct (run_finish g fuel t lo hi s s' Hr Hi Hn) as (s1 & s2 & s3 & Hre & Hpr & -> & _ & Hp1).
    specialize (Hp1 Hp Hstp). destruct (reset_ok g (s_sv s1) s1 Hp1 eq_refl) as (s2' & Hre' & Hpk & [Hsc Har] & _). rewrite Hre in Hre'. injection Hre' as <-.
    assert (packed g s3) as Hp3. { eapply packed_process; [|exact Hpr]. by eapply packed_reset. }
    pose proof (pres_reset_sv g (s_sv s1) s1) as He. rewrite Hre in He. pose proof (ev_scal _ _ _ He) as E1. pose proof (ev_arr _ _ _ He) as E2.
    pose proof (vecs_reset_sv g (s_sv s1) s1) as Hv. rewrite Hre in Hv. destruct Hv as (E3 & _ & _).
    pose proof (pres_process_model g t false true s2) as He'. rewrite Hpr in He'. pose proof (ev_scal _ _ _ He') as F1. pose proof (ev_arr _ _ _ He') as F2.
    pose proof (ev_dyn _ _ _ He') as [Hsh _]. change (shape (g_dbg g) (s_store s2) (s_store s3)) in Hsh.
    pose proof (vecs_process_model g t false true s2) as Hv'. rewrite Hpr in Hv'. destruct Hv' as (F3 & _ & _).
    pose proof (grow_process g Hg t false true s2) as Hgr. rewrite Hpr in Hgr.
    assert (forall z v, value (s_store s2) z = Some v -> value (s_store s3) z = Some v) as Hx by (intros z v; by apply ext_value).
    split; [by destruct Hp3; split|]. split.
    - split; cbn [s_scal s_arr put_tprev]; change (s_store (put_tprev t s3)) with (s_store s3).
      + intros z Hz. rewrite F1 in Hz. destruct (Hsc z Hz) as [y Hy]. eauto.
      + intros z Hz. rewrite F2 in Hz. destruct (Har z Hz) as (ys & Hy & Hl). exists ys. split; [eauto|]. by rewrite (sig_size_shape _ _ _ _ Hsh).
    - unfold layout. cbn [s_scal s_arr s_sv put_tprev]. change (s_store (put_tprev t s3)) with (s_store s3). rewrite F3, E3, F1, F2, <- Hpk, E1, E2.
      unfold pack. f_equal. apply list_fmap_ext. intros i z Hz. apply elem_of_list_lookup_2 in Hz.
      assert (exists v, value (s_store s2) z = Some v) as [v Hv].
      { apply elem_of_app in Hz as [Hz|Hz]; [rewrite <- E1 in Hz; destruct (Hsc z Hz); eauto|rewrite <- E2 in Hz; destruct (Har z Hz) as (? & ? & _); eauto]. }
      by rewrite Hv, (Hx _ _ Hv).
  Qed.
End same.

(** The value of an Integrator of the model stays as it was. *)
Theorem C55_integrator : forall D `{NumOps D} w b (g : cfg D) s l o T x0 g0 so fuel t lo hi s',
  session_of w b g s -> g_dbg g = true -> s_sv s ≠ [] ->
  block_of w g l o -> bo_cls o = CInteg T -> bo_st o = LInteg x0 g0 -> h_out (bo_h o) = Some so -> is_state_of g (s_store s) so ->
  run g fuel t lo hi s = Ok tt s' -> (t =? s_tprev s) = true ->
  exists x, lst_of (s_core s) (l_id l) = LInteg x g0 /\ lst_of (s_core s') (l_id l) = LInteg x g0 /\ value (s_store s') so = Some x.
Proof.
  intros D ? w b g s l o T x0 g0 so fuel t lo hi s' Hs Hg Hn Hb Hc Hx Hso Hst Hr Ht.
  destruct (repeat_integrator w b g s l o T fuel t lo hi s' Hs Hg Hb Hc) with (x0 := x0) (g0 := g0) as (E & so' & x & s0 & Hso' & E1 & _ & _ & Hv); try done.
  { intros so' E. rewrite Hso in E. by injection E as <-. }
  rewrite Hso in Hso'. injection Hso' as <-. exists x. rewrite E. done.
Qed.

(** If all state signals are outputs of Integrators and the step before was made by
    run, the state vector stays as it was. *)
Theorem C55_states : forall D `{NumOps D} w b (g : cfg D) s fuel t lo hi s1 fuel' t' lo' hi' s2,
  session_of w b g s -> g_dbg g = true -> s_sv s ≠ [] -> run g fuel t lo hi s = Ok tt s1 ->
  (forall z, is_state_of g (s_store s) z -> exists l o T x0 g0, block_of w g l o /\ bo_cls o = CInteg T /\ bo_st o = LInteg x0 g0 /\ h_out (bo_h o) = Some z) ->
  run g fuel' t' lo' hi' s1 = Ok tt s2 -> (t' =? s_tprev s1) = true -> s_sv s2 = s_sv s1.
Proof.
  intros D ? w b g s fuel t lo hi s1 fuel' t' lo' hi' s2 Hs Hg Hn Hr1 Hall Hr2 Ht.
  assert (session_of w b g s1) as Hs1.
  { destruct Hs as (? & ? & ? & ? & g0 & s0 & ? & ?). split_and!; try done. exists g0, s0. split; [done|]. by eapply se_run. }
  pose proof (session_of_packed _ _ _ _ Hs) as [Hp Hi]. pose proof (session_of_packed _ _ _ _ Hs1) as [Hp1 Hi1].
  assert (forall stp, g_stepper g = Some stp -> stepper_ok stp) as Hstp. { destruct Hs as (_ & _ & _ & Hstp & _). intros stp E. by destruct (Hstp stp E). }
  assert (forall stp, g_stepper g = Some stp -> stepper_rel stp) as Hrel. { destruct Hs as (_ & _ & _ & Hst & _). intros stp E. by destruct (Hst stp E). }
  assert (layout s1 = layout s) as E1. { destruct (laid_run g _ _ _ _ (s_scal s) (s_arr s) _ _ Hrel Hi Hr1) as [E1 E2]; [done|]. unfold layout. by rewrite E1, E2. }
  assert (layout s2 = layout s1) as E2. { destruct (laid_run g _ _ _ _ (s_scal s1) (s_arr s1) _ _ Hrel Hi1 Hr2) as [Ea Eb]; [done|]. unfold layout. by rewrite Ea, Eb. }
  assert (s_sv s1 ≠ []) as Hn1.
  { intros E. apply Hn. apply nil_length_inv. apply (f_equal length) in E. rewrite (pk_sv _ _ Hp1) in E. rewrite (pk_sv _ _ Hp).
    unfold layout in E1. rewrite E1 in E. etrans; [symmetry|exact E].
    destruct (comes_run (g_dbg g) (s_dyn s) g eq_refl Hrel fuel t lo hi s tt s1) as [Hsh _]; [unfold comes; reflexivity|done|].
    by apply (width_shape _ _ _ _ Hsh). }
  destruct (run_states g _ _ _ _ _ _ Hp Hstp Hg Hr1 Hi Hn) as (_ & _ & K1).
  destruct (run_states g _ _ _ _ _ _ Hp1 Hstp Hg Hr2 Hi1 Hn1) as (_ & _ & K2).
  rewrite <- K1, <- K2, E2. unfold pack. f_equal. apply list_fmap_ext. intros i z Hz. apply elem_of_list_lookup_2 in Hz.
  destruct (Hall z) as (l & o & T & x0 & g0 & Hb & Hc & Hx & Hso). { apply (pk_all _ _ Hp). by rewrite E1 in Hz. }
  destruct (repeat_integrator w b g s1 l o T fuel' t' lo' hi' s2 Hs1 Hg Hb Hc) with (x0 := x0) (g0 := g0) as (E & so' & x & s0 & Hso' & Ex & _ & _ & Hv); try done.
  { intros so' E. rewrite Hso in E. injection E as <-. by apply (pk_all _ _ Hp1). }
  rewrite Hso in Hso'. injection Hso' as <-. rewrite Hv.
  destruct (run_finish g fuel t lo hi s s1 Hr1 Hi Hn) as (sa & sb & sc & _ & Hpr & -> & _ & _).
  destruct (major_marks g t sb sc Hpr) as (σe & mse & M).
  destruct (simulation_life _ _ _ _ _ _ (session_sim _ _ _ _ Hs1 Hg) Hb) as (Hcl & Hh & Hl). rewrite Hx, Ex in Hl.
  destruct (integ_life l T z x0 g0 _ _ (eq_trans Hcl Hc) (eq_trans (f_equal h_out Hh) Hso) Hl) as (xa & [= <-] & Ka).
  change (s_log (put_tprev t sc)) with (s_log sc) in Ka. unfold kept in Ka. rewrite M in Ka.
  change [EvEval t σe mse; EvStep t (s_store sc) (members (s_core sc))] with ([EvEval t σe mse] ++ [EvStep t (s_store sc) (members (s_core sc))]) in Ka.
  rewrite app_assoc, steps_snoc in Ka. cbn [step_of] in Ka. rewrite last_snoc in Ka.
  change (s_store (put_tprev t sc)) with (s_store sc). by rewrite Ka.
Qed.

(** Examples.  Signals 0 = (1, 2), 1 the integral of 0 (an array of size 2), 2 = 1,
    3 the integral of 2, 4 a trigger (t = 1), 5 the triggered integral of 2.  The
    hash sets are iterated backwards. *)
Definition ex9_ops : list (wop Q) :=
  [ ONewSig (KArray 2) "u"; ONewSig (KArray 2) "X"; ONewSig KScalar "w"; ONewSig KScalar "x"; ONewSig KBool "g"; ONewSig KScalar "y";
    ONewBus [0] ""; ONewBus [1] ""; ONewBus [2] ""; ONewBus [3] ""; ONewBus [4] "";
    ONewBusL [("in", 2); ("trigger", 4)]%string ""; ONewBus [5] ""; ONewBus [] "";
    ONewBlock CSubmodel LNone None "root" NoIOLimit NoIOLimit;
    ONewBlock (CInteg TyA) (LInteg (VA [3; 4]%Q) false) (Some 0) "intA" 1 1;
    ONewBlock (CInteg TyD) (LInteg (VS 5%Q) false) (Some 0) "int" 1 1;
    ONewBlock (CTrig TyD) (LInteg (VS 6%Q) false) (Some 0) "trig" 2 1;
    ONewBlock (CConst TyA (VA [1; 2]%Q)) LNone (Some 0) "u" 0 1;
    ONewBlock (CConst TyD (VS 1%Q)) LNone (Some 0) "w" 0 1;
    ONewBlock (CSource TyB (fun t : Q => PRet (VB (neqb t 1%Q)))) LNone (Some 0) "g" NoIOLimit 1;
    OConnect 1 6 7; OConnect 2 8 9; OConnect 3 11 12; OConnect 4 13 6; OConnect 5 13 8; OConnect 6 13 10 ]%nat.
Definition ex9_world : world Q := world_of true ex9_ops.
Definition ex9_tree : tree Q := tree_of ex9_world.
Definition ex9_cfg (dbg : bool) (m : mode) : cfg Q := Cfg dbg m ex9_tree None (fun _ => PRet tt) (Some euler) (fun x => reverse x) 0%Q.
Lemma ex9_reach : wreach true ex9_world.
Proof. reach_ops ex9_world ex9_ops. Qed.
Lemma ex9_model : compile_model ex9_world 0 = Some ex9_tree.
Proof. vm_compute. reflexivity. Qed.
Lemma is_ok_init g t (s : simst Q) : is_ok (init g t s) = true -> init g t s = Ok tt (st_of s (init g t s)).
Proof. destruct (init g t s) as [[] s'| | |]; intros E; try discriminate E. reflexivity. Qed.
Definition ex9_new : simst Q := new_sim (initial_dyn ex9_world).
Definition ex9_0 dbg m : simst Q := st_of ex9_new (init (ex9_cfg dbg m) 0%Q ex9_new).
Definition ex9_to dbg m (t : Q) (s : simst Q) : simst Q := st_of s (run (ex9_cfg dbg m) 20 t (1#100)%Q 10%Q s).
Lemma ex9_session0 dbg m : is_ok (init (ex9_cfg dbg m) 0%Q ex9_new) = true -> session_of ex9_world 0 (ex9_cfg dbg m) (ex9_0 dbg m).
Proof.
  intros E. split; [exists true; exact ex9_reach|]. split; [exact ex9_model|]. split; [intros l; apply reverse_Permutation|].
  split. { intros stp [= <-]. split; [apply euler_ok|apply euler_rel]. }
  exists (ex9_cfg dbg m), ex9_new. split; [|apply (se_init _ _ 0%Q); apply is_ok_init; exact E].
  apply so_first; [reflexivity|reflexivity|]. intros stp [= <-]. apply euler_rel.
Qed.
Lemma session_run {D} `{NumOps D} w b (g : cfg D) fuel t lo hi s s' : session_of w b g s -> run g fuel t lo hi s = Ok tt s' -> session_of w b g s'.
Proof.
  intros (? & ? & ? & ? & g0 & s0 & ? & ?) Hr. split_and!; try done. exists g0, s0. split; [done|]. by eapply se_run.
Qed.
Lemma ex9_session1 dbg m t s : session_of ex9_world 0 (ex9_cfg dbg m) s -> is_ok (run (ex9_cfg dbg m) 20 t (1#100)%Q 10%Q s) = true ->
  session_of ex9_world 0 (ex9_cfg dbg m) (ex9_to dbg m t s).
Proof. intros Hs E. eapply session_run; [exact Hs|]. unfold ex9_to. apply is_ok_run. exact E. Qed.

Definition ex9_1 : simst Q := ex9_to true MDefault 1%Q (ex9_0 true MDefault).
Lemma ex9_1_session : session_of ex9_world 0 (ex9_cfg true MDefault) ex9_1.
Proof. apply ex9_session1; [apply ex9_session0; vm_compute; reflexivity|vm_compute; reflexivity]. Qed.
Example C39_ex : layout ex9_1 = [5; 3; 1]%nat /\ s_sv ex9_1 = [7; 6; 4; 6]%Q /\
  match reset_sv (ex9_cfg true MDefault) [10; 20; 30; 40]%Q ex9_1 with
  | Ok _ s => map (value (s_store s)) [0; 1; 2; 3; 4; 5]%nat = [None; Some (VA [30; 40]%Q); None; Some (VS 20%Q); None; Some (VS 10%Q)]
  | _ => False
  end.
Proof. vm_compute. split_and!; reflexivity. Qed.

(** C40 in debug builds with the default processing, and in release builds with and
    without reuse of the order: the second init returns and the next run is
    undefined. *)
Definition ex9_again dbg m : simst Q := st_of (ex9_0 dbg m) (init (ex9_cfg dbg m) 1%Q (ex9_0 dbg m)).
Theorem C40_refuted : exists w b, forall dbg m, (dbg, m) ∈ [(true, MDefault); (false, MDefault); (false, MReuse)] ->
  exists (g : cfg Q) s t s' fuel t' lo hi, g_dbg g = dbg /\ g_mode g = m /\ session_of w b g s /\ init g t s = Ok tt s' /\
    (s_tprev s' <? t') = true /\ (n0 <? lo) = true /\ (lo <? hi) = true /\ run g fuel t' lo hi s' = UB UIndex.
Proof.
  exists ex9_world, 0%nat. intros dbg m Hin.
  exists (ex9_cfg dbg m), (ex9_0 dbg m), 1%Q, (ex9_again dbg m), 20%nat, 2%Q, (1#100)%Q, 10%Q. split; [reflexivity|]. split; [reflexivity|].
  repeat (apply elem_of_cons in Hin as [E|Hin]; [injection E as -> ->|]); [..|apply elem_of_nil in Hin as []].
  all: (split; [apply ex9_session0; vm_compute; reflexivity|]); (split; [apply is_ok_init; vm_compute; reflexivity|]).
  all: split_and!; vm_compute; reflexivity.
Qed.
Example C40_ex : s_sv (ex9_0 true MDefault) ≠ [] /\ init (ex9_cfg true MDefault) 1%Q (ex9_0 true MDefault) = Ok tt (ex9_again true MDefault).
Proof.
  split; [|apply is_ok_init; vm_compute; reflexivity]. intros E. apply (f_equal (@length Q)) in E. revert E. vm_compute. discriminate.
Qed.

(** C55 for the two Integrators; the TriggeredIntegrator, triggered at t = 1, is
    reset by the repeated step. *)
Definition ex9_2 : simst Q := ex9_to true MDefault 1%Q ex9_1.
Lemma ex9_run2 : run (ex9_cfg true MDefault) 20 1%Q (1#100)%Q 10%Q ex9_1 = Ok tt ex9_2.
Proof. unfold ex9_2, ex9_to. apply is_ok_run. vm_compute. reflexivity. Qed.
Theorem C55_refuted : exists w b (g : cfg Q) s l o fuel t lo hi s',
  session_of w b g s /\ g_dbg g = true /\ block_of w g l o /\ bo_cls o = CTrig TyD /\
  run g fuel t lo hi s = Ok tt s' /\ (t =? s_tprev s) = true /\
  lst_of (s_core s) (l_id l) = LInteg (VS 7%Q) true /\ lst_of (s_core s') (l_id l) = LInteg (VS 0%Q) true /\
  s_sv s = [7; 6; 4; 6]%Q /\ s_sv s' = [0; 6; 4; 6]%Q.
Proof.
  set (l := default (Leaf 0 CSubmodel [] [] no_handles []) (leaves ex9_tree !! 2%nat)).
  set (o := default (BlkObj "" None [] 0 0 false [] [] [] CSubmodel no_handles LNone) (w_blks ex9_world !! 3%nat)).
  exists ex9_world, 0%nat, (ex9_cfg true MDefault), ex9_1, l, o, 20%nat, 1%Q, (1#100)%Q, 10%Q, ex9_2.
  split; [exact ex9_1_session|]. split; [reflexivity|]. split.
  { split; [apply (elem_of_list_lookup_2 _ 2%nat)|]; vm_compute; reflexivity. }
  split; [vm_compute; reflexivity|]. split; [exact ex9_run2|]. split_and!; vm_compute; reflexivity.
Qed.
Example C55_ex :
  let l := default (Leaf 0 CSubmodel [] [] no_handles []) (leaves ex9_tree !! 0%nat) in
  let o := default (BlkObj "" None [] 0 0 false [] [] [] CSubmodel no_handles LNone) (w_blks ex9_world !! 1%nat) in
  block_of ex9_world (ex9_cfg true MDefault) l o /\ bo_cls o = CInteg TyA /\ h_out (bo_h o) = Some 1%nat /\
  is_state_of (ex9_cfg true MDefault) (s_store ex9_1) 1 /\ (1%Q =? s_tprev ex9_1) = true /\ s_sv ex9_1 ≠ [] /\
  lst_of (s_core ex9_2) (l_id l) = LInteg (VA [4; 6]%Q) false.
Proof.
  intros l o. split. { split; [apply (elem_of_list_lookup_2 _ 0%nat)|]; vm_compute; reflexivity. }
  split; [vm_compute; reflexivity|]. split; [vm_compute; reflexivity|]. split.
  { destruct (session_of_packed _ _ _ _ ex9_1_session) as [Hp _]. apply (pk_all _ _ Hp).
    assert (s_scal ex9_1 ++ s_arr ex9_1 = [5; 3; 1]%nat) as -> by (vm_compute; reflexivity). apply elem_of_list_further, elem_of_list_further, elem_of_list_here. }
  split; [vm_compute; reflexivity|]. split; [|vm_compute; reflexivity].
  intros E. apply (f_equal (@length Q)) in E. revert E. vm_compute. discriminate.
Qed.
(** The oscillator of Ex_Models has only Integrators. *)
Definition osc_cfg : cfg Q := ex2_cfg MDefault true rk4.
Definition osc_new : simst Q := new_sim (initial_dyn ex2_world).
Definition osc_0 : simst Q := st_of osc_new (init osc_cfg 0%Q osc_new).
Definition osc_1 : simst Q := st_of osc_0 (run osc_cfg 20 1%Q (1#100)%Q 10%Q osc_0).
Definition osc_2 : simst Q := st_of osc_1 (run osc_cfg 20 1%Q (1#100)%Q 10%Q osc_1).
Example C55_states_ex : session_of ex2_world 0 osc_cfg osc_0 /\ s_sv osc_0 ≠ [] /\
  run osc_cfg 20 1%Q (1#100)%Q 10%Q osc_0 = Ok tt osc_1 /\ run osc_cfg 20 1%Q (1#100)%Q 10%Q osc_1 = Ok tt osc_2 /\ (1%Q =? s_tprev osc_1) = true /\
  (forall z, is_state_of osc_cfg (s_store osc_0) z -> exists l o T x0 g0, block_of ex2_world osc_cfg l o /\ bo_cls o = CInteg T /\ bo_st o = LInteg x0 g0 /\ h_out (bo_h o) = Some z) /\
  s_sv osc_2 = [(-5#6)%Q; (13#24)%Q].
Proof.
  assert (session_of ex2_world 0 osc_cfg osc_0) as Hs.
  { split; [exists true; exact ex2_reach|]. split; [vm_compute; reflexivity|]. split; [intros l; reflexivity|].
    split. { intros stp [= <-]. split; [apply rk4_ok|apply rk4_rel]. }
    exists osc_cfg, osc_new. split; [|apply (se_init _ _ 0%Q); apply is_ok_init; vm_compute; reflexivity].
    apply so_first; [reflexivity|reflexivity|]. intros stp [= <-]. apply rk4_rel. }
  split; [exact Hs|]. split. { intros E. apply (f_equal (@length Q)) in E. revert E. vm_compute. discriminate. }
  split; [unfold osc_1; apply is_ok_run; vm_compute; reflexivity|]. split; [unfold osc_2; apply is_ok_run; vm_compute; reflexivity|].
  split; [vm_compute; reflexivity|]. split; [|vm_compute; reflexivity].
  intros z Hz. destruct (session_of_packed _ _ _ _ Hs) as [Hp _]. apply (pk_all _ _ Hp) in Hz.
  assert (s_scal osc_0 ++ s_arr osc_0 = [1; 0]%nat) as E by (vm_compute; reflexivity). rewrite E in Hz.
  apply elem_of_cons in Hz as [->|Hz].
  - exists (default (Leaf 0 CSubmodel [] [] no_handles []) (leaves ex2_tree !! 1%nat)), (default (BlkObj "" None [] 0 0 false [] [] [] CSubmodel no_handles LNone) (w_blks ex2_world !! 2%nat)), TyD, (VS 0%Q), false.
    split; [split; [apply (elem_of_list_lookup_2 _ 1%nat)|]|split_and!]; vm_compute; reflexivity.
  - apply elem_of_cons in Hz as [->|Hz]; [|apply elem_of_nil in Hz as []].
    exists (default (Leaf 0 CSubmodel [] [] no_handles []) (leaves ex2_tree !! 0%nat)), (default (BlkObj "" None [] 0 0 false [] [] [] CSubmodel no_handles LNone) (w_blks ex2_world !! 1%nat)), TyD, (VS 1%Q), false.
    split; [split; [apply (elem_of_list_lookup_2 _ 0%nat)|]|split_and!]; vm_compute; reflexivity.
Qed.
Print Assumptions C39_layout. Print Assumptions C39_load. Print Assumptions C39_back. Print Assumptions C40_again. Print Assumptions C40_refuted.
Print Assumptions C55_integrator. Print Assumptions C55_states. Print Assumptions C55_refuted.
