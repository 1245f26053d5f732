(** A step of Euler's method in a model with a Derivative block. *)
From stdpp Require Import prelude gmap.
From Coq Require Import ZArith QArith Reals Lra.
From Verif Require Import Num NumR NumOrd NumAdd Res Store Leaf Sched Stepper Sim World Api SpecSched P_Store P_Prog P_Modes P_Conf P_Sched P_Eval P_Lib P_Fast P_Sim P_Evolve SpecSim P_World P_Compile
  P_Simulated P_Rel P_Rel2 SpecHist P_Trace P_Life SpecRun P_Log P_Run P_Pack P_Repeat Props_Pack SpecBlock SpecAgain P_Over P_Redo Props_Again SpecField P_Field P_FieldRun P_Path SpecRK P_RK Props_Conv.
Local Open Scope nat_scope.

Section diff.
  Context {D : Type} `{NumOps D} (g : cfg D) (Hw : wf_tree (g_tree g)) (Hg : g_dbg g = true).
  Implicit Types s : simst D.
  Lemma post_spec t a s s' l : process_model g t a true s = Ok tt s' -> l ∈ leaves (g_tree g) -> exists m, shows (s_store s') (post l t m) (lst_of (s_core s') (l_id l)).
  Proof.
    intros E Hl. unfold process_model in E. unfold bnd at 1 in E. destruct (on_core' (inputs g t) s) as [[] s1| | |]; try done.
    unfold bnd at 1 in E. match type of E with match ?m with _ => _ end = _ => destruct m as [[] s2| | |]; try done end.
    unfold bnd at 1 in E. destruct (eval_model g t s2) as [[] s3| | |]; try done.
    unfold bnd at 1 in E. destruct (on_core' (snap (EvEval t)) s3) as [[] s4| | |]; try done.
    rewrite Hg in E. unfold on_core', on_dyn, on_core, lift, bnd in E. rewrite post_each in E.
    destruct (each _ _ _ _ (d_core (s_dyn s4))) as [[] c1| | |] eqn:Ee; try done. injection E as <-.
    destruct (each_spec _ _ _ _ _ Ee (wf_leaves _ Hw)) as (_ & _ & H3 & _). eexists. exact (H3 l Hl).
  Qed.
  Lemma post_deriv t a s s' l si : process_model g t a true s = Ok tt s' -> l ∈ leaves (g_tree g) -> l_cls l = CDeriv -> h_in (l_h l) = Some si ->
    exists u, value (s_store s') si = Some (VS u) /\ lst_of (s_core s') (l_id l) = LDeriv false (Some t) (Some u) u.
  Proof.
    intros E Hl Hc Hi. destruct (post_spec t a s s' l E Hl) as [m Hs]. unfold post in Hs. rewrite Hc in Hs. unfold deriv_post in Hs. rewrite Hi in Hs. cbn in Hs.
    apply shows_get in Hs as (v & Hv & Hs). destruct v as [u| | |]; try (by apply shows_ub in Hs). apply shows_ret in Hs. by exists u.
  Qed.
  Lemma post_integ t a s s' z l T : process_model g t a true s = Ok tt s' -> l ∈ leaves (g_tree g) -> l_cls l = CInteg T -> h_out (l_h l) = Some z -> exists v, value (s_store s') z = Some v.
  Proof.
    intros E Hl Hc Ho. destruct (post_spec t a s s' l E Hl) as [m Hs]. unfold post in Hs. rewrite Hc in Hs.
    destruct m; try (by apply shows_ub in Hs). rewrite Ho in Hs. cbn in Hs. apply shows_get in Hs as (v' & Hv & _). by exists v'.
  Qed.
  Lemma run_post fuel t lo hi s s' : s_init s = true -> run g fuel t lo hi s = Ok tt s' -> exists a s2 s3, process_model g t a true s2 = Ok tt s3 /\ s' = put_tprev t s3.
  Proof.
    intros Hin Hr. unfold run in Hr. unfold bnd at 1, gets at 1 in Hr. rewrite Hin in Hr. cbn [negb] in Hr.
    unfold bnd at 1, gets at 1 in Hr. unfold bnd at 1, gets at 1 in Hr. unfold bnd at 1 in Hr.
    match type of Hr with match ?m with _ => _ end = _ => destruct m as [[] s1| | |]; try done end.
    unfold bnd at 1, gets at 1 in Hr. unfold bnd at 1 in Hr. destruct (reset_sv g (s_sv s1) s1) as [[] s2| | |]; try done.
    unfold bnd at 1 in Hr. match type of Hr with match process_model g t ?a true s2 with _ => _ end = _ => exists a; destruct (process_model g t a true s2) as [[] s3| | |] eqn:E3; try done end.
    injection Hr as <-. by exists s2, s3.
  Qed.
  Lemma begin_deriv t s sb l : begin_step g t s = Ok tt sb -> l ∈ leaves (g_tree g) -> l_cls l = CDeriv -> lst_of (s_core sb) (l_id l) = lst_of (s_core s) (l_id l).
  Proof.
    intros E Hl Hc. revert E. unfold begin_step. unfold bnd at 1.
    destruct (clear_all s) as [[] s1| | |] eqn:E1; try done. unfold bnd at 1.
    destruct (on_core' (inputs g t) s1) as [[] s2| | |] eqn:E2; try done. intros E3.
    apply clear_inv in E1 as (_ & L1 & _).
    assert (k_lst (s_core s2) = k_lst (s_core s1)) as L2.
    { unfold on_core', on_dyn, on_core, lift in E2. destruct (inputs g t _) as [[] c| | |] eqn:Ei; try done. injection E2 as <-.
      by destruct (inputs_shown g Hg _ _ _ Ei) as (_ & _ & ?). }
    rewrite Hg in E3. unfold on_core', on_dyn, on_core, lift, bnd in E3. rewrite pre_each in E3.
    destruct (each _ _ _ _ (d_core (s_dyn s2))) as [[] c1| | |] eqn:Ee; try done. injection E3 as <-.
    destruct (each_spec _ _ _ _ _ Ee (wf_leaves _ Hw)) as (_ & _ & H3 & _). specialize (H3 l Hl).
    assert (lst_of (d_core (s_dyn s2)) (l_id l) = lst_of (s_core s) (l_id l)) as Em2. { unfold lst_of, s_core in *. by rewrite L2, L1. }
    rewrite Em2 in H3. unfold pre in H3. rewrite Hc in H3. by apply shows_ret in H3.
  Qed.
  Lemma session_last w b s : session_of w b g s -> exists a s2 s3, process_model g (s_tprev s) a true s2 = Ok tt s3 /\ s_core s = s_core s3.
  Proof.
    intros Hs. pose proof Hs as (_ & _ & _ & Hstp & g0 & s0 & Hs0 & Hses). destruct Hses as [t s Hi|s fuel t lo hi s' Hses Hr].
    - destruct (init_flags g t _ _ Hi) as [_ ->]. unfold init in Hi. assert (exists a s1, process_model g t a true s1 = Ok tt s) as (a & s1 & Hp); [|by exists a, s1, s].
      destruct (g_mode g).
      1,2: unfold simulator_init in Hi; unfold bnd in Hi;
        repeat match type of Hi with match ?m with _ => _ end = _ => destruct m as [? ?| | |]; try done end; eauto.
      unfold fast_init in Hi. unfold bnd in Hi.
      repeat match type of Hi with match ?m with _ => _ end = _ => destruct m as [? ?| | |]; try done end; eauto.
    - assert (s_init s = true) as Hin.
      { assert (session_of w b g s) as Hs1. { destruct Hs as (H1 & H2 & H3 & H4 & _). split_and!; try done. by exists g0, s0. } by destruct (session_of_packed _ _ _ _ Hs1). }
      destruct (run_post fuel t lo hi s s' Hin Hr) as (a & s2 & s3 & E & ->). by exists a, s2, s3.
  Qed.
End diff.

(** At an instant, what is given has a value. *)
Lemma given_value {D} `{NumOps D} σ0 (g : cfg D) zs t m x dx σ s : instant σ0 g zs t m x dx σ -> given g zs t s -> exists v, value σ s = Some v.
Proof.
  intros Hi [Hz|(p & ws & Hp & Hc & Hs)]; [exact (in_known _ _ _ _ _ _ _ _ Hi s Hz)|].
  assert (shows σ (p t) tt) as (ws' & Hc' & Hv). { destruct Hp as [Hp|<-]; [exact (in_inputs _ _ _ _ _ _ _ _ Hi p Hp)|exact (in_icb _ _ _ _ _ _ _ _ Hi)]. }
  assert (forall A (q : prog D A) f a ws, ceval (fun _ => None) q = Some (a, ws) -> ceval f q = Some (a, ws)) as Hmon.
  { clear. intros A q. induction q as [a|s k IH|s v p IH|c e p IH|e|u]; cbn; intros f a' ws E; try done.
    - destruct (ceval (fun _ => None) p) as [[a1 ws1]|] eqn:E1; try done. by rewrite (IH f _ _ eq_refl).
    - destruct c; [by apply IH|done]. }
  rewrite (Hmon _ _ _ _ _ Hc) in Hc'. injection Hc' as <-. apply elem_of_list_fmap in Hs as ([s' v] & -> & Hin). exists v. by apply Hv.
Qed.

(** Lists of at most one element each, as many elements as lists. *)
Lemma ones_length {A} (ls : list (list A)) : Forall (fun l => length l <= 1) ls -> length (concat ls) <= length ls.
Proof. induction 1 as [|l ls Hl _ IH]; cbn; [done|]. rewrite app_length. lia. Qed.
Lemma ones_lookup {A} (ls : list (list A)) : Forall (fun l => length l <= 1) ls -> length (concat ls) = length ls -> forall i l, ls !! i = Some l -> exists a, l = [a] /\ concat ls !! i = Some a.
Proof.
  induction 1 as [|l ls Hl Hls IH]; intros Hn i l' Hi; [done|]. cbn in *. rewrite app_length in Hn. pose proof (ones_length ls Hls).
  destruct l as [|a [|]]; cbn in *; try lia. destruct i as [|i]; cbn in *; [injection Hi as <-; by exists a|]. apply IH; [lia|done].
Qed.

Local Open Scope R_scope.
(** The values of scalar states, in the order of the state vector. *)
Lemma pack_scalars (σ : store R) zs : (forall z, z ∈ zs -> exists x, value σ z = Some (VS x)) -> length (pack σ zs) = length zs /\ forall i z, zs !! i = Some z -> exists x, value σ z = Some (VS x) /\ pack σ zs !! i = Some x.
Proof.
  induction zs as [|z zs IH]; intros Hz; [done|]. destruct (Hz z) as [x Ex]; [apply elem_of_list_here|]. destruct IH as [IH1 IH2]; [intros z' Hz'; apply Hz; by apply elem_of_list_further|].
  rewrite pack_cons, Ex. cbn. split; [by f_equal|]. intros [|i] z' Hi; cbn in *; [injection Hi as <-; by exists x|by apply IH2].
Qed.

Section euler.
  Context (w : world R) (b : nat) (g : cfg R).
  Lemma euler_deriv s tp t s' (l : leaf R) so z c u :
    session_of w b g s -> g_dbg g = true -> derivs_fit (initial_store w) -> (forall z, z ∈ layout s -> integral g z) -> s_arr s = [] ->
    euler_run g tp t s = Ok tt s' -> l ∈ leaves (g_tree g) -> l_cls l = CDeriv -> h_out (l_h l) = Some so -> (forall x, x ∈ required l -> given g (layout s) tp x) ->
    z ∈ layout s -> initial_store w !! z = Some c -> c_deriv c = Some so ->
    lst_of (s_core s) (l_id l) = LDeriv false (Some tp) (Some u) u ->
    (forall z, z ∈ layout s -> exists x, value (s_store s) z = Some (VS x)) ->
    exists x, value (s_store s) z = Some (VS x) /\ value (s_store s') z = Some (VS (x + (t - tp) * u)).
  Proof.
    intros Hs Hg Hfit Hint Harr E Hl Hc Ho Hreq Hz Hcz Hd Hm Hval.
    destruct (session_of_packed _ _ _ _ Hs) as [Hp Hi]. pose proof (session_ready _ _ _ _ Hs Hg) as Hrd. pose proof (session_wf _ _ _ _ Hs) as Hw.
    pose proof (session_shape _ _ _ _ Hs) as Hsh0. pose proof (fit_shape _ _ _ Hsh0 Hfit) as Hfit1.
    unfold euler_run in E. unfold bnd at 1 in E. destruct (begin_step g tp s) as [[] sb| | |] eqn:Eb; try done.
    unfold bnd at 1, gets at 1 in E. unfold bnd at 1 in E. destruct (get_sv g (s_svo sb) sb) as [x sb'| | |] eqn:Eg; try done.
    pose proof (get_sv_same _ _ _ _ _ Eg) as ->. unfold bnd at 1, modify at 1 in E. unfold bnd at 1 in E.
    destruct (minor_cb g tp x (put_svo x sb)) as [k s1| | |] eqn:E1; try done.
    pose proof (packed_begin _ _ _ _ _ Hp Eb) as Hpb. pose proof (get_sv_len g _ _ _ _ Eg) as Hlx. pose proof (packed_svo g x sb Hlx Hpb) as Hps.
    pose proof (pres_begin_step g tp s) as Vb. rewrite Eb in Vb. pose proof (ev_dyn _ _ _ Vb) as [Hshb _]. change (shape (g_dbg g) (s_store s) (s_store sb)) in Hshb.
    assert (s_scal sb ++ s_arr sb = layout s) as Hlay by (by rewrite (ev_scal _ _ _ Vb), (ev_arr _ _ _ Vb)).
    assert (x = pack (s_store s) (layout s)) as Ex.
    { rewrite (get_pack g Hg _ _ _ _ Hpb (eq_trans (pk_svo _ _ Hpb) (eq_sym (pk_sv _ _ Hpb))) Eg), Hlay. eapply begin_held; [exact Hw|exact Hg|exact Eb|]. by eapply session_held. }
    assert (length x = length (s_sv sb)) as Hlsv by (rewrite Hlx, (pk_svo _ _ Hpb), (pk_sv _ _ Hpb); done).
    assert (instant (s_store sb) g (layout s) tp (lst_of (s_core sb)) x k (s_store s1)) as Hins.
    { rewrite <- Hlay. apply (minor_instant g Hw Hg tp x (put_svo x sb) k s1); [|exact Hps| |exact Hlsv|exact E1].
      - assert (ready g sb) as Hr by (eapply ready_evo; [done|exact Vb|exact Hrd]). exact Hr.
      - exact (fit_shape _ _ _ Hshb Hfit1). }
    assert (value (s_store s1) so = Some (VS u)) as Hso.
    { destruct (in_laws _ _ _ _ _ _ _ _ Hins l Hl) as [Hwt|[_ [m' Hsw]]]; [by rewrite Hc| |].
      - destruct Hwt as (y & Hy & Ha). destruct (given_value _ _ _ _ _ _ _ _ y Hins (Hreq y Hy)) as [v Hv]. exfalso. unfold value in Hv. unfold assigned in Ha.
        destruct (s_store s1 !! y) as [cy|]; [|done]. by rewrite Ha in Hv.
      - rewrite (begin_deriv g Hw Hg tp s sb l Eb Hl Hc), Hm in Hsw. unfold act in Hsw. rewrite Hc in Hsw. unfold deriv_act in Hsw. rewrite Ho in Hsw.
        destruct (h_in (l_h l)) as [si'|]; [|by apply shows_ub in Hsw]. cbn [with_h] in Hsw. replace (neqb tp tp) with true in Hsw by (symmetry; by apply Reqb_true). by apply shows_set in Hsw as [? _]. }
    unfold bnd at 1 in E. destruct (Nat.eqb (length k) (length x)) eqn:El; [|done]. apply Nat.eqb_eq in El. unfold ret at 1 in E.
    destruct (pack_scalars (s_store s) (layout s) Hval) as [Hn Hix]. rewrite <- Ex in Hn, Hix.
    apply elem_of_list_lookup in Hz as [i Hi']. destruct (Hix i z Hi') as (xz & Vz & Xz). exists xz. split; [exact Vz|].
    assert (k !! i = Some u) as Hku.
    { destruct (in_deriv _ _ _ _ _ _ _ _ Hins) as (ds & HF & Ek). pose proof (Forall2_length _ _ _ HF) as Hlen.
      destruct (Forall2_lookup_l _ _ _ _ _ HF Hi') as (d & Hdi & cz & v & Hcz' & Hcd & Hv).

      assert (d = so) as ->.
      { assert (shape (g_dbg g) (initial_store w) (s_store sb)) as Hsh by (by etrans). destruct (shape_inv _ _ _ z cz Hsh Hcz') as (c0 & Hc0 & Esc). rewrite Hcz in Hc0. injection Hc0 as <-. destruct Esc as (_ & Ed & _) || destruct Esc as [_ Ed]. congruence. }
      unfold pack in Ek. assert (length (concat (map (fun z => match value (s_store s1) z with Some v => flat v | None => [] end) ds)) = length (map (fun z => match value (s_store s1) z with Some v => flat v | None => [] end) ds)) as Hcl.
      { rewrite <- Ek, map_length. congruence. }
      destruct (fun H1 => ones_lookup _ H1 Hcl i (flat (VS u))) as (a & Ea & Hla).
      - apply Forall_forall. intros q Hq. apply elem_of_list_fmap in Hq as (d & -> & Hdd). apply elem_of_list_lookup in Hdd as [j Hj].
        destruct (Forall2_lookup_r _ _ _ _ _ HF Hj) as (zj & Hzj & cj & vj & Hcj & Hcdj & Hvj). rewrite Hvj.
        destruct (in_typed _ _ _ _ _ _ _ _ Hins d vj Hvj) as (cd & Hcd' & Hkf & Hsf).
        pose proof (fit_shape _ _ _ Hshb Hfit1 zj cj d Hcj Hcdj) as Hsz. unfold sig_size in Hsz. rewrite Hcd', Hcj in Hsz.
        assert (c_kind cj = KScalar) as Ekj.
        { apply elem_of_list_lookup_2 in Hzj. rewrite <- Hlay in Hzj. assert (s_arr sb = []) as Ha by (by rewrite (ev_arr _ _ _ Vb)). rewrite Ha, app_nil_r in Hzj.
          destruct (pk_scal _ _ Hpb zj Hzj) as (c' & Hc' & Hk'). congruence. }
        rewrite Ekj in Hsz. destruct (c_kind cd), vj; cbn in *; try done; try lia. apply Nat.eqb_eq in Hsf. lia.
      - rewrite list_lookup_fmap, Hdi. cbn. by rewrite Hso.
      - cbn in Ea. injection Ea as <-. by rewrite Ek. }
    unfold bnd at 1, modify at 1 in E. unfold bnd at 1 in E. set (y := va x (vk (t - tp) k)) in *.
    destruct (on_core' (emit (EvTry tp x t y (t - tp))) (put_sv y s1)) as [[] s2| | |] eqn:E2; try done.
    assert (packed g s1 /\ s_sv s1 = s_sv sb /\ evo g sb s1) as (Hp1 & Hsv1 & V1).
    { split_and!.
      - eapply both_packed; [|exact Hps|exact E1]. by apply pres_both; [apply pres_minor_cb|apply vecs_minor_cb].
      - pose proof (vecs_minor_cb g tp x (put_svo x sb)) as Hv. rewrite E1 in Hv. destruct Hv as (-> & _). done.
      - pose proof (pres_minor_cb g tp x (put_svo x sb)) as Hv. rewrite E1 in Hv. destruct Hv. by split. }
    assert (length y = length (s_sv s1)) as Hly. { unfold y, va, vk. rewrite zip_with_length, map_length. rewrite Hsv1. lia. }
    pose proof (packed_sv g y s1 Hly Hp1) as Hpy.
    assert (packed g s2) as Hp2 by (eapply packed_core; [apply pres_emit|exact Hpy|exact E2]).
    assert (s_sv s2 = y /\ s_scal s2 = s_scal s1 /\ s_arr s2 = s_arr s1) as (Sv & Sc & Sa). { unfold on_core', on_dyn, on_core, lift, emit, modify in E2. by injection E2 as <-. }
    unfold bnd at 1, gets at 1 in E. rewrite Sv in E. unfold bnd at 1 in E. destruct (reset_ok g y s2 Hp2 ltac:(by rewrite Sv)) as (s3 & E3 & Hpk & Hset & _).
    rewrite E3 in E. unfold bnd at 1 in E. destruct (process_model g t false true s3) as [[] s4| | |] eqn:E4; try done. injection E as <-.
    change (s_store (put_tprev t s4)) with (s_store s4).
    assert (s_scal s2 ++ s_arr s2 = layout s) as Hl2. { rewrite Sc, Sa, (ev_scal _ _ _ V1), (ev_arr _ _ _ V1). exact Hlay. }
    rewrite Hl2 in Hpk. pose proof (pres_reset_sv g y s2) as V3. rewrite E3 in V3.
    assert (layout s3 = layout s) as Hl3. { unfold layout. rewrite (ev_scal _ _ _ V3), (ev_arr _ _ _ V3). exact Hl2. }
    assert (s_arr s3 = []) as Ha3. { rewrite (ev_arr _ _ _ V3), Sa, (ev_arr _ _ _ V1), (ev_arr _ _ _ Vb). exact Harr. }
    destruct (pack_scalars (s_store s3) (layout s)) as [_ H3].
    { intros z' Hz'. rewrite <- Hl3 in Hz'. unfold layout in Hz'. rewrite Ha3, app_nil_r in Hz'. by apply (proj1 Hset). }
    destruct (H3 i z Hi') as (xn & Vn & Xn). rewrite Hpk in Xn.
    pose proof (P_Grow.grow_process g Hg t false true s3) as Hgr. rewrite E4 in Hgr. eapply (ext_value (s_store s3)); [exact Hgr|]. rewrite Vn. do 2 f_equal.
    unfold y, va, vk in Xn. apply lookup_zip_with_Some in Xn as (x1 & k1 & -> & Hx1 & Hk1). rewrite Xz in Hx1. injection Hx1 as <-.
    rewrite list_lookup_fmap, Hku in Hk1. by injection Hk1 as <-.
  Qed.
End euler.
