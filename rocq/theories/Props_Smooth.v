(** Property C71: for models built from smooth library blocks the error shrinks with the
    order of the method. *)
From stdpp Require Import prelude gmap strings.
From Coq Require Import ZArith QArith Reals Lra Qreals Psatz.
From Verif Require Import Num NumQ NumR NumOrd NumAdd Res Name Store Leaf Sched Stepper Sim World Api SpecSched P_Store P_Prog P_Lib P_World P_Compile P_Simulated P_Evolve P_Rel P_Rel2 SpecHist P_Trace SpecBlock Ex_Models
  SpecRun P_Log P_Run Props_Run P_Pack P_Grow P_Again P_Repeat Props_Pack SpecRK P_RK SpecAgain P_Over P_Redo Props_Again SpecField P_Field P_FieldRun P_Posed P_Path Props_Field SpecConv P_Conv Props_Conv SpecLin P_Lin Props_Lin
  SpecOrd P_Ord P_Ord2 P_Ord3 Props_Ord SpecSmooth P_Tame P_Tame2 P_Tame3 P_Smooth.
Local Open Scope nat_scope.
Local Open Scope R_scope.

Theorem C71_order : forall meth w b (g : cfg R) s φ t0 T, t0 <= T ->
  session_of w b g s -> g_dbg g = true -> (forall l, l ∈ leaves (g_tree g) -> steady_class l) -> derivs_fit (initial_store w) ->
  g_stepper g = Some (stp_of meth) -> (forall z, z ∈ layout s -> integral g z) -> s_sv s ≠ [] ->
  (forall z, z ∈ layout s -> exists c, initial_store w !! z = Some c /\ c_kind c = KScalar) ->
  solution (initial_store w) g (layout s) φ t0 T ->
  (forall z c d, z ∈ layout s -> initial_store w !! z = Some c -> c_deriv c = Some d -> smoothly (initial_store w) g (layout s) φ t0 T d) ->
  s_tprev s = t0 -> pack (s_store s) (layout s) = φ t0 ->
  exists K H0, 0 <= K /\ 0 < H0 /\ forall s' H, 0 <= H <= H0 -> advance g H s s' -> s_tprev s' <= T ->
    within (K * H ^ order_of meth) (pack (s_store s') (layout s')) (φ (s_tprev s')).
Proof.
  intros meth w b g s φ t0 T HT Hs Hg Hst Hfit Es Hint Hn Hsc Hsol Hder Htp Hx.
  assert (forall l, l ∈ leaves (g_tree g) -> reads_wired (base.dom (initial_store w)) l) as Hw.
  { intros l Hl. destruct Hs as ((dbg & Hr) & Hc & _). eapply compile_wired; [by eapply reach_ok|exact Hc|done]. }
  destruct (smooth_field (initial_store w) g (layout s) φ t0 T HT Hw Hsc Hsol Hder) as (fs & El & Tfs & HF & Hsv).
  pose proof (sol_len (initial_store w) g (layout s) φ t0 T Hsc Hsol) as Hlen.
  destruct (vector_smooth (length (layout s)) φ t0 T Hlen fs Tfs El) as (r & L & B & M & Hr & HL & HB & HM & Hreg & Hlip & Hexp).
  destruct (C70_order meth (length (layout s)) (fun_of fs) φ t0 T r L B M Hr HL HB HM HT (Hlen t0 ltac:(lra)) Hsv Hreg Hlip Hexp) as (K & H0 & HK & HH & Hall).
  exists K, H0. split; [done|]. split; [done|]. intros s' H Hh Ha Hle. eapply Hall; try done. 
Qed.
Print Assumptions C71_order.

(** ** Example: x' = 1 / h(x) with x = 0 at time 0, by Rk4; for h = exp the solution is
    ln (1 + t). *)
Section world.
  Context (h : R -> R).
  Definition siso_of (_ : R) (v : val R) : prog R (val R) := match v with VS a => PRet (VS (h a)) | _ => PRet v end.
  Definition rec_ops : list (wop R) :=
    [ ONewSig KScalar "x"; ONewSig KScalar "dx"; ONewSig KScalar "one"; ONewSig KScalar "h";
      ONewBus [0] ""; ONewBus [1] ""; ONewBus [2] ""; ONewBus [3] ""; ONewBus [2; 3] ""; ONewBus [] "";
      ONewBlock CSubmodel LNone None "root" NoIOLimit NoIOLimit;
      ONewBlock (CInteg TyD) (LInteg (VS 0%R) false) (Some 0) "int" 1 1;
      ONewBlock (CConst TyD (VS 1%R)) LNone (Some 0) "one" 0 1;
      ONewBlock (CSISO TyD siso_of) LNone (Some 0) "h" 1 1;
      ONewBlock CDiv LNone (Some 0) "div" 2 1;
      OConnect 1 5 4; OConnect 2 9 6; OConnect 3 4 7; OConnect 4 8 5 ]%nat.
  Definition rec_world : world R := world_of true rec_ops.
  Definition rec_tree : tree R := default (TSub 0 [] []) (compile_model rec_world 0).
  Definition rec_cfg : cfg R := Cfg true MDefault rec_tree None (fun _ => PRet tt) (Some rk4) (fun x => reverse x) 0.
  Lemma rec_reach : wreach true rec_world.
  Proof. reach_ops rec_world rec_ops. Qed.
  Lemma rec_model : compile_model rec_world 0 = Some rec_tree.
  Proof. vm_compute. reflexivity. Qed.
  Definition rec_new : simst R := new_sim (initial_dyn rec_world).
  Definition rec_0 : simst R := st_of rec_new (init rec_cfg 0 rec_new).
  Lemma rec_session : session_of rec_world 0 rec_cfg rec_0.
  Proof.
    assert (is_ok (init rec_cfg 0 rec_new) = true) as E by (vm_compute; reflexivity). apply ok_init in E.
    eapply (session_init _ _ _ rk4); [exact rec_reach|exact rec_model|intros l; apply reverse_Permutation|reflexivity|apply rk4_ok|apply rk4_rel|exact E].
  Qed.
  Definition rec_to (t1 t : R) (s : simst R) : simst R := st_of s (rk4_run rec_cfg t1 t s).
  Lemma rec_2 u : is_ok (rk4_run rec_cfg 0 u rec_0) = true /\ is_ok (rk4_run rec_cfg u (2 * u) (rec_to 0 u rec_0)) = true.
  Proof. split; vm_compute; reflexivity. Qed.
  Lemma rec_layout : layout rec_0 = [0]%nat.
  Proof. vm_compute. reflexivity. Qed.
  Definition rec_leaves : list (leaf R) := leaves rec_tree.
  Lemma rec_cfg_leaves : leaves (g_tree rec_cfg) = rec_leaves.
  Proof. unfold rec_cfg, rec_leaves. cbn [g_tree]. reflexivity. Qed.
  Lemma rec_facts : (forall l, l ∈ leaves (g_tree rec_cfg) -> steady_class l) /\ derivs_fit (initial_store rec_world) /\ (forall z, z ∈ layout rec_0 -> integral rec_cfg z) /\
    s_sv rec_0 ≠ [] /\ s_tprev rec_0 = 0 /\ pack (s_store rec_0) (layout rec_0) = [0].
  Proof.
    rewrite rec_cfg_leaves. split; [apply steadyb_ok; vm_compute; reflexivity|]. split; [apply fitb_ok; vm_compute; reflexivity|].
    split; [rewrite rec_layout; eapply integb_ok; [exact rec_cfg_leaves|vm_compute; reflexivity]|].
    split. { intros E. apply (f_equal (@length R)) in E. revert E. vm_compute. intros E; discriminate E. }
    split; [vm_compute; reflexivity|]. rewrite rec_layout. vm_compute. reflexivity.
  Qed.
  Lemma rec_runs u : 0 < u -> exists s1 s2, advance rec_cfg u rec_0 s1 /\ s_tprev s1 = u /\ advance rec_cfg u rec_0 s2 /\ s_tprev s2 = 2 * u.
  Proof.
    intros Hu. destruct (rec_2 u) as [E1 E2]. apply ok_rk4 in E1, E2. exists (rec_to 0 u rec_0), (rec_to u (2 * u) (rec_to 0 u rec_0)).
    assert (s_tprev rec_0 = 0) as E0 by (vm_compute; reflexivity). assert (s_tprev (rec_to 0 u rec_0) = u) as Ep by (vm_compute; reflexivity).
    assert (run rec_cfg 1 u (u / 2) u rec_0 = Ok tt (rec_to 0 u rec_0)) as R1.
    { rewrite run_rk4; [rewrite E0; exact E1|reflexivity|vm_compute; reflexivity|exists 0%nat; vm_compute; reflexivity|rewrite E0; lra|lra|lra]. }
    assert (run rec_cfg 1 (2 * u) (u / 2) u (rec_to 0 u rec_0) = Ok tt (rec_to u (2 * u) (rec_to 0 u rec_0))) as R2.
    { rewrite run_rk4; [rewrite Ep; exact E2|reflexivity|vm_compute; reflexivity|exists 0%nat; vm_compute; reflexivity|rewrite Ep; lra|lra|lra]. }
    split. { eapply adv_run; [| |exact R1|constructor]; rewrite E0; lra. }
    split; [exact Ep|].
    split. { eapply adv_run; [| |exact R1|]; [rewrite E0; lra|rewrite E0; lra|]. eapply adv_run; [| |exact R2|constructor]; rewrite Ep; lra. }
    vm_compute; reflexivity.
  Qed.
  Lemma rec_blocks : exists l1 l2 l3 l4, rec_leaves = [l1; l2; l3; l4] /\
    (l_cls l1 = CInteg TyD /\ l_cls l2 = CConst TyD (VS 1) /\ l_cls l3 = CSISO TyD siso_of /\ l_cls l4 = CDiv) /\
    (h_out (l_h l2) = Some 2 /\ h_in (l_h l3) = Some 0 /\ h_out (l_h l3) = Some 3 /\ h_x1 (l_h l4) = Some 2 /\ h_x2 (l_h l4) = Some 3 /\ h_out (l_h l4) = Some 1)%nat /\
    (required l2 = [] /\ required l3 = [0] /\ required l4 = [2; 3])%nat /\
    forall σ y t m, value σ 0%nat = Some (VS y) -> value σ 1%nat = Some (VS (1 / h y)) -> value σ 2%nat = Some (VS 1) -> value σ 3%nat = Some (VS (h y)) ->
      forall l, l ∈ [l1; l2; l3; l4] -> law l t m σ.
  Proof.
    do 4 eexists. split; [vm_compute; reflexivity|]. split; [split_and!; reflexivity|]. split; [split_and!; reflexivity|]. split; [split_and!; vm_compute; reflexivity|].
    intros σ y t m E0 E1 E2 E3 l Hl. repeat (apply elem_of_cons in Hl as [-> |Hl]); [| | | |by apply elem_of_nil in Hl].
    - split; [done|]. eexists. exists []. split; [reflexivity|]. intros s v Hs. by apply elem_of_nil in Hs.
    - split; [by exists 2%nat|]. eexists. eexists. split; [reflexivity|]. intros s v Hs. apply elem_of_list_singleton in Hs. injection Hs as -> ->. done.
    - split; [|].
      + exists 0%nat, 3%nat, (VS y), (VS (h y)). split_and!; try done. by exists [].
      + eexists. eexists. split; [cbn; rewrite E0; reflexivity|]. intros s v Hs. apply elem_of_list_singleton in Hs. injection Hs as -> ->. done.
    - split; [|].
      + exists 2%nat, 3%nat, 1%nat, (VS 1), (VS (h y)), (VS (1 / h y)). split_and!; try done. exact (pw_scalar ndiv 1 (h y)).
      + eexists. eexists. split; [cbn; rewrite E2; cbn; rewrite E3; reflexivity|]. intros s v Hs. apply elem_of_list_singleton in Hs. injection Hs as -> ->. done.
  Qed.
  Lemma rec_store : exists c0 c1 c2 c3, (initial_store rec_world !! 0 = Some c0 /\ initial_store rec_world !! 1 = Some c1 /\ initial_store rec_world !! 2 = Some c2 /\ initial_store rec_world !! 3 = Some c3 /\
    c_kind c0 = KScalar /\ c_kind c1 = KScalar /\ c_kind c2 = KScalar /\ c_kind c3 = KScalar /\ c_deriv c0 = Some 1)%nat.
  Proof. do 4 eexists. do 4 (split; [vm_compute; reflexivity|]). split_and!; reflexivity. Qed.
  Lemma rec_field t m y : field (initial_store rec_world) rec_cfg (layout rec_0) t m [y] [1 / h y].
  Proof.
    rewrite rec_layout. destruct rec_store as (c0 & c1 & c2 & c3 & H0 & H1 & H2 & H3 & K0 & K1 & K2 & K3 & D0). destruct rec_blocks as (l1 & l2 & l3 & l4 & El & _ & _ & _ & Hlaw).
    assert (leaves (g_tree rec_cfg) = [l1; l2; l3; l4]) as El' by (rewrite rec_cfg_leaves; exact El).
    assert (g_inputs rec_cfg = None) as Ei by reflexivity. assert (forall t, g_icb rec_cfg t = PRet tt) as Ec by reflexivity.
    revert H0 H1 H2 H3 El' Ei Ec. generalize (initial_store rec_world). generalize rec_cfg. clear El. intros g σ0 H0 H1 H2 H3 El Ei Ec.
    set (σ := <[0%nat := Cell KScalar None true (Some (VS y))]> (<[1%nat := Cell KScalar None true (Some (VS (1 / h y)))]> (<[2%nat := Cell KScalar None true (Some (VS 1))]> (<[3%nat := Cell KScalar None true (Some (VS (h y)))]> ∅))) : store R).
    assert (value σ 0%nat = Some (VS y)) as E0 by (unfold value, σ; by rewrite lookup_insert).
    assert (value σ 1%nat = Some (VS (1 / h y))) as E1 by (unfold value, σ; by rewrite lookup_insert_ne, lookup_insert by done).
    assert (value σ 2%nat = Some (VS 1)) as E2 by (unfold value, σ; by rewrite !lookup_insert_ne, lookup_insert by done).
    assert (value σ 3%nat = Some (VS (h y))) as E3 by (unfold value, σ; by rewrite !lookup_insert_ne, lookup_insert by done).
    exists σ. split.
    - rewrite pack_cons, E0. done.
    - intros z Hz. apply elem_of_list_singleton in Hz as ->. by eexists.
    - rewrite Ei. done.
    - rewrite Ec. exists []. split; [done|]. intros s v Hs. by apply elem_of_nil in Hs.
    - intros l Hl _. right. rewrite El in Hl. by eapply Hlaw.
    - exists [1%nat]. split; [|rewrite pack_cons, E1; done]. apply Forall2_cons. split; [|by apply Forall2_nil]. by exists c0, (VS (1 / h y)).
    - intros s v Hv. unfold value in Hv. destruct (σ !! s) as [c|] eqn:Es; [|done]. unfold σ in Es.
      apply lookup_insert_Some in Es as [[<- <-]|[_ Es]]; [injection Hv as <-; exists c0; by rewrite K0|].
      apply lookup_insert_Some in Es as [[<- <-]|[_ Es]]; [injection Hv as <-; exists c1; by rewrite K1|].
      apply lookup_insert_Some in Es as [[<- <-]|[_ Es]]; [injection Hv as <-; exists c2; by rewrite K2|].
      apply lookup_insert_Some in Es as [[<- <-]|[_ Es]]; [injection Hv as <-; exists c3; by rewrite K3|]. by rewrite lookup_empty in Es.
  Qed.
  Lemma rec_smooth φ t0 T : smooth_on (fun _ => True) h -> (forall a, h a <> 0) -> smoothly (initial_store rec_world) rec_cfg (layout rec_0) φ t0 T 1%nat.
  Proof.
    intros Hh Hz. rewrite rec_layout. destruct rec_blocks as (l1 & l2 & l3 & l4 & El & (Q1 & Q2 & Q3 & Q4) & (P1 & P2 & P3 & P4 & P5 & P6) & (W2 & W3 & W4) & Hlaw).
    assert (leaves (g_tree rec_cfg) = [l1; l2; l3; l4]) as El' by (rewrite rec_cfg_leaves; exact El). clear El.
    destruct rec_store as (c0 & _ & _ & _ & H0 & _ & _ & _ & K0 & _). revert El' H0. generalize (initial_store rec_world). generalize rec_cfg. intros g σ0 El H0.
    assert (forall s a t m x dx σ, instant σ0 g [0%nat] t m x dx σ -> s = 3%nat -> value σ s = Some (VS a) -> a <> 0) as Hst.
    { intros s a t m x dx σ Hi -> Hv.
      assert (l3 ∈ leaves (g_tree g)) as Hl by (rewrite El; apply elem_of_list_further, elem_of_list_further, elem_of_list_here).
      destruct (in_known _ _ _ _ _ _ _ _ Hi 0%nat) as (v0 & Ev0); [apply elem_of_list_here|].
      destruct (in_typed _ _ _ _ _ _ _ _ Hi 0%nat v0 Ev0) as (c & Hc & Hk & _). rewrite H0 in Hc. injection Hc as <-. rewrite K0 in Hk. destruct v0 as [y| | |]; try discriminate Hk.
      destruct (in_laws _ _ _ _ _ _ _ _ Hi l3 Hl) as [(s & Hs & Ha)|[He _]].
      { by rewrite Q3. }
      { rewrite W3 in Hs. apply elem_of_list_singleton in Hs as ->. apply value_assigned in Ev0. congruence. }
      unfold equation in He. rewrite Q3, P2, P3 in He. destruct He as (si & so & x1 & v & Hsi & Hso & Hx1 & (ws & Hr) & Hv'). injection Hsi as <-. injection Hso as <-.
      rewrite Ev0 in Hx1. injection Hx1 as <-. cbn in Hr. injection Hr as <- _. rewrite Hv in Hv'. injection Hv' as ->. apply Hz. }
    eapply (sm_block _ _ _ _ _ _ l4); [rewrite El; do 3 apply elem_of_list_further; apply elem_of_list_here| |exact P6|].
    { unfold smooth_block. rewrite Q4. exists 3%nat. split; [done|]. intros t m dx σ a _ Hi Hv. by eapply Hst. }
    rewrite W4. intros s' Hs'. repeat (apply elem_of_cons in Hs' as [-> |Hs']); [| |by apply elem_of_nil in Hs'].
    - eapply (sm_block _ _ _ _ _ _ l2); [rewrite El; do 1 apply elem_of_list_further; apply elem_of_list_here| |exact P1|rewrite W2; intros s' Hs'; by apply elem_of_nil in Hs'].
      unfold smooth_block. by rewrite Q2.
    - eapply (sm_block _ _ _ _ _ _ l3); [rewrite El; do 2 apply elem_of_list_further; apply elem_of_list_here| |exact P3|].
      { unfold smooth_block. rewrite Q3. exists (fun _ => True), h, 0%nat. split_and!; try done. intros a _. exists (mkposreal 1 Rlt_0_1). done. }
      rewrite W3. intros s' Hs'. apply elem_of_list_singleton in Hs' as ->. apply sm_state. apply elem_of_list_here.
  Qed.
End world.
Lemma smooth_exp : smooth_on (fun _ => True) exp.
Proof. exists exp, exp, exp, exp. intros a _. pose proof (derivable_pt_lim_exp a). split_and!; try done. apply derivable_continuous_pt. by exists (exp a). Qed.
Definition rec_sol (t : R) : list R := [ln (1 + t)].
Example C71_ex : let w := rec_world exp in let g := rec_cfg exp in let s := rec_0 exp in
  session_of w 0 g s /\ g_dbg g = true /\ (forall l, l ∈ leaves (g_tree g) -> steady_class l) /\ derivs_fit (initial_store w) /\
  g_stepper g = Some (stp_of SRk4) /\ (forall z, z ∈ layout s -> integral g z) /\ s_sv s ≠ [] /\
  (forall z, z ∈ layout s -> exists c, initial_store w !! z = Some c /\ c_kind c = KScalar) /\
  solution (initial_store w) g (layout s) rec_sol 0 10 /\
  (forall z c d, z ∈ layout s -> initial_store w !! z = Some c -> c_deriv c = Some d -> smoothly (initial_store w) g (layout s) rec_sol 0 10 d) /\
  s_tprev s = 0 /\ pack (s_store s) (layout s) = rec_sol 0 /\
  (forall u, 0 < u -> exists s1 s2, advance g u s s1 /\ s_tprev s1 = u /\ advance g u s s2 /\ s_tprev s2 = 2 * u).
Proof.
  destruct (rec_facts exp) as (F1 & F2 & F3 & F4 & F5 & F6). destruct (rec_store exp) as (c0 & _ & _ & _ & H0 & _ & _ & _ & K0 & _ & _ & _ & D0).
  pose proof (rec_session exp) as Hses. pose proof (rec_runs exp) as Hruns. pose proof (rec_field exp) as Hfield. pose proof (fun φ t0 T => rec_smooth exp φ t0 T smooth_exp) as Hsm.
  assert (g_dbg (rec_cfg exp) = true) as Eg by reflexivity. assert (g_stepper (rec_cfg exp) = Some rk4) as Es by reflexivity. pose proof (rec_layout exp) as El.
  revert Hses Hruns Hfield Hsm Eg Es El F1 F2 F3 F4 F5 F6 H0. generalize (rec_world exp) (rec_cfg exp) (rec_0 exp). intros w g s Hses Hruns Hfield Hsm Eg Es El F1 F2 F3 F4 F5 F6 H0.
  cbn zeta. split; [exact Hses|]. split; [exact Eg|]. split; [exact F1|]. split; [exact F2|]. split; [exact Es|]. split; [exact F3|]. split; [exact F4|].
  split; [intros z Hz; rewrite El in Hz; apply elem_of_list_singleton in Hz as ->; by exists c0|]. split; [|split; [|split; [exact F5|split; [|exact Hruns]]]].
  - intros t Ht. exists (fun _ => LNone), [1 / exp (ln (1 + t))]. split; [apply Hfield|]. rewrite El. intros i Hi. cbn in Hi. destruct i as [|i]; [|lia]. cbn [nth rec_sol]. rewrite exp_ln by lra.
    replace (1 / (1 + t)) with (/ (1 + t) * (0 + 1)) by (field; lra). apply (derivable_pt_lim_comp (fun t => 1 + t) ln).
    + apply (derivable_pt_lim_plus (fun _ => 1) (fun τ => τ)); [apply derivable_pt_lim_const|apply derivable_pt_lim_id].
    + apply derivable_pt_lim_ln. lra.
  - intros z c d Hz Hc Hd. rewrite El in Hz. apply elem_of_list_singleton in Hz as ->. rewrite H0 in Hc. injection Hc as <-. rewrite D0 in Hd. injection Hd as <-.
    apply Hsm. intros a. pose proof (exp_pos a). lra.
  - rewrite F6. unfold rec_sol. by rewrite Rplus_0_r, ln_1.
Qed.
