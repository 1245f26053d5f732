(** Property C70: for models whose differential equation is smooth the error shrinks
    with the order of the method. *)
From stdpp Require Import prelude gmap strings.
From Coq Require Import ZArith QArith Reals Lra Qreals Psatz.
From Verif Require Import Num NumQ NumR NumOrd NumAdd Res Name Store Leaf Sched Stepper Sim World Api SpecSched P_Store P_Prog P_Lib P_Compile P_Simulated P_Evolve P_Rel P_Rel2 SpecHist P_Trace SpecBlock Ex_Models
  SpecRun P_Log P_Run Props_Run P_Pack P_Grow P_Again P_Repeat Props_Pack SpecRK P_RK SpecAgain P_Over P_Redo Props_Again SpecField P_Field P_FieldRun P_Posed P_Path Props_Field SpecConv P_Conv Props_Conv SpecLin P_Lin Props_Lin
  SpecOrd P_Ord P_Ord2 P_Ord3.
Local Open Scope nat_scope.
Local Open Scope R_scope.

(** The order conditions of the two methods of order four. *)
Lemma q2r_eq q (z : positive) : Qeq_bool q (1 # z) = true -> Q2R q = / IZR (Zpos z).
Proof. intros E. apply Qeq_bool_eq in E. rewrite (Qeq_eqR _ _ E). unfold Q2R. cbn [Qnum Qden]. lra. Qed.
Lemma tab_order meth : order_of meth = 4%nat -> let rows := tb_rows (tab_of meth) in let bw := fun τ => Q2R (qdot (tb_weights (tab_of meth)) (stage_weight rows τ)) in
  (forall i c a, rows !! i = Some (c, a) -> Q2R c = Q2R (qdot a (stage_weight rows tr1))) /\
  bw tr1 = 1 /\ bw tr2 = / 2 /\ bw tr31 = / 3 /\ bw tr32 = / 6 /\ bw tr41 = / 4 /\ bw tr42 = / 8 /\ bw tr43 = / 12 /\ bw tr44 = / 24.
Proof.
  intros Ho rows bw. split.
  - assert (forallb (fun c => Qeq_bool c.1 (qdot c.2 (stage_weight rows tr1))) rows = true) as Hb by (destruct meth; vm_compute; reflexivity).
    intros i c a E. rewrite forallb_forall in Hb. apply Qeq_eqR. apply Qeq_bool_eq. apply (Hb (c, a)). apply elem_of_list_In. by eapply elem_of_list_lookup_2.
  - assert (bw tr1 = / 1) as -> by (apply q2r_eq; destruct meth; vm_compute; reflexivity). split; [lra|].
    split_and!; apply q2r_eq; destruct meth; try discriminate Ho; vm_compute; reflexivity.
Qed.

Theorem C70_order : forall meth n F φ t0 T r L B M, 0 < r -> 0 <= L -> 0 <= B -> 0 <= M -> t0 <= T -> length (φ t0) = n ->
  solves F φ t0 T -> regular F φ t0 T r L B -> lipschitz F φ t0 T r L -> expands n F φ t0 T r M ->
  exists K H0, 0 <= K /\ 0 < H0 /\ forall w b (g : cfg R) s s' H,
    session_of w b g s -> g_dbg g = true -> (forall l, l ∈ leaves (g_tree g) -> steady_class l) -> derivs_fit (initial_store w) ->
    g_stepper g = Some (stp_of meth) -> (forall z, z ∈ layout s -> integral g z) -> s_sv s ≠ [] ->
    (forall τ m x dx, t0 <= τ <= T -> field (initial_store w) g (layout s) τ m x dx -> dx = F τ x) ->
    s_tprev s = t0 -> pack (s_store s) (layout s) = φ t0 ->
    0 <= H <= H0 -> advance g H s s' -> s_tprev s' <= T ->
    within (K * H ^ order_of meth) (pack (s_store s') (layout s')) (φ (s_tprev s')).
Proof.
  intros meth n F φ t0 T r L B M Hr0 HL HB HM HT Hlen Hsol Hreg Hlip Hexp.
  destruct (decide (order_of meth = 1%nat)) as [Ho|Ho].
  { destruct (C61_converges meth F φ t0 T r L B Hr0 HL HB HT Hsol Hreg) as (K & H0 & H1 & H2 & H3). exists K, H0. rewrite Ho. split; [done|]. split; [done|].
    intros. rewrite pow_1. by eapply H3. }
  assert (order_of meth = 4%nat) as Hp by (by destruct meth). clear Ho. rewrite Hp.
  destruct (tab_tall meth) as (Hl & _). destruct (tab_weights_ok meth) as [Hwl _]. pose proof (tab_rows_ok meth) as Hrows.
  destruct (tab_order meth Hp) as (Hnode & W1 & W2 & W31 & W32 & W41 & W42 & W43 & W44).
  set (rows := tb_rows (tab_of meth)) in *. set (ws := tb_weights (tab_of meth)) in *. assert (0 <= 20) as H20 by lra.
  assert (tab_of meth = Tableau rows ws) as Etab by (by destruct meth).
  set (G := Gc L B 20 (length rows)). pose proof (Gc_one L B HL HB 20 H20 (length rows)) as HG. fold G in HG.
  set (h0 := Rmin 1 (r / G)). assert (0 < h0 <= 1) as Hh0. { unfold h0. split; [apply Rmin_glb_lt; [lra|]; apply Rdiv_lt_0_compat; lra|apply Rmin_l]. }
  assert (G * h0 <= r) as Hh0r.
  { assert (h0 <= r / G) as Hq by apply Rmin_r. apply (Rmult_le_compat_l G) in Hq; [|lra]. replace (G * (r / G)) with r in Hq by (field; lra). done. }
  destruct Hexp as (d1 & d2 & d3 & Hd & Hexp).
  destruct (local_order n F φ t0 T r L B M HL HB HM Hr0 Hsol Hlen Hreg d1 d2 d3 Hd Hexp 20 H20 rows Hrows h0 Hh0 Hh0r Hl Hnode ws Hwl W1 W2 W31 W32 W41 W42 W43 W44) as (C & HC & Hloc).
  set (Λ := Lmb L 20 rows ws). pose proof (Lmb_one L HL 20 H20 rows ws) as HΛ. fold Λ in HΛ.
  set (E := exp (Λ * (T - t0))). assert (0 < E) as HE by apply exp_pos.
  set (H0 := Rmin 1 (r / (G * (E * C + 1)))).
  assert (0 <= E * C) as HEC by (apply Rmult_le_pos; lra). assert (0 < G * (E * C + 1)) as HGE by (apply Rmult_lt_0_compat; lra).
  exists (E * C), H0. split; [done|]. split. { unfold H0. apply Rmin_glb_lt; [lra|]. by apply Rdiv_lt_0_compat. }
  intros w b g s s' H Hs Hg Hst Hfit Es Hint Hn HF Htp Hx [HH0 HH] Hadv HT'. set (D := C * H ^ 4).
  assert (0 <= H ^ 4) as HP4 by (by apply pow_le). assert (0 <= D) as HD by (by apply Rmult_le_pos).
  assert (H <= 1) as HH1 by (eapply Rle_trans; [exact HH|apply Rmin_l]).
  assert (G * ((E * C + 1) * H) <= r) as HGr.
  { assert (H <= r / (G * (E * C + 1))) as Hq by (eapply Rle_trans; [exact HH|apply Rmin_r]). apply (Rmult_le_compat_l (G * (E * C + 1))) in Hq; [|lra].
    replace (G * (E * C + 1) * (r / (G * (E * C + 1)))) with r in Hq by (field; lra). lra. }
  assert (H <= h0) as HHh.
  { unfold h0. apply Rmin_glb; [done|]. apply (Rmult_le_reg_l G); [lra|]. replace (G * (r / G)) with r by (field; lra). eapply Rle_trans; [|exact HGr].
    apply Rmult_le_compat_l; [lra|]. assert (0 <= E * C * H) by (by apply Rmult_le_pos). lra. }
  assert (E * D + H <= (E * C + 1) * H) as HDH.
  { assert (H ^ 4 <= H) as Hpow. { cbn [pow]. rewrite Rmult_1_r. assert (H * (H * (H * H)) <= H * (1 * (1 * 1))); [|lra]. repeat (apply Rmult_le_compat; try lra; repeat apply Rmult_le_pos; try lra). }
    unfold D. apply (Rmult_le_compat_l (E * C)) in Hpow; [|done]. lra. }
  assert (forall ta, t0 <= ta <= T -> exp (Λ * (ta - t0)) <= E) as Hmono.
  { intros ta Hta. unfold E. assert (Λ * (ta - t0) <= Λ * (T - t0)) as Hle by (apply Rmult_le_compat_l; lra).
    destruct (Rle_lt_or_eq_dec _ _ Hle) as [Hlt|Heq]; [left; by apply exp_increasing|rewrite Heq; lra]. }
  assert (forall a h, t0 <= a -> 0 <= h <= h0 -> a + h <= T -> exists ks, follows F rows a h (φ a) ks /\ within (C * h ^ 5) (rk_add (φ a) h ws ks) (φ (a + h))) as Hloc'.
  { intros a h Q1 Q2 Q3. exists (Ks F φ rows a h). split; [apply (Ks_ok n F φ t0 Hlen rows a h)|]. by apply Hloc. }
  (** The invariant. *)
  assert (forall s1 e, advance g H s1 s' -> session_of w b g s1 -> layout s1 = layout s -> s_sv s1 ≠ [] -> t0 <= s_tprev s1 -> 0 <= e ->
    within e (pack (s_store s1) (layout s1)) (φ (s_tprev s1)) -> e + D <= exp (Λ * (s_tprev s1 - t0)) * D ->
    exists e', 0 <= e' /\ within e' (pack (s_store s') (layout s')) (φ (s_tprev s')) /\ e' + D <= exp (Λ * (s_tprev s' - t0)) * D /\ t0 <= s_tprev s') as Hinv.
  { intros s1 e Ha. revert e. induction Ha as [s1|s1 fuel t lo hi s2 s' Hlt Hle Hrun Ha IH]; intros e Hs1 El Hn1 Hge He Hw Hb.
    - exists e. done.
    - destruct (run_next _ _ _ _ _ _ _ _ _ Hs1 Hn1 Hlt Hrun) as (Hs2 & El2 & Hn2 & Ep). pose proof (advance_time _ _ _ _ _ _ Ha Hs2 Hn2) as Htt. rewrite Ep in Htt.
      destruct (run_growth w b g s1 meth fuel t lo hi s2 F Hs1 Hg Hst Hfit Es) as (ms & Hch & _ & Hms); [by rewrite El|done|done|done| |].
      { rewrite El. intros τ m x dx Hτ. apply HF. lra. }
      assert (exp (Λ * (t - s_tprev s1)) * (e + D) <= exp (Λ * (t - t0)) * D) as Hg1.
      { replace (Λ * (t - t0)) with (Λ * (t - s_tprev s1) + Λ * (s_tprev s1 - t0)) by lra. rewrite exp_plus, Rmult_assoc. apply Rmult_le_compat_l; [left; apply exp_pos|done]. }
      assert (exp (Λ * (t - t0)) * D <= E * D) as Hg2 by (apply Rmult_le_compat_r; [lra|]; apply Hmono; lra).
      destruct (acc_chain F φ t0 T r L B HL HB Hsol Hreg Hlip 20 H20 rows Hrows ws 4 C h0 HC (proj2 Hh0) Hloc' H ms (conj HH0 HHh) (s_tprev s1) (pack (s_store s1) (layout s1)) e t (pack (s_store s2) (layout s1)))
        as (e1 & K0 & K1 & K2); [done|lra|exact Hch| |done|done| |].
      { eapply Forall_impl; [exact Hms|]. intros a (M1 & M2 & M3 & M4). rewrite <- Etab. split; [done|]. split; [done|]. split; [lra|done]. }
      { fold Λ. fold G. fold D. eapply Rle_trans; [|exact HGr]. apply Rmult_le_compat_l; lra. }
      fold Λ in K1. fold D in K1. apply (IH Hadv HT' e1); [done|by rewrite El2|done|lra|done|by rewrite El2, Ep|rewrite Ep; lra]. }
  destruct (Hinv s 0) as (e' & E0 & E1 & E2 & E3); [done|done|done|done|lra|lra| |replace (Λ * (s_tprev s - t0)) with 0 by (rewrite Htp; lra); rewrite exp_0; lra|].
  { rewrite Hx, Htp. apply within_nth. split; [done|]. intros i _. replace (nth i (φ t0) 0 - nth i (φ t0) 0) with 0 by lra. rewrite Rabs_R0. lra. }
  apply within_nth in E1 as [V1 V2]. apply within_nth. split; [done|]. intros i Hi. eapply Rle_trans; [by apply V2|].
  assert (exp (Λ * (s_tprev s' - t0)) * D <= E * D) by (apply Rmult_le_compat_r; [lra|]; apply Hmono; lra). unfold D in *. lra.
Qed.
Print Assumptions C70_order.

(** ** Example: x' = -x x with x = 1 at time 0, by Rk4; the solution is 1 / (1 + t). *)
Definition quad_ops : list (wop R) :=
  [ ONewSig KScalar "x"; ONewSig KScalar "dx"; ONewBus [0; 0] ""; ONewBus [0] ""; ONewBus [1] "";
    ONewBlock CSubmodel LNone None "root" NoIOLimit NoIOLimit;
    ONewBlock (CInteg TyD) (LInteg (VS 1%R) false) (Some 0) "int" 1 1;
    ONewBlock (CMul TyD (VS (-1)%R)) LNone (Some 0) "mul" NoIOLimit 1;
    OConnect 1 4 3; OConnect 2 2 4 ]%nat.
Definition quad_world : world R := world_of true quad_ops.
Definition quad_tree : tree R := default (TSub 0 [] []) (compile_model quad_world 0).
Definition quad_cfg : cfg R := Cfg true MDefault quad_tree None (fun _ => PRet tt) (Some rk4) (fun x => reverse x) 0.
Lemma quad_reach : wreach true quad_world.
Proof. reach_ops quad_world quad_ops. Qed.
Lemma quad_model : compile_model quad_world 0 = Some quad_tree.
Proof. vm_compute. reflexivity. Qed.
Definition quad_new : simst R := new_sim (initial_dyn quad_world).
Definition quad_0 : simst R := st_of quad_new (init quad_cfg 0 quad_new).
Lemma quad_session : session_of quad_world 0 quad_cfg quad_0.
Proof.
  assert (is_ok (init quad_cfg 0 quad_new) = true) as E by (vm_compute; reflexivity). apply ok_init in E.
  eapply (session_init _ _ _ rk4); [exact quad_reach|exact quad_model|intros l; apply reverse_Permutation|reflexivity|apply rk4_ok|apply rk4_rel|exact E].
Qed.
Definition quad_to (t1 t : R) (s : simst R) : simst R := st_of s (rk4_run quad_cfg t1 t s).
Lemma quad_2 h : is_ok (rk4_run quad_cfg 0 h quad_0) = true /\ is_ok (rk4_run quad_cfg h (2 * h) (quad_to 0 h quad_0)) = true.
Proof. split; vm_compute; reflexivity. Qed.
Lemma quad_layout : layout quad_0 = [0]%nat.
Proof. vm_compute. reflexivity. Qed.
Definition quad_F (t : R) (x : list R) : list R := map (fun a => - (a * a)) x.
Definition quad_sol (t : R) : list R := [/ (1 + t)].
Lemma quad_one t : 0 <= t -> 0 < / (1 + t) <= 1.
Proof. intros Ht. split; [apply Rinv_0_lt_compat; lra|]. rewrite <- Rinv_1. apply Rinv_le_contravar; lra. Qed.
Lemma quad_near e t x : within e x (quad_sol t) -> exists a, x = [a] /\ Rabs (a - / (1 + t)) <= e.
Proof. intros W. inversion W as [|a ? x' ? H1 H2]; subst. inversion H2; subst. by exists a. Qed.
Lemma quad_solves T : solves quad_F quad_sol 0 T.
Proof.
  intros t Ht. split; [done|]. split; [done|]. intros i Hi. cbn in Hi. destruct i as [|i]; [|lia]. cbn.
  apply (derivable_pt_lim_ext (fun τ => 1 / (1 + τ))); [intros; unfold Rdiv; ring|].
  replace (- (/ (1 + t) * / (1 + t))) with ((0 * (1 + t) - (0 + 1) * 1) / Rsqr (1 + t)) by (unfold Rsqr; field; lra).
  apply (derivable_pt_lim_div (fun _ => 1) (fun τ => 1 + τ)); [apply derivable_pt_lim_const| |lra].
  apply (derivable_pt_lim_plus (fun _ => 1) (fun τ => τ)); [apply derivable_pt_lim_const|apply derivable_pt_lim_id].
Qed.
Lemma sq_diff a b m e : Rabs (a - b) <= e -> Rabs (a + b) <= m -> Rabs (- (a * a) - - (b * b)) <= m * e.
Proof.
  intros H1 H2. replace (- (a * a) - - (b * b)) with (- ((a + b) * (a - b))) by ring. rewrite Rabs_Ropp, Rabs_mult. apply Rmult_le_compat; try apply Rabs_pos; done.
Qed.
Lemma quad_regular T : regular quad_F quad_sol 0 T 1 4 1.
Proof.
  split.
  - intros t t' x e Ht Ht' He Hr Hw. apply quad_near in Hw as (a & -> & Ha). destruct (quad_one t ltac:(lra)) as [P1 P2]. pose proof (Rabs_pos (t' - t)).
    apply Forall2_cons. split; [|apply Forall2_nil; done]. eapply Rle_trans; [apply (sq_diff _ _ 4 e Ha)|lra]. apply Rabs_le.
    assert (- e <= a - / (1 + t) <= e) as Hb by (split_Rabs; lra). lra.
  - intros t Ht. destruct (quad_one t ltac:(lra)) as [P1 P2]. constructor; [|constructor]. rewrite Rabs_Ropp, Rabs_pos_eq by nra. nra.
Qed.
Lemma quad_lipschitz T : lipschitz quad_F quad_sol 0 T 1 4.
Proof.
  intros t t' x y e Ht Ht' Hr Hx Hy Hw. apply quad_near in Hx as (a & -> & Ha). apply quad_near in Hy as (b & -> & Hb). destruct (quad_one t ltac:(lra)) as [P1 P2].
  inversion Hw; subst. apply Forall2_cons. split; [|apply Forall2_nil; done]. apply sq_diff; [done|]. assert (- 1 <= a - / (1 + t) <= 1) by (split_Rabs; lra). assert (- 1 <= b - / (1 + t) <= 1) by (split_Rabs; lra).
  apply Rabs_le. lra.
Qed.
Lemma quad_expands T : expands 1 quad_F quad_sol 0 T 1 2.
Proof.
  exists (fun t i j => match j with 1%nat => -2 * / (1 + t) | _ => 0 end), (fun t i j k => match j, k with 1%nat, 1%nat => -1 | _, _ => 0 end), (fun _ _ _ _ _ => 0). split.
  - intros t i j k l Ht. destruct (quad_one t ltac:(lra)) as [P1 P2].
    assert (Rabs 0 <= 2) as Hz by (rewrite Rabs_R0; lra). assert (Rabs (-1) <= 2) as Hm by (rewrite Rabs_left; lra).
    split; [destruct j as [|[|j]]; try done; rewrite Rabs_left; lra|]. split; [|done]. destruct j as [|[|j]], k as [|[|k]]; done.
  - intros t t' x e i Ht Ht' He Hr Hw Hi. apply quad_near in Hw as (a & -> & Ha). destruct i as [|i]; [|lia]. cbn.
    match goal with |- Rabs ?z <= _ => replace z with 0 by ring end. rewrite Rabs_R0. pose proof (Rabs_pos (a - / (1 + t))). assert (0 <= e * e) by nra. nra.
Qed.
Lemma quad_field {D} `{NumOps D} (σ0 : store D) (g : cfg D) t M x dx l c0 k n1 n2 :
  field σ0 g [0]%nat t M x dx -> l ∈ leaves (g_tree g) -> l_cls l = CMul TyD (VS k) -> Forall (fun z => z = 0%nat) (required l) ->
  l_ibus l = [(n1, 0); (n2, 0)]%nat -> h_out (l_h l) = Some 1%nat -> σ0 !! 0%nat = Some c0 -> c_kind c0 = KScalar -> c_deriv c0 = Some 1%nat ->
  exists y, x = [y] /\ dx = [nmul (nmul k y) y].
Proof.
  intros (σ & Hi) Hl Hcl Hrq Hin Hout Hc0 Hk0 Hd0.
  destruct (in_known _ _ _ _ _ _ _ _ Hi 0%nat) as (v0 & Ev0); [apply elem_of_list_here|].
  destruct (in_typed _ _ _ _ _ _ _ _ Hi 0%nat v0 Ev0) as (c & Hc & Hk & Hz). rewrite Hc0 in Hc. injection Hc as <-. rewrite Hk0 in Hk, Hz. destruct v0 as [y| | |]; try done.
  pose proof (in_state _ _ _ _ _ _ _ _ Hi) as Ex. rewrite !pack_cons, Ev0 in Ex. cbn in Ex. exists y. split; [done|].
  destruct (in_laws _ _ _ _ _ _ _ _ Hi l Hl) as [(s & Hs & Ha)|[He _]].
  { by rewrite Hcl. }
  { rewrite Forall_forall in Hrq. apply Hrq in Hs as ->. apply value_assigned in Ev0. congruence. }
  unfold equation in He. rewrite Hcl in He. destruct He as (so & xs & r & Hso & Hxs & Hr & Hac). rewrite Hout in Hso. injection Hso as <-. rewrite Hin in Hxs.
  inversion Hxs as [|? x1 ? xs1 E1 Hxs1]; subst. inversion Hxs1 as [|? x2 ? xs2 E2 Hxs2]; subst. inversion Hxs2; subst. cbn in E1, E2. rewrite Ev0 in E1, E2. injection E1 as <-. injection E2 as <-.
  assert (r = VS (nmul (nmul k y) y)) as ->.
  { inversion Hac as [|? ? z1 ? ? Hp1 Hac1]; subst. inversion Hac1 as [|? ? z2 ? ? Hp2 Hac2]; subst. inversion Hac2; subst. inversion Hp1; subst. inversion Hp2; by subst. }
  destruct (in_deriv _ _ _ _ _ _ _ _ Hi) as (ds & Hds & ->). inversion Hds as [|z d zs' ds' (e1 & w1 & Hc2 & Hd2 & Hv2) Hn]; subst. inversion Hn; subst.
  rewrite Hc0 in Hc2. injection Hc2 as <-. rewrite Hd0 in Hd2. injection Hd2 as <-. rewrite !pack_cons, Hr. cbn. done.
Qed.
Definition quad_leaves : list (leaf R) := leaves quad_tree.
Lemma quad_cfg_leaves : leaves (g_tree quad_cfg) = quad_leaves.
Proof. unfold quad_cfg, quad_leaves. cbn [g_tree]. reflexivity. Qed.
Lemma quad_is τ m x dx : field (initial_store quad_world) quad_cfg (layout quad_0) τ m x dx -> dx = quad_F τ x.
Proof.
  rewrite quad_layout. intros Hf.
  assert (exists l n1 n2, l ∈ quad_leaves /\ l_cls l = CMul TyD (VS (-1)) /\ Forall (fun z => z = 0%nat) (required l) /\ l_ibus l = [(n1, 0); (n2, 0)]%nat /\ h_out (l_h l) = Some 1%nat)
    as (l & n1 & n2 & Hl & Hcl & Hrq & Hin & Hout).
  { assert (exists l1 l n1 n2, quad_leaves = [l1; l] /\ l_cls l = CMul TyD (VS (-1)) /\ Forall (fun z => z = 0%nat) (required l) /\ l_ibus l = [(n1, 0); (n2, 0)]%nat /\ h_out (l_h l) = Some 1%nat) as (l1 & l & n1 & n2 & -> & Hx).
    { do 4 eexists. split; [vm_compute; reflexivity|]. split; [reflexivity|]. split; [|split; reflexivity]. vm_compute; repeat constructor. }
    exists l, n1, n2. split; [apply elem_of_list_further; apply elem_of_list_here|exact Hx]. }
  assert (exists c0, initial_store quad_world !! 0%nat = Some c0 /\ c_kind c0 = KScalar /\ c_deriv c0 = Some 1%nat) as (c0 & Hc0 & Hk0 & Hd0).
  { eexists. split; [vm_compute; reflexivity|]. split; reflexivity. }
  revert Hf Hl Hc0. rewrite <- quad_cfg_leaves. generalize (initial_store quad_world). generalize quad_cfg. intros g σ0 Hf Hl Hc0.
  destruct (quad_field σ0 g τ m x dx l c0 (-1) n1 n2 Hf Hl Hcl Hrq Hin Hout Hc0 Hk0 Hd0) as (y & -> & ->). cbn. f_equal. lra.
Qed.
Example C70_ex : solves quad_F quad_sol 0 10 /\ regular quad_F quad_sol 0 10 1 4 1 /\ lipschitz quad_F quad_sol 0 10 1 4 /\ expands 1 quad_F quad_sol 0 10 1 2 /\
  session_of quad_world 0 quad_cfg quad_0 /\ g_dbg quad_cfg = true /\ (forall l, l ∈ leaves (g_tree quad_cfg) -> steady_class l) /\
  derivs_fit (initial_store quad_world) /\ g_stepper quad_cfg = Some (stp_of SRk4) /\ (forall z, z ∈ layout quad_0 -> integral quad_cfg z) /\ s_sv quad_0 ≠ [] /\
  (forall τ m x dx, field (initial_store quad_world) quad_cfg (layout quad_0) τ m x dx -> dx = quad_F τ x) /\
  s_tprev quad_0 = 0 /\ pack (s_store quad_0) (layout quad_0) = quad_sol 0 /\
  (forall h, 0 < h -> exists s1 s2, advance quad_cfg h quad_0 s1 /\ s_tprev s1 = h /\ advance quad_cfg h quad_0 s2 /\ s_tprev s2 = 2 * h /\
     let k2 := - (1 - h / 2) ^ 2 in let k3 := - (1 + h / 2 * k2) ^ 2 in let k4 := - (1 + h * k3) ^ 2 in
     pack (s_store s1) (layout s1) = [1 + h / 6 * (- 1 + 2 * k2 + 2 * k3 + k4)]).
Proof.
  split; [apply quad_solves|]. split; [apply quad_regular|]. split; [apply quad_lipschitz|]. split; [apply quad_expands|].
  split; [exact quad_session|]. split; [reflexivity|]. rewrite quad_cfg_leaves.
  split; [apply steadyb_ok; vm_compute; reflexivity|]. split; [apply fitb_ok; vm_compute; reflexivity|]. split; [reflexivity|].
  split; [rewrite quad_layout; eapply integb_ok; [exact quad_cfg_leaves|vm_compute; reflexivity]|].
  split. { intros E. apply (f_equal (@length R)) in E. revert E. vm_compute. intros E; discriminate E. }
  split; [exact quad_is|]. split; [vm_compute; reflexivity|].
  split. { rewrite quad_layout. unfold quad_sol. rewrite Rplus_0_r, Rinv_1. vm_compute. reflexivity. }
  intros h Hh. destruct (quad_2 h) as [E1 E2]. apply ok_rk4 in E1, E2. exists (quad_to 0 h quad_0), (quad_to h (2 * h) (quad_to 0 h quad_0)).
  assert (s_tprev quad_0 = 0) as E0 by (vm_compute; reflexivity). assert (s_tprev (quad_to 0 h quad_0) = h) as Ep by (vm_compute; reflexivity).
  assert (run quad_cfg 1 h (h / 2) h quad_0 = Ok tt (quad_to 0 h quad_0)) as R1.
  { rewrite run_rk4; [rewrite E0; exact E1|reflexivity|vm_compute; reflexivity|exists 0%nat; vm_compute; reflexivity|rewrite E0; lra|lra|lra]. }
  assert (run quad_cfg 1 (2 * h) (h / 2) h (quad_to 0 h quad_0) = Ok tt (quad_to h (2 * h) (quad_to 0 h quad_0))) as R2.
  { rewrite run_rk4; [rewrite Ep; exact E2|reflexivity|vm_compute; reflexivity|exists 0%nat; vm_compute; reflexivity|rewrite Ep; lra|lra|lra]. }
  split. { eapply adv_run; [| |exact R1|constructor]; rewrite E0; lra. }
  split; [exact Ep|].
  split. { eapply adv_run; [| |exact R1|]; [rewrite E0; lra|rewrite E0; lra|]. eapply adv_run; [| |exact R2|constructor]; rewrite Ep; lra. }
  split; [vm_compute; reflexivity|]. intros k2 k3 k4.
  assert (exists y, pack (s_store (quad_to 0 h quad_0)) (layout (quad_to 0 h quad_0)) = [y] /\ y = 1 + h / 6 * (- 1 + 2 * k2 + 2 * k3 + k4)) as (y & -> & ->); [|done].
  eexists. split; [vm_compute; reflexivity|]. unfold k4, k3, k2. field.
Qed.
