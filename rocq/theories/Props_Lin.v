(** Property C62: for models with a linear differential equation the error shrinks
    with the order of the method. *)
From stdpp Require Import prelude gmap strings.
From Coq Require Import ZArith QArith Reals Lra Qreals.
From Verif Require Import Num NumQ NumR NumOrd NumAdd Res Name Store Leaf Sched Stepper Sim World Api SpecSched P_Store P_Prog P_Lib P_Compile P_Simulated P_Evolve P_Rel P_Rel2 SpecHist P_Trace SpecBlock Ex_Models
  SpecRun P_Log P_Run Props_Run P_Pack P_Grow P_Again P_Repeat Props_Pack SpecRK P_RK SpecAgain P_Over P_Redo Props_Again SpecField P_Field P_FieldRun P_Posed P_Path Props_Field SpecConv P_Conv Props_Conv SpecLin P_Lin.
Local Open Scope nat_scope.
Local Open Scope R_scope.

(** A continuous function is bounded. *)
Lemma bounded_deriv f f' a b : a <= b -> (forall t, a <= t <= b -> derivable_pt_lim f t (f' t)) -> exists C, 0 <= C /\ forall t, a <= t <= b -> Rabs (f t) <= C.
Proof.
  intros Hab Hd. assert (forall t, a <= t <= b -> continuity_pt f t) as Hc.
  { intros t Ht. apply derivable_continuous_pt. exists (f' t). by apply Hd. }
  destruct (continuity_ab_maj f a b Hab Hc) as (u & Hu & _). destruct (continuity_ab_min f a b Hab Hc) as (v & Hv & _).
  pose proof (Rabs_pos (f u)). pose proof (Rabs_pos (f v)). exists (Rabs (f u) + Rabs (f v)). split; [lra|]. intros t Ht. specialize (Hu t Ht). specialize (Hv t Ht).
  pose proof (Rle_abs (f u)). pose proof (Rle_abs (- f v)) as Ha. rewrite Rabs_Ropp in Ha. apply Rabs_le. lra.
Qed.
Lemma bounded_all (n : nat) (f : nat -> R -> R) a b : (forall i, (i < n)%nat -> exists C, 0 <= C /\ forall t, a <= t <= b -> Rabs (f i t) <= C) ->
  exists C, 0 <= C /\ forall t i, a <= t <= b -> (i < n)%nat -> Rabs (f i t) <= C.
Proof.
  induction n as [|n IH]; intros E; [exists 0; split; [lra|]; intros; lia|]. destruct (IH (fun i Hi => E i ltac:(lia))) as (C & C0 & HC).
  destruct (E n ltac:(lia)) as (C' & C0' & HC'). exists (C + C'). split; [lra|]. intros t i Ht Hi. destruct (decide (i = n)) as [->|Hne].
  - specialize (HC' t Ht). lra.
  - specialize (HC t i Ht ltac:(lia)). lra.
Qed.

(** The weights of the tall trees. *)
Lemma tab_tall meth : let tb := tab_of meth in
  (forall i c a, tb_rows tb !! i = Some (c, a) -> (length a <= i)%nat) /\
  (forall i, Q2R (nth i (stage_weight (tb_rows tb) (tall (length (tb_rows tb)))) 0%Q) = 0) /\
  (forall m, (m < order_of meth)%nat -> Q2R (qdot (tb_weights tb) (stage_weight (tb_rows tb) (tall m))) = / INR (fact (S m))) /\
  (order_of meth <= length (tb_rows tb))%nat.
Proof.
  intros tb. split; [|split; [|split]].
  - intros i c a E. destruct meth; cbn in E; repeat (destruct i as [|i]; cbn in E; [injection E as <- <-; cbn; lia|]); done.
  - assert (stage_weight (tb_rows tb) (tall (length (tb_rows tb))) = map (fun _ => 0%Q) (tb_rows tb)) as -> by (destruct meth; vm_compute; reflexivity).
    intros i. generalize (tb_rows tb). intros l. revert i. induction l as [|x l IH]; intros [|i]; cbn; try apply q2r_0. apply IH.
  - assert (forall m q, Qeq_bool q (1 # Pos.of_nat (fact (S m))) = true -> Q2R q = / INR (fact (S m))) as Hq.
    { intros m q E. apply Qeq_bool_eq in E. rewrite (Qeq_eqR _ _ E). pose proof (lt_O_fact (S m)) as Hf. revert Hf. generalize (fact (S m)). intros k Hk.
      unfold Q2R. cbn [Qnum Qden]. rewrite INR_IZR_INZ, Rmult_1_l. do 2 f_equal. lia. }
    intros m Hm. apply Hq. destruct meth; cbn in Hm; repeat (destruct m as [|m]; [vm_compute; reflexivity|]); lia.
  - destruct meth; cbn; lia.
Qed.

Theorem C62_order : forall meth n A c φ t0 T, t0 <= T -> length (φ t0) = n -> solves (affine n A c) φ t0 T ->
  exists K, 0 <= K /\ forall w b (g : cfg R) s s' H,
    session_of w b g s -> g_dbg g = true -> (forall l, l ∈ leaves (g_tree g) -> steady_class l) -> derivs_fit (initial_store w) ->
    g_stepper g = Some (stp_of meth) -> (forall z, z ∈ layout s -> integral g z) -> s_sv s ≠ [] ->
    (forall τ m x dx, t0 <= τ <= T -> field (initial_store w) g (layout s) τ m x dx -> dx = affine n A c τ x) ->
    s_tprev s = t0 -> pack (s_store s) (layout s) = φ t0 ->
    0 <= H <= 1 -> advance g H s s' -> s_tprev s' <= T ->
    within (K * H ^ order_of meth) (pack (s_store s') (layout s')) (φ (s_tprev s')).
Proof.
  intros meth n A c φ t0 T HT Hlen Hsol. destruct (tab_tall meth) as (Hl & Hnil & Hord & Hp). destruct (tab_weights_ok meth) as [Hwl _].
  set (rows := tb_rows (tab_of meth)) in *. set (ws := tb_weights (tab_of meth)) in *. set (p := order_of meth) in *.
  assert (tab_of meth = Tableau rows ws) as Etab by (by destruct meth).
  destruct (bounded_all n (fun i t => Fv n A c (φ t) i) t0 T) as (B & HB0 & HB).
  { intros i Hi. apply (bounded_deriv _ (fun t => Mp n A 1 (Fv n A c (φ t)) i) t0 T HT). intros t Ht. by apply (sol_chain n A c rows ws p Hwl Hp φ t0 T Hsol Hlen 0). }
  set (Λ := Ls n A rows ws). set (C := Cl n A rows ws p B).
  pose proof (Ls_one n A rows ws) as HΛ. fold Λ in HΛ. pose proof (Cl_pos n A rows ws p B HB0) as HC. fold C in HC.
  set (E := exp (Λ * (T - t0))). exists (E * C). split. { apply Rmult_le_pos; [left; apply exp_pos|done]. }
  intros w b g s s' H Hs Hg Hst Hfit Es Hint Hn HF Htp Hx [HH0 HH1] Hadv HT'. set (D := C * H ^ p).
  assert (0 <= D) as HD by (apply Rmult_le_pos; [done|by apply pow_le]).
  (** The invariant. *)
  assert (forall s1 e, advance g H s1 s' -> session_of w b g s1 -> layout s1 = layout s -> s_sv s1 ≠ [] -> t0 <= s_tprev s1 -> 0 <= e ->
    within e (pack (s_store s1) (layout s1)) (φ (s_tprev s1)) -> e + D <= exp (Λ * (s_tprev s1 - t0)) * D ->
    exists e', 0 <= e' /\ within e' (pack (s_store s') (layout s')) (φ (s_tprev s')) /\ e' + D <= exp (Λ * (s_tprev s' - t0)) * D /\ t0 <= s_tprev s') as Hinv.
  { intros s1 e Ha. revert e. induction Ha as [s1|s1 fuel t lo hi s2 s' Hlt Hle Hrun Ha IH]; intros e Hs1 El Hn1 Hge He Hw Hb.
    - exists e. done.
    - destruct (run_next _ _ _ _ _ _ _ _ _ Hs1 Hn1 Hlt Hrun) as (Hs2 & El2 & Hn2 & Ep). pose proof (advance_time _ _ _ _ _ _ Ha Hs2 Hn2) as Htt. rewrite Ep in Htt.
      destruct (run_growth w b g s1 meth fuel t lo hi s2 (affine n A c) Hs1 Hg Hst Hfit Es) as (ms & Hch & _ & Hms); [by rewrite El|done|done|done| |].
      { rewrite El. intros τ m x dx Hτ. apply HF. lra. }
      destruct (lin_chain n A c rows ws p Hl Hwl Hnil Hord Hp φ t0 T Hsol Hlen B HB HB0 H ms (conj HH0 HH1) (s_tprev s1) (pack (s_store s1) (layout s1)) e t (pack (s_store s2) (layout s1)))
        as (e1 & K0 & K1 & K2); [done|lra|exact Hch| |done|done|].
      { eapply Forall_impl; [exact Hms|]. intros a (M1 & M2 & M3 & M4). rewrite <- Etab. split; [done|]. split; [done|]. split; [lra|done]. }
      fold Λ in K1. fold C in K1. fold D in K1.
      assert (exp (Λ * (t - s_tprev s1)) * (e + D) <= exp (Λ * (t - t0)) * D) as Hg1.
      { replace (Λ * (t - t0)) with (Λ * (t - s_tprev s1) + Λ * (s_tprev s1 - t0)) by lra. rewrite exp_plus, Rmult_assoc. apply Rmult_le_compat_l; [left; apply exp_pos|done]. }
      apply (IH Hadv HT' e1); [done|by rewrite El2|done|lra|done|by rewrite El2, Ep|rewrite Ep; lra]. }
  destruct (Hinv s 0) as (e' & E0 & E1 & E2 & E3); [done|done|done|done|lra|lra| |replace (Λ * (s_tprev s - t0)) with 0 by (rewrite Htp; lra); rewrite exp_0; lra|].
  { rewrite Hx, Htp. apply within_nth. split; [done|]. intros i _. replace (nth i (φ t0) 0 - nth i (φ t0) 0) with 0 by lra. rewrite Rabs_R0. lra. }
  apply within_nth in E1 as [W1 W2]. apply within_nth. split; [done|]. intros i Hi. eapply Rle_trans; [by apply W2|].
  assert (exp (Λ * (s_tprev s' - t0)) <= E) as Hm.
  { unfold E. assert (Λ * (s_tprev s' - t0) <= Λ * (T - t0)) as Hle by (apply Rmult_le_compat_l; lra).
    destruct (Rle_lt_or_eq_dec _ _ Hle) as [Hlt|Heq]; [left; by apply exp_increasing|rewrite Heq; lra]. }
  assert (exp (Λ * (s_tprev s' - t0)) * D <= E * D) by (by apply Rmult_le_compat_r). unfold D in *. lra.
Qed.
Print Assumptions C62_order.

(** ** Example: a mass on a spring, x' = v and v' = -x, by Rk4. *)
(** Rk4 returns the size of the step it was asked for, so that a run consists of one
    step. *)
Definition rk4_run (g : cfg R) (t1 t : R) : M (simst R) unit :=
  begin_step g t1 ;;;
  o <~ gets s_svo ;; x <~ get_sv g o ;; modify (put_svo x) ;;;
  r <~ rk4 _ (minor_cb g) t1 x t ;;
  modify (put_sv (fst r)) ;;;
  on_core' (emit (EvTry t1 x t (fst r) (snd r))) ;;;
  sv <~ gets s_sv ;; reset_sv g sv ;;; process_model g t false true ;;; modify (put_tprev t).
Lemma rk4_size S (f : R -> list R -> M S (list R)) t0 x t1 s r s' : rk4 S f t0 x t1 s = Ok r s' -> snd r = t1 - t0.
Proof.
  unfold rk4. cbv zeta. unfold bnd. intros E. destruct (call f _ t0 x s) as [k1 s1| | |]; try done.
  destruct (call f _ _ _ s1) as [k2 s2| | |]; try done. destruct (call f _ _ _ s2) as [k3 s3| | |]; try done.
  destruct (call f _ _ _ s3) as [k4 s4| | |]; try done. unfold ret in E. injection E as <- <-. done.
Qed.
Lemma run_rk4 (g : cfg R) s fuel t lo hi : g_stepper g = Some rk4 -> s_init s = true -> (exists n, length (s_sv s) = S n) ->
  s_tprev s < t -> 0 < lo -> lo < hi -> run g (S fuel) t lo hi s = rk4_run g (s_tprev s) t s.
Proof.
  intros Es Hi (n & Hn) Ht Hlo Hhi. unfold run. unfold bnd at 1, gets at 1. rewrite Hi. cbn [negb]. unfold bnd at 1, gets at 1. unfold bnd at 1, gets at 1. rewrite Hn.
  cbn [nltb neqb num_R]. rewrite (proj2 (Rltb_false t (s_tprev s))) by lra. rewrite (proj2 (Reqb_false t (s_tprev s))) by lra. rewrite Es.
  replace (Rltb n0 lo) with true by (symmetry; apply Rltb_true; exact Hlo). replace (Rltb lo hi) with true by (symmetry; apply Rltb_true; exact Hhi).
  assert (forall f h, run_loop g f t lo hi t (nmin (t + h) t)%num false = ret tt) as Hend.
  { intros f h. destruct f; cbn [run_loop]; cbn [nltb num_R]; rewrite (proj2 (Rltb_false t t)) by lra; reflexivity. }
  assert (run_loop g (S fuel) t lo hi (s_tprev s) t false s =
    (begin_step g (s_tprev s) ;;; o <~ gets s_svo ;; x <~ get_sv g o ;; modify (put_svo x) ;;;
     r <~ rk4 _ (minor_cb g) (s_tprev s) x t ;;
     modify (put_sv (fst r)) ;;; on_core' (emit (EvTry (s_tprev s) x t (fst r) (snd r)))) s) as E.
  { cbn [run_loop]. cbn [nltb num_R]. rewrite (proj2 (Rltb_true _ _) Ht), Es. unfold bnd.
    destruct (begin_step g (s_tprev s) s) as [[] s1| | |]; try done. cbn [gets]. destruct (get_sv g (s_svo s1) s1) as [x s2| | |]; try done. cbn [modify].
    destruct (rk4 (simst R) (minor_cb g) (s_tprev s) x t (put_svo x s2)) as [r s3| | |] eqn:Ek; try done. apply rk4_size in Ek. cbn [modify].
    match goal with |- context [on_core' ?m ?z] => destruct (on_core' m z) as [[] s4| | |]; try done end.
    change (nsub t (s_tprev s)) with (t - s_tprev s). rewrite Ek. cbn [nleb num_R]. rewrite (proj2 (Rleb_true (t - s_tprev s) (t - s_tprev s))) by lra. cbn [orb].
    rewrite (proj2 (Rltb_false t t)) by lra. cbn [ret]. by rewrite Hend. }
  unfold rk4_run. unfold debug_verify, verify. destruct (g_dbg g); unfold bnd in *; cbn [ret] in *; rewrite E.
  all: destruct (begin_step g (s_tprev s) s) as [[] s1| | |]; try done; cbn [gets]; destruct (get_sv g (s_svo s1) s1) as [x s2| | |]; try done; cbn [modify].
  all: destruct (rk4 (simst R) (minor_cb g) (s_tprev s) x t (put_svo x s2)) as [r s3| | |]; done.
Qed.

Definition spring_ops : list (wop R) :=
  [ ONewSig KScalar "x"; ONewSig KScalar "v"; ONewSig KScalar "a"; ONewBus [0] ""; ONewBus [1] ""; ONewBus [2] "";
    ONewBlock CSubmodel LNone None "root" NoIOLimit NoIOLimit;
    ONewBlock (CInteg TyD) (LInteg (VS 1%R) false) (Some 0) "x" 1 1;
    ONewBlock (CInteg TyD) (LInteg (VS 0%R) false) (Some 0) "v" 1 1;
    ONewBlock (CGain TyD (VS (-1)%R)) LNone (Some 0) "spring" 1 1;
    OConnect 1 4 3; OConnect 2 5 4; OConnect 3 3 5 ]%nat.
Definition spring_world : world R := world_of true spring_ops.
Definition spring_tree : tree R := default (TSub 0 [] []) (compile_model spring_world 0).
Definition spring_cfg : cfg R := Cfg true MDefault spring_tree None (fun _ => PRet tt) (Some rk4) (fun x => reverse x) 0.
Lemma spring_reach : wreach true spring_world.
Proof. reach_ops spring_world spring_ops. Qed.
Lemma spring_model : compile_model spring_world 0 = Some spring_tree.
Proof. vm_compute. reflexivity. Qed.
Definition spring_new : simst R := new_sim (initial_dyn spring_world).
Definition spring_0 : simst R := st_of spring_new (init spring_cfg 0 spring_new).
Lemma ok_rk4 (g : cfg R) t1 t s : is_ok (rk4_run g t1 t s) = true -> rk4_run g t1 t s = Ok tt (st_of s (rk4_run g t1 t s)).
Proof. destruct (rk4_run g t1 t s) as [[] s'| | |]; try done. Qed.
Lemma spring_session : session_of spring_world 0 spring_cfg spring_0.
Proof.
  assert (is_ok (init spring_cfg 0 spring_new) = true) as E by (vm_compute; reflexivity). apply ok_init in E.
  eapply (session_init _ _ _ rk4); [exact spring_reach|exact spring_model|intros l; apply reverse_Permutation|reflexivity|apply rk4_ok|apply rk4_rel|exact E].
Qed.
Definition spring_to (t1 t : R) (s : simst R) : simst R := st_of s (rk4_run spring_cfg t1 t s).
Lemma spring_2 h : is_ok (rk4_run spring_cfg 0 h spring_0) = true /\ is_ok (rk4_run spring_cfg h (2 * h) (spring_to 0 h spring_0)) = true.
Proof. split; vm_compute; reflexivity. Qed.
Lemma spring_layout : layout spring_0 = [0; 1]%nat.
Proof. vm_compute. reflexivity. Qed.
Definition spring_A (i j : nat) : R := match i, j with O, S O => 1 | S O, O => -1 | _, _ => 0 end.
Definition spring_sol (t : R) : list R := [cos t; - sin t].
Lemma spring_solves T : solves (affine 2 spring_A (fun _ => 0)) spring_sol 0 T.
Proof.
  intros t Ht. split; [done|]. split; [done|]. intros i Hi. cbn in Hi. destruct i as [|[|i]]; [| |lia]; cbn.
  - replace (0 + 0 * cos t + 1 * - sin t + 0) with (- sin t) by lra. apply derivable_pt_lim_cos.
  - replace (0 + -1 * cos t + 0 * - sin t + 0) with (- cos t) by lra. apply (derivable_pt_lim_opp sin). apply derivable_pt_lim_sin.
Qed.
Lemma spring_field {D} `{NumOps D} (σ0 : store D) (g : cfg D) t M x dx l c0 c1 k :
  field σ0 g [0; 1]%nat t M x dx -> l ∈ leaves (g_tree g) -> l_cls l = CGain TyD (VS k) -> required l = [0]%nat ->
  h_in (l_h l) = Some 0%nat -> h_out (l_h l) = Some 2%nat -> σ0 !! 0%nat = Some c0 -> c_kind c0 = KScalar -> c_deriv c0 = Some 1%nat ->
  σ0 !! 1%nat = Some c1 -> c_kind c1 = KScalar -> c_deriv c1 = Some 2%nat ->
  exists y v, x = [y; v] /\ dx = [v; nmul k y].
Proof.
  intros (σ & Hi) Hl Hcl Hrq Hin Hout Hc0 Hk0 Hd0 Hc1 Hk1 Hd1.
  destruct (in_known _ _ _ _ _ _ _ _ Hi 0%nat) as (v0 & Ev0); [apply elem_of_list_here|]. destruct (in_known _ _ _ _ _ _ _ _ Hi 1%nat) as (v1 & Ev1); [apply elem_of_list_further, elem_of_list_here|].
  destruct (in_typed _ _ _ _ _ _ _ _ Hi 0%nat v0 Ev0) as (c & Hc & Hk & Hz). rewrite Hc0 in Hc. injection Hc as <-. rewrite Hk0 in Hk, Hz. destruct v0 as [y| | |]; try done.
  destruct (in_typed _ _ _ _ _ _ _ _ Hi 1%nat v1 Ev1) as (c & Hc & Hk' & Hz'). rewrite Hc1 in Hc. injection Hc as <-. rewrite Hk1 in Hk', Hz'. destruct v1 as [v| | |]; try done.
  pose proof (in_state _ _ _ _ _ _ _ _ Hi) as Ex. rewrite !pack_cons, Ev0, Ev1 in Ex. cbn in Ex. exists y, v. split; [done|].
  destruct (in_laws _ _ _ _ _ _ _ _ Hi l Hl) as [(s & Hs & Ha)|[He _]].
  { by rewrite Hcl. }
  { rewrite Hrq in Hs. apply elem_of_list_singleton in Hs as ->. apply value_assigned in Ev0. congruence. }
  unfold equation in He. rewrite Hcl in He. destruct He as (si & so & u & r & Hsi & Hso & Hu & Hr & Hsc). rewrite Hin in Hsi. injection Hsi as <-.
  rewrite Hout in Hso. injection Hso as <-. rewrite Ev0 in Hu. injection Hu as <-.
  assert (r = VS (nmul k y)) as -> by (inversion Hsc; by subst).
  destruct (in_deriv _ _ _ _ _ _ _ _ Hi) as (ds & Hds & ->). inversion Hds as [|z d zs' ds' (e1 & w1 & Hc2 & Hd2 & Hv2) Hn]; subst.
  inversion Hn as [|z d' zs' ds'' (e2 & w2 & Hc3 & Hd3 & Hv3) Hn']; subst. inversion Hn'; subst.
  rewrite Hc0 in Hc2. injection Hc2 as <-. rewrite Hd0 in Hd2. injection Hd2 as <-.
  rewrite Hc1 in Hc3. injection Hc3 as <-. rewrite Hd1 in Hd3. injection Hd3 as <-. rewrite !pack_cons, Hr, Ev1. cbn. done.
Qed.
Definition spring_leaves : list (leaf R) := leaves spring_tree.
Lemma spring_cfg_leaves : leaves (g_tree spring_cfg) = spring_leaves.
Proof. unfold spring_cfg, spring_leaves. cbn [g_tree]. reflexivity. Qed.
Lemma spring_is τ m x dx : field (initial_store spring_world) spring_cfg (layout spring_0) τ m x dx -> dx = affine 2 spring_A (fun _ => 0) τ x.
Proof.
  rewrite spring_layout. intros Hf.
  assert (exists l, l ∈ spring_leaves /\ l_cls l = CGain TyD (VS (-1)) /\ required l = [0%nat] /\ h_in (l_h l) = Some 0%nat /\ h_out (l_h l) = Some 2%nat) as (l & Hl & Hcl & Hrq & Hin & Hout).
  { assert (exists l1 l2 l, spring_leaves = [l1; l2; l] /\ l_cls l = CGain TyD (VS (-1)) /\ required l = [0%nat] /\ h_in (l_h l) = Some 0%nat /\ h_out (l_h l) = Some 2%nat) as (l1 & l2 & l & -> & Hx).
    { do 3 eexists. split; [vm_compute; reflexivity|]. split_and!; reflexivity. }
    exists l. split; [do 2 apply elem_of_list_further; apply elem_of_list_here|exact Hx]. }
  assert (exists c0, initial_store spring_world !! 0%nat = Some c0 /\ c_kind c0 = KScalar /\ c_deriv c0 = Some 1%nat) as (c0 & Hc0 & Hk0 & Hd0).
  { eexists. split; [vm_compute; reflexivity|]. split; reflexivity. }
  assert (exists c1, initial_store spring_world !! 1%nat = Some c1 /\ c_kind c1 = KScalar /\ c_deriv c1 = Some 2%nat) as (c1 & Hc1 & Hk1 & Hd1).
  { eexists. split; [vm_compute; reflexivity|]. split; reflexivity. }
  revert Hf Hl Hc0 Hc1. rewrite <- spring_cfg_leaves. generalize (initial_store spring_world). generalize spring_cfg. intros g σ0 Hf Hl Hc0 Hc1.
  destruct (spring_field σ0 g τ m x dx l c0 c1 (-1) Hf Hl Hcl Hrq Hin Hout Hc0 Hk0 Hd0 Hc1 Hk1 Hd1) as (y & v & -> & ->). cbn. f_equal; [lra|]. f_equal. lra.
Qed.
Example C62_ex : solves (affine 2 spring_A (fun _ => 0)) spring_sol 0 10 /\
  session_of spring_world 0 spring_cfg spring_0 /\ g_dbg spring_cfg = true /\ (forall l, l ∈ leaves (g_tree spring_cfg) -> steady_class l) /\
  derivs_fit (initial_store spring_world) /\ g_stepper spring_cfg = Some (stp_of SRk4) /\ (forall z, z ∈ layout spring_0 -> integral spring_cfg z) /\ s_sv spring_0 ≠ [] /\
  (forall τ m x dx, field (initial_store spring_world) spring_cfg (layout spring_0) τ m x dx -> dx = affine 2 spring_A (fun _ => 0) τ x) /\
  s_tprev spring_0 = 0 /\ pack (s_store spring_0) (layout spring_0) = spring_sol 0 /\
  (forall h, 0 < h -> exists s1 s2, advance spring_cfg h spring_0 s1 /\ s_tprev s1 = h /\ advance spring_cfg h spring_0 s2 /\ s_tprev s2 = 2 * h /\
     pack (s_store s1) (layout s1) = [1 - h ^ 2 / 2 + h ^ 4 / 24; - h + h ^ 3 / 6]).
Proof.
  split; [apply spring_solves|]. split; [exact spring_session|]. split; [reflexivity|]. rewrite spring_cfg_leaves.
  split; [apply steadyb_ok; vm_compute; reflexivity|]. split; [apply fitb_ok; vm_compute; reflexivity|]. split; [reflexivity|].
  split; [rewrite spring_layout; eapply integb_ok; [exact spring_cfg_leaves|vm_compute; reflexivity]|].
  split. { intros E. apply (f_equal (@length R)) in E. revert E. vm_compute. intros E; discriminate E. }
  split; [exact spring_is|]. split; [vm_compute; reflexivity|].
  split. { rewrite spring_layout. unfold spring_sol. rewrite cos_0, sin_0, Ropp_0. vm_compute. reflexivity. }
  intros h Hh. destruct (spring_2 h) as [E1 E2]. apply ok_rk4 in E1, E2. exists (spring_to 0 h spring_0), (spring_to h (2 * h) (spring_to 0 h spring_0)).
  assert (s_tprev spring_0 = 0) as E0 by (vm_compute; reflexivity). assert (s_tprev (spring_to 0 h spring_0) = h) as Ep by (vm_compute; reflexivity).
  assert (run spring_cfg 1 h (h / 2) h spring_0 = Ok tt (spring_to 0 h spring_0)) as R1.
  { rewrite run_rk4; [rewrite E0; exact E1|reflexivity|vm_compute; reflexivity|exists 1%nat; vm_compute; reflexivity|rewrite E0; lra|lra|lra]. }
  assert (run spring_cfg 1 (2 * h) (h / 2) h (spring_to 0 h spring_0) = Ok tt (spring_to h (2 * h) (spring_to 0 h spring_0))) as R2.
  { rewrite run_rk4; [rewrite Ep; exact E2|reflexivity|vm_compute; reflexivity|exists 1%nat; vm_compute; reflexivity|rewrite Ep; lra|lra|lra]. }
  split. { eapply adv_run; [| |exact R1|constructor]; rewrite E0; lra. }
  split; [exact Ep|].
  split. { eapply adv_run; [| |exact R1|]; [rewrite E0; lra|rewrite E0; lra|]. eapply adv_run; [| |exact R2|constructor]; rewrite Ep; lra. }
  split; [vm_compute; reflexivity|].
  assert (exists y v, pack (s_store (spring_to 0 h spring_0)) (layout (spring_to 0 h spring_0)) = [y; v] /\ y = 1 - h ^ 2 / 2 + h ^ 4 / 24 /\ v = - h + h ^ 3 / 6) as (y & v & -> & -> & ->); [|done].
  eexists. eexists. split; [vm_compute; reflexivity|]. split; field.
Qed.
