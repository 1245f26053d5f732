(** Property C61: results of the simulation converge to the solution of the model's
    differential equation. *)
From stdpp Require Import prelude gmap strings.
From Coq Require Import ZArith QArith Reals Lra Qreals.
From Verif Require Import Num NumQ NumR NumOrd NumAdd Res Name Store Leaf Sched Stepper Sim World Api SpecSched P_Store P_Prog P_Lib P_Compile P_Simulated P_Evolve P_Rel P_Rel2 SpecHist P_Trace Ex_Models
  SpecRun P_Log P_Run Props_Run P_Pack P_Grow P_Again P_Repeat Props_Pack SpecRK P_RK SpecAgain P_Over P_Redo Props_Again SpecField P_Field P_FieldRun P_Posed P_Path Props_Field SpecConv P_Conv.
Local Open Scope nat_scope.
Local Open Scope R_scope.

(** The tableaus have nodes between 0 and 1 and weights with sum 1. *)
Definition qabs_sum (a : list Q) : Q := fold_right (fun x r => (Qabs.Qabs x + r)%Q) 0%Q a.
Lemma asum_q a : asum a = Q2R (qabs_sum a).
Proof.
  induction a as [|x a IH]; cbn; [unfold Q2R; cbn; lra|]. fold (asum a). rewrite IH, Q2R_plus. f_equal.
  destruct (Qlt_le_dec x 0) as [Hx|Hx].
  - rewrite (Qeq_eqR _ _ (Qabs.Qabs_neg x (Qlt_le_weak _ _ Hx))), Q2R_opp. apply Rabs_left. apply Qlt_Rlt in Hx. unfold Q2R in Hx at 2. cbn in Hx. lra.
  - rewrite (Qeq_eqR _ _ (Qabs.Qabs_pos x Hx)). apply Rabs_pos_eq. apply Qle_Rle in Hx. unfold Q2R in Hx at 1. cbn in Hx. lra.
Qed.
Lemma qsum_q a : qsum a = Q2R (fold_right Qplus 0%Q a).
Proof. induction a as [|x a IH]; cbn; [unfold Q2R; cbn; lra|]. fold (qsum a). by rewrite IH, Q2R_plus. Qed.
Definition row_okb (c : Q * list Q) : bool := Qle_bool 0 c.1 && Qle_bool c.1 1 && Qle_bool (qabs_sum c.2) 20.
Lemma row_okb_ok c : row_okb c = true -> 0 <= Q2R c.1 <= 1 /\ asum c.2 <= 20.
Proof.
  unfold row_okb. rewrite !andb_true_iff, !Qle_bool_iff. intros [[H1 H2] H3]. apply Qle_Rle in H1, H2, H3. rewrite asum_q.
  unfold Q2R at 1 in H1. unfold Q2R at 2 in H2. unfold Q2R at 2 in H3. cbn in H1, H2, H3. lra.
Qed.
Lemma tab_rows_ok meth : Forall (fun c => 0 <= Q2R c.1 <= 1 /\ asum c.2 <= 20) (tb_rows (tab_of meth)).
Proof.
  assert (forallb row_okb (tb_rows (tab_of meth)) = true) as Hb by (destruct meth; vm_compute; reflexivity).
  apply Forall_forall. intros c Hc. apply row_okb_ok. rewrite forallb_forall in Hb. apply Hb. by apply elem_of_list_In.
Qed.
Lemma tab_weights_ok meth : length (tb_weights (tab_of meth)) = length (tb_rows (tab_of meth)) /\ qsum (tb_weights (tab_of meth)) = 1.
Proof.
  split; [by destruct meth|]. rewrite qsum_q. rewrite (Qeq_eqR _ 1%Q); [unfold Q2R; cbn; lra|]. apply Qeq_bool_iff. destruct meth; vm_compute; reflexivity.
Qed.

Lemma run_next w b (g : cfg R) s fuel t lo hi s' : session_of w b g s -> s_sv s ≠ [] -> s_tprev s < t -> run g fuel t lo hi s = Ok tt s' ->
  session_of w b g s' /\ layout s' = layout s /\ s_sv s' ≠ [] /\ s_tprev s' = t.
Proof.
  intros Hs Hn Ht Hr. pose proof (session_run _ _ _ _ _ _ _ _ _ Hs Hr) as Hs1.
  assert (forall stp, g_stepper g = Some stp -> stepper_rel stp) as Hrel. { destruct Hs as (_ & _ & _ & Hstp & _). intros stp E. by destruct (Hstp stp E). }
  pose proof (session_of_packed _ _ _ _ Hs) as [Hp Hi]. pose proof (session_of_packed _ _ _ _ Hs1) as [Hp1 Hi1].
  assert (layout s' = layout s) as E1. { destruct (laid_run g _ _ _ _ (s_scal s) (s_arr s) _ _ Hrel Hi Hr) as [E1 E2]; [done|]. unfold layout. by rewrite E1, E2. }
  split; [done|]. split; [done|]. split.
  - intros E. apply Hn. apply nil_length_inv. apply (f_equal length) in E. rewrite (pk_sv _ _ Hp1) in E. rewrite (pk_sv _ _ Hp).
    unfold layout in E1. rewrite E1 in E. etrans; [symmetry|exact E].
    destruct (comes_run (g_dbg g) (s_dyn s) g eq_refl Hrel fuel t lo hi s tt s') as [Hsh _]; [unfold comes; reflexivity|done|].
    by apply (width_shape _ _ _ _ Hsh).
  - destruct (run_later g Hrel fuel t lo hi s s' Hr Hi Hn) as (_ & u & v1 & v2 & _ & _ & _ & _ & Ep); [cbn; rewrite Rltb_false; lra|cbn; rewrite Reqb_false; lra|done].
Qed.
Lemma advance_time w b (g : cfg R) H s s' : advance g H s s' -> session_of w b g s -> s_sv s ≠ [] -> s_tprev s <= s_tprev s'.
Proof.
  induction 1 as [s|s fuel t lo hi s1 s' Hlt Hle Hr Ha IH]; intros Hs Hn; [lra|].
  destruct (run_next _ _ _ _ _ _ _ _ _ Hs Hn Hlt Hr) as (Hs1 & _ & Hn1 & Ep). specialize (IH Hs1 Hn1). lra.
Qed.
(** One run. *)
Lemma run_growth w b (g : cfg R) s meth fuel t lo hi s' F :
  session_of w b g s -> g_dbg g = true -> (forall l, l ∈ leaves (g_tree g) -> steady_class l) -> derivs_fit (initial_store w) ->
  g_stepper g = Some (stp_of meth) -> (forall z, z ∈ layout s -> integral g z) -> s_sv s ≠ [] -> s_tprev s < t -> run g fuel t lo hi s = Ok tt s' ->
  (forall τ m x dx, s_tprev s <= τ <= t -> field (initial_store w) g (layout s) τ m x dx -> dx = F τ x) ->
  exists ms, chained (s_tprev s) (pack (s_store s) (layout s)) ms t (pack (s_store s') (layout s)) /\ s_tprev s' = t /\
    Forall (fun a => mv_from a < mv_to a /\ mv_to a <= t /\ s_tprev s <= mv_from a /\
      rk_solution (tab_of meth) (fun τ v k => k = F τ v) (mv_from a) (mv_state a) (mv_to a) (mv_result a)) ms.
Proof.
  intros Hs Hg Hst Hf Es Hint Hn Ht Hr HF.
  destruct (C60_rk w b g s meth fuel t lo hi s' Hs Hg Hst Hf Es Hint Hn Ht Hr) as (v & Ev & Hc & Hall).
  assert (later_run g s t lo hi s' v) as Hl.
  { split. { destruct Hs as (_ & _ & _ & Hstp & _). intros stp E. by destruct (Hstp stp E). }
    split; [by destruct (session_of_packed _ _ _ _ Hs)|]. split; [done|]. split; [cbn; by rewrite Rltb_true|]. split; [by exists fuel|done]. }
  destruct (C33_ends R g s t lo hi s' v Hl) as (_ & _ & _ & Ep & Hat); [by left|].
  exists (moves v). split; [done|]. split; [done|].
  unfold attempts in Hat. rewrite (moves_attempts None) in Hat. rewrite Forall_map in Hat. 
  eapply Forall_impl; [apply Forall_and; split; [exact Hat|exact Hall]|].
  intros a [(A1 & A2 & A3) (σ & m & _ & ks & K1 & K2 & K3)]. cbn in A1, A2, A3. rewrite Rleb_true in A1, A3. rewrite Rltb_true in A2.
  split; [done|]. split; [done|]. split; [done|]. exists ks. split; [done|]. split; [|done]. intros i c a' k E1 E2.
  eapply HF; [|by eapply K2]. pose proof (proj1 (Forall_lookup _ _) (tab_rows_ok meth) _ _ E1) as [[Hc0 Hc1] _]. cbn in Hc0, Hc1. nra.
Qed.

Theorem C61_converges : forall meth F φ t0 T r L B, 0 < r -> 0 <= L -> 0 <= B -> t0 <= T ->
  solves F φ t0 T -> regular F φ t0 T r L B ->
  exists K H0, 0 <= K /\ 0 < H0 /\ forall w b (g : cfg R) s s' H,
    session_of w b g s -> g_dbg g = true -> (forall l, l ∈ leaves (g_tree g) -> steady_class l) -> derivs_fit (initial_store w) ->
    g_stepper g = Some (stp_of meth) -> (forall z, z ∈ layout s -> integral g z) -> s_sv s ≠ [] ->
    (forall τ m x dx, t0 <= τ <= T -> field (initial_store w) g (layout s) τ m x dx -> dx = F τ x) ->
    s_tprev s = t0 -> pack (s_store s) (layout s) = φ t0 ->
    0 <= H <= H0 -> advance g H s s' -> s_tprev s' <= T ->
    within (K * H) (pack (s_store s') (layout s')) (φ (s_tprev s')).
Proof.
  intros meth F φ t0 T r L B Hr0 HL HB HT Hsol Hreg.
  pose proof (tab_rows_ok meth) as Hrows. destruct (tab_weights_ok meth) as [Hwl Hone].
  set (rows := tb_rows (tab_of meth)) in *. set (ws := tb_weights (tab_of meth)) in *.
  assert (tab_of meth = Tableau rows ws) as Etab by (by destruct meth).
  set (Λ := Lam L B 20 rows ws). set (G := Gc L B 20 (length rows)). assert (0 <= 20) as H20 by lra.
  pose proof (Lam_pos L B HL HB 20 H20 rows ws) as HΛ. pose proof (Gc_one L B HL HB 20 H20 (length rows)) as HG. fold Λ in HΛ. fold G in HG.
  set (E := exp (Λ * (T - t0))). assert (1 <= E) as HE.
  { unfold E. destruct (Req_dec (Λ * (T - t0)) 0) as [->|Hne]; [rewrite exp_0; lra|]. pose proof (exp_ineq1 _ Hne). assert (0 <= Λ * (T - t0)) by (apply Rmult_le_pos; lra). lra. }
  exists (E - 1), (Rmin 1 (r / (G * E))). assert (0 < G * E) as HGE by (apply Rmult_lt_0_compat; lra).
  split; [lra|]. split; [apply Rmin_glb_lt; [lra|]; by apply Rdiv_lt_0_compat|].
  intros w b g s s' H Hs Hg Hst Hfit Es Hint Hn HF Htp Hx [HH0 HH] Hadv HT'.
  assert (H <= 1) as HH1 by (eapply Rle_trans; [exact HH|apply Rmin_l]).
  assert (G * (E * H) <= r) as HGr.
  { assert (H <= r / (G * E)) as Hq by (eapply Rle_trans; [exact HH|apply Rmin_r]). apply (Rmult_le_compat_r (G * E)) in Hq; [|lra].
    unfold Rdiv in Hq. rewrite Rmult_assoc, Rinv_l in Hq by lra. lra. }
  assert (forall ta, t0 <= ta <= T -> exp (Λ * (ta - t0)) <= E) as Hmono.
  { intros ta Hta. unfold E. assert (Λ * (ta - t0) <= Λ * (T - t0)) as Hle by (apply Rmult_le_compat_l; lra).
    destruct (Rle_lt_or_eq_dec _ _ Hle) as [Hlt|Heq]; [left; by apply exp_increasing|rewrite Heq; lra]. }
  (** The invariant. *)
  assert (forall s1 e, advance g H s1 s' -> session_of w b g s1 -> layout s1 = layout s -> s_sv s1 ≠ [] -> t0 <= s_tprev s1 -> 0 <= e ->
    within e (pack (s_store s1) (layout s1)) (φ (s_tprev s1)) -> e + H <= exp (Λ * (s_tprev s1 - t0)) * H ->
    exists e', 0 <= e' /\ within e' (pack (s_store s') (layout s')) (φ (s_tprev s')) /\ e' + H <= exp (Λ * (s_tprev s' - t0)) * H /\ t0 <= s_tprev s') as Hinv.
  { intros s1 e Ha. revert e. induction Ha as [s1|s1 fuel t lo hi s2 s' Hlt Hle Hrun Ha IH]; intros e Hs1 El Hn1 Hge He Hw Hb.
    - exists e. done.
    - destruct (run_next _ _ _ _ _ _ _ _ _ Hs1 Hn1 Hlt Hrun) as (Hs2 & El2 & Hn2 & Ep). pose proof (advance_time _ _ _ _ _ _ Ha Hs2 Hn2) as Htt. rewrite Ep in Htt.
      destruct (run_growth w b g s1 meth fuel t lo hi s2 F Hs1 Hg Hst Hfit Es) as (ms & Hch & _ & Hms); [by rewrite El|done|done|done| |].
      { rewrite El. intros τ m x dx Hτ. apply HF. lra. }
      assert (0 <= e + H) as HeH by lra.
      assert (exp (Λ * (t - s_tprev s1)) * (e + H) <= exp (Λ * (t - t0)) * H) as Hg1.
      { replace (Λ * (t - t0)) with (Λ * (t - s_tprev s1) + Λ * (s_tprev s1 - t0)) by lra. rewrite exp_plus, Rmult_assoc. apply Rmult_le_compat_l; [left; apply exp_pos|done]. }
      assert (exp (Λ * (t - t0)) * H <= E * H) as Hg2 by (apply Rmult_le_compat_r; [lra|]; apply Hmono; lra).
      destruct (chain_growth F φ t0 T r L B HL HB Hsol Hreg 20 H20 rows Hrows ws Hwl Hone H ms (conj HH0 HH1) (s_tprev s1) (pack (s_store s1) (layout s1)) e t (pack (s_store s2) (layout s1))) as (e1 & K0 & K1 & K2);
        [done|lra|exact Hch| |done|done| |].
      { eapply Forall_impl; [exact Hms|]. intros a (M1 & M2 & M3 & M4). rewrite <- Etab. split; [done|]. split; [done|]. split; [lra|done]. }
      { fold Λ. fold G. eapply Rle_trans; [|exact HGr]. apply Rmult_le_compat_l; lra. }
      fold Λ in K1. apply (IH Hadv HT' e1); [done|by rewrite El2|done|lra|done|by rewrite El2, Ep|rewrite Ep; lra]. }
  destruct (Hinv s 0) as (e' & E0 & E1 & E2 & E3); [done|done|done|done|lra|lra| |replace (Λ * (s_tprev s - t0)) with 0 by (rewrite Htp; lra); rewrite exp_0; lra|].
  { rewrite Hx, Htp. apply within_nth. split; [done|]. intros i _. replace (nth i (φ t0) 0 - nth i (φ t0) 0) with 0 by lra. rewrite Rabs_R0. lra. }
  apply within_nth in E1 as [W1 W2]. apply within_nth. split; [done|]. intros i Hi. eapply Rle_trans; [by apply W2|].
  assert (exp (Λ * (s_tprev s' - t0)) * H <= E * H) by (apply Rmult_le_compat_r; [lra|]; apply Hmono; lra). lra.
Qed.
Print Assumptions C61_converges.

(** ** Example: x' = -2 x with x = 5 at time 0, by Euler's method. *)
(** A run with Euler's method consists of one step. *)
Definition euler_run (g : cfg R) (t1 t : R) : M (simst R) unit :=
  begin_step g t1 ;;;
  o <~ gets s_svo ;; x <~ get_sv g o ;; modify (put_svo x) ;;;
  k <~ minor_cb g t1 x ;;
  (if Nat.eqb (length k) (length x) then ret tt else undef UArith) ;;;
  let y := va x (vk (t - t1) k) in
  modify (put_sv y) ;;;
  on_core' (emit (EvTry t1 x t y (t - t1))) ;;;
  sv <~ gets s_sv ;; reset_sv g sv ;;; process_model g t false true ;;; modify (put_tprev t).
Lemma run_euler (g : cfg R) s fuel t lo hi : g_stepper g = Some euler -> s_init s = true -> (exists n, length (s_sv s) = S n) ->
  s_tprev s < t -> 0 < lo -> lo < hi -> run g (S fuel) t lo hi s = euler_run g (s_tprev s) t s.
Proof.
  intros Es Hi (n & Hn) Ht Hlo Hhi. unfold run. unfold bnd at 1, gets at 1. rewrite Hi. cbn [negb]. unfold bnd at 1, gets at 1. unfold bnd at 1, gets at 1. rewrite Hn.
  cbn [nltb neqb num_R]. rewrite (proj2 (Rltb_false t (s_tprev s))) by lra. rewrite (proj2 (Reqb_false t (s_tprev s))) by lra. rewrite Es.
  replace (Rltb n0 lo) with true by (symmetry; apply Rltb_true; exact Hlo). replace (Rltb lo hi) with true by (symmetry; apply Rltb_true; exact Hhi).
  assert (forall f, run_loop g f t lo hi t (nmin (t + clip lo hi (t - s_tprev s)) t)%num false = ret tt) as Hend.
  { intros f. destruct f; cbn [run_loop]; cbn [nltb num_R]; rewrite (proj2 (Rltb_false t t)) by lra; reflexivity. }
  assert (run_loop g (S fuel) t lo hi (s_tprev s) t false s =
    (begin_step g (s_tprev s) ;;; o <~ gets s_svo ;; x <~ get_sv g o ;; modify (put_svo x) ;;;
     k <~ minor_cb g (s_tprev s) x ;; (if Nat.eqb (length k) (length x) then ret tt else undef UArith) ;;;
     modify (put_sv (va x (vk (t - s_tprev s) k))) ;;; on_core' (emit (EvTry (s_tprev s) x t (va x (vk (t - s_tprev s) k)) (t - s_tprev s)))) s) as E.
  { cbn [run_loop]. cbn [nltb num_R]. rewrite (proj2 (Rltb_true _ _) Ht), Es. unfold euler, call. unfold bnd.
    destruct (begin_step g (s_tprev s) s) as [[] s1| | |]; try done. cbn [gets]. destruct (get_sv g (s_svo s1) s1) as [x s2| | |]; try done. cbn [modify].
    destruct (minor_cb g (s_tprev s) x (put_svo x s2)) as [k s3| | |]; try done. destruct (Nat.eqb (length k) (length x)); [|done]. cbn [ret fst snd modify].
    change (nsub t (s_tprev s)) with (t - s_tprev s).
    match goal with |- context [on_core' ?m ?z] => destruct (on_core' m z) as [[] s4| | |]; try done end.
    cbn [nleb num_R]. rewrite (proj2 (Rleb_true (t - s_tprev s) (t - s_tprev s))) by lra. cbn [orb].
    rewrite (proj2 (Rltb_false t t)) by lra. cbn [ret]. by rewrite Hend. }
  unfold euler_run. unfold debug_verify, verify. destruct (g_dbg g); unfold bnd in *; cbn [ret] in *; rewrite E.
  all: destruct (begin_step g (s_tprev s) s) as [[] s1| | |]; try done; cbn [gets]; destruct (get_sv g (s_svo s1) s1) as [x s2| | |]; try done; cbn [modify].
  all: destruct (minor_cb g (s_tprev s) x (put_svo x s2)) as [k s3| | |]; try done; destruct (Nat.eqb (length k) (length x)); done.
Qed.

Definition decay_ops : list (wop R) :=
  [ ONewSig KScalar "x"; ONewSig KScalar "dx"; ONewBus [0] ""; ONewBus [1] "";
    ONewBlock CSubmodel LNone None "root" NoIOLimit NoIOLimit;
    ONewBlock (CGain TyD (VS (-2)%R)) LNone (Some 0) "gain" 1 1;
    ONewBlock (CInteg TyD) (LInteg (VS 5%R) false) (Some 0) "int" 1 1;
    OConnect 1 2 3; OConnect 2 3 2 ]%nat.
Definition decay_world : world R := world_of true decay_ops.
Definition decay_tree : tree R := default (TSub 0 [] []) (compile_model decay_world 0).
Definition decay_cfg : cfg R := Cfg true MDefault decay_tree None (fun _ => PRet tt) (Some euler) (fun x => reverse x) 0.
Lemma decay_reach : wreach true decay_world.
Proof. reach_ops decay_world decay_ops. Qed.
Lemma decay_model : compile_model decay_world 0 = Some decay_tree.
Proof. vm_compute. reflexivity. Qed.
Definition decay_new : simst R := new_sim (initial_dyn decay_world).
Definition decay_0 : simst R := st_of decay_new (init decay_cfg 0 decay_new).
Lemma ok_init (g : cfg R) t s : is_ok (init g t s) = true -> init g t s = Ok tt (st_of s (init g t s)).
Proof. destruct (init g t s) as [[] s'| | |]; try done. Qed.
Lemma ok_euler (g : cfg R) t1 t s : is_ok (euler_run g t1 t s) = true -> euler_run g t1 t s = Ok tt (st_of s (euler_run g t1 t s)).
Proof. destruct (euler_run g t1 t s) as [[] s'| | |]; try done. Qed.
Lemma decay_session : session_of decay_world 0 decay_cfg decay_0.
Proof.
  assert (is_ok (init decay_cfg 0 decay_new) = true) as E by (vm_compute; reflexivity). apply ok_init in E.
  eapply (session_init _ _ _ euler); [exact decay_reach|exact decay_model|intros l; apply reverse_Permutation|reflexivity|apply euler_ok|apply euler_rel|exact E].
Qed.
Definition decay_to (t1 t : R) (s : simst R) : simst R := st_of s (euler_run decay_cfg t1 t s).
Lemma decay_2 h : is_ok (euler_run decay_cfg 0 h decay_0) = true /\ is_ok (euler_run decay_cfg h (2 * h) (decay_to 0 h decay_0)) = true.
Proof. split; vm_compute; reflexivity. Qed.
Definition decay_field (t : R) (x : list R) : list R := map (fun a => -2 * a) x.
Definition decay_sol (t : R) : list R := [5 * exp (-2 * t)].
Lemma decay_solves : solves decay_field decay_sol 0 1.
Proof.
  intros t Ht. split; [done|]. split; [done|]. intros i Hi. cbn in Hi. destruct i as [|i]; [|lia]. cbn.
  replace (-2 * (5 * exp (-2 * t))) with (5 * (exp (-2 * t) * (-2 * 1))) by lra.
  apply (derivable_pt_lim_scal (fun τ => exp (-2 * τ)) 5 t). apply (derivable_pt_lim_comp (fun τ => -2 * τ) exp).
  - apply (derivable_pt_lim_scal (fun τ => τ) (-2) t). apply derivable_pt_lim_id.
  - apply derivable_pt_lim_exp.
Qed.
Lemma decay_regular : regular decay_field decay_sol 0 1 1 2 10.
Proof.
  split.
  - intros t t' x e Ht Ht' He Hr Hw. unfold decay_field. pose proof (Rabs_pos (t' - t)) as Hp. apply within_nth in Hw as [Hl Hw]. cbn in Hl.
    destruct x as [|a [|a' x]]; cbn in Hl; try lia. specialize (Hw 0%nat ltac:(cbn; lia)). cbn in Hw. apply Forall2_cons. split; [|apply Forall2_nil; done].
    replace (-2 * a - -2 * (5 * exp (-2 * t))) with (-2 * (a - 5 * exp (-2 * t))) by lra. rewrite Rabs_mult. replace (Rabs (-2)) with 2 by (rewrite Rabs_left; lra). lra.
  - intros t Ht. constructor; [|constructor]. replace (-2 * (5 * exp (-2 * t))) with (- (10 * exp (-2 * t))) by lra. pose proof (exp_pos (-2 * t)) as Hp.
    rewrite Rabs_Ropp, Rabs_pos_eq by lra. assert (exp (-2 * t) <= 1); [|lra]. rewrite <- exp_0.
    destruct (Req_dec t 0) as [->|Hne]; [right; f_equal; lra|left; apply exp_increasing; lra].
Qed.
Definition decay_leaves : list (leaf R) := leaves decay_tree.
Lemma decay_cfg_leaves : leaves (g_tree decay_cfg) = decay_leaves.
Proof. unfold decay_cfg, decay_leaves. cbn [g_tree]. reflexivity. Qed.
Lemma decay_layout : layout decay_0 = [0%nat].
Proof. vm_compute. reflexivity. Qed.
Lemma decay_is τ m x dx : field (initial_store decay_world) decay_cfg (layout decay_0) τ m x dx -> dx = decay_field τ x.
Proof.
  rewrite decay_layout. intros Hf.
  assert (exists l, l ∈ decay_leaves /\ l_cls l = CGain TyD (VS (-2)) /\ required l = [0%nat] /\ h_in (l_h l) = Some 0%nat /\ h_out (l_h l) = Some 1%nat) as (l & Hl & Hcl & Hrq & Hin & Hout).
  { assert (exists l ls, decay_leaves = l :: ls /\ l_cls l = CGain TyD (VS (-2)) /\ required l = [0%nat] /\ h_in (l_h l) = Some 0%nat /\ h_out (l_h l) = Some 1%nat) as (l & ls & -> & Hx).
    { eexists. eexists. split; [vm_compute; reflexivity|]. split_and!; reflexivity. }
    exists l. split; [apply elem_of_list_here|exact Hx]. }
  assert (exists c0, initial_store decay_world !! 0%nat = Some c0 /\ c_kind c0 = KScalar /\ c_deriv c0 = Some 1%nat) as (c0 & Hc0 & Hk0 & Hd0).
  { eexists. split; [vm_compute; reflexivity|]. split; reflexivity. }
  revert Hf Hl Hc0. rewrite <- decay_cfg_leaves. generalize (initial_store decay_world). generalize decay_cfg. intros g σ0 Hf Hl Hc0.
  destruct (loop_field σ0 g τ m x dx l c0 (-2) Hf Hl Hcl Hrq Hin Hout Hc0 Hk0 Hd0) as (y & -> & ->). reflexivity.
Qed.
Example C61_ex : solves decay_field decay_sol 0 1 /\ regular decay_field decay_sol 0 1 1 2 10 /\
  session_of decay_world 0 decay_cfg decay_0 /\ g_dbg decay_cfg = true /\ (forall l, l ∈ leaves (g_tree decay_cfg) -> steady_class l) /\
  derivs_fit (initial_store decay_world) /\ g_stepper decay_cfg = Some (stp_of SEuler) /\ (forall z, z ∈ layout decay_0 -> integral decay_cfg z) /\ s_sv decay_0 ≠ [] /\
  (forall τ m x dx, field (initial_store decay_world) decay_cfg (layout decay_0) τ m x dx -> dx = decay_field τ x) /\
  s_tprev decay_0 = 0 /\ pack (s_store decay_0) (layout decay_0) = decay_sol 0 /\
  (forall h, 0 < h -> exists s', advance decay_cfg h decay_0 s' /\ s_tprev s' = 2 * h /\ pack (s_store s') (layout s') = [5 * (1 - 2 * h) * (1 - 2 * h)]).
Proof.
  split; [exact decay_solves|]. split; [exact decay_regular|]. split; [exact decay_session|]. split; [reflexivity|]. rewrite decay_cfg_leaves.
  split; [apply steadyb_ok; vm_compute; reflexivity|]. split; [apply fitb_ok; vm_compute; reflexivity|]. split; [reflexivity|].
  split; [rewrite decay_layout; eapply integb_ok; [exact decay_cfg_leaves|vm_compute; reflexivity]|].
  split. { intros E. apply (f_equal (@length R)) in E. revert E. vm_compute. intros E; discriminate E. }
  split; [exact decay_is|]. split; [vm_compute; reflexivity|].
  split. { rewrite decay_layout. unfold decay_sol. replace (-2 * 0) with 0 by lra. rewrite exp_0. replace (5 * 1) with 5 by lra. vm_compute. reflexivity. }
  intros h Hh. destruct (decay_2 h) as [E1 E2]. apply ok_euler in E1, E2. exists (decay_to h (2 * h) (decay_to 0 h decay_0)). split.
  { apply (adv_run _ _ _ 1 h (h / 2) h (decay_to 0 h decay_0)).
    - replace (s_tprev decay_0) with 0 by (vm_compute; reflexivity). lra.
    - replace (s_tprev decay_0) with 0 by (vm_compute; reflexivity). lra.
    - rewrite run_euler; [replace (s_tprev decay_0) with 0 by (vm_compute; reflexivity); exact E1|reflexivity|vm_compute; reflexivity|exists 0%nat; vm_compute; reflexivity|
        replace (s_tprev decay_0) with 0 by (vm_compute; reflexivity); lra|lra|lra].
    - assert (s_tprev (decay_to 0 h decay_0) = h) as Ep by (vm_compute; reflexivity).
      apply (adv_run _ _ _ 1 (2 * h) (h / 2) h (decay_to h (2 * h) (decay_to 0 h decay_0))).
      + rewrite Ep. lra.
      + rewrite Ep. lra.
      + rewrite run_euler; [rewrite Ep; exact E2|reflexivity|vm_compute; reflexivity|exists 0%nat; vm_compute; reflexivity|rewrite Ep; lra|lra|lra].
      + constructor. }
  split; [vm_compute; reflexivity|].
  assert (exists y, pack (s_store (decay_to h (2 * h) (decay_to 0 h decay_0))) (layout (decay_to h (2 * h) (decay_to 0 h decay_0))) = [y] /\ y = 5 * (1 - 2 * h) * (1 - 2 * h)) as (y & -> & ->); [|done].
  eexists. split; [vm_compute; reflexivity|]. lra.
Qed.
