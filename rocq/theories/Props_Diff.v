(** Property C32, in a simulation: what becomes of a Derivative that drives an Integrator. *)
From stdpp Require Import prelude gmap strings.
From Coq Require Import ZArith QArith Reals Lra Qreals Psatz.
From Verif Require Import Num NumQ NumR NumOrd NumAdd Res Name Store Leaf Sched Stepper Sim World Api SpecSched P_Store P_Prog P_Lib P_World P_Compile P_Simulated P_Evolve P_Rel P_Rel2 SpecHist P_Trace P_Life SpecBlock Ex_Models
  SpecRun P_Log P_Run Props_Run P_Pack P_Grow P_Again P_Repeat Props_Pack SpecRK P_RK SpecAgain P_Over P_Redo Props_Again SpecField P_Field P_FieldRun P_Posed P_Path Props_Field SpecConv P_Conv Props_Conv
  Samples SpecSafe SpecGoes SpecGoes2 SpecLint P_Goes P_Goes4 P_Goes6 Props_Goes P_Total Props_Total Hist SpecRec SpecTable SpecRows P_Table Props_Rec Props_Table Props_Rows Props_Files Samples7 Props_Main P_Diff.
Local Open Scope nat_scope.

(** A Derivative of u whose output is integrated: x should follow u. Signals 0 u, 1 v, 2 x.
    The client sets u to 5 + t. *)
Definition di_ops : list (wop Q) :=
  [ ONewBlock CSubmodel LNone None "m" NoIOLimit NoIOLimit; ONewBlock CDeriv (LDeriv true None None 1%Q) (Some 0) "d" 1 1; ONewBlock (CInteg TyD) (LInteg (VS 0%Q) false) (Some 0) "i" 1 1;
    ONewSig KScalar "u"; ONewSig KScalar "v"; ONewSig KScalar "x"; ONewBus [0] ""; ONewBus [1] ""; OConnect 1 3 4; ONewBus [1] ""; ONewBus [2] ""; OConnect 2 5 6 ]%string.
Definition di_world : world Q := world_of true di_ops.
Definition di_inputs (t : Q) : prog Q unit := PSet 0 (VS (5 + t)%Q) (PRet tt).
Definition di_cfg (m : mode) (stp : stepper Q) : cfg Q := Cfg true m (default (TSub 0 [] []) (compile_model di_world 0)) (Some di_inputs) (fun _ => PRet tt) (Some stp) (fun l => l) 0%Q.
Definition di_calls : list (Q * Q * Q) := [(0, 1#2, 1); (1, 1#2, 1); (2, 1#2, 1); (3, 1#2, 1)]%Q.
Definition di_lines (r : res (simst Q) (hist Q)) : option (list (list (option Q))) :=
  match r with Ok h _ => match export_csv [0; 1; 2] h with Ok l _ => Some (map (map (option_map Qred)) l) | _ => None end | _ => None end.
Lemma checked_intro_Q w b m (tr : tree Q) inp stp it tol ins1 : wreach true w -> compile_model w b = Some tr -> (forall l, it l ≡ₚ l) -> carries stp ->
  lint m w ins1 [] tr = true -> (forall l, l ∈ leaves tr -> user_ok (sig_kinds w) (fun a b => nltb a b = true) l) ->
  (forall l o, l ∈ leaves tr -> w_blks w !! l_id l = Some o -> user_begins (sig_kinds w) l (bo_st o)) ->
  (forall f t, inp = Some f -> goes (sig_kinds w) (fun _ => False) ins1 (fun _ => True) (f t)) -> (inp = None -> ins1 = []) -> m ≠ MReuse ->
  checked w b (Cfg true m tr inp (fun _ => PRet tt) (Some stp) it tol) ins1 [].
Proof. intros Hw Hm Hi Hs Hl Hu Hb Hin Hin0 Hr. split; cbn; try done. intros ? [= <-]. done. Qed.
Lemma di_reach : wreach true di_world.
Proof. reach_ops di_world di_ops. Qed.
Lemma di_checked m stp : m ≠ MReuse -> stp = euler \/ stp = rk4 -> checked di_world 0 (di_cfg m stp) [0] [].
Proof.
  intros Hm Hs. apply checked_intro_Q; [apply di_reach|vm_compute; reflexivity|intros l; reflexivity| |destruct m; vm_compute; reflexivity| | | |intros E; discriminate E|exact Hm].
  - destruct Hs as [->| ->]; [apply euler_carries|apply rk4_carries].
  - assert (exists ls, leaves (default (TSub 0 [] []) (compile_model di_world 0)) = ls /\ Forall (user_ok (sig_kinds di_world) (fun a b : Q => nltb a b = true)) ls) as (ls & E & Hls).
    { eexists. split; [vm_compute; reflexivity|]. repeat (apply Forall_cons_2; [exact I|]). apply Forall_nil_2. }
    intros l Hl. rewrite E in Hl. by eapply Forall_forall.
  - intros l o Hl _. eapply no_user_ok; [|exact Hl]. vm_compute. reflexivity.
  - intros f' t [= <-]. exists [], KScalar. split_and!; try done.
Qed.

(** The recorded derivative is 1 in every line, and yet x grows not by 1 but by the value of
    u itself: what Euler's method integrates is the evaluation at the time of the last line,
    where the block outputs its input. Runge and Kutta's method mixes the two. *)
Theorem C32_integral_refuted : exists (w : world Q) (g1 g2 : cfg Q) calls, checked w 0 g1 [0] [] /\ checked w 0 g2 [0] [] /\
  di_lines (record_program g1 1 3 [0; 1; 2] calls (new_sim (initial_dyn w))) =
    Some [[Some 0; Some 5; Some 1; Some 0]; [Some 1; Some 6; Some 1; Some (0 + 5)]; [Some 2; Some 7; Some 1; Some (5 + 6)]; [Some 3; Some 8; Some 1; Some (11 + 7)]]%Q /\
  di_lines (record_program g2 1 3 [0; 1; 2] calls (new_sim (initial_dyn w))) =
    Some [[Some 0; Some 5; Some 1; Some 0]; [Some 1; Some 6; Some 1; Some (5#3)]; [Some 2; Some 7; Some 1; Some (7#2)]; [Some 3; Some 8; Some 1; Some (11#2)]]%Q.
Proof.
  exists di_world, (di_cfg MDefault euler), (di_cfg MFast rk4), di_calls. split; [apply di_checked; [discriminate|by left]|]. split; [apply di_checked; [discriminate|by right]|].
  split; vm_compute; reflexivity.
Qed.
Print Assumptions C32_integral_refuted.

Local Open Scope R_scope.
(** With Euler's method, in any model: a state that is the integral of the output of a
    Derivative grows by the step times the value of the INPUT of the Derivative. *)
Theorem C32_euler : forall w b (g : cfg R) s fuel t lo hi s' (l : leaf R) si so z c,
  session_of w b g s -> g_dbg g = true -> derivs_fit (initial_store w) -> g_stepper g = Some euler ->
  (forall z, z ∈ layout s -> exists l' T, l' ∈ leaves (g_tree g) /\ l_cls l' = CInteg T /\ h_out (l_h l') = Some z) -> s_arr s = [] ->
  run g (S fuel) t lo hi s = Ok tt s' -> s_tprev s < t -> 0 < lo -> lo < hi ->
  l ∈ leaves (g_tree g) -> l_cls l = CDeriv -> h_in (l_h l) = Some si -> h_out (l_h l) = Some so -> (forall x, x ∈ required l -> given g (layout s) (s_tprev s) x) ->
  z ∈ layout s -> initial_store w !! z = Some c -> c_deriv c = Some so ->
  exists x u, value (s_store s) si = Some (VS u) /\ value (s_store s) z = Some (VS x) /\ value (s_store s') z = Some (VS (x + (t - s_tprev s) * u)).
Proof.
  intros w b g s fuel t lo hi s' l si so z c Hs Hg Hfit Es Hint Harr Hr Ht Hlo Hhi Hl Hc Hi Ho Hreq Hz Hcz Hd.
  pose proof (session_wf _ _ _ _ Hs) as Hw. destruct (session_of_packed _ _ _ _ Hs) as [Hp Hi1].
  destruct (session_last g w b s Hs) as (a & s2 & s3 & Epm & Esc). destruct (post_deriv g Hw Hg _ a s2 s3 l si Epm Hl Hc Hi) as (u & Vu & Mu).
  assert (s_store s = s_store s3) as Ess by (unfold s_store; by rewrite Esc). rewrite <- Ess in Vu. rewrite <- Esc in Mu.
  assert (forall z, z ∈ layout s -> exists x, value (s_store s) z = Some (VS x)) as Hval.
  { intros z' Hz'. destruct (Hint z' Hz') as (l' & T & Hl' & Hc' & Ho'). destruct (post_integ g Hw Hg _ a s2 s3 z' l' T Epm Hl' Hc' Ho') as [v Hv]. rewrite <- Ess in Hv.
    unfold layout in Hz'. rewrite Harr, app_nil_r in Hz'. destruct (pk_scal _ _ Hp z' Hz') as (c' & Hc1 & Hk).
    pose proof (pk_ok _ _ Hp Hg z' c' Hc1) as [_ Hok]. unfold value in Hv. rewrite Hc1 in Hv. destruct (c_asg c') eqn:Ea; [|done]. destruct (Hok v Hv) as [Hkf _]. rewrite Hk in Hkf.
    destruct v as [x| | |]; try done. exists x. unfold value. by rewrite Hc1, Ea. }
  assert (exists n, length (s_sv s) = S n) as Hn.
  { rewrite (pk_sv _ _ Hp). unfold layout in Hz. destruct (s_scal s ++ s_arr s) as [|z0 zs] eqn:Ez; [by apply elem_of_nil in Hz|].
    assert (z0 ∈ s_scal s) as Hz0. { rewrite Harr, app_nil_r in Ez. rewrite Ez. apply elem_of_list_here. }
    destruct (pk_scal _ _ Hp z0 Hz0) as (c0 & Hc0 & Hk0). unfold width. cbn. unfold sig_size at 1. rewrite Hc0, Hk0. by eexists. }
  rewrite (run_euler g s fuel t lo hi Es Hi1 Hn Ht Hlo Hhi) in Hr.
  destruct (euler_deriv w b g s (s_tprev s) t s' l so z c u Hs Hg Hfit) as (x & Vx & Vx'); try done; [|by exists x, u].
  intros z' Hz'. left. by apply Hint.
Qed.
Print Assumptions C32_euler.

(** The model above over the real numbers, with any signal [f] and any initial output [c]. *)
Section integral.
  Context (f : R -> R) (c : R).
  Definition dr_ops : list (wop R) :=
    [ ONewBlock CSubmodel LNone None "m" NoIOLimit NoIOLimit; ONewBlock CDeriv (LDeriv true None None c) (Some 0) "d" 1 1; ONewBlock (CInteg TyD) (LInteg (VS 0%R) false) (Some 0) "i" 1 1;
      ONewSig KScalar "u"; ONewSig KScalar "v"; ONewSig KScalar "x"; ONewBus [0] ""; ONewBus [1] ""; OConnect 1 3 4; ONewBus [1] ""; ONewBus [2] ""; OConnect 2 5 6 ]%nat%string.
  Definition dr_world : world R := world_of true dr_ops.
  Definition dr_tree : tree R := default (TSub 0 [] []) (compile_model dr_world 0).
  Definition dr_inputs (t : R) : prog R unit := PSet 0%nat (VS (f t)) (PRet tt).
  Definition dr_cfg (m : mode) : cfg R := Cfg true m dr_tree (Some dr_inputs) (fun _ => PRet tt) (Some euler) (fun l => l) 0.
  Lemma dr_reach : wreach true dr_world.
  Proof. reach_ops dr_world dr_ops. Qed.
  Lemma dr_model : compile_model dr_world 0 = Some dr_tree.
  Proof. vm_compute. reflexivity. Qed.
  Lemma dr_checked m : m ≠ MReuse -> checked dr_world 0 (dr_cfg m) [0]%nat [].
  Proof.
    intros Hm. apply checked_intro; [apply dr_reach|apply dr_model|intros l; reflexivity|apply euler_carries|destruct m; vm_compute; reflexivity| | | |intros E; discriminate E|intros E; by destruct Hm].
    - assert (exists ls, leaves dr_tree = ls /\ Forall (user_ok (sig_kinds dr_world) (fun a b : R => nltb a b = true)) ls) as (ls & E & Hls).
      { eexists. split; [vm_compute; reflexivity|]. repeat (apply Forall_cons_2; [exact I|]). apply Forall_nil_2. }
      intros l Hl. rewrite E in Hl. by eapply Forall_forall.
    - intros l o Hl _. eapply no_user_ok; [|exact Hl]. vm_compute. reflexivity.
    - intros f' t [= <-]. exists [], KScalar. split_and!; try done.
  Qed.
  Lemma dr_cells : exists c0 c1 c2, map_to_list (initial_store dr_world) = [(0, c0); (1, c1); (2, c2)]%nat /\ c_deriv c0 = None /\ c_deriv c1 = None /\ c_deriv c2 = Some 1%nat /\ c_kind c2 = KScalar.
  Proof. eexists _, _, _. split; [vm_compute; reflexivity|]. split_and!; reflexivity. Qed.
  Lemma dr_blocks : exists l1 l2, leaves dr_tree = [l1; l2] /\ l_cls l1 = CDeriv /\ h_in (l_h l1) = Some 0%nat /\ h_out (l_h l1) = Some 1%nat /\ required l1 = [0]%nat /\ l_cls l2 = CInteg TyD /\ h_out (l_h l2) = Some 2%nat.
  Proof. eexists _, _. split; [vm_compute; reflexivity|]. split_and!; reflexivity. Qed.
End integral.

(** The states of a model with these signals. *)
Lemma dr_states w b (g : cfg R) s c0 c1 c2 : session_of w b g s -> map_to_list (initial_store w) = [(0, c0); (1, c1); (2, c2)]%nat -> c_deriv c0 = None -> c_deriv c1 = None -> c_deriv c2 = Some 1%nat -> c_kind c2 = KScalar ->
  (forall z, z ∈ layout s -> z = 2%nat) /\ s_arr s = [].
Proof.
  intros Hs Hm H0 H1 H2 Hk. destruct (session_of_packed _ _ _ _ Hs) as [Hp _]. pose proof (session_shape _ _ _ _ Hs) as Hsh.
  assert (forall z, z ∈ layout s -> z = 2%nat) as Hz.
  { intros z Hz. apply (pk_all _ _ Hp) in Hz as (_ & cz & ds & Hc & _ & Hd). destruct (shape_inv _ _ _ z cz Hsh Hc) as (c' & Hc' & Esc).
    assert (c_deriv c' = Some ds) as Hd'. { destruct Esc as (_ & Ed & _) || destruct Esc as [_ Ed]; congruence. }
    apply elem_of_map_to_list in Hc'. rewrite Hm in Hc'. repeat (apply elem_of_cons in Hc' as [[= -> ->]|Hc']; [congruence || done|]). by apply elem_of_nil in Hc'. }
  split; [done|]. destruct (s_arr s) as [|z zs] eqn:Ea; [done|]. exfalso.
  assert (z = 2%nat) as ->. { apply Hz. unfold layout. rewrite Ea. apply elem_of_app. right. apply elem_of_list_here. }
  destruct (pk_arr _ _ Hp 2%nat) as (cz & n & Hc & Hkz); [rewrite Ea; apply elem_of_list_here|]. destruct (shape_inv _ _ _ _ cz Hsh Hc) as (c' & Hc' & Esc).
  apply elem_of_map_to_list in Hc'. rewrite Hm in Hc'. apply elem_of_cons in Hc' as [[=]|Hc']. apply elem_of_cons in Hc' as [[=]|Hc']. apply elem_of_cons in Hc' as [[= ->]|Hc']; [|by apply elem_of_nil in Hc'].
  destruct Esc as [Ek _]. congruence.
Qed.
(** Two consecutive rows are the states before and after a call of run. *)
Lemma ends_pair w b (g : cfg R) fuel cs : forall t0 lo0 hi0 s0 ss, session_of w b g s0 -> s_tprev s0 = t0 -> spaced t0 cs -> ends g fuel cs s0 ss ->
  forall k t1 s1 t2 s2, row ((t0, lo0, hi0) :: cs) (s0 :: ss) k t1 s1 -> row ((t0, lo0, hi0) :: cs) (s0 :: ss) (S k) t2 s2 ->
  session_of w b g s1 /\ s_tprev s1 = t1 /\ exists lo hi, run g fuel t2 lo hi s1 = Ok tt s2 /\ t1 < t2 /\ 0 < lo /\ lo < hi.
Proof.
  induction cs as [|[[t lo] hi] cs IH]; intros t0 lo0 hi0 s0 [|s ss] Hs Ht Hsp He; try done; intros k t1 s1 t2 s2 [(l1 & h1 & C1) R1] [(l2 & h2 & C2) R2]; [done|].
  destruct He as [Er He]. destruct Hsp as (H1 & H2 & H3 & H4). destruct k as [|k].
  - cbn in C1, R1, C2, R2. injection C1 as -> -> ->. injection R1 as ->. injection C2 as -> -> ->. injection R2 as ->. split; [done|]. split; [done|]. by exists l2, h2.
  - assert (session_of w b g s) as Hs'.
    { destruct Hs as (A1 & A2 & A3 & A4 & g0 & sz & A5 & A6). split_and!; try done. exists g0, sz. split; [done|]. by eapply se_run. }
    destruct (session_of_packed _ _ _ _ Hs) as [_ Hi0]. destruct (run_post g fuel t lo hi s0 s Hi0 Er) as (a & s4 & s3 & _ & E).
    apply (IH t lo hi s ss Hs' ltac:(by rewrite E) H4 He k t1 s1 t2 s2); (split; [|done]); by eexists _, _.
Qed.

(** Hence the table of that program, in every mode: from line to line x grows by the step
    times u, although v is the derivative of u. *)
Theorem C32_integral : forall (f : R -> R) (c : R) m fuel grow t0 lo0 hi0 cs, m ≠ MReuse -> spaced t0 cs -> (0 < grow)%N -> (N.of_nat (S (length cs)) + grow <= two32)%N ->
  let calls := (t0, lo0, hi0) :: cs in let g := dr_cfg f c m in
  exists h s ss, record_program g (S fuel) grow [0; 2]%nat calls (new_sim (initial_dyn (dr_world c))) = Ok h s /\ ends g (S fuel) calls (new_sim (initial_dyn (dr_world c))) ss /\ table [0; 2]%nat calls ss h /\
    forall k t1 s1 t2 s2, row calls ss k t1 s1 -> row calls ss (S k) t2 s2 ->
      exists x, value (s_store s1) 0%nat = Some (VS (f t1)) /\ value (s_store s1) 2%nat = Some (VS x) /\ value (s_store s2) 2%nat = Some (VS (x + (t2 - t1) * f t1)).
Proof.
  intros f c m fuel grow t0 lo0 hi0 cs Hm Hsp Hgr Hlen calls g. pose proof (dr_checked f c m Hm) as Hc. fold g in Hc.
  assert (forall x, x ∈ [0; 2]%nat -> value_sig (initial_store (dr_world c)) x) as Hv by (apply value_sigs; vm_compute; reflexivity).
  assert (g_stepper g = Some euler) as Es by reflexivity. assert (g_dbg g = true) as Hg by reflexivity. assert (g_tree g = dr_tree c) as Et by reflexivity.
  assert (forall t s, given g s t 0%nat) as Hgiv.
  { intros t z. right. exists (dr_inputs f), [(0%nat, VS (f t))]. split; [by left|]. split; [reflexivity|]. apply elem_of_list_here. }
  assert (g_inputs g = Some (dr_inputs f)) as Hin by reflexivity.
  assert (2%nat ∈ linked_signals (g_tree g)) as Hlink. { rewrite Et. apply (bool_decide_unpack (2%nat ∈ linked_signals (dr_tree c))). vm_compute. exact I. }
  assert (forall l, g_iter g l ≡ₚ l) as Hit by (intros l; reflexivity).
  assert (derivs_fit (initial_store (dr_world c))) as Hfit by (apply fitb_ok; vm_compute; reflexivity).
  pose proof (dr_cells c) as (c0 & c1 & c2 & Hcells & D0 & D1 & D2 & K2). pose proof (dr_blocks c) as (l1 & l2 & Hls & Lc & Li & Lo & Lr & L2c & L2o).
  pose proof (dr_reach c) as Hrch. pose proof (dr_model c) as Hmod. rewrite <- Et in Hls, Hmod. clearbody g. revert Hc Hv Hfit Hcells Hrch Hmod. generalize (dr_world c). intros w Hc Hv Hfit Hcells Hrch Hmod.
  assert (permitted g t0 cs) as Hp by (apply spaced_any; [by rewrite Es|done]).
  destruct (C75_fixed R w 0%nat g [0]%nat [] fuel t0 cs Hc Hp) as (s & E & _). { intros stp E. rewrite Es in E. injection E as <-. apply euler_constant. }
  pose proof (C81_table R w 0%nat g [0]%nat [] (S fuel) grow [0; 2]%nat t0 lo0 hi0 cs Hc Hp Hgr ltac:(done) Hv Hlen) as Ht. cbv zeta in Ht. rewrite E in Ht.
  destruct Ht as (h & ss & Er & He & _ & Ht & _). exists h, s, ss. split; [exact Er|]. split; [exact He|]. split; [exact Ht|].
  assert (tabulated w 0%nat g [0]%nat [] (S fuel) calls ss) as Htab.
  { split; [exact Hc|]. split; [|split; [by exists t0, lo0, hi0, cs|exact He]]. intros stp E'. rewrite Es in E'. injection E' as <-. apply euler_rel. }
  intros k t1 s1 t2 s2 R1 R2.
  assert (value (s_store s1) 0%nat = Some (VS (f t1))) as V0.
  { destruct (C82_inputs R w 0%nat g _ _ _ _ _ _ _ _ Htab R1) as [Hsu _]. specialize (Hsu _ Hin). unfold dr_inputs in Hsu. by apply shows_set in Hsu as [Hsu _]. }
  destruct ss as [|s0 ss]; [by destruct R1|]. destruct He as [E0 He]. rewrite run_first in E0.
  assert (session_of w 0%nat g s0) as Hs0. { apply (session_init w 0%nat g euler t0 s0 Hrch Hmod Hit Es); [apply euler_ok|apply euler_rel|exact E0]. }
  destruct (init_flags g t0 _ _ E0) as [_ T0].
  destruct (ends_pair w 0%nat g (S fuel) cs t0 lo0 hi0 s0 ss Hs0 T0 Hsp He k t1 s1 t2 s2 R1 R2) as (Hs1 & T1 & lo & hi & Hr & H1 & H2 & H3).
  destruct (dr_states w 0%nat g s1 c0 c1 c2 Hs1 Hcells D0 D1 D2 K2) as [Hlay Harr].
  assert (initial_store w !! 2%nat = Some c2) as Hc2.
  { apply elem_of_map_to_list. rewrite Hcells. apply elem_of_list_further, elem_of_list_further, elem_of_list_here. }
  assert (2%nat ∈ layout s1) as Hz. 
  { destruct (session_of_packed _ _ _ _ Hs1) as [Hpk _]. apply (pk_all _ _ Hpk). split; [exact Hlink|].
    pose proof (session_shape _ _ _ _ Hs1) as Hsh. destruct (sh_cell _ _ _ Hsh 2%nat c2 Hc2) as (c' & Hc' & Esc). exists c', 1%nat. split; [exact Hc'|].
    assert (c_kind c' = KScalar /\ c_deriv c' = Some 1%nat) as [Ek Ed]. { destruct Esc as [Ek Ed]. split; congruence. } split; [by left|exact Ed]. }
  destruct (C32_euler w 0%nat g s1 fuel t2 lo hi s2 l1 0%nat 1%nat 2%nat c2 Hs1 Hg Hfit Es) as (x & u & U & X & X'); try done.
  - intros z Hz'. apply Hlay in Hz' as ->. exists l2, TyD. split; [|done]. rewrite Hls. apply elem_of_list_further, elem_of_list_here.
  - by rewrite T1.
  - rewrite Hls. apply elem_of_list_here.
  - intros x Hx. rewrite Lr in Hx. apply elem_of_list_singleton in Hx as ->. apply Hgiv.
  - rewrite V0 in U. injection U as <-. exists x. rewrite T1 in X'. split_and!; [done|done|exact X'].
Qed.
Print Assumptions C32_integral.
