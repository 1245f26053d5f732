(** Property C73: sample programs of the repository. *)
From stdpp Require Import prelude gmap strings.
From Coq Require Import ZArith QArith Reals Lra Qreals Psatz.
From Verif Require Import Num NumQ NumR NumOrd NumAdd Res Name Store Leaf Sched Stepper Sim World Api SpecSched P_Store P_Prog P_Lib P_World P_Compile P_Simulated P_Evolve P_Rel P_Rel2 SpecHist P_Trace SpecBlock Ex_Models
  SpecRun P_Log P_Run Props_Run P_Pack P_Grow P_Again P_Repeat Props_Pack SpecRK P_RK SpecAgain P_Over P_Redo Props_Again SpecField P_Field P_FieldRun P_Posed P_Path Props_Field SpecConv P_Conv Props_Conv SpecLin P_Lin Props_Lin
  SpecOrd P_Ord P_Ord2 P_Ord3 Props_Ord SpecSmooth P_Tame P_Tame2 P_Tame3 P_Smooth Props_Smooth SpecDiag P_Diag P_Diag2 Props_Diag.
Local Open Scope nat_scope.
Local Open Scope R_scope.

Lemma stp_ok m : stepper_ok (stp_of m).
Proof. destruct m; [apply euler_ok|apply rk4_ok|apply rkf45_ok]. Qed.
Lemma stp_rel m : stepper_rel (stp_of m).
Proof. destruct m; [apply euler_rel|apply rk4_rel|apply rkf45_rel]. Qed.
(** Steps of a finite list of cells. *)
Lemma in_all {A} (P : A -> Prop) l : Forall P l -> forall a, a ∈ l -> P a.
Proof. intros H. by apply Forall_forall. Qed.

Lemma smooth_sin : smooth_on (fun _ => True) sin.
Proof.
  exists cos, (fun a => - sin a), (fun a => - cos a), sin. intros a _. pose proof (derivable_pt_lim_sin a) as Hs. pose proof (derivable_pt_lim_cos a) as Hc. split_and!.
  - done.
  - done.
  - by apply (derivable_pt_lim_opp sin).
  - replace (sin a) with (- - sin a) by lra. by apply (derivable_pt_lim_opp cos).
  - apply continuity_sin.
Qed.

Lemma mean_mul' l st d a so : l_cls l = CMul TyD (VS a) -> h_out (l_h l) = Some so ->
  d = [(so, fold_left (fun e s => EMult e (ESig s)) (map snd (l_ibus l)) (ENum a))] -> means l st d.
Proof. intros Hc Ho ->. by apply mean_mul. Qed.
Lemma mean_add' l st d a so : l_cls l = CAdd TyD (VS a) -> h_out (l_h l) = Some so ->
  d = [(so, fold_left (fun e s => EPlus e (ESig s)) (map snd (l_ibus l)) (ENum a))] -> means l st d.
Proof. intros Hc Ho ->. by apply mean_add. Qed.

(** ** The sample programs *)
(** samples/test05_pendulum.cpp:30-60 (with any angle [θ0] and speed [ω0] at the start) and
    71-87 (any acceleration [ga], any length [le], any stepper). *)
Section pendulum.
  Context (θ0 ω0 ga le : R).
  Definition sin_of (_ : R) (v : val R) : prog R (val R) := match v with VS a => PRet (VS (sin a)) | _ => PRet v end.
  Definition pd_ops : list (wop R) :=
    [ ONewBlock CSubmodel LNone None "" NoIOLimit NoIOLimit;
      ONewBlock (CInteg TyD) (LInteg (VS ω0) false) (Some 0) "dphi" 1 1;
      ONewBlock (CInteg TyD) (LInteg (VS θ0) false) (Some 0) "phi" 1 1;
      ONewBlock (CSISO TyD sin_of) LNone (Some 0) "sin(phi)" 1 1;
      ONewBlock (CMul TyD (VS (-(1))%R)) LNone (Some 0) "-g" NoIOLimit 1;
      ONewBlock CDiv LNone (Some 0) "_l" 2 1;
      ONewSig KScalar "phi"; ONewSig KScalar "dphi"; ONewSig KScalar "d2phi"; ONewSig KScalar "g"; ONewSig KScalar "l";
      ONewSig KScalar ""; ONewSig KScalar "";
      ONewBus [2] ""; ONewBus [1] ""; OConnect 1 7 8;
      ONewBus [1] ""; ONewBus [0] ""; OConnect 2 9 10;
      ONewBus [0] ""; ONewBus [5] ""; OConnect 3 11 12;
      ONewBus [5; 3] ""; ONewBus [6] ""; OConnect 4 13 14;
      ONewBus [6; 4] ""; ONewBus [2] ""; OConnect 5 15 16 ]%nat.
  Definition pd_world : world R := world_of true pd_ops.
  Definition pd_tree : tree R := default (TSub 0 [] []) (compile_model pd_world 0).
  Definition pd_inputs (_ : R) : prog R unit := PSet 4%nat (VS le) (PSet 3%nat (VS ga) (PRet tt)).
  Context (meth : solver).
  Definition pd_cfg : cfg R := Cfg true MDefault pd_tree (Some pd_inputs) (fun _ => PRet tt) (Some (stp_of meth)) (fun x => reverse x) 0.
  Lemma pd_reach : wreach true pd_world.
  Proof. reach_ops pd_world pd_ops. Qed.
  Lemma pd_model : compile_model pd_world 0 = Some pd_tree.
  Proof. vm_compute. reflexivity. Qed.
  Definition pd_new : simst R := new_sim (initial_dyn pd_world).
  Definition pd_0 : simst R := st_of pd_new (init pd_cfg 0 pd_new).
  Lemma pd_session : session_of pd_world 0 pd_cfg pd_0.
  Proof.
    assert (is_ok (init pd_cfg 0 pd_new) = true) as E by (vm_compute; reflexivity). apply ok_init in E.
    eapply (session_init _ _ _ (stp_of meth)); [exact pd_reach|exact pd_model|intros l; apply reverse_Permutation|reflexivity|apply stp_ok|apply stp_rel|exact E].
  Qed.
  Lemma pd_layout : layout pd_0 = [0; 1]%nat.
  Proof. vm_compute. reflexivity. Qed.
  Definition pd_leaves : list (leaf R) := leaves pd_tree.
  Lemma pd_cfg_leaves : leaves (g_tree pd_cfg) = pd_leaves.
  Proof. unfold pd_cfg, pd_leaves. cbn [g_tree]. reflexivity. Qed.
  Lemma pd_facts : (forall l, l ∈ leaves (g_tree pd_cfg) -> steady_class l) /\ derivs_fit (initial_store pd_world) /\ (forall z, z ∈ layout pd_0 -> integral pd_cfg z) /\
    s_sv pd_0 ≠ [] /\ s_tprev pd_0 = 0 /\ pack (s_store pd_0) (layout pd_0) = [θ0; ω0].
  Proof.
    rewrite pd_cfg_leaves. split; [apply steadyb_ok; vm_compute; reflexivity|]. split; [apply fitb_ok; vm_compute; reflexivity|].
    split; [rewrite pd_layout; eapply integb_ok; [exact pd_cfg_leaves|vm_compute; reflexivity]|].
    split. { intros E. apply (f_equal (@length R)) in E. revert E. vm_compute. intros E; discriminate E. }
    split; [vm_compute; reflexivity|]. rewrite pd_layout. vm_compute. reflexivity.
  Qed.
  (** The formulas of the pendulum: l, g, sin φ, -1 * sin φ * g, and that divided by l. *)
  Definition pd_env : formulas :=
    [(4, ENum le); (3, ENum ga); (5, EFun sin (ESig 0)); (6, EMult (EMult (ENum (-(1))%R) (ESig 5)) (ESig 3)); (2, EDiv (ESig 6) (ESig 4))]%nat.
  Lemma pd_blocks : exists l1 l2 l3 l4 l5, pd_leaves = [l1; l2; l3; l4; l5] /\
    (means l1 LNone [] /\ means l2 LNone [] /\ means l3 LNone [(5, EFun sin (ESig 0))] /\
     means l4 LNone [(6, EMult (EMult (ENum (-(1))%R) (ESig 5)) (ESig 3))] /\ means l5 LNone [(2, EDiv (ESig 6) (ESig 4))])%nat /\
    (required l1 = [1] /\ required l2 = [0] /\ required l3 = [0] /\ required l4 = [5; 3] /\ required l5 = [6; 4])%nat /\
    forall l, l ∈ [l1; l2; l3; l4; l5] -> is_builder (l_cls l) = false.
  Proof.
    do 5 eexists. split; [vm_compute; reflexivity|]. split; [|split; [split_and!; vm_compute; reflexivity|]].
    - split_and!; [by eapply mean_integ|by eapply mean_integ|by eapply mean_siso|eapply mean_mul'; [reflexivity|reflexivity|reflexivity]|by eapply mean_div].
    - intros l Hl. repeat (apply elem_of_cons in Hl as [-> |Hl]; [done|]). by apply elem_of_nil in Hl.
  Qed.
  Lemma pd_store : exists c0 c1, (initial_store pd_world !! 0 = Some c0 /\ initial_store pd_world !! 1 = Some c1 /\ c_deriv c0 = Some 1 /\ c_deriv c1 = Some 2)%nat /\
    Forall (fun s => exists c, initial_store pd_world !! s = Some c /\ c_kind c = KScalar) [0; 1; 4; 3; 5; 6; 2]%nat.
  Proof.
    do 2 eexists. split; [split_and!; [vm_compute; reflexivity|vm_compute; reflexivity|reflexivity|reflexivity]|].
    repeat apply Forall_cons_2; [..|apply Forall_nil_2]; (eexists; split; [vm_compute; reflexivity|reflexivity]).
  Qed.
  Lemma pd_diagram : diagram (initial_store pd_world) pd_cfg (fun _ => LNone) pd_env [0; 1]%nat [1; 2]%nat.
  Proof.
    destruct pd_blocks as (l1 & l2 & l3 & l4 & l5 & El & (M1 & M2 & M3 & M4 & M5) & (Q1 & Q2 & Q3 & Q4 & Q5) & Hb).
    destruct pd_store as (c0 & c1 & (H0 & H1 & D0 & D1) & Hsc).
    assert (leaves (g_tree pd_cfg) = [l1; l2; l3; l4; l5]) as El' by (rewrite pd_cfg_leaves; exact El).
    assert (g_inputs pd_cfg = Some pd_inputs) as Ei by reflexivity. assert (forall t, g_icb pd_cfg t = PRet tt) as Ec by reflexivity.
    revert H0 H1 Hsc El' Ei Ec. generalize (initial_store pd_world) pd_cfg. clear El. intros σ0 g H0 H1 Hsc El Ei Ec.
    change pd_env with ([(4, ENum le); (3, ENum ga)]%nat ++ concat (map snd [(l1, []); (l2, []); (l3, [(5, EFun sin (ESig 0))]);
      (l4, [(6, EMult (EMult (ENum (-(1))%R) (ESig 5)) (ESig 3))]); (l5, [(2, EDiv (ESig 6) (ESig 4))])]%nat)).
    apply diagram_intro.
    - by apply in_all.
    - apply (bool_decide_unpack _). vm_compute. exact I.
    - intros l. rewrite El. done.
    - exact Hb.
    - right. exists pd_inputs. split; [done|]. intros t. split.
      + intros ρ a ws _ Hc. cbn in Hc. by injection Hc as <- <-.
      + intros ρ _. cbn. eauto.
    - intros s Hs. by apply elem_of_nil in Hs.
    - done.
    - cbn [chain]. rewrite Q1, Q2, Q3, Q4, Q5. split_and!; try done; cbn; intros s Hs; set_solver.
    - repeat apply Forall2_cons_2; [..|apply Forall2_nil_2].
      + exists c0. split_and!; [done|done|]. cbn. set_solver.
      + exists c1. split_and!; [done|done|]. cbn. set_solver.
  Qed.
  (** The angle [θ] and the speed [ω] of a pendulum. *)
  Definition pendulum (θ ω : R -> R) (T : R) : Prop :=
    θ 0 = θ0 /\ ω 0 = ω0 /\ forall t, 0 <= t <= T -> derivable_pt_lim θ t (ω t) /\ derivable_pt_lim ω t (- (ga / le) * sin (θ t)).
End pendulum.

(** For every pendulum and every method there is a bound such that the angle and the
    speed of the simulation, however it is advanced, are as close to the solution as the
    order of the method says. *)
Theorem C73_pendulum : forall meth θ0 ω0 ga le θ ω T, le <> 0 -> 0 <= T -> pendulum θ0 ω0 ga le θ ω T ->
  exists K H0, 0 <= K /\ 0 < H0 /\ forall s' H, 0 <= H <= H0 -> advance (pd_cfg θ0 ω0 ga le meth) H (pd_0 θ0 ω0 ga le meth) s' -> s_tprev s' <= T ->
    exists a b, value (s_store s') 0%nat = Some (VS a) /\ value (s_store s') 1%nat = Some (VS b) /\
      Rabs (a - θ (s_tprev s')) <= K * H ^ order_of meth /\ Rabs (b - ω (s_tprev s')) <= K * H ^ order_of meth.
Proof.
  intros meth θ0 ω0 ga le θ ω T Hle HT (I1 & I2 & Hsol).
  pose proof (pd_session θ0 ω0 ga le meth) as Hses. destruct (pd_facts θ0 ω0 ga le meth) as (F1 & F2 & F3 & F4 & F5 & F6).
  pose proof (pd_layout θ0 ω0 ga le meth) as El. pose proof (pd_diagram θ0 ω0 ga le meth) as Hd.
  assert (g_dbg (pd_cfg θ0 ω0 ga le meth) = true) as Eg by reflexivity. assert (g_stepper (pd_cfg θ0 ω0 ga le meth) = Some (stp_of meth)) as Es by reflexivity.
  revert Hses F1 F2 F3 F4 F5 F6 El Hd Eg Es. generalize (pd_world θ0 ω0) (pd_cfg θ0 ω0 ga le meth) (pd_0 θ0 ω0 ga le meth).
  intros w g s Hses F1 F2 F3 F4 F5 F6 El Hd Eg Es. rewrite <- El in Hd.
  destruct (C73_order meth w 0 g s (fun _ => LNone) (pd_env ga le) [1; 2]%nat (fun t => [θ t; ω t]) 0 T) as (K & H0 & HK & HH & Hall); try done.
  - intros t Ht. rewrite El. split; [done|]. intros i Hi. cbn in Hi. destruct (Hsol t Ht) as [S1 S2]. destruct i as [|[|i]]; [| |lia]; cbn.
    + done.
    + replace (-(1) * sin (θ t) * ga / le) with (- (ga / le) * sin (θ t)) by (field; done). done.
  - rewrite El. intros s0 e He. repeat (apply elem_of_cons in He as [[= -> ->]|He]); [..|by apply elem_of_nil in He]; cbn; try done.
    + split; [done|]. exists (fun _ => True). split_and!; [by exists (mkposreal 1 Rlt_0_1)|exact smooth_sin|done].
  - rewrite F6, I1, I2. done.
  - exists K, H0. split; [done|]. split; [done|]. intros s' H Hh Ha Hle'. specialize (Hall s' H Hh Ha Hle').
    destruct (Hall 0%nat 0%nat) as (a & A1 & A2); [by rewrite El|]. destruct (Hall 1%nat 1%nat) as (b & B1 & B2); [by rewrite El|]. exists a, b. done.
Qed.
Print Assumptions C73_pendulum.
