(** Property C73: sample programs of the repository. *)
From stdpp Require Import prelude gmap strings.
From Coq Require Import ZArith QArith Reals Lra Qreals Psatz.
From Verif Require Import Num NumQ NumR NumOrd NumAdd Res Name Store Leaf Sched Stepper Sim World Api SpecSched P_Store P_Prog P_Lib P_World P_Compile P_Simulated P_Evolve P_Rel P_Rel2 SpecHist P_Trace SpecBlock Ex_Models
  SpecRun P_Log P_Run Props_Run P_Pack P_Grow P_Again P_Repeat Props_Pack SpecRK P_RK SpecAgain P_Over P_Redo Props_Again SpecField P_Field P_FieldRun P_Posed P_Path Props_Field SpecConv P_Conv Props_Conv SpecLin P_Lin Props_Lin
  SpecOrd P_Ord P_Ord2 P_Ord3 Props_Ord SpecSmooth P_Tame P_Tame2 P_Tame3 P_Smooth Props_Smooth SpecDiag P_Diag P_Diag2 Props_Diag Samples.
Local Open Scope nat_scope.
Local Open Scope R_scope.


(** samples/test04_mass_spring.cpp:32-50 (with any position [x0] and speed [v0] at the start and any factor [k]). *)
Section spring.
  Context (x0 v0 k : R).

  Definition sp_ops : list (wop R) :=
    [ ONewBlock CSubmodel LNone None "MyModel" NoIOLimit NoIOLimit;
      ONewBlock (CInteg TyD) (LInteg (VS v0) false) (Some 0) "xd" 1 1;
      ONewBlock (CInteg TyD) (LInteg (VS x0) false) (Some 0) "x" 1 1;
      ONewBlock (CGain TyD (VS k)) LNone (Some 0) "-k\m" 1 1;
      ONewSig KScalar "x"; ONewSig KScalar "xd"; ONewSig KScalar "xdd";
      ONewBus [2] ""; ONewBus [1] ""; OConnect 1 3 4;
      ONewBus [1] ""; ONewBus [0] ""; OConnect 2 5 6;
      ONewBus [0] ""; ONewBus [2] ""; OConnect 3 7 8 ]%nat.
  Definition sp_world : world R := world_of true sp_ops.
  Definition sp_tree : tree R := default (TSub 0 [] []) (compile_model sp_world 0).
  Definition sp_inputs : option (R -> prog R unit) := None.
  Context (meth : solver).
  Definition sp_cfg : cfg R := Cfg true MDefault sp_tree sp_inputs (fun _ => PRet tt) (Some (stp_of meth)) (fun x => reverse x) 0.
  Lemma sp_reach : wreach true sp_world.
  Proof. reach_ops sp_world sp_ops. Qed.
  Lemma sp_model : compile_model sp_world 0 = Some sp_tree.
  Proof. vm_compute. reflexivity. Qed.
  Definition sp_new : simst R := new_sim (initial_dyn sp_world).
  Definition sp_0 : simst R := st_of sp_new (init sp_cfg 0 sp_new).
  Lemma sp_session : session_of sp_world 0 sp_cfg sp_0.
  Proof.
    assert (is_ok (init sp_cfg 0 sp_new) = true) as E by (vm_compute; reflexivity). apply ok_init in E.
    eapply (session_init _ _ _ (stp_of meth)); [exact sp_reach|exact sp_model|intros l; apply reverse_Permutation|reflexivity|apply stp_ok|apply stp_rel|exact E].
  Qed.
  Lemma sp_layout : layout sp_0 = [0; 1]%nat.
  Proof. vm_compute. reflexivity. Qed.
  Definition sp_leaves : list (leaf R) := leaves sp_tree.
  Lemma sp_cfg_leaves : leaves (g_tree sp_cfg) = sp_leaves.
  Proof. unfold sp_cfg, sp_leaves. cbn [g_tree]. reflexivity. Qed.
  Lemma sp_facts : (forall l, l ∈ leaves (g_tree sp_cfg) -> steady_class l) /\ derivs_fit (initial_store sp_world) /\ (forall z, z ∈ layout sp_0 -> integral sp_cfg z) /\
    s_sv sp_0 ≠ [] /\ s_tprev sp_0 = 0 /\ pack (s_store sp_0) (layout sp_0) = [x0; v0].
  Proof.
    rewrite sp_cfg_leaves. split; [apply steadyb_ok; vm_compute; reflexivity|]. split; [apply fitb_ok; vm_compute; reflexivity|].
    split; [rewrite sp_layout; eapply integb_ok; [exact sp_cfg_leaves|vm_compute; reflexivity]|].
    split. { intros E. apply (f_equal (@length R)) in E. revert E. vm_compute. intros E; discriminate E. }
    split; [vm_compute; reflexivity|]. rewrite sp_layout. vm_compute. reflexivity.
  Qed.
  (** The formulas of the input callback and of the blocks, in an order of evaluation. *)
  Definition sp_din : formulas := []%nat.
  Definition sp_f1 : formulas := []%nat.
  Definition sp_f2 : formulas := []%nat.
  Definition sp_f3 : formulas := [(2, EMult (ENum k) (ESig 0))]%nat.
  Definition sp_env : formulas := sp_din ++ sp_f1 ++ sp_f2 ++ sp_f3.
  Lemma sp_blocks : exists l1 l2 l3, sp_leaves = [l1; l2; l3] /\
    (means l1 LNone sp_f1 /\ means l2 LNone sp_f2 /\ means l3 LNone sp_f3)%nat /\
    (required l1 = [1] /\ required l2 = [0] /\ required l3 = [0])%nat /\
    forall l, l ∈ [l1; l2; l3] -> is_builder (l_cls l) = false.
  Proof.
    do 3 eexists. split; [vm_compute; reflexivity|]. split; [|split; [split_and!; vm_compute; reflexivity|]].
    - split_and!; [by eapply mean_integ|by eapply mean_integ|by eapply mean_gain].
    - intros l Hl. repeat (apply elem_of_cons in Hl as [-> |Hl]; [done|]). by apply elem_of_nil in Hl.
  Qed.
  Lemma sp_store : exists c0 c1, (initial_store sp_world !! 0 = Some c0 /\ initial_store sp_world !! 1 = Some c1 /\ c_deriv c0 = Some 1 /\ c_deriv c1 = Some 2)%nat /\
    Forall (fun s => exists c, initial_store sp_world !! s = Some c /\ c_kind c = KScalar) ([0; 1]%nat ++ map fst sp_env).
  Proof.
    do 2 eexists. split; [split_and!; vm_compute; reflexivity|].
    repeat apply Forall_cons_2; [..|apply Forall_nil_2]; (eexists; split; [vm_compute; reflexivity|reflexivity]).
  Qed.
  Lemma sp_diagram : diagram (initial_store sp_world) sp_cfg (fun _ => LNone) sp_env [0; 1]%nat [1; 2]%nat.
  Proof.
    destruct sp_blocks as (l1 & l2 & l3 & El & (M1 & M2 & M3) & (Q1 & Q2 & Q3) & Hb).
    destruct sp_store as (c0 & c1 & (H0 & H1 & D0 & D1) & Hsc).
    assert (leaves (g_tree sp_cfg) = [l1; l2; l3]) as El' by (rewrite sp_cfg_leaves; exact El).
    assert (g_inputs sp_cfg = sp_inputs) as Ei by reflexivity. assert (forall t, g_icb sp_cfg t = PRet tt) as Ec by reflexivity.
    revert H0 H1 Hsc El' Ei Ec. generalize (initial_store sp_world) sp_cfg. clear El. intros σ0 g H0 H1 Hsc El Ei Ec.
    change sp_env with (sp_din ++ concat (map snd [(l1, sp_f1); (l2, sp_f2); (l3, sp_f3)])).
    apply diagram_intro.
    - by apply in_all.
    - apply (bool_decide_unpack _). vm_compute. exact I.
    - intros l. rewrite El. done.
    - intros l Hl. apply Hb. exact Hl.
    - left. done.
    - intros s Hs. by apply elem_of_nil in Hs.
    - done.
    - cbn [chain]. rewrite Q1, Q2, Q3. split_and!; try done; cbn; intros s Hs; set_solver.
    - repeat apply Forall2_cons_2; [..|apply Forall2_nil_2].
      + exists c0. split_and!; [done|done|]. cbn. set_solver.
      + exists c1. split_and!; [done|done|]. cbn. set_solver.
  Qed.
End spring.

(** samples/test06_pendulum_with_torque.cpp:34-78 (with any angle [θ0] and speed [ω0] at the start) and 91-104 (any mass [ma], length
    [le], acceleration [ga] and torque [ta], any stepper). *)
Section torque.
  Context (θ0 ω0 ma le ga ta : R).
  Definition sin_fun (_ : R) (ib ob : bus) : prog R unit :=
    match ib, ob with
    | (_, si) :: _, (_, so) :: _ => PGet si (fun v => match v with VS a => PSet so (VS (sin a)) (PRet tt) | _ => PUB UType end)
    | _, _ => PUB UIndex
    end.
  Lemma sin_fun_ok t n1 n2 s1 s2 : sets (sin_fun t [(n1, s1)] [(n2, s2)]) t [(s2, EFun sin (ESig s1))] /\ ends (sin_fun t [(n1, s1)] [(n2, s2)]) [(s2, EFun sin (ESig s1))].
  Proof.
    assert (forall ρ, scalars ρ [(s2, EFun sin (ESig s1))] -> ceval ρ (sin_fun t [(n1, s1)] [(n2, s2)]) = Some (tt, [(s2, VS (sin (real ρ s1)))])) as Hs.
    { intros ρ Hsc. cbn. by rewrite (scalar_here _ _ _ s1 Hsc) by apply elem_of_list_here. }
    split.
    - intros ρ a ws Hsc Hc. rewrite (Hs ρ Hsc) in Hc. by injection Hc as <- <-.
    - intros ρ Hsc. rewrite (Hs ρ Hsc). eauto.
  Qed.
  Definition tq_ops : list (wop R) :=
    [ ONewBlock CSubmodel LNone None "" NoIOLimit NoIOLimit;
      ONewBlock (CInteg TyD) (LInteg (VS ω0) false) (Some 0) "dphi" 1 1;
      ONewBlock (CInteg TyD) (LInteg (VS θ0) false) (Some 0) "phi" 1 1;
      ONewBlock (CFunction sin_fun) LNone (Some 0) "sin(phi)" NoIOLimit NoIOLimit;
      ONewBlock (CMul TyD (VS 1%R)) LNone (Some 0) "g" NoIOLimit 1;
      ONewBlock CDiv LNone (Some 0) "_l" 2 1;
      ONewBlock (CMul TyD (VS 1%R)) LNone (Some 0) "ml2" NoIOLimit 1;
      ONewBlock CDiv LNone (Some 0) "_ml2" 2 1;
      ONewBlock CSub LNone (Some 0) "d2phi" 2 1;
      ONewSig KScalar "tau"; ONewSig KScalar "m"; ONewSig KScalar "g"; ONewSig KScalar "l"; ONewSig KScalar "phi"; ONewSig KScalar "dphi"; ONewSig KScalar "d2phi";
      ONewSig KScalar "s10"; ONewSig KScalar "s15"; ONewSig KScalar "s20"; ONewSig KScalar "s25"; ONewSig KScalar "s30";
      ONewBus [6] ""; ONewBus [5] ""; OConnect 1 12 13;
      ONewBus [5] ""; ONewBus [4] ""; OConnect 2 14 15;
      ONewBus [4] ""; ONewBus [7] ""; OConnect 3 16 17;
      ONewBus [7; 2] ""; ONewBus [8] ""; OConnect 4 18 19;
      ONewBus [8; 3] ""; ONewBus [9] ""; OConnect 5 20 21;
      ONewBus [1; 3; 3] ""; ONewBus [10] ""; OConnect 6 22 23;
      ONewBus [0; 10] ""; ONewBus [11] ""; OConnect 7 24 25;
      ONewBus [11; 9] ""; ONewBus [6] ""; OConnect 8 26 27 ]%nat.
  Definition tq_world : world R := world_of true tq_ops.
  Definition tq_tree : tree R := default (TSub 0 [] []) (compile_model tq_world 0).
  Definition tq_inputs : option (R -> prog R unit) := Some (fun _ => PSet 1%nat (VS ma) (PSet 3%nat (VS le) (PSet 2%nat (VS ga) (PSet 0%nat (VS ta) (PRet tt))))).
  Context (meth : solver).
  Definition tq_cfg : cfg R := Cfg true MReuse tq_tree tq_inputs (fun _ => PRet tt) (Some (stp_of meth)) (fun x => reverse x) 0.
  Lemma tq_reach : wreach true tq_world.
  Proof. reach_ops tq_world tq_ops. Qed.
  Lemma tq_model : compile_model tq_world 0 = Some tq_tree.
  Proof. vm_compute. reflexivity. Qed.
  Definition tq_new : simst R := new_sim (initial_dyn tq_world).
  Definition tq_0 : simst R := st_of tq_new (init tq_cfg 0 tq_new).
  Lemma tq_session : session_of tq_world 0 tq_cfg tq_0.
  Proof.
    assert (is_ok (init tq_cfg 0 tq_new) = true) as E by (vm_compute; reflexivity). apply ok_init in E.
    eapply (session_init _ _ _ (stp_of meth)); [exact tq_reach|exact tq_model|intros l; apply reverse_Permutation|reflexivity|apply stp_ok|apply stp_rel|exact E].
  Qed.
  Lemma tq_layout : layout tq_0 = [4; 5]%nat.
  Proof. vm_compute. reflexivity. Qed.
  Definition tq_leaves : list (leaf R) := leaves tq_tree.
  Lemma tq_cfg_leaves : leaves (g_tree tq_cfg) = tq_leaves.
  Proof. unfold tq_cfg, tq_leaves. cbn [g_tree]. reflexivity. Qed.
  Lemma tq_facts : (forall l, l ∈ leaves (g_tree tq_cfg) -> steady_class l) /\ derivs_fit (initial_store tq_world) /\ (forall z, z ∈ layout tq_0 -> integral tq_cfg z) /\
    s_sv tq_0 ≠ [] /\ s_tprev tq_0 = 0 /\ pack (s_store tq_0) (layout tq_0) = [θ0; ω0].
  Proof.
    rewrite tq_cfg_leaves. split; [apply steadyb_ok; vm_compute; reflexivity|]. split; [apply fitb_ok; vm_compute; reflexivity|].
    split; [rewrite tq_layout; eapply integb_ok; [exact tq_cfg_leaves|vm_compute; reflexivity]|].
    split. { intros E. apply (f_equal (@length R)) in E. revert E. vm_compute. intros E; discriminate E. }
    split; [vm_compute; reflexivity|]. rewrite tq_layout. vm_compute. reflexivity.
  Qed.
  (** The formulas of the input callback and of the blocks, in an order of evaluation. *)
  Definition tq_din : formulas := [(1, ENum ma); (3, ENum le); (2, ENum ga); (0, ENum ta)]%nat.
  Definition tq_f1 : formulas := []%nat.
  Definition tq_f2 : formulas := []%nat.
  Definition tq_f3 : formulas := [(7, EFun sin (ESig 4))]%nat.
  Definition tq_f4 : formulas := [(8, EMult (EMult (ENum 1%R) (ESig 7)) (ESig 2))]%nat.
  Definition tq_f5 : formulas := [(9, EDiv (ESig 8) (ESig 3))]%nat.
  Definition tq_f6 : formulas := [(10, EMult (EMult (EMult (ENum 1%R) (ESig 1)) (ESig 3)) (ESig 3))]%nat.
  Definition tq_f7 : formulas := [(11, EDiv (ESig 0) (ESig 10))]%nat.
  Definition tq_f8 : formulas := [(6, EMinus (ESig 11) (ESig 9))]%nat.
  Definition tq_env : formulas := tq_din ++ tq_f1 ++ tq_f2 ++ tq_f3 ++ tq_f4 ++ tq_f5 ++ tq_f6 ++ tq_f7 ++ tq_f8.
  Lemma tq_blocks : exists l1 l2 l3 l4 l5 l6 l7 l8, tq_leaves = [l1; l2; l3; l4; l5; l6; l7; l8] /\
    (means l1 LNone tq_f1 /\ means l2 LNone tq_f2 /\ means l3 LNone tq_f3 /\ means l4 LNone tq_f4 /\ means l5 LNone tq_f5 /\ means l6 LNone tq_f6 /\ means l7 LNone tq_f7 /\ means l8 LNone tq_f8)%nat /\
    (required l1 = [5] /\ required l2 = [4] /\ required l3 = [4] /\ required l4 = [7; 2] /\ required l5 = [8; 3] /\ required l6 = [1; 3] /\ required l7 = [0; 10] /\ required l8 = [11; 9])%nat /\
    forall l, l ∈ [l1; l2; l3; l4; l5; l6; l7; l8] -> is_builder (l_cls l) = false.
  Proof.
    do 8 eexists. split; [vm_compute; reflexivity|]. split; [|split; [split_and!; vm_compute; reflexivity|]].
    - split_and!; [by eapply mean_integ|by eapply mean_integ|eapply mean_function; [reflexivity|intros t; apply sin_fun_ok]|eapply mean_mul'; [reflexivity|reflexivity|reflexivity]|by eapply mean_div|eapply mean_mul'; [reflexivity|reflexivity|reflexivity]|by eapply mean_div|by eapply mean_sub].
    - intros l Hl. repeat (apply elem_of_cons in Hl as [-> |Hl]; [done|]). by apply elem_of_nil in Hl.
  Qed.
  Lemma tq_store : exists c4 c5, (initial_store tq_world !! 4 = Some c4 /\ initial_store tq_world !! 5 = Some c5 /\ c_deriv c4 = Some 5 /\ c_deriv c5 = Some 6)%nat /\
    Forall (fun s => exists c, initial_store tq_world !! s = Some c /\ c_kind c = KScalar) ([4; 5]%nat ++ map fst tq_env).
  Proof.
    do 2 eexists. split; [split_and!; vm_compute; reflexivity|].
    repeat apply Forall_cons_2; [..|apply Forall_nil_2]; (eexists; split; [vm_compute; reflexivity|reflexivity]).
  Qed.
  Lemma tq_diagram : diagram (initial_store tq_world) tq_cfg (fun _ => LNone) tq_env [4; 5]%nat [5; 6]%nat.
  Proof.
    destruct tq_blocks as (l1 & l2 & l3 & l4 & l5 & l6 & l7 & l8 & El & (M1 & M2 & M3 & M4 & M5 & M6 & M7 & M8) & (Q1 & Q2 & Q3 & Q4 & Q5 & Q6 & Q7 & Q8) & Hb).
    destruct tq_store as (c4 & c5 & (H4 & H5 & D4 & D5) & Hsc).
    assert (leaves (g_tree tq_cfg) = [l1; l2; l3; l4; l5; l6; l7; l8]) as El' by (rewrite tq_cfg_leaves; exact El).
    assert (g_inputs tq_cfg = tq_inputs) as Ei by reflexivity. assert (forall t, g_icb tq_cfg t = PRet tt) as Ec by reflexivity.
    revert H4 H5 Hsc El' Ei Ec. generalize (initial_store tq_world) tq_cfg. clear El. intros σ0 g H4 H5 Hsc El Ei Ec.
    change tq_env with (tq_din ++ concat (map snd [(l1, tq_f1); (l2, tq_f2); (l3, tq_f3); (l4, tq_f4); (l5, tq_f5); (l6, tq_f6); (l7, tq_f7); (l8, tq_f8)])).
    apply diagram_intro.
    - by apply in_all.
    - apply (bool_decide_unpack _). vm_compute. exact I.
    - intros l. rewrite El. done.
    - intros l Hl. apply Hb. exact Hl.
    - right. eexists. split; [rewrite Ei; reflexivity|]. intros t. split.
      + intros ρ a ws _ Hc. cbn in Hc. by injection Hc as <- <-.
      + intros ρ _. cbn. eauto.
    - intros s Hs. by apply elem_of_nil in Hs.
    - done.
    - cbn [chain]. rewrite Q1, Q2, Q3, Q4, Q5, Q6, Q7, Q8. split_and!; try done; cbn; intros s Hs; set_solver.
    - repeat apply Forall2_cons_2; [..|apply Forall2_nil_2].
      + exists c4. split_and!; [done|done|]. cbn. set_solver.
      + exists c5. split_and!; [done|done|]. cbn. set_solver.
  Qed.
End torque.
