(** Property C73: sample programs of the repository. *)
From stdpp Require Import prelude gmap strings.
From Coq Require Import ZArith QArith Reals Lra Qreals Psatz.
From Verif Require Import Num NumQ NumR NumOrd NumAdd Res Name Store Leaf Sched Stepper Sim World Api SpecSched P_Store P_Prog P_Lib P_World P_Compile P_Simulated P_Evolve P_Rel P_Rel2 SpecHist P_Trace SpecBlock Ex_Models
  SpecRun P_Log P_Run Props_Run P_Pack P_Grow P_Again P_Repeat Props_Pack SpecRK P_RK SpecAgain P_Over P_Redo Props_Again SpecField P_Field P_FieldRun P_Posed P_Path Props_Field SpecConv P_Conv Props_Conv SpecLin P_Lin Props_Lin
  SpecOrd P_Ord P_Ord2 P_Ord3 Props_Ord SpecSmooth P_Tame P_Tame2 P_Tame3 P_Smooth Props_Smooth SpecDiag P_Diag P_Diag2 Props_Diag Samples.
Local Open Scope nat_scope.
Local Open Scope R_scope.


(** samples/test07_pendulum_with_pi.cpp:34-126 (with any angle [θ0], speed [ω0] and integral [i0] at the start and any factors [kp] and
    [ki]) and 140-150 (any mass [ma], length [le], acceleration [ga] and target [de], any stepper). *)
Section pi.
  Context (θ0 ω0 i0 kp ki ma le ga de : R).

  Definition pi_ops : list (wop R) :=
    [ ONewBlock CSubmodel LNone None "" NoIOLimit NoIOLimit;
      ONewBlock CSub LNone None "" 2 1;
      ONewBlock CSubmodel LNone None "PI" NoIOLimit NoIOLimit;
      ONewBlock (CGain TyD (VS kp)) LNone (Some 2) "" 1 1;
      ONewBlock (CInteg TyD) (LInteg (VS i0) false) (Some 2) "" 1 1;
      ONewBlock (CGain TyD (VS ki)) LNone (Some 2) "" 1 1;
      ONewBlock (CAdd TyD (VS 0%R)) LNone (Some 2) "" NoIOLimit 1;
      ONewBlock CSubmodel LNone None "pendulum" NoIOLimit NoIOLimit;
      ONewBlock (CMul TyD (VS 1%R)) LNone (Some 7) "" NoIOLimit 1;
      ONewBlock CDiv LNone (Some 7) "" 2 1;
      ONewBlock CSub LNone (Some 7) "" 2 1;
      ONewBlock (CInteg TyD) (LInteg (VS ω0) false) (Some 7) "" 1 1;
      ONewBlock (CInteg TyD) (LInteg (VS θ0) false) (Some 7) "" 1 1;
      ONewBlock (CSISO TyD sin_of) LNone (Some 7) "" 1 1;
      ONewBlock (CMul TyD (VS 1%R)) LNone (Some 7) "" NoIOLimit 1;
      ONewBlock CDiv LNone (Some 7) "" 2 1;
      ONewSig KScalar ""; ONewSig KScalar ""; ONewSig KScalar ""; ONewSig KScalar ""; ONewSig KScalar ""; ONewSig KScalar ""; ONewSig KScalar "";
      ONewBus [3; 4] ""; ONewBus [6] ""; OAddBlock 0 1 7 8;
      ONewBus [6] ""; ONewBus [5] ""; OAddBlock 0 2 9 10; ONewSig KScalar ""; ONewSig KScalar ""; ONewSig KScalar "";
      ONewBus [6] ""; ONewBus [11] ""; OConnect 3 14 15;
      ONewBus [6] ""; ONewBus [12] ""; OConnect 4 16 17;
      ONewBus [12] ""; ONewBus [13] ""; OConnect 5 18 19;
      ONewBus [11; 13] ""; ONewBus [5] ""; OConnect 6 20 21;
      ONewBus [5] ""; ONewBus [4] ""; OAddBlock 0 7 22 23; ONewSig KScalar ""; ONewSig KScalar ""; ONewSig KScalar ""; ONewSig KScalar ""; ONewSig KScalar ""; ONewSig KScalar ""; ONewSig KScalar "";
      ONewBus [0; 2; 2] ""; ONewBus [25] ""; OConnect 8 31 32;
      ONewBus [5; 25] ""; ONewBus [26] ""; OConnect 9 33 34;
      ONewBus [26; 28] ""; ONewBus [29] ""; OConnect 10 35 36;
      ONewBus [29] ""; ONewBus [24] ""; OConnect 11 37 38;
      ONewBus [24] ""; ONewBus [4] ""; OConnect 12 39 40;
      ONewBus [4] ""; ONewBus [30] ""; OConnect 13 41 42;
      ONewBus [30; 1] ""; ONewBus [27] ""; OConnect 14 43 44;
      ONewBus [27; 2] ""; ONewBus [28] ""; OConnect 15 45 46 ]%nat.
  Definition pi_world : world R := world_of true pi_ops.
  Definition pi_tree : tree R := default (TSub 0 [] []) (compile_model pi_world 0).
  Definition pi_inputs : option (R -> prog R unit) := Some (fun _ => PSet 0%nat (VS ma) (PSet 2%nat (VS le) (PSet 1%nat (VS ga) (PSet 3%nat (VS de) (PRet tt))))).
  Context (meth : solver).
  Definition pi_cfg : cfg R := Cfg true MDefault pi_tree pi_inputs (fun _ => PRet tt) (Some (stp_of meth)) (fun x => reverse x) 0.
  Lemma pi_reach : wreach true pi_world.
  Proof. reach_ops pi_world pi_ops. Qed.
  Lemma pi_model : compile_model pi_world 0 = Some pi_tree.
  Proof. vm_compute. reflexivity. Qed.
  Definition pi_new : simst R := new_sim (initial_dyn pi_world).
  Definition pi_0 : simst R := st_of pi_new (init pi_cfg 0 pi_new).
  Lemma pi_session : session_of pi_world 0 pi_cfg pi_0.
  Proof.
    assert (is_ok (init pi_cfg 0 pi_new) = true) as E by (vm_compute; reflexivity). apply ok_init in E.
    eapply (session_init _ _ _ (stp_of meth)); [exact pi_reach|exact pi_model|intros l; apply reverse_Permutation|reflexivity|apply stp_ok|apply stp_rel|exact E].
  Qed.
  Lemma pi_layout : layout pi_0 = [4; 24; 12]%nat.
  Proof. vm_compute. reflexivity. Qed.
  Definition pi_leaves : list (leaf R) := leaves pi_tree.
  Lemma pi_cfg_leaves : leaves (g_tree pi_cfg) = pi_leaves.
  Proof. unfold pi_cfg, pi_leaves. cbn [g_tree]. reflexivity. Qed.
  Lemma pi_facts : (forall l, l ∈ leaves (g_tree pi_cfg) -> steady_class l) /\ derivs_fit (initial_store pi_world) /\ (forall z, z ∈ layout pi_0 -> integral pi_cfg z) /\
    s_sv pi_0 ≠ [] /\ s_tprev pi_0 = 0 /\ pack (s_store pi_0) (layout pi_0) = [θ0; ω0; i0].
  Proof.
    rewrite pi_cfg_leaves. split; [apply steadyb_ok; vm_compute; reflexivity|]. split; [apply fitb_ok; vm_compute; reflexivity|].
    split; [rewrite pi_layout; eapply integb_ok; [exact pi_cfg_leaves|vm_compute; reflexivity]|].
    split. { intros E. apply (f_equal (@length R)) in E. revert E. vm_compute. intros E; discriminate E. }
    split; [vm_compute; reflexivity|]. rewrite pi_layout. vm_compute. reflexivity.
  Qed.
  (** The formulas of the input callback and of the blocks, in an order of evaluation. *)
  Definition pi_din : formulas := [(0, ENum ma); (2, ENum le); (1, ENum ga); (3, ENum de)]%nat.
  Definition pi_f1 : formulas := [(6, EMinus (ESig 3) (ESig 4))]%nat.
  Definition pi_f2 : formulas := [(11, EMult (ENum kp) (ESig 6))]%nat.
  Definition pi_f3 : formulas := []%nat.
  Definition pi_f4 : formulas := [(13, EMult (ENum ki) (ESig 12))]%nat.
  Definition pi_f5 : formulas := [(5, EPlus (EPlus (ENum 0%R) (ESig 11)) (ESig 13))]%nat.
  Definition pi_f6 : formulas := [(25, EMult (EMult (EMult (ENum 1%R) (ESig 0)) (ESig 2)) (ESig 2))]%nat.
  Definition pi_f7 : formulas := [(26, EDiv (ESig 5) (ESig 25))]%nat.
  Definition pi_f8 : formulas := [(29, EMinus (ESig 26) (ESig 28))]%nat.
  Definition pi_f9 : formulas := []%nat.
  Definition pi_f10 : formulas := []%nat.
  Definition pi_f11 : formulas := [(30, EFun sin (ESig 4))]%nat.
  Definition pi_f12 : formulas := [(27, EMult (EMult (ENum 1%R) (ESig 30)) (ESig 1))]%nat.
  Definition pi_f13 : formulas := [(28, EDiv (ESig 27) (ESig 2))]%nat.
  Definition pi_env : formulas := pi_din ++ pi_f1 ++ pi_f2 ++ pi_f3 ++ pi_f4 ++ pi_f5 ++ pi_f6 ++ pi_f7 ++ pi_f11 ++ pi_f12 ++ pi_f13 ++ pi_f8 ++ pi_f9 ++ pi_f10.
  Lemma pi_blocks : exists l1 l2 l3 l4 l5 l6 l7 l8 l9 l10 l11 l12 l13, pi_leaves = [l1; l2; l3; l4; l5; l6; l7; l8; l9; l10; l11; l12; l13] /\
    (means l1 LNone pi_f1 /\ means l2 LNone pi_f2 /\ means l3 LNone pi_f3 /\ means l4 LNone pi_f4 /\ means l5 LNone pi_f5 /\ means l6 LNone pi_f6 /\ means l7 LNone pi_f7 /\ means l8 LNone pi_f8 /\ means l9 LNone pi_f9 /\ means l10 LNone pi_f10 /\ means l11 LNone pi_f11 /\ means l12 LNone pi_f12 /\ means l13 LNone pi_f13)%nat /\
    (required l1 = [3; 4] /\ required l2 = [6] /\ required l3 = [12] /\ required l4 = [12] /\ required l5 = [11; 13] /\ required l6 = [0; 2] /\ required l7 = [5; 25] /\ required l8 = [26; 28] /\ required l9 = [24] /\ required l10 = [4] /\ required l11 = [4] /\ required l12 = [30; 1] /\ required l13 = [27; 2])%nat /\
    forall l, l ∈ [l1; l2; l3; l4; l5; l6; l7; l8; l9; l10; l11; l12; l13] -> is_builder (l_cls l) = false.
  Proof.
    do 13 eexists. split; [vm_compute; reflexivity|]. split; [|split; [split_and!; vm_compute; reflexivity|]].
    - split_and!; [by eapply mean_sub|by eapply mean_gain|by eapply mean_integ|by eapply mean_gain|eapply mean_add'; [reflexivity|reflexivity|reflexivity]|eapply mean_mul'; [reflexivity|reflexivity|reflexivity]|by eapply mean_div|by eapply mean_sub|by eapply mean_integ|by eapply mean_integ|by eapply mean_siso|eapply mean_mul'; [reflexivity|reflexivity|reflexivity]|by eapply mean_div].
    - intros l Hl. repeat (apply elem_of_cons in Hl as [-> |Hl]; [done|]). by apply elem_of_nil in Hl.
  Qed.
  Lemma pi_store : exists c4 c24 c12, (initial_store pi_world !! 4 = Some c4 /\ initial_store pi_world !! 24 = Some c24 /\ initial_store pi_world !! 12 = Some c12 /\ c_deriv c4 = Some 24 /\ c_deriv c24 = Some 29 /\ c_deriv c12 = Some 6)%nat /\
    Forall (fun s => exists c, initial_store pi_world !! s = Some c /\ c_kind c = KScalar) ([4; 24; 12]%nat ++ map fst pi_env).
  Proof.
    do 3 eexists. split; [split_and!; vm_compute; reflexivity|].
    repeat apply Forall_cons_2; [..|apply Forall_nil_2]; (eexists; split; [vm_compute; reflexivity|reflexivity]).
  Qed.
  Lemma pi_diagram : diagram (initial_store pi_world) pi_cfg (fun _ => LNone) pi_env [4; 24; 12]%nat [24; 29; 6]%nat.
  Proof.
    destruct pi_blocks as (l1 & l2 & l3 & l4 & l5 & l6 & l7 & l8 & l9 & l10 & l11 & l12 & l13 & El & (M1 & M2 & M3 & M4 & M5 & M6 & M7 & M8 & M9 & M10 & M11 & M12 & M13) & (Q1 & Q2 & Q3 & Q4 & Q5 & Q6 & Q7 & Q8 & Q9 & Q10 & Q11 & Q12 & Q13) & Hb).
    destruct pi_store as (c4 & c24 & c12 & (H4 & H24 & H12 & D4 & D24 & D12) & Hsc).
    assert (leaves (g_tree pi_cfg) = [l1; l2; l3; l4; l5; l6; l7; l8; l9; l10; l11; l12; l13]) as El' by (rewrite pi_cfg_leaves; exact El).
    assert (g_inputs pi_cfg = pi_inputs) as Ei by reflexivity. assert (forall t, g_icb pi_cfg t = PRet tt) as Ec by reflexivity.
    revert H4 H24 H12 Hsc El' Ei Ec. generalize (initial_store pi_world) pi_cfg. clear El. intros σ0 g H4 H24 H12 Hsc El Ei Ec.
    change pi_env with (pi_din ++ concat (map snd [(l1, pi_f1); (l2, pi_f2); (l3, pi_f3); (l4, pi_f4); (l5, pi_f5); (l6, pi_f6); (l7, pi_f7); (l11, pi_f11); (l12, pi_f12); (l13, pi_f13); (l8, pi_f8); (l9, pi_f9); (l10, pi_f10)])).
    apply diagram_intro.
    - by apply in_all.
    - apply (bool_decide_unpack _). vm_compute. exact I.
    - intros l. rewrite El. cbn [map fst]. set_solver.
    - intros l Hl. apply Hb. cbn [map fst] in Hl. set_solver.
    - right. eexists. split; [rewrite Ei; reflexivity|]. intros t. split.
      + intros ρ a ws _ Hc. cbn in Hc. by injection Hc as <- <-.
      + intros ρ _. cbn. eauto.
    - intros s Hs. by apply elem_of_nil in Hs.
    - done.
    - cbn [chain]. rewrite Q1, Q2, Q3, Q4, Q5, Q6, Q7, Q11, Q12, Q13, Q8, Q9, Q10. split_and!; try done; cbn; intros s Hs; set_solver.
    - repeat apply Forall2_cons_2; [..|apply Forall2_nil_2].
      + exists c4. split_and!; [done|done|]. cbn. set_solver.
      + exists c24. split_and!; [done|done|]. cbn. set_solver.
      + exists c12. split_and!; [done|done|]. cbn. set_solver.
  Qed.
End pi.
