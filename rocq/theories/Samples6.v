(** Property C73: sample programs of the repository. *)
From stdpp Require Import prelude gmap strings.
From Coq Require Import ZArith QArith Reals Lra Qreals Psatz.
From Verif Require Import Num NumQ NumR NumOrd NumAdd Res Name Store Leaf Sched Stepper Sim World Api SpecSched P_Store P_Prog P_Lib P_World P_Compile P_Simulated P_Evolve P_Rel P_Rel2 SpecHist P_Trace SpecBlock Ex_Models
  SpecRun P_Log P_Run Props_Run P_Pack P_Grow P_Again P_Repeat Props_Pack SpecRK P_RK SpecAgain P_Over P_Redo Props_Again SpecField P_Field P_FieldRun P_Posed P_Path Props_Field SpecConv P_Conv Props_Conv SpecLin P_Lin Props_Lin
  SpecOrd P_Ord P_Ord2 P_Ord3 Props_Ord SpecSmooth P_Tame P_Tame2 P_Tame3 P_Smooth Props_Smooth SpecDiag P_Diag P_Diag2 Props_Diag Samples.
Local Open Scope nat_scope.
Local Open Scope R_scope.


(** samples/tut01_mass_spring_damper.cpp:30-68 (any mass [ma], damping [c], stiffness [k], force [u], position [x0] and
    speed [v0] at the start, any stepper). Signals 0 s_F, 1 s_F_m, 2 s1, 3 s_xdd, 4 s_xd, 5 s_x, 6 s_kx_m, 7 s_cxd_m. *)
Section tut.
  Context (ma c k x0 v0 : R) (u : R -> R).

  Definition tu_ops : list (wop R) :=
    [ ONewBlock CSubmodel LNone None "" NoIOLimit NoIOLimit;
      ONewBlock (CSource TyD (fun t : R => PRet (VS (u t)))) LNone (Some 0) "" NoIOLimit 1;
      ONewBlock (CGain TyD (VS (1 / ma)%R)) LNone (Some 0) "" 1 1;
      ONewBlock CSub LNone (Some 0) "" 2 1;
      ONewBlock CSub LNone (Some 0) "" 2 1;
      ONewBlock (CInteg TyD) (LInteg (VS v0) false) (Some 0) "" 1 1;
      ONewBlock (CInteg TyD) (LInteg (VS x0) false) (Some 0) "" 1 1;
      ONewBlock (CGain TyD (VS (c / ma)%R)) LNone (Some 0) "" 1 1;
      ONewBlock (CGain TyD (VS (k / ma)%R)) LNone (Some 0) "" 1 1;
      ONewSig KScalar ""; ONewSig KScalar ""; ONewSig KScalar ""; ONewSig KScalar ""; ONewSig KScalar ""; ONewSig KScalar ""; ONewSig KScalar ""; ONewSig KScalar "";
      ONewBus [] ""; ONewBus [0] ""; OConnect 1 8 9;
      ONewBus [0] ""; ONewBus [1] ""; OConnect 2 10 11;
      ONewBus [1; 7] ""; ONewBus [2] ""; OConnect 3 12 13;
      ONewBus [2; 6] ""; ONewBus [3] ""; OConnect 4 14 15;
      ONewBus [3] ""; ONewBus [4] ""; OConnect 5 16 17;
      ONewBus [4] ""; ONewBus [5] ""; OConnect 6 18 19;
      ONewBus [4] ""; ONewBus [7] ""; OConnect 7 20 21;
      ONewBus [5] ""; ONewBus [6] ""; OConnect 8 22 23 ]%nat.
  Definition tu_world : world R := world_of true tu_ops.
  Definition tu_tree : tree R := default (TSub 0 [] []) (compile_model tu_world 0).
  Context (meth : solver).
  Definition tu_cfg : cfg R := Cfg true MDefault tu_tree None (fun _ => PRet tt) (Some (stp_of meth)) (fun x => reverse x) 0.
  Lemma tu_reach : wreach true tu_world.
  Proof. reach_ops tu_world tu_ops. Qed.
  Lemma tu_model : compile_model tu_world 0 = Some tu_tree.
  Proof. vm_compute. reflexivity. Qed.
  Definition tu_new : simst R := new_sim (initial_dyn tu_world).
  Definition tu_0 : simst R := st_of tu_new (init tu_cfg 0 tu_new).
  Lemma tu_session : session_of tu_world 0 tu_cfg tu_0.
  Proof.
    assert (is_ok (init tu_cfg 0 tu_new) = true) as E by (vm_compute; reflexivity). apply ok_init in E.
    eapply (session_init _ _ _ (stp_of meth)); [exact tu_reach|exact tu_model|intros l; apply reverse_Permutation|reflexivity|apply stp_ok|apply stp_rel|exact E].
  Qed.
  Lemma tu_layout : layout tu_0 = [5; 4]%nat.
  Proof. vm_compute. reflexivity. Qed.
  Definition tu_leaves : list (leaf R) := leaves tu_tree.
  Lemma tu_cfg_leaves : leaves (g_tree tu_cfg) = tu_leaves.
  Proof. unfold tu_cfg, tu_leaves. cbn [g_tree]. reflexivity. Qed.
  (** The formulas of the blocks. *)
  Definition tu_f1 : formulas := [(0, EFun u ETime)]%nat.
  Definition tu_f2 : formulas := [(1, EMult (ENum (1 / ma)%R) (ESig 0))]%nat.
  Definition tu_f3 : formulas := [(2, EMinus (ESig 1) (ESig 7))]%nat.
  Definition tu_f4 : formulas := [(3, EMinus (ESig 2) (ESig 6))]%nat.
  Definition tu_f5 : formulas := []%nat.
  Definition tu_f6 : formulas := []%nat.
  Definition tu_f7 : formulas := [(7, EMult (ENum (c / ma)%R) (ESig 4))]%nat.
  Definition tu_f8 : formulas := [(6, EMult (ENum (k / ma)%R) (ESig 5))]%nat.
  Definition tu_env : formulas := [] ++ tu_f1 ++ tu_f2 ++ tu_f7 ++ tu_f8 ++ tu_f3 ++ tu_f4 ++ tu_f5 ++ tu_f6.
  Lemma tu_blocks : exists l1 l2 l3 l4 l5 l6 l7 l8, tu_leaves = [l1; l2; l3; l4; l5; l6; l7; l8] /\
    (means l1 LNone tu_f1 /\ means l2 LNone tu_f2 /\ means l3 LNone tu_f3 /\ means l4 LNone tu_f4 /\ means l5 LNone tu_f5 /\ means l6 LNone tu_f6 /\ means l7 LNone tu_f7 /\ means l8 LNone tu_f8)%nat /\
    (required l1 = [] /\ required l2 = [0] /\ required l3 = [1; 7] /\ required l4 = [2; 6] /\ required l5 = [4] /\ required l6 = [5] /\ required l7 = [4] /\ required l8 = [5])%nat /\
    (forall l, l ∈ [l1; l2; l3; l4; l5; l6; l7; l8] -> is_builder (l_cls l) = false) /\
    (forall l, l ∈ [l1; l2; l3; l4; l5; l6; l7; l8] -> steady_class l).
  Proof.
    do 8 eexists. split; [vm_compute; reflexivity|]. split; [|split; [split_and!; vm_compute; reflexivity|split]].
    - split_and!; [by eapply mean_source|by eapply mean_gain|by eapply mean_sub|by eapply mean_sub|by eapply mean_integ|by eapply mean_integ|by eapply mean_gain|by eapply mean_gain].
    - intros l Hl. repeat (apply elem_of_cons in Hl as [-> |Hl]; [done|]). by apply elem_of_nil in Hl.
    - intros l Hl. repeat (apply elem_of_cons in Hl as [-> |Hl]; [unfold steady_class; cbn [l_cls]; done|]). by apply elem_of_nil in Hl.
  Qed.
  Lemma tu_facts : (forall l, l ∈ leaves (g_tree tu_cfg) -> steady_class l) /\ derivs_fit (initial_store tu_world) /\ (forall z, z ∈ layout tu_0 -> integral tu_cfg z) /\
    s_sv tu_0 ≠ [] /\ s_tprev tu_0 = 0 /\ pack (s_store tu_0) (layout tu_0) = [x0; v0].
  Proof.
    split. { rewrite tu_cfg_leaves. destruct tu_blocks as (l1 & l2 & l3 & l4 & l5 & l6 & l7 & l8 & El & _ & _ & _ & Hs). rewrite El. exact Hs. }
    split; [apply fitb_ok; vm_compute; reflexivity|].
    split; [rewrite tu_layout; eapply integb_ok; [exact tu_cfg_leaves|vm_compute; reflexivity]|].
    split. { intros E. apply (f_equal (@length R)) in E. revert E. vm_compute. intros E; discriminate E. }
    split; [vm_compute; reflexivity|]. rewrite tu_layout. vm_compute. reflexivity.
  Qed.
  Lemma tu_store : exists c5 c4, (initial_store tu_world !! 5 = Some c5 /\ initial_store tu_world !! 4 = Some c4 /\ c_deriv c5 = Some 4 /\ c_deriv c4 = Some 3)%nat /\
    Forall (fun s => exists c, initial_store tu_world !! s = Some c /\ c_kind c = KScalar) ([5; 4]%nat ++ map fst tu_env).
  Proof.
    do 2 eexists. split; [split_and!; vm_compute; reflexivity|].
    repeat apply Forall_cons_2; [..|apply Forall_nil_2]; (eexists; split; [vm_compute; reflexivity|reflexivity]).
  Qed.
  Lemma tu_diagram : diagram (initial_store tu_world) tu_cfg (fun _ => LNone) tu_env [5; 4]%nat [4; 3]%nat.
  Proof.
    destruct tu_blocks as (l1 & l2 & l3 & l4 & l5 & l6 & l7 & l8 & El & (M1 & M2 & M3 & M4 & M5 & M6 & M7 & M8) & (Q1 & Q2 & Q3 & Q4 & Q5 & Q6 & Q7 & Q8) & Hb & _).
    destruct tu_store as (c5 & c4 & (H5 & H4 & D5 & D4) & Hsc).
    assert (leaves (g_tree tu_cfg) = [l1; l2; l3; l4; l5; l6; l7; l8]) as El' by (rewrite tu_cfg_leaves; exact El).
    assert (g_inputs tu_cfg = None) as Ei by reflexivity. assert (forall t, g_icb tu_cfg t = PRet tt) as Ec by reflexivity.
    revert H5 H4 Hsc El' Ei Ec. generalize (initial_store tu_world) tu_cfg. clear El. intros σ0 g H5 H4 Hsc El Ei Ec.
    change tu_env with ([] ++ concat (map snd [(l1, tu_f1); (l2, tu_f2); (l7, tu_f7); (l8, tu_f8); (l3, tu_f3); (l4, tu_f4); (l5, tu_f5); (l6, tu_f6)])).
    apply diagram_intro.
    - by apply in_all.
    - apply (bool_decide_unpack _). vm_compute. exact I.
    - intros l. rewrite El. cbn [map fst]. set_solver.
    - intros l Hl. apply Hb. cbn [map fst] in Hl. set_solver.
    - left. done.
    - intros s Hs. by apply elem_of_nil in Hs.
    - done.
    - cbn [chain]. rewrite Q1, Q2, Q7, Q8, Q3, Q4, Q5, Q6. split_and!; try done; cbn; intros s Hs; set_solver.
    - repeat apply Forall2_cons_2; [..|apply Forall2_nil_2].
      + exists c5. split_and!; [done|done|]. cbn. set_solver.
      + exists c4. split_and!; [done|done|]. cbn. set_solver.
  Qed.
End tut.
