(** Property C73: sample programs of the repository. *)
From stdpp Require Import prelude gmap strings.
From Coq Require Import ZArith QArith Reals Lra Qreals Psatz.
From Verif Require Import Num NumQ NumR NumOrd NumAdd Res Name Store Leaf Sched Stepper Sim World Api SpecSched P_Store P_Prog P_Lib P_World P_Compile P_Simulated P_Evolve P_Rel P_Rel2 SpecHist P_Trace P_Life SpecBlock Ex_Models
  SpecRun P_Log P_Run Props_Run P_Pack P_Grow P_Again P_Repeat Props_Pack SpecRK P_RK SpecAgain P_Over P_Redo Props_Again SpecField P_Field P_FieldRun P_Posed P_Path Props_Field SpecConv P_Conv Props_Conv SpecLin P_Lin Props_Lin
  SpecOrd P_Ord P_Ord2 P_Ord3 Props_Ord SpecSmooth P_Tame P_Tame2 P_Tame3 P_Smooth Props_Smooth SpecDiag P_Diag P_Diag2 Props_Diag Samples.
Local Open Scope nat_scope.
Local Open Scope R_scope.


(** samples/test09_mass_spring_damper.cpp:30-89 (with any mass [ma], stiffness [k], damping
    [c], position [x0] and speed [v0] at the start) and 104-118 (any force [u], any stepper).
    Signals 0 tau, 1 x, 2 xd, 3 xdd; members 0 _x, 1 _xd. *)
Section damper.
  Context (ma k c x0 v0 : R) (u : R -> R).
  Definition dm_act (_ : R) (_ _ : bus) (vs : list (val R)) : prog R (list (val R)) :=
    PGet 0%nat (fun tau => PGet 2%nat (fun xd => PGet 1%nat (fun x =>
      match tau, xd, x with
      | VS tau, VS xd, VS x => PSet 3%nat (VS (tau / ma - c / ma * xd - k / ma * x)) (PRet vs)
      | _, _, _ => PUB UType
      end))).
  Definition dm_pre (_ : R) (_ _ : bus) (vs : list (val R)) : prog R (list (val R)) :=
    match vs with [x; xd] => PSet 1%nat x (PSet 2%nat xd (PRet vs)) | _ => PUB UType end.
  Definition dm_post (_ : R) (_ _ : bus) (vs : list (val R)) : prog R (list (val R)) :=
    PGet 1%nat (fun x => PGet 2%nat (fun xd => PRet [x; xd])).
  Definition dm_cls : cls R := CUser dm_act dm_pre dm_post.
  Definition dm_ops : list (wop R) :=
    [ ONewSig KScalar "tau"; ONewSig KScalar "x"; ONewSig KScalar "xd"; ONewSig KScalar "xdd"; ONewBus [0] ""; ONewBus [] "";
      ONewBlock dm_cls (LUser [VS x0; VS v0]) None "" 1 0;
      OConnect 0 4 5; OSetDeriv TyD 1 2; OSetDeriv TyD 2 3; OLink 0 1 fRequired; OLink 0 2 fRequired; OLink 0 3 fInternal ]%nat.
  Definition dm_world : world R := world_of true dm_ops.
  Definition dm_tree : tree R := default (TSub 0 [] []) (compile_model dm_world 0).
  Definition dm_inputs (t : R) : prog R unit := PSet 0%nat (VS (u t)) (PRet tt).
  Context (meth : solver).
  Definition dm_cfg : cfg R := Cfg true MDefault dm_tree (Some dm_inputs) (fun _ => PRet tt) (Some (stp_of meth)) (fun x => reverse x) 0.
  Lemma dm_reach : wreach true dm_world.
  Proof. reach_ops dm_world dm_ops. Qed.
  Lemma dm_model : compile_model dm_world 0 = Some dm_tree.
  Proof. vm_compute. reflexivity. Qed.
  Definition dm_new : simst R := new_sim (initial_dyn dm_world).
  Definition dm_0 : simst R := st_of dm_new (init dm_cfg 0 dm_new).
  Lemma dm_session : session_of dm_world 0 dm_cfg dm_0.
  Proof.
    assert (is_ok (init dm_cfg 0 dm_new) = true) as E by (vm_compute; reflexivity). apply ok_init in E.
    eapply (session_init _ _ _ (stp_of meth)); [exact dm_reach|exact dm_model|intros l; apply reverse_Permutation|reflexivity|apply stp_ok|apply stp_rel|exact E].
  Qed.
  Lemma dm_layout : layout dm_0 = [2; 1]%nat.
  Proof. vm_compute. reflexivity. Qed.
  Lemma dm_keeps (l : leaf R) : l_cls l = dm_cls -> keeps_in l 0 1 /\ keeps_in l 1 2.
  Proof.
    intros E. unfold keeps_in. rewrite E. unfold dm_cls. split; intros t vs vs' σ; split.
    - intros Hs v Hv. destruct vs as [|x [|xd [|]]]; cbn in Hs; try (by apply shows_ub in Hs). apply shows_set in Hs as [Hx Hs]. cbn in Hv. by injection Hv as <-.
    - intros Hs. apply shows_get in Hs as (x & Hx & Hs). apply shows_get in Hs as (xd & Hxd & Hs). apply shows_ret in Hs as ->. by exists x.
    - intros Hs v Hv. destruct vs as [|x [|xd [|]]]; cbn in Hs; try (by apply shows_ub in Hs). apply shows_set in Hs as [Hx Hs]. apply shows_set in Hs as [Hxd Hs]. cbn in Hv. by injection Hv as <-.
    - intros Hs. apply shows_get in Hs as (x & Hx & Hs). apply shows_get in Hs as (xd & Hxd & Hs). apply shows_ret in Hs as ->. by exists xd.
  Qed.
  Lemma dm_steady (l : leaf R) : l_cls l = dm_cls -> steady_class l.
  Proof.
    intros E. unfold steady_class. rewrite E. unfold dm_cls. intros t vs. split.
    - intros [?|?|?|?] [?|?|?|?] [?|?|?|?]; cbn; try exact I. reflexivity.
    - destruct vs as [|x [|xd [|]]]; cbn; try exact I. reflexivity.
  Qed.
  Definition dm_f : formulas :=
    [(3, EMinus (EMinus (EDiv (ESig 0) (ENum ma)) (EMult (ENum (c / ma)) (ESig 2))) (EMult (ENum (k / ma)) (ESig 1)))]%nat.
  Definition dm_env : formulas := [(0%nat, EFun u ETime)] ++ dm_f.
  Lemma dm_means (l : leaf R) : l_cls l = dm_cls -> means l (LUser []) dm_f.
  Proof.
    intros E.
    assert (forall t vs ρ, scalars ρ dm_f -> ceval ρ (dm_act t (l_ibus l) (l_obus l) vs) = Some (vs, map (fun d => (fst d, VS (expr_at t (real ρ) (snd d)))) dm_f)) as Hs.
    { intros t vs ρ Hsc. unfold dm_act. cbn [ceval].
      rewrite (scalar_here _ _ _ 0%nat Hsc) by (cbn; set_solver). cbn [ceval]. rewrite (scalar_here _ _ _ 2%nat Hsc) by (cbn; set_solver). cbn [ceval].
      rewrite (scalar_here _ _ _ 1%nat Hsc) by (cbn; set_solver). reflexivity. }
    apply (mean_user l (LUser []) dm_act dm_pre dm_post [] dm_f E eq_refl).
    - intros t vs ρ a ws Hsc Hc. rewrite (Hs t vs ρ Hsc) in Hc. by injection Hc as _ <-.
    - intros t ρ Hsc. rewrite (Hs t [] ρ Hsc). eauto.
  Qed.
  (** The only block. *)
  Lemma dm_leaves : exists l, leaves (g_tree dm_cfg) = [l] /\ l_cls l = dm_cls /\ required l = [0; 1; 2]%nat.
  Proof. eexists. split; [unfold dm_cfg; cbn [g_tree]; vm_compute; reflexivity|]. split; [reflexivity|vm_compute; reflexivity]. Qed.
  Lemma dm_store : exists c1 c2, (initial_store dm_world !! 1 = Some c1 /\ initial_store dm_world !! 2 = Some c2 /\ c_deriv c1 = Some 2 /\ c_deriv c2 = Some 3)%nat /\
    Forall (fun s => exists c, initial_store dm_world !! s = Some c /\ c_kind c = KScalar) [2; 1; 0; 3]%nat.
  Proof.
    do 2 eexists. split; [split_and!; vm_compute; reflexivity|].
    repeat apply Forall_cons_2; [..|apply Forall_nil_2]; (eexists; split; [vm_compute; reflexivity|reflexivity]).
  Qed.
  Lemma dm_facts : (forall l, l ∈ leaves (g_tree dm_cfg) -> steady_class l) /\ derivs_fit (initial_store dm_world) /\ (forall z, z ∈ layout dm_0 -> integral dm_cfg z) /\
    s_sv dm_0 ≠ [] /\ s_tprev dm_0 = 0 /\ pack (s_store dm_0) (layout dm_0) = [v0; x0].
  Proof.
    split; [|split; [apply fitb_ok; vm_compute; reflexivity|split]].
    - destruct dm_leaves as (l & El & Ec & _). revert El. generalize dm_cfg. intros g El l' Hl. rewrite El in Hl. apply elem_of_list_singleton in Hl as ->. by apply dm_steady.
    - rewrite dm_layout. destruct dm_leaves as (l & El & Ec & _). revert El. generalize dm_cfg. intros g El z Hz. right. exists l. destruct (dm_keeps l Ec) as [K1 K2].
      assert (l ∈ leaves (g_tree g)) as Hl by (rewrite El; apply elem_of_list_here).
      apply elem_of_cons in Hz as [-> |Hz]; [by exists 1%nat|]. apply elem_of_list_singleton in Hz as ->. by exists 0%nat.
    - split. { intros E. apply (f_equal (@length R)) in E. revert E. vm_compute. intros E; discriminate E. }
      split; [vm_compute; reflexivity|]. rewrite dm_layout. vm_compute. reflexivity.
  Qed.
  Lemma dm_diagram : diagram (initial_store dm_world) dm_cfg (fun _ => LUser []) dm_env [2; 1]%nat [3; 2]%nat.
  Proof.
    destruct dm_leaves as (l & El & Ec & Er). destruct dm_store as (c1 & c2 & (H1 & H2 & D1 & D2) & Hsc).
    assert (g_inputs dm_cfg = Some dm_inputs) as Ei by reflexivity. assert (forall t, g_icb dm_cfg t = PRet tt) as Eb by reflexivity.
    revert H1 H2 Hsc El Ei Eb. generalize (initial_store dm_world) dm_cfg. intros σ0 g H1 H2 Hsc El Ei Eb.
    change dm_env with ([(0%nat, EFun u ETime)] ++ concat (map snd [(l, dm_f)])).
    apply diagram_intro.
    - by apply in_all.
    - apply (bool_decide_unpack _). vm_compute. exact I.
    - intros l'. rewrite El. done.
    - intros l' Hl. cbn in Hl. apply elem_of_list_singleton in Hl as ->. by rewrite Ec.
    - right. exists dm_inputs. split; [done|]. intros t. split.
      + intros ρ a ws _ Hc. cbn in Hc. by injection Hc as <- <-.
      + intros ρ _. cbn. eauto.
    - intros s Hs. by apply elem_of_nil in Hs.
    - done.
    - cbn [chain]. rewrite Er. split_and!; [by apply dm_means| | |done]; cbn; intros s Hs; set_solver.
    - repeat apply Forall2_cons_2; [..|apply Forall2_nil_2].
      + exists c2. split_and!; [done|done|]. cbn. set_solver.
      + exists c1. split_and!; [done|done|]. cbn. set_solver.
  Qed.
End damper.
