(** Checked models under two kinds of simulators: initialisation and whole programs. *)
From stdpp Require Import prelude gmap strings.
From Coq Require Import ZArith.
From Verif Require Import Num NumOrd NumAdd Res Store Leaf Sched Stepper Sim World Api SpecBlock SpecSched P_Store P_Prog P_Sched P_Modes P_Conf P_Eval P_Fast P_Sim P_Evolve P_Simulated P_World P_Compile
  P_Log P_Trace P_Pack P_Rel P_Rel2 SpecSim SpecSafe SpecAgain Props_Sched P_Fast2 SpecRun SpecGoes SpecGoes2 SpecLint P_Goes P_Goes2 P_Goes3 P_Goes6 P_Lint P_Same P_Same2.
Local Open Scope nat_scope.

Definition no_stepper {D} (g : cfg D) : cfg D := Cfg (g_dbg g) (g_mode g) (g_tree g) (g_inputs g) (g_icb g) None (g_iter g) (g_junk g).

Section checked.
  Context {D : Type} `{NumOps D} {Hord : NumOrd D} {Hadd : NumAdd D} (w : world D) (b : bid) (g : cfg D) (ins1 ins2 : list nat).
  Notation gm m := (with_mode m g).
  Notation K := (sig_kinds w).
  Notation dv := (sig_derivs w).
  Notation y := (lib (sig_kinds w)).
  Notation nxt := (later (g_tree g)).
  (** Models whose blocks a FastSimulator may evaluate twice when it is initialised. *)
  Definition calm : Prop := forall l, l ∈ leaves (g_tree g) -> user_reads (dom (initial_store w)) l /\ steady_class l.

  Lemma checked_default m : checked w b (gm m) ins1 ins2 -> checked w b (gm MDefault) ins1 ins2.
  Proof.
    intros [C1 C2 C3 C4 C5 C6 CM C7 C8 C9 C10 C11]. split; try done. eapply lint_default; [|exact C5]. apply wf_leaves.
    eapply compile_wf; [|exact C2]. apply (ok_tree w). by eapply reach_ok.
  Qed.

  Lemma init_alike m t0 sd sm : checked w b (gm m) ins1 ins2 -> (m = MFast -> calm) ->
    init (gm MDefault) t0 (new_sim (initial_dyn w)) = Ok tt sd -> init (gm m) t0 (new_sim (initial_dyn w)) = Ok tt sm -> same_state (s_core sd) (s_core sm) /\ static sd sm.
  Proof.
    intros Hc Hcalm Ed Em. pose proof (checked_default m Hc) as HcD. pose proof (cd_dbg _ _ _ _ _ Hc : g_dbg g = true) as Hdbg.
    destruct m.
    - rewrite Ed in Em. injection Em as <-. split; [by split|reflexivity].
    - pose proof (checked_sane w b _ _ _ HcD) as SD. pose proof (checked_sane w b _ _ _ Hc) as SR.
      pose proof (checked_fresh w b _ _ _ HcD t0) as HfD.
      destruct (base_ok (gm MDefault) K dv nxt y ins1 ins2 SD None t0 (initial_dyn w) (fr_good _ _ _ _ _ _ _ _ HfD) (fr_inv _ _ _ _ _ _ _ _ HfD)) as (x & Eb & Hpk & Hf & Hh & Hfa & Hpo1 & Hpo2 & Hcu & _).
      unfold init in Ed, Em. cbn [g_mode with_mode] in Ed, Em. unfold simulator_init in Ed, Em. change (base_init (gm MReuse) t0) with (base_init (gm MDefault) t0) in Em.
      unfold bnd at 1 in Ed. rewrite Eb in Ed. unfold bnd at 1 in Em. rewrite Eb in Em. cbn [g_mode with_mode] in Ed, Em.
      unfold bnd at 1, gets at 1 in Ed. unfold bnd at 1, ret at 1 in Ed.
      unfold bnd at 1, gets at 1 in Em. destruct (fr_reuse _ _ _ _ _ _ _ _ (checked_fresh w b _ _ _ Hc t0) eq_refl) as [Hz Hnb].
      destruct (length (s_sv x)) as [|n] eqn:En.
      { exfalso. apply Hz. apply (some_zs (gm MDefault) K dv nxt y ins1 ins2 SD x); [done|apply Hf|done]. }
      cbn [g_dbg with_mode g_tree] in Em. rewrite Hdbg in Em. unfold bnd at 1 in Em. unfold bnd at 1, gets at 1 in Em. unfold bnd at 1, gets at 1 in Em. rewrite Hpo1, Hpo2 in Em.
      unfold bnd at 1, debug_verify, verify, ret at 1 in Em. unfold bnd at 1, ret at 1 in Em. unfold modify at 1 in Em.
      rewrite Hpo1, Hpo2 in Em. cbn [app] in Em. set (x' := put_po (nodes (g_tree g)) [] (Some true) x) in *.
      assert (twin g MDefault MReuse K dv y ins1 ins2 (dom (s_store x)) (List.filter P_Rel.quiet (s_log x)) (List.filter P_Rel.quiet (s_log x)) None x x') as Ht.
      { split.
        - split; try done. split; [by split|]. split; [exists []; by rewrite !app_nil_r|]. split; [apply Hf|done].
        - split; [done|]. unfold order_ok. done.
        - split; [apply packed_po; by destruct Hpk; split|]. unfold order_ok. cbn [g_mode with_mode]. split; [done|]. unfold ordered. cbn [g_mode with_mode]. exists (nodes (g_tree g)). split; [unfold remembered, x'; cbn; by rewrite ?Hpo1|]. apply covers_perm; [apply SD|done].
        - done. }
      destruct (process_both g MDefault MReuse K dv nxt y ins1 ins2 SD SR _ _ _ None t0 x x' true true Ht Hh) as (z1 & z2 & E1 & E2 & Ht2).
      { intros _. apply (fr_end _ _ _ _ _ _ _ _ (checked_fresh w b _ _ _ HcD t0)). }
      cbn [g_mode with_mode] in *. rewrite E1 in Ed. rewrite E2 in Em. injection Ed as <-. injection Em as <-.
      destruct Ht2 as [[Hcore ? ? ? ? ? ? ? ? _ _] _ _ _]. split; [apply Hcore|]. split_and!; congruence.
    - assert (drives w b (no_stepper g) (new_sim (initial_dyn w))) as Hd.
      { split; [exists true; apply Hc|apply (cd_tree _ _ _ _ _ Hc)|]. apply sm_first; [done|]. by intros stp [=]. }
      apply (both_init g (drives_wf _ _ _ _ Hd) Hdbg (fun l Hl => proj2 (Hcalm eq_refl l Hl)) t0 (new_sim (initial_dyn w)) sd sm eq_refl); [| |exact Ed|exact Em].
      + by eapply (drives_store_ok _ _ _ _ Hd).
      + intros l Hl. eapply (drives_local _ _ _ _ Hd); [done|]. by apply (Hcalm eq_refl).
  Qed.

  Context (m1 m2 : mode) (H1 : checked w b (gm m1) ins1 ins2) (H2 : checked w b (gm m2) ins1 ins2).
  Context (Hcalm : m1 ≠ m2 -> m1 = MFast \/ m2 = MFast -> calm) (Hstp : forall stp, g_stepper g = Some stp -> stepper_rel stp).
  Lemma inits_alike t0 s1 s2 : init (gm m1) t0 (new_sim (initial_dyn w)) = Ok tt s1 -> init (gm m2) t0 (new_sim (initial_dyn w)) = Ok tt s2 -> same_state (s_core s1) (s_core s2) /\ static s1 s2.
  Proof.
    intros E1 E2. assert ({m1 = m2} + {m1 ≠ m2}) as [Hm|Hm] by decide equality.
    { subst m2. rewrite E1 in E2. injection E2 as <-. split; [by split|reflexivity]. }
    destruct (checked_init w b _ _ _ (checked_default m1 H1) t0) as (sd & Ed & _).
    destruct (init_alike m1 t0 sd s1 H1) as [A1 T1]; [by intros ->; apply Hcalm; [|left]|done|done|].
    destruct (init_alike m2 t0 sd s2 H2) as [A2 T2]; [by intros ->; apply Hcalm; [|right]|done|done|].
    split; [eapply same_state_trans; [apply same_state_sym; exact A1|exact A2]|]. etrans; [by apply static_sym|exact T2].
  Qed.
  (** What two simulators have in common after the same calls. *)
  Definition matches (i1 i2 s1 s2 : simst D) : Prop :=
    ready2 g m1 m2 K dv y ins1 ins2 (dom (s_store i1)) (List.filter P_Rel.quiet (s_log i1)) (List.filter P_Rel.quiet (s_log i2)) (s_tprev s1) s1 s2.
  Lemma init_both t0 : exists s1 s2, init (gm m1) t0 (new_sim (initial_dyn w)) = Ok tt s1 /\ init (gm m2) t0 (new_sim (initial_dyn w)) = Ok tt s2 /\ matches s1 s2 s1 s2 /\ s_tprev s1 = t0.
  Proof.
    destruct (checked_init w b _ _ _ H1 t0) as (s1 & E1 & [(So1 & I1 & F1) _] & T1). destruct (checked_init w b _ _ _ H2 t0) as (s2 & E2 & [(So2 & I2 & F2) _] & T2).
    exists s1, s2. split; [done|]. split; [done|]. split; [|done]. destruct (inits_alike t0 s1 s2 E1 E2) as [Hss (? & ? & ? & ? & ? & ? & ? & ?)].
    split; [|done]. split; [|done|done|by rewrite T1]. split; try done. split; [done|]. split; [exists []; by rewrite !app_nil_r|]. split; [apply F1|done].
  Qed.
  Lemma drive_both i1 i2 fuel calls s1 s2 : matches i1 i2 s1 s2 -> permitted g (s_tprev s1) calls ->
    match drive (gm m1) fuel calls s1 with
    | Ok _ s1' => exists s2', drive (gm m2) fuel calls s2 = Ok tt s2' /\ matches i1 i2 s1' s2'
    | OOF => True
    | _ => False
    end.
  Proof.
    revert s1 s2. induction calls as [|[[t lo] hi] cs IH]; intros s1 s2 Hm Hp; [by exists s2|]. cbn [permitted] in Hp. destruct Hp as [Ha Hp]. cbn [drive]. unfold bnd at 1.
    pose proof (run_both g m1 m2 K dv nxt y ins1 ins2 (checked_sane w b _ _ _ H1) (checked_sane w b _ _ _ H2) Hstp _ _ _ fuel t lo hi s1 s2 _ Hm (allowed_may w (gm m1) _ _ _ _ Ha) eq_refl) as Hr.
    destruct (run (gm m1) fuel t lo hi s1) as [[] x1| | |]; try done. destruct Hr as (x2 & E2 & Hx & Et).
    assert (matches i1 i2 x1 x2) as Hmx by (unfold matches; rewrite Et; exact Hx). specialize (IH x1 x2 Hmx). rewrite Et in IH. specialize (IH Hp).
    destruct (drive (gm m1) fuel cs x1) as [[] z1| | |]; try done. destruct IH as (z2 & E3 & Hz). exists z2. split; [|done]. unfold bnd. by rewrite E2.
  Qed.
End checked.
