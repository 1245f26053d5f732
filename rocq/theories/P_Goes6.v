(** From checked models to whole programs. *)
From stdpp Require Import prelude gmap strings.
From Coq Require Import ZArith QArith Reals Lra.
From Verif Require Import Num NumQ NumR NumOrd NumAdd Res Store Leaf Sched Stepper Sim World Api P_Store P_Sched P_World P_Compile P_Modes P_Log SpecSched SpecSim SpecSafe SpecGoes SpecGoes2 SpecLint P_Goes P_Goes2 P_Goes3 P_Goes4 P_Goes5 P_Lint P_Term Props_Sched Props_Term.
Local Open Scope nat_scope.

Lemma end_cons {D} (t0 t lo hi : D) cs : end_of t0 ((t, lo, hi) :: cs) = end_of t cs.
Proof.
  unfold end_of. destruct cs as [|c cs]; [done|]. change (last ((t, lo, hi) :: c :: cs)) with (last (c :: cs)).
  destruct (last (c :: cs)) eqn:E; [done|]. by apply last_None in E.
Qed.
Section checked.
  Context {D : Type} `{NumOps D} {Hord : NumOrd D} {Hadd : NumAdd D} (w : world D) (b : bid) (g : cfg D) (ins1 ins2 : list nat).
  Context (Hc : checked w b g ins1 ins2).
  Notation K := (sig_kinds w).
  Notation dv := (sig_derivs w).
  Notation y := (lib (sig_kinds w)).
  Definition later (tr : tree D) (p q : D) : Prop := has_delay tr -> nltb p q = true.
  Notation nxt := (later (g_tree g)).
  Lemma later_clock : clockwork nxt.
  Proof.
    destruct (lt_clock (D:=D)) as [C1 C2 C3]. split.
    - by intros p q E _.
    - intros t lo hi p x Hlo Hp _. by apply C2.
    - intros lo hi p q x Hlo Ha Hn Hd. by eapply C3; [|exact Ha|apply Hn].
  Qed.
  Lemma checked_sane : sane g K dv nxt y ins1 ins2.
  Proof.
    destruct Hc as [C1 C2 C3 C4 C5 C6 CM C7 C8 C9 C10 C11]. eapply lint_sane; try done.
    - by eapply reach_ok.
    - apply later_clock.
    - intros l Hl. pose proof (C6 l Hl) as Hu. unfold user_ok in *. destruct (l_cls l) as [| | | | | | | | | | | | |T x| | | | | | |] eqn:E; try done.
      intros p q Hn. apply Hn. exists l, T, x. done.
  Qed.
  Lemma checked_fresh t0 : fresh g K dv nxt y None t0 (initial_dyn w).
  Proof.
    destruct Hc as [C1 C2 C3 C4 C5 C6 CM C7 C8 C9 C10 C11]. eapply lint_fresh; try done.
    intros E. destruct (C11 E) as [(l & Hl & Hp) Hb]. split; [|done]. destruct (lib_pre l) as [|z zs] eqn:Ez; [done|]. intros E0.
    assert (z ∈ concat (map lib_pre (leaves (g_tree g)))) as Hz. { apply in_flat. exists l. split; [done|]. rewrite Ez. apply elem_of_list_here. }
    rewrite E0 in Hz. by apply elem_of_nil in Hz.
  Qed.
  Lemma states_there : concat (map (y_pre y) (leaves (g_tree g))) ≠ [] <-> has_state (g_tree g).
  Proof.
    cbn [lib y_pre]. split.
    - destruct (concat _) as [|z zs] eqn:E; [done|]. intros _. assert (z ∈ concat (map lib_pre (leaves (g_tree g)))) as Hz by (rewrite E; apply elem_of_list_here).
      apply in_flat in Hz as (l & Hl & Hz). exists l. split; [done|]. intros E0. rewrite E0 in Hz. by apply elem_of_nil in Hz.
    - intros (l & Hl & Hp) E0. destruct (lib_pre l) as [|z zs] eqn:Ez; [done|].
      assert (z ∈ concat (map lib_pre (leaves (g_tree g)))) as Hz. { apply in_flat. exists l. split; [done|]. rewrite Ez. apply elem_of_list_here. }
      rewrite E0 in Hz. by apply elem_of_nil in Hz.
  Qed.
  Lemma allowed_may tp t lo hi : allowed g tp t lo hi -> may_run g nxt y tp t lo hi.
  Proof. intros [A1 A2]. split; [exact A1|]. intros Hz. apply A2. by apply states_there. Qed.
  Definition prepared (t : D) (s : simst D) : Prop := ready_at g K dv y ins1 ins2 t s /\ full g y ins1 ins2 s.
  Lemma ready_settled t s : prepared t s -> settled w g ins1 ins2 s.
  Proof.
    intros [(_ & _ & Hf & _) Hfu] x Hx.
    assert (x ∈ made ins1 ins2 y (g_tree g)) as Hm.
    { unfold made, givens. cbn [lib y_pre y_out]. rewrite !elem_of_app. destruct Hx as [Hx|[Hx|(l & Hl & [Hx|Hx])]]; [by auto|by auto| |].
      - left. right. right. apply in_flat. by exists l.
      - right. apply in_flat. by exists l. }
    destruct (sn_there _ _ _ _ _ _ _ checked_sane x (sn_linked _ _ _ _ _ _ _ checked_sane x Hm)) as [k Hk].
    destruct (good_value K dv _ x k Hf Hk (proj1 Hfu x Hm)) as (v & Hv & Hft). by exists v, k.
  Qed.
  Lemma checked_init t0 : exists s, init g t0 (new_sim (initial_dyn w)) = Ok tt s /\ prepared t0 s /\ s_tprev s = t0.
  Proof. destruct (init_ok g K dv nxt y ins1 ins2 checked_sane None t0 (initial_dyn w) (checked_fresh t0)) as (s & E & Hr & Et & Hfu). exists s. done. Qed.
  Lemma checked_run fuel t lo hi s : prepared (s_tprev s) s -> allowed g (s_tprev s) t lo hi ->
    match run g fuel t lo hi s with Ok _ s' => prepared t s' /\ s_tprev s' = t | OOF => True | _ => False end.
  Proof.
    intros Hr Ha. pose proof (run_ok g K dv nxt y ins1 ins2 checked_sane fuel t lo hi s (proj1 Hr) (allowed_may _ _ _ _ Ha)) as H1.
    destruct (run g fuel t lo hi s); try done. destruct H1 as (H1 & H2 & H3). done.
  Qed.
  Lemma drive_ok fuel calls s : prepared (s_tprev s) s -> permitted g (s_tprev s) calls ->
    match drive g fuel calls s with Ok _ s' => prepared (s_tprev s') s' /\ s_tprev s' = end_of (s_tprev s) calls | OOF => True | _ => False end.
  Proof.
    revert s. induction calls as [|[[t lo] hi] cs IH]; intros s Hr Hp; [done|]. cbn [permitted] in Hp. destruct Hp as [Ha Hp]. cbn [drive]. unfold bnd.
    pose proof (checked_run fuel t lo hi s Hr Ha) as H1. destruct (run g fuel t lo hi s) as [[] s1| | |]; try done. destruct H1 as [Hr1 E1].
    specialize (IH s1). rewrite E1 in IH. specialize (IH Hr1 Hp). destruct (drive g fuel cs s1) as [[] s2| | |]; try done. destruct IH as [Hr2 E2]. split; [done|]. rewrite E2. by rewrite end_cons.
  Qed.
  Lemma run_total fuel t lo hi s : prepared (s_tprev s) s -> allowed g (s_tprev s) t lo hi -> run g fuel t lo hi s ≠ OOF ->
    exists s', run g fuel t lo hi s = Ok tt s' /\ prepared t s' /\ s_tprev s' = t.
  Proof. intros Hr Ha Hn. pose proof (checked_run fuel t lo hi s Hr Ha) as H1. destruct (run g fuel t lo hi s) as [[] s1| | |]; try done. by exists s1. Qed.
  Lemma plain_total fuel t lo hi s : prepared (s_tprev s) s -> allowed g (s_tprev s) t lo hi -> (has_state (g_tree g) -> neqb t (s_tprev s) = true) -> run g fuel t lo hi s ≠ OOF.
  Proof. intros Hr Ha Hp. eapply run_plain; [exact checked_sane|apply Hr|by apply allowed_may|]. intros Hz. by apply Hp, states_there. Qed.
  Lemma fixed_total fuel t lo hi s : (forall stp, g_stepper g = Some stp -> constant stp) -> prepared (s_tprev s) s -> allowed g (s_tprev s) t lo hi -> run g (S fuel) t lo hi s ≠ OOF.
  Proof.
    intros Hcs Hr Ha. destruct (g_stepper g) as [stp|] eqn:Es.
    - eapply run_const; [exact checked_sane|apply Hr|by apply allowed_may|exact Es|by apply Hcs|apply ltb_ge, leb_refl|apply leb_refl].
    - apply plain_total; [done|done|]. intros Hst. destruct Ha as [_ Ha]. destruct (Ha Hst) as [_ [?|(? & _)]]; done.
  Qed.
  Lemma drive_total (P : D -> D -> D -> D -> nat -> Prop) fuel calls s :
    (forall t lo hi s, prepared (s_tprev s) s -> allowed g (s_tprev s) t lo hi -> P (s_tprev s) t lo hi fuel -> run g fuel t lo hi s ≠ OOF) ->
    (fix all tp cs := match cs with [] => True | (t, lo, hi) :: cs => P tp t lo hi fuel /\ all t cs end) (s_tprev s) calls ->
    prepared (s_tprev s) s -> permitted g (s_tprev s) calls ->
    exists s', drive g fuel calls s = Ok tt s' /\ prepared (s_tprev s') s' /\ s_tprev s' = end_of (s_tprev s) calls.
  Proof.
    intros HP. revert s. induction calls as [|[[t lo] hi] cs IH]; intros s Hall Hr Hp; [by exists s|]. cbn [permitted] in Hp. destruct Hp as [Ha Hp], Hall as [H1 Hall].
    destruct (run_total fuel t lo hi s Hr Ha (HP _ _ _ _ Hr Ha H1)) as (s1 & E1 & Hr1 & Et).
    specialize (IH s1). rewrite Et in IH. destruct (IH Hall Hr1 Hp) as (s2 & E2 & Hr2 & Et2). exists s2. cbn [drive]. unfold bnd. rewrite E1. split; [done|]. split; [done|].
    rewrite Et2. by rewrite end_cons.
  Qed.
End checked.
