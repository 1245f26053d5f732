(** Several simulators for one checked model. *)
From stdpp Require Import prelude gmap.
From Coq Require Import ZArith.
From Verif Require Import Num NumOrd NumAdd Res Store Leaf Sched Stepper Sim World Api P_Store P_Sched P_World P_Compile P_Modes P_Evolve P_Log SpecSched SpecSim SpecSafe SpecGoes SpecGoes2 SpecLint P_Goes P_Goes2 P_Goes3 P_Goes4 P_Goes5 P_Lint P_Goes6 SpecSess.

(** A sequence that returns. *)
Lemma bnd_Ok {S A B} (m : M S A) (k : A -> M S B) s b s' : bnd m k s = Ok b s' -> exists a s1, m s = Ok a s1 /\ k a s1 = Ok b s'.
Proof. unfold bnd. destruct (m s) as [a s1| | |]; try done. intros E. by exists a, s1. Qed.
(** ** Nothing in a FastSimulator marks a block unprocessed *)
Section marks.
  Context {D : Type}.
  Definition cmarks (c c' : core D) : Prop := k_done c ⊆ k_done c'.
  Definition marks (s s' : simst D) : Prop := k_done (s_core s) ⊆ k_done (s_core s').
  Global Instance cmarks_pre : PreOrder cmarks.
  Proof. split; [intros c; unfold cmarks; set_solver|]. intros c1 c2 c3. unfold cmarks. set_solver. Qed.
  Global Instance marks_pre : PreOrder marks.
  Proof. split; [intros c; unfold marks; set_solver|]. intros c1 c2 c3. unfold marks. set_solver. Qed.
End marks.
Section fast.
  Context {D : Type} `{NumOps D} (g : cfg D) (Hm : g_mode g = MFast).
  Context (Hstp : forall stp, g_stepper g = Some stp -> stepper_ok stp).
  Notation tr := (g_tree g).
  Lemma marks_core {A} (m : M (core D) A) : pres cmarks m -> pres marks (on_core' m).
  Proof. intros Hc s. unfold on_core', on_dyn, on_core, lift. specialize (Hc (d_core (s_dyn s))). by destruct (m (d_core (s_dyn s))). Qed.
  Lemma cmarks_store {A} (m : M (store D) A) : pres cmarks (on_store m).
  Proof. intros c. unfold on_store, lift. destruct (m (k_store c)); unfold cmarks; cbn; set_solver. Qed.
  Lemma marks_store {A} (m : M (store D) A) : pres marks (on_store' m).
  Proof. apply marks_core, cmarks_store. Qed.
  Lemma marks_modify (f : simst D -> simst D) : (forall s, s_dyn (f s) = s_dyn s) -> pres marks (modify f).
  Proof. intros Hf. apply pres_modify. intros s. unfold marks, s_core. by rewrite Hf. Qed.
  Lemma cmarks_emit e : pres cmarks (emit (D:=D) e).
  Proof. intros c. unfold cmarks. cbn. set_solver. Qed.
  Lemma cmarks_snap e : pres cmarks (snap (D:=D) e).
  Proof. intros c. unfold cmarks. cbn. set_solver. Qed.
  Lemma cmarks_leaf dbg ev (l : leaf D) p : pres cmarks (run_leaf dbg ev l p).
  Proof. intros c. unfold run_leaf. destruct (run_prog _ _ _); unfold cmarks; cbn; set_solver. Qed.
  Lemma cmarks_pre_step dbg t : forall x : tree D, pres cmarks (pre_step dbg x t).
  Proof.
    fix IH 1. intros [l|b k ch]; cbn [pre_step]; [apply cmarks_leaf|]. induction ch as [|x ch IHch]; [apply pres_ret, _|]. cbn. apply pres_bnd; [apply _|apply IH|intros _; apply IHch].
  Qed.
  Lemma cmarks_post_step dbg t : forall x : tree D, pres cmarks (post_step dbg x t).
  Proof.
    fix IH 1. intros [l|b k ch]; cbn [post_step]; [apply cmarks_leaf|]. induction ch as [|x ch IHch]; [apply pres_ret, _|]. cbn. apply pres_bnd; [apply _|apply IH|intros _; apply IHch].
  Qed.
  Lemma cmarks_inputs t : pres cmarks (inputs g t).
  Proof.
    unfold inputs. apply pres_bnd; [apply _|apply cmarks_emit|intros _]. apply pres_bnd; [apply _| |intros _; apply cmarks_store].
    destruct (g_inputs g); [apply cmarks_store|apply pres_ret, _].
  Qed.
  Lemma marks_process t b1 b2 : pres marks (process_model g t b1 b2).
  Proof.
    unfold process_model. apply pres_bnd; [apply _|apply marks_core, cmarks_inputs|intros _].
    apply pres_bnd; [apply _| |intros _].
    { apply pres_if; [|apply pres_ret, _]. apply marks_core, pres_bnd; [apply _|apply cmarks_pre_step|intros _; apply cmarks_snap]. }
    apply pres_bnd; [apply _| |intros _].
    { unfold eval_model. rewrite Hm. apply pres_bnd; [apply _|apply pres_gets, _|intros o]. apply marks_core. unfold fast_eval. apply pres_forM; [apply _|]. intros ls. apply pres_forM; [apply _|]. intros l. apply cmarks_leaf. }
    apply pres_bnd; [apply _|apply marks_core, cmarks_snap|intros _].
    apply pres_if; [|apply pres_ret, _]. apply marks_core, pres_bnd; [apply _|apply cmarks_post_step|intros _; apply cmarks_snap].
  Qed.
  Lemma marks_clear : pres (marks (D:=D)) clear_all.
  Proof. unfold clear_all. apply pres_bnd; [apply _|apply pres_gets, _|intros vs]. apply marks_store. Qed.
  Lemma marks_reset sv : pres marks (reset_sv g sv).
  Proof.
    unfold reset_sv. apply pres_bnd; [apply _|apply marks_clear|intros _]. apply pres_bnd; [apply _|apply pres_gets, _|intros ss]. apply pres_bnd; [apply _|apply pres_gets, _|intros aa]. apply marks_store.
  Qed.
  Lemma marks_get arr : pres marks (get_sv g arr).
  Proof.
    unfold get_sv. apply pres_bnd; [apply _|apply pres_gets, _|intros n]. apply pres_bnd; [apply _|apply pres_debug, _|intros _].
    apply pres_bnd; [apply _|apply pres_gets, _|intros ss]. apply pres_bnd; [apply _|apply pres_gets, _|intros aa].
    apply pres_bnd; [apply _|apply marks_store|intros x; destruct (write_prefix x arr); [apply pres_ret, _|apply pres_undef]].
  Qed.
  Lemma marks_minor t sv : pres marks (minor_cb g t sv).
  Proof.
    unfold minor_cb. apply pres_bnd; [apply _|apply marks_reset|intros _]. apply pres_bnd; [apply _|apply marks_process|intros _].
    apply pres_bnd; [apply _|apply pres_gets, _|intros ss]. apply pres_bnd; [apply _|apply pres_gets, _|intros aa]. apply pres_bnd; [apply _|apply marks_store|intros x].
    apply pres_bnd; [apply _|apply pres_gets, _|intros dv]. destruct (write_prefix x dv); [|apply pres_undef].
    apply pres_bnd; [apply _|by apply marks_modify|intros ?; apply pres_ret, _].
  Qed.
  Lemma marks_begin t : pres marks (begin_step g t).
  Proof.
    unfold begin_step. apply pres_bnd; [apply _|apply marks_clear|intros _]. apply pres_bnd; [apply _|apply marks_core, cmarks_inputs|intros _].
    apply marks_core, pres_bnd; [apply _|apply cmarks_pre_step|intros _; apply cmarks_snap].
  Qed.
  Lemma marks_loop fuel t lo hi t1 t2 force : pres marks (run_loop g fuel t lo hi t1 t2 force).
  Proof.
    revert t1 t2 force. induction fuel as [|fuel IH]; intros t1 t2 force; cbn [run_loop].
    { apply pres_if; [apply pres_oof|apply pres_ret, _]. }
    apply pres_if; [|apply pres_ret, _].
    apply pres_bnd; [apply _|apply marks_begin|intros _].
    apply pres_bnd; [apply _|apply pres_gets, _|intros o]. apply pres_bnd; [apply _|apply marks_get|intros x].
    apply pres_bnd; [apply _|by apply marks_modify|intros _].
    destruct (g_stepper g) as [stp|] eqn:Es; [|apply pres_undef].
    apply pres_bnd; [apply _|apply Hstp; [done|apply _|intros; apply marks_minor]|intros r].
    apply pres_bnd; [apply _|by apply marks_modify|intros _].
    apply pres_bnd; [apply _|apply marks_core, cmarks_emit|intros _]. cbv zeta.
    apply pres_if; [|apply IH].
    apply pres_bnd; [apply _| |intros _; apply IH]. apply pres_if; [|apply pres_ret, _].
    apply pres_bnd; [apply _|apply pres_gets, _|intros sv]. apply pres_bnd; [apply _|apply marks_reset|intros _].
    apply marks_process.
  Qed.
  Lemma marks_run fuel t lo hi s s' : s_init s = true -> run g fuel t lo hi s = Ok tt s' -> marks s s'.
  Proof.
    intros Hi. unfold run. unfold bnd at 1, gets at 1. rewrite Hi. cbn [negb]. intros E.
    match type of E with ?m s = _ => assert (pres marks m) as Hp end.
    { apply pres_bnd; [apply _|apply pres_gets, _|intros n]. apply pres_bnd; [apply _|apply pres_gets, _|intros tp].
      apply pres_bnd; [apply _| |intros _].
      { destruct n; [apply pres_ret, _|]. apply pres_if; [apply pres_throw, _|]. apply pres_if.
        - apply pres_bnd; [apply _|apply marks_begin|intros _].
          apply pres_bnd; [apply _|apply pres_gets, _|intros o]. apply pres_bnd; [apply _|apply marks_get|intros x]. by apply marks_modify.
        - apply pres_bnd; [apply _|apply pres_debug, _|intros _]. apply pres_bnd; [apply _|apply pres_debug, _|intros _].
          apply pres_bnd; [apply _|apply pres_debug, _|intros _]. apply marks_loop. }
      apply pres_bnd; [apply _|apply pres_gets, _|intros sv]. apply pres_bnd; [apply _|apply marks_reset|intros _].
      apply pres_bnd; [apply _|apply marks_process|intros _]. by apply marks_modify. }
    specialize (Hp s). by rewrite E in Hp.
  Qed.
  (** init marks every block. *)
  Lemma marks_init t0 s s' : wf_tree tr -> s_fast s = [] -> init g t0 s = Ok tt s' -> forall l, l ∈ leaves tr -> l_id l ∈ k_done (s_core s').
  Proof.
    intros Hw Hf E l Hl. unfold init in E. rewrite Hm in E. unfold fast_init in E.
    apply bnd_Ok in E as (? & s1 & _ & E). apply bnd_Ok in E as (? & s2 & _ & E). apply bnd_Ok in E as (? & s3 & _ & E).
    apply bnd_Ok in E as (? & s4 & _ & E). apply bnd_Ok in E as (? & s5 & _ & E). apply bnd_Ok in E as ([order n] & s6 & E6 & E).
    apply bnd_Ok in E as (? & s7 & E7 & E). apply bnd_Ok in E as (? & s8 & E8 & E). apply bnd_Ok in E as (? & s9 & E9 & E). apply bnd_Ok in E as (? & s10 & E10 & E).
    unfold on_core', on_dyn, on_core, lift in E6.
    pose proof (fast_schedule_spec (g_dbg g) t0 (leaves tr) (d_core (s_dyn s5)) (wf_leaves tr Hw)) as Hsp.
    destruct (fast_schedule (g_dbg g) (leaves tr) t0 (d_core (s_dyn s5))) as [[order' n'] c6| | |] eqn:E5; try done. injection E6 as -> -> <-.
    destruct Hsp as (Hr & Hin & -> & _). injection E7 as <-. unfold verify in E8. cbn [snd] in E8.
    destruct (Nat.eqb_spec (length (concat order)) (length (leaves tr))) as [El|]; [|done]. injection E8 as <-.
    assert (l_id l ∈ k_done c6) as Hd.
    { apply legal_run_basic in Hr as (Hn & _ & -> & _). apply NoDup_fmap_1 in Hn. apply elem_of_union_l, elem_of_list_to_set, elem_of_list_fmap. exists l. split; [done|].
      assert (concat order ≡ₚ leaves tr) as ->; [|done]. apply submseteq_Permutation_length_eq; [done|]. by apply NoDup_submseteq. }
    pose proof (marks_core (snap (EvEval t0)) (cmarks_snap _) s8) as H9. rewrite E9 in H9. pose proof (marks_clear s9) as H10. rewrite E10 in H10.
    pose proof (marks_process t0 true true s10) as H11. rewrite E in H11. apply H11, H10, H9. subst s8 s7. exact Hd.
  Qed.
End fast.

(** ** One sitting after the other *)
Section sess.
  Context {D : Type} `{NumOps D} {Hord : NumOrd D} {Hadd : NumAdd D} (w : world D) (b : bid).
  Notation K := (sig_kinds w).
  Notation dv := (sig_derivs w).
  Notation y := (lib (sig_kinds w)).
  (** What a sitting leaves behind for the next. *)
  Definition left_by (tr : tree D) (used : bool) (τ : option D) (d : dyn D) : Prop :=
    good K dv (k_store (d_core d)) /\ (forall l, l ∈ leaves tr -> y_inv y l τ (lst_of (d_core d) (l_id l))) /\
    (forall l, l ∈ leaves tr -> if used then l_id l ∈ k_done (d_core d) else l_id l ∉ k_done (d_core d)).
  Section one.
  Context (g : cfg D) (ins1 ins2 : list nat) (Hc : checked w b g ins1 ins2).
  Context (Hstp : forall stp, g_stepper g = Some stp -> stepper_ok stp).
  Notation nxt := (later (g_tree g)).
  Lemma again_fresh used τ t0 d : left_by (g_tree g) used τ d -> may_end nxt τ t0 -> (used = true -> g_mode g = MFast -> leaves (g_tree g) = []) -> fresh g K dv nxt y τ t0 d.
  Proof.
    intros (Hg & Hi & Hd) Hm Hu. pose proof (checked_fresh w b g ins1 ins2 Hc t0) as Hfr. split; [done|done|done|apply Hfr|].
    intros l Em Hl. specialize (Hd l Hl). destruct used; [|done]. rewrite (Hu eq_refl Em) in Hl. by apply elem_of_nil in Hl.
  Qed.
  Lemma again_wf : wf_tree (g_tree g).
  Proof. exact (sn_wf _ _ _ _ _ _ _ (checked_sane w b g ins1 ins2 Hc)). Qed.
  Definition over (t : D) (s : simst D) : Prop := prepared w g ins1 ins2 t s /\ (g_mode g = MFast -> forall l, l ∈ leaves (g_tree g) -> l_id l ∈ k_done (s_core s)).
  Lemma over_left t s : over t s -> left_by (g_tree g) true (Some t) (s_dyn s).
  Proof.
    intros [[(Hso & Hi & Hf) [_ Hfd]] Hd]. destruct Hf as [Hg Hiv]. split; [done|]. split; [done|]. intros l Hl. destruct (g_mode g) eqn:Em; [by apply Hfd|by apply Hfd|by apply Hd].
  Qed.
  Lemma again_init used τ t0 d : left_by (g_tree g) used τ d -> may_end nxt τ t0 -> (used = true -> g_mode g = MFast -> leaves (g_tree g) = []) ->
    exists s, init g t0 (new_sim d) = Ok tt s /\ over t0 s /\ s_tprev s = t0.
  Proof.
    intros Hl Hm Hu. destruct (init_ok g K dv nxt y ins1 ins2 (checked_sane w b g ins1 ins2 Hc) τ t0 d (again_fresh _ _ _ _ Hl Hm Hu)) as (s & E & Hr & Et & Hfu).
    exists s. split; [done|]. split; [|done]. split; [done|]. intros Em. apply (marks_init g Em t0 (new_sim d) s again_wf eq_refl E).
  Qed.
  Lemma again_run fuel t lo hi s : over (s_tprev s) s -> allowed g (s_tprev s) t lo hi ->
    match run g fuel t lo hi s with Ok _ s' => over t s' /\ s_tprev s' = t | OOF => True | _ => False end.
  Proof.
    intros [Hp Hd] Ha. pose proof (checked_run w b g ins1 ins2 Hc fuel t lo hi s Hp Ha) as H1. destruct (run g fuel t lo hi s) as [[] s'| | |] eqn:E; try done. destruct H1 as [H1 H2].
    split; [|done]. split; [done|]. intros Em l Hl. eapply (marks_run g Em Hstp); [|exact E|by apply Hd]. by destruct Hp as [(_ & Hi & _) _].
  Qed.
  Lemma again_drive fuel calls s : over (s_tprev s) s -> permitted g (s_tprev s) calls ->
    match drive g fuel calls s with Ok _ s' => over (s_tprev s') s' /\ s_tprev s' = end_of (s_tprev s) calls | OOF => True | _ => False end.
  Proof.
    revert s. induction calls as [|[[t lo] hi] cs IH]; intros s Hr Hp; [done|]. cbn [permitted] in Hp. destruct Hp as [Ha Hp]. cbn [drive]. unfold bnd.
    pose proof (again_run fuel t lo hi s Hr Ha) as H1. destruct (run g fuel t lo hi s) as [[] s1| | |]; try done. destruct H1 as [Hr1 E1].
    specialize (IH s1). rewrite E1 in IH. specialize (IH Hr1 Hp). destruct (drive g fuel cs s1) as [[] s2| | |]; try done. destruct IH as [Hr2 E2]. split; [done|]. rewrite E2. by rewrite end_cons.
  Qed.
  Lemma again_program used τ fuel t0 calls d : left_by (g_tree g) used τ d -> may_end nxt τ t0 -> (used = true -> g_mode g = MFast -> leaves (g_tree g) = []) -> permitted g t0 calls ->
    match program g fuel t0 calls (new_sim d) with
    | Ok _ s => s_tprev s = end_of t0 calls /\ settled w g ins1 ins2 s /\ left_by (g_tree g) true (Some (end_of t0 calls)) (s_dyn s)
    | OOF => True | _ => False end.
  Proof.
    intros Hl Hm Hu Hp. destruct (again_init used τ t0 d Hl Hm Hu) as (s & E & Hr & Et). unfold program, bnd. rewrite E. rewrite <- Et in Hr, Hp.
    pose proof (again_drive fuel calls s Hr Hp) as Hd. destruct (drive g fuel calls s) as [[] s'| | |]; try done. destruct Hd as [Hr' Et']. rewrite Et in Et'. split; [done|].
    split; [by eapply ready_settled; [exact Hc|apply Hr']|]. rewrite <- Et'. by apply over_left.
  Qed.
  Lemma again_refused τ fuel t0 calls d : g_mode g = MFast -> leaves (g_tree g) ≠ [] -> left_by (g_tree g) true τ d ->
    exists s, program g fuel t0 calls (new_sim d) = Exn EFast s /\ left_by (g_tree g) true τ (s_dyn s).
  Proof.
    intros Em Hne (Hg & Hi & Hd). destruct (init_refused g K dv nxt y ins1 ins2 (checked_sane w b g ins1 ins2 Hc) τ t0 d Em Hg Hi) as (s & E & [Hg' Hi'] & Hsub).
    { destruct (leaves (g_tree g)) as [|l ls] eqn:El; [done|]. exists l. split; [apply elem_of_list_here|]. apply Hd. apply elem_of_list_here. }
    exists s. unfold program, bnd. rewrite E. split; [done|]. split; [done|]. split; [done|]. intros l Hl. by apply Hsub, Hd.
  Qed.
  Lemma again_total used τ fuel t0 calls d : left_by (g_tree g) used τ d -> may_end nxt τ t0 -> (used = true -> g_mode g = MFast -> leaves (g_tree g) = []) -> permitted g t0 calls ->
    (forall stp, g_stepper g = Some stp -> constant stp) -> program g (S fuel) t0 calls (new_sim d) ≠ OOF.
  Proof.
    intros Hl Hm Hu Hp Hcs. destruct (again_init used τ t0 d Hl Hm Hu) as (s & E & Hr & Et). unfold program, bnd. rewrite E. rewrite <- Et in Hr, Hp.
    destruct (drive_total w b g ins1 ins2 Hc (fun _ _ _ _ _ => True) (S fuel) calls s) as (s' & -> & Hr' & Et'); [| |apply Hr|done|done].
    - intros t lo hi s1 Hr1 Ha _. by eapply fixed_total.
    - clear. generalize (s_tprev s). induction calls as [|[[t lo] hi] cs IH]; intros tp; [exact I|]. split; [exact I|apply IH].
  Qed.
  End one.

  Lemma new_left g ins1 ins2 : checked w b g ins1 ins2 -> left_by (g_tree g) false None (initial_dyn w).
  Proof.
    intros Hc. pose proof (checked_fresh w b g ins1 ins2 Hc n0) as Hfr. split; [apply Hfr|]. split; [apply Hfr|]. intros l Hl. unfold initial_dyn, initial_core. cbn. set_solver.
  Qed.
  Lemma refused_dec used (p : sitting D) : refused used p \/ ~ refused used p.
  Proof.
    unfold refused. destruct used; [|right; by intros [? _]]. destruct (g_mode (st_cfg p)); [right; by intros (_ & ? & _)|right; by intros (_ & ? & _)|].
    destruct (leaves (g_tree (st_cfg p))); [right; by intros (_ & _ & ?)|left; done].
  Qed.
  Lemma sittings_ok tr fuel ps : (forall p, p ∈ ps -> checked w b (st_cfg p) (st_ins1 p) (st_ins2 p) /\ g_tree (st_cfg p) = tr /\ forall stp, g_stepper (st_cfg p) = Some stp -> stepper_ok stp) ->
    forall used τ d, left_by tr used τ d -> admissible used τ ps ->
    match sittings fuel ps d with Ok rs _ => expected w used ps rs | OOF => True | _ => False end.
  Proof.
    induction ps as [|p ps IH]; intros Hps used τ d Hl Ha; [done|]. destruct (Hps p (elem_of_list_here _ _)) as (Hc & Et & Hst). specialize (IH (fun q Hq => Hps q (elem_of_list_further _ _ _ Hq))).
    cbn [sittings admissible] in *. destruct Ha as [Ha1 Ha2].
    destruct (refused_dec used p) as [Hr|Hr].
    - specialize (Ha1 Hr). pose proof Hr as (-> & Em & Hne). subst tr. destruct (again_refused _ _ _ Hc τ fuel (st_start p) (st_calls p) d Em Hne Hl) as (s & -> & Hl').
      specialize (IH true τ (s_dyn s) Hl' Ha1). destruct (sittings fuel ps (s_dyn s)); try done.
    - destruct (Ha2 Hr) as (Hs & Hp & Hrest). subst tr.
      pose proof (again_program _ _ _ Hc Hst used τ fuel (st_start p) (st_calls p) d Hl) as Hpr.
      assert (may_end (later (g_tree (st_cfg p))) τ (st_start p)) as Hme. { destruct τ as [a|]; [|done]. intros Hd. by apply Hs. }
      assert (used = true -> g_mode (st_cfg p) = MFast -> leaves (g_tree (st_cfg p)) = []) as Hu.
      { intros -> Em. destruct (leaves (g_tree (st_cfg p))) eqn:El; [done|]. exfalso. apply Hr. unfold refused. rewrite El. done. }
      specialize (Hpr Hme Hu Hp). destruct (program _ _ _ _ _) as [[] s| | |]; try done. destruct Hpr as (E1 & E2 & E3).
      specialize (IH true _ _ E3 Hrest). destruct (sittings fuel ps (s_dyn s)); try done.
  Qed.
  Lemma sittings_total tr fuel ps : (forall p, p ∈ ps -> checked w b (st_cfg p) (st_ins1 p) (st_ins2 p) /\ g_tree (st_cfg p) = tr /\ forall stp, g_stepper (st_cfg p) = Some stp -> stepper_ok stp /\ constant stp) ->
    forall used τ d, left_by tr used τ d -> admissible used τ ps -> sittings (S fuel) ps d ≠ OOF.
  Proof.
    induction ps as [|p ps IH]; intros Hps used τ d Hl Ha; [done|]. destruct (Hps p (elem_of_list_here _ _)) as (Hc & Et & Hst). specialize (IH (fun q Hq => Hps q (elem_of_list_further _ _ _ Hq))).
    cbn [sittings admissible] in *. destruct Ha as [Ha1 Ha2]. destruct (refused_dec used p) as [Hr|Hr].
    - specialize (Ha1 Hr). pose proof Hr as (-> & Em & Hne). subst tr. destruct (again_refused _ _ _ Hc τ (S fuel) (st_start p) (st_calls p) d Em Hne Hl) as (s & -> & Hl').
      specialize (IH true τ (s_dyn s) Hl' Ha1). by destruct (sittings (S fuel) ps (s_dyn s)).
    - destruct (Ha2 Hr) as (Hs & Hp & Hrest). subst tr.
      assert (may_end (later (g_tree (st_cfg p))) τ (st_start p)) as Hme. { destruct τ as [a|]; [|done]. intros Hd. by apply Hs. }
      assert (used = true -> g_mode (st_cfg p) = MFast -> leaves (g_tree (st_cfg p)) = []) as Hu.
      { intros -> Em. destruct (leaves (g_tree (st_cfg p))) eqn:El; [done|]. exfalso. apply Hr. unfold refused. rewrite El. done. }
      pose proof (again_program _ _ _ Hc (fun stp E => proj1 (Hst stp E)) used τ (S fuel) (st_start p) (st_calls p) d Hl Hme Hu Hp) as Hpr.
      pose proof (again_total _ _ _ Hc used τ fuel (st_start p) (st_calls p) d Hl Hme Hu Hp (fun stp E => proj2 (Hst stp E))) as Ht.
      destruct (program _ _ _ _ _) as [[] s| | |]; try done. destruct Hpr as (E1 & E2 & E3).
      specialize (IH true _ _ E3 Hrest). by destruct (sittings (S fuel) ps (s_dyn s)).
  Qed.
End sess.
