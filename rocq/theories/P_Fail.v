(** Only post_step changes what a run that throws finds in the blocks. *)
From stdpp Require Import prelude gmap.
From Coq Require Import ZArith.
From Verif Require Import Num Res Store Leaf Sched Stepper Sim SpecSched P_Store P_Prog P_Modes P_Conf P_Sched P_Eval P_Lib P_Fast P_Sim P_Evolve
  P_Simulated P_Rel P_Rel2 SpecHist P_Trace SpecRun P_Log P_Pack P_Repeat SpecAgain P_Over P_Redo SpecFail.
Local Open Scope num_scope.

Lemma no_post_app {D} (u v : list (event D)) : no_post (u ++ v) <-> no_post u /\ no_post v.
Proof.
  unfold no_post. split.
  - intros Hn. split; intros e He; apply Hn, elem_of_app; auto.
  - intros [H1 H2] e [He|He]%elem_of_app; auto.
Qed.

Section core.
  Context {D : Type} `{NumOps D}.
  Implicit Types c : core D.
  (** Members change only through post_step. *)
  Definition kept (c c' : core D) : Prop :=
    exists v, k_log c' = k_log c ++ v /\
      (no_post v -> forall b, same_member (lst_of c b) (lst_of c' b)) /\
      (forall v1 t σ ms v2, v = v1 ++ EvStep t σ ms :: v2 -> no_post v2 -> forall b, same_member (member ms b) (lst_of c' b)).
  Global Instance kept_pre : PreOrder kept.
  Proof.
    split.
    - intros c. exists []. split; [by rewrite app_nil_r|]. split; [intros _ b; by left|]. intros v1 t σ ms v2 E. by destruct v1.
    - intros c1 c2 c3 (v & E1 & H1 & H1') (u & E2 & H2 & H2'). exists (v ++ u). split; [by rewrite E2, E1, app_assoc|]. split.
      + intros [Hv Hu]%no_post_app b. eapply same_member_trans; [by apply H1|by apply H2].
      + intros v1 t σ ms v2 E Hn b. apply app_eq_app in E as (l & [[-> E]|[-> E]]).
        * destruct l as [|e l].
          { cbn in E. rewrite app_nil_r in *. eapply (H2' []); [symmetry; exact E|done]. }
          injection E as <- ->. apply no_post_app in Hn as [Hl Hu].
          eapply same_member_trans; [eapply H1'; [reflexivity|exact Hl]|by apply H2].
        * by eapply H2'.
  Qed.
  Lemma kept_same c c' v : k_log c' = k_log c ++ v -> (forall t σ ms, EvStep t σ ms ∉ v) -> (forall b, same_member (lst_of c b) (lst_of c' b)) -> kept c c'.
  Proof.
    intros E Hv Hb. exists v. split; [done|]. split; [done|]. intros v1 t σ ms v2 -> _. destruct (Hv t σ ms). apply elem_of_app. right. left.
  Qed.
  Lemma kept_quiet c c' : k_log c' = k_log c -> k_lst c' = k_lst c -> kept c c'.
  Proof.
    intros E El. apply (kept_same _ _ []); [by rewrite app_nil_r|by intros t σ ms ?%elem_of_nil|]. intros b. unfold lst_of. rewrite El. by left.
  Qed.
  Lemma kept_store {A} (m : M (store D) A) : pres kept (on_store m).
  Proof. intros c. unfold on_store, lift. destruct (m _); try done; by apply kept_quiet. Qed.
  Lemma kept_emit e : (forall t σ ms, e <> EvStep t σ ms) -> pres kept (emit e).
  Proof.
    intros He. apply pres_modify. intros c. apply (kept_same _ _ [e]); [done| |by left]. intros t σ ms E%elem_of_list_singleton. symmetry in E. by eapply He.
  Qed.
  Lemma kept_snap (ev : store D -> gmap nat (lstate D) -> event D) : (forall σ ms t σ' ms', ev σ ms <> EvStep t σ' ms') -> pres kept (snap ev).
  Proof.
    intros He. apply pres_modify. intros c. apply (kept_same _ _ [ev (k_store c) (members c)]); [done| |by left].
    intros t σ ms E%elem_of_list_singleton. symmetry in E. by eapply He.
  Qed.
  Lemma kept_step t : pres kept (snap (EvStep t)).
  Proof.
    apply pres_modify. intros c. eexists. split; [reflexivity|]. split; [intros _ b; by left|].
    intros v1 t' σ ms v2 E Hn b. assert (v1 = [] /\ v2 = []) as [-> ->].
    { destruct v1 as [|e1 v1]; [by injection E|]. injection E as _ E. by destruct v1. }
    injection E as <- <- <-. rewrite member_lst. by left.
  Qed.
  Lemma returns_run {A} (Q : A -> Prop) dbg (p : prog D A) σ a σ' : returns Q p -> run_prog dbg p σ = Ok a σ' -> Q a.
  Proof.
    revert σ. induction p as [b|s k IH|s v p IH|c e p IH|e|u]; intros σ Hp E; cbn in *; try done.
    - by injection E as <- <-.
    - unfold bnd in E. destruct (get_value dbg s σ) as [v σ1| | |]; try done. by eapply IH.
    - unfold bnd in E. destruct (set_value dbg s v σ) as [v' σ1| | |]; try done. by eapply IH.
    - unfold bnd in E. destruct (debug_verify dbg c e σ) as [v' σ1| | |]; try done. by eapply IH.
  Qed.
  Lemma kept_leaf dbg ev l p : (forall t σ ms, ev <> EvStep t σ ms) -> (is_post ev = false -> forall m, returns (same_member m) (p m)) ->
    pres kept (run_leaf dbg ev l p).
  Proof.
    intros He Hp c. unfold run_leaf. destruct (run_prog dbg _ _) as [st σ|e σ|u|] eqn:E; try done; [|by apply kept_quiet].
    exists [ev]. split; [done|]. split.
    - intros Hn b. unfold lst_of. cbn [k_lst]. destruct (decide (b = l_id l)) as [->|Hne]; [|rewrite lookup_insert_ne by done; by left].
      rewrite lookup_insert. cbn. eapply (returns_run (same_member (lst_of c (l_id l)))); [|exact E]. apply Hp, Hn. left.
    - intros v1 t σ' ms v2 Ev. destruct v1 as [|e1 v1]; [|injection Ev as _ Ev; by destruct v1]. injection Ev as Ev _. by destruct (He _ _ _ Ev).
  Qed.
  Lemma kept_activate dbg l t : steady l -> pres kept (activate dbg l t).
  Proof. intros Hl. apply kept_leaf; [done|]. intros _ m. apply Hl. Qed.
  Lemma kept_process dbg l t : steady l -> pres kept (leaf_process dbg l t).
  Proof.
    intros Hl c. unfold leaf_process. destruct (_ || _); [reflexivity|]. revert c. change (pres kept (activate dbg l t ;;; set_done (l_id l) ;;; ret 1%nat)).
    apply pres_bnd; [apply _|by apply kept_activate|intros _]. apply pres_bnd; [apply _| |intros _; by apply pres_ret; apply _].
    apply pres_modify. intros c. by apply kept_quiet.
  Qed.
  Definition kept_dyn (d d' : dyn D) : Prop := kept (d_core d) (d_core d').
  Global Instance kept_dyn_pre : PreOrder kept_dyn.
  Proof. split; [intros d; unfold kept_dyn; reflexivity|]. intros d1 d2 d3. unfold kept_dyn. apply transitivity. Qed.
  Lemma kept_on_core {A} (m : M (core D) A) : pres kept m -> pres kept_dyn (on_core m).
  Proof. apply pres_lift. intros c σ Hs. exact Hs. Qed.
  Lemma kept_marked (tr : tree D) d : wf_tree tr -> kept_dyn d (mark_unprocessed tr d).
  Proof. intros Hw. apply kept_quiet; [by rewrite marked_log|by rewrite marked_lst]. Qed.
End core.

Section eval.
  Context {D : Type} `{NumOps D} (dbg : bool).
  Implicit Types d : dyn D.
  Lemma kept_tree : forall (tr : tree D) t, (forall l, l ∈ leaves tr -> steady l) -> pres kept_dyn (process dbg tr t).
  Proof.
    fix IH 1. intros [l|b k ch] t Hl; cbn [process]; [apply kept_on_core, kept_process, Hl; left|].
    apply pres_bnd; [apply _|apply pres_gets, _|intros []; [apply pres_ret, _|]].
    apply pres_bnd; [apply _|apply pres_modify; intros d; unfold kept_dyn; cbn; reflexivity|intros _].
    assert (forall l, l ∈ concat (map leaves ch) -> steady l) as Hl' by exact Hl. clear Hl. rename Hl' into Hl.
    generalize 0%nat. induction ch as [|c ch IHc]; intros n; [apply pres_ret, _|].
    apply pres_bnd; [apply _|apply IH; intros l Hi; apply Hl; cbn; apply elem_of_app; by left|intros kk].
    apply pres_bnd; [apply _|apply pres_gets, _|intros q].
    apply pres_bnd; [apply _| |intros _; apply IHc; intros l Hi; apply Hl; cbn; apply elem_of_app; by right].
    apply pres_if; [apply pres_ret, _|]. apply pres_modify. intros d. unfold kept_dyn; cbn; reflexivity.
  Qed.
  Lemma kept_loop fuel (tr : tree D) t : (forall l, l ∈ leaves tr -> steady l) -> pres kept_dyn (process_loop dbg fuel tr t).
  Proof.
    intros Hl. induction fuel as [|fuel IH]; cbn [process_loop]; [apply pres_oof|].
    apply pres_bnd; [apply _|by apply kept_tree|intros [|k]; [apply pres_ret, _|done]].
  Qed.
  Definition steady_node (n : node D) : Prop := match n with NLeaf l => steady l | NSub _ _ => True end.
  Lemma kept_reuse_pass po t : (forall n, n ∈ po -> steady_node n) -> pres kept_dyn (reuse_pass dbg po t).
  Proof.
    induction po as [|n po IH]; intros Hn; cbn [reuse_pass]; [apply pres_ret, _|].
    assert (pres kept_dyn (reuse_pass dbg po t)) as IH' by (apply IH; intros n' Hi; apply Hn; by right).
    apply pres_bnd; [apply _|apply pres_gets, _|intros []; [exact IH'|]].
    apply pres_bnd; [apply _| |intros _].
    { pose proof (Hn n (elem_of_list_here _ _)) as Hs. destruct n as [l|b k]; cbn [node_process].
      - apply pres_bnd; [apply _|by apply kept_on_core, kept_process|intros _; apply pres_ret, _].
      - apply pres_modify. intros d. unfold kept_dyn; cbn; reflexivity. }
    apply pres_bnd; [apply _|apply pres_gets, _|intros q]. apply pres_bnd; [apply _|exact IH'|intros r; apply pres_ret, _].
  Qed.
  Lemma kept_reuse_loop fuel po t acc : (forall n, n ∈ po -> steady_node n) -> pres kept_dyn (reuse_loop dbg fuel po t acc).
  Proof.
    intros Hn. revert acc. induction fuel as [|fuel IH]; intros acc; cbn [reuse_loop]; [apply pres_oof|].
    apply pres_bnd; [apply _|by apply kept_reuse_pass|intros [|n r]; [apply pres_ret, _|apply IH]].
  Qed.
  Lemma kept_reuse_all po t : (forall n, n ∈ po -> steady_node n) -> pres kept_dyn (reuse_all dbg po t).
  Proof.
    intros Hn. unfold reuse_all. apply pres_bnd; [apply _|by apply kept_reuse_loop|intros acc].
    apply pres_bnd; [apply _|apply pres_gets, _|intros r]. apply pres_bnd; [apply _|apply pres_debug, _|intros _; apply pres_ret, _].
  Qed.
  Lemma kept_fast_eval order t : (forall l, l ∈ concat order -> steady l) -> pres kept (fast_eval dbg order t).
  Proof.
    unfold fast_eval. induction order as [|ls order IH]; intros Hl; cbn [forM]; [apply pres_ret, _|].
    apply pres_bnd; [apply _| |intros _; apply IH; intros l Hi; apply Hl; cbn; apply elem_of_app; by right].
    assert (forall l, l ∈ ls -> steady l) as Hs by (intros l Hi; apply Hl; cbn; apply elem_of_app; by left).
    clear -Hs. induction ls as [|l ls IH]; cbn [forM]; [apply pres_ret, _|].
    apply pres_bnd; [apply _|apply kept_activate, Hs; left|intros _; apply IH; intros l' Hi; apply Hs; by right].
  Qed.
  Lemma kept_pre_step : forall (tr : tree D) t, (forall l, l ∈ leaves tr -> steady l) -> pres kept (pre_step dbg tr t).
  Proof.
    fix IH 1. intros [l|b k ch] t Hl; cbn [pre_step].
    { apply kept_leaf; [done|]. intros _ m. apply Hl. left. }
    assert (forall l, l ∈ concat (map leaves ch) -> steady l) as Hl' by exact Hl. clear Hl. rename Hl' into Hl.
    induction ch as [|c ch IHc]; [apply pres_ret, _|].
    apply pres_bnd; [apply _|apply IH; intros l Hi; apply Hl; cbn; apply elem_of_app; by left|].
    intros _; apply IHc; intros l Hi; apply Hl; cbn; apply elem_of_app; by right.
  Qed.
  Lemma kept_post : forall (tr : tree D) t, pres kept (post_step dbg tr t).
  Proof.
    fix IH 1. intros [l|b k ch] t; cbn [post_step].
    { by apply kept_leaf. }
    induction ch as [|c ch IHc]; [apply pres_ret, _|]. apply pres_bnd; [apply _|apply IH|intros _; apply IHc].
  Qed.
End eval.

Section run.
  Context {D : Type} `{NumOps D} (g : cfg D) (Hw : wf_tree (g_tree g)).
  Context (Hst : forall l, l ∈ leaves (g_tree g) -> steady l).
  Context (Hstp : forall stp, g_stepper g = Some stp -> stepper_ok stp).
  Implicit Types s : simst D.
  Definition kept_sim s s' : Prop := evo g s s' /\ (ready g s -> kept (s_core s) (s_core s')).
  Global Instance kept_sim_pre : PreOrder kept_sim.
  Proof.
    split; [intros s; split; [reflexivity|intros _; reflexivity]|].
    intros s1 s2 s3 [V1 K1] [V2 K2]. split; [by etrans|]. intros Hr. etrans; [by apply K1|]. apply K2. exact (ready_evo g Hw _ _ V1 Hr).
  Qed.
  Lemma both_sim {A} (m : M (simst D) A) : pres (evo g) m -> (forall s, ready g s -> match m s with Ok _ s' | Exn _ s' => kept (s_core s) (s_core s') | _ => True end) ->
    pres kept_sim m.
  Proof.
    intros Hm Hk s. specialize (Hm s). specialize (Hk s). destruct (m s) as [a s'|e s'|u|]; [..|done|done]; split; auto.
  Qed.
  Lemma ks_core (m : M (core D) unit) : pres (core_evo (g_dbg g)) m -> pres kept m -> pres kept_sim (on_core' m).
  Proof.
    intros Hm Hk. apply both_sim; [by apply pres_on_core'|]. intros s _. unfold on_core', on_dyn, on_core, lift.
    change (d_core (s_dyn s)) with (s_core s). specialize (Hk (s_core s)). by destruct (m (s_core s)).
  Qed.
  Lemma ks_store {A} (m : M (store D) A) : pres (shape (g_dbg g)) m -> pres kept_sim (on_store' m).
  Proof.
    intros Hm. apply both_sim; [by apply pres_on_store'|]. intros s _. unfold on_store', on_core', on_dyn, on_core, on_store, lift.
    destruct (m _); try done; by apply kept_quiet.
  Qed.
  Lemma ks_same f : (forall s, s_dyn (f s) = s_dyn s) -> (forall s, evo g s (f s)) -> pres kept_sim (modify f).
  Proof. intros Hf He. apply pres_modify. intros s. split; [done|]. intros _. unfold s_core. rewrite Hf. reflexivity. Qed.
  Lemma ks_quiet {A} (m : M (simst D) A) : pres (evo g) m -> (forall s, match m s with Ok _ s' | Exn _ s' => s_log s' = s_log s /\ k_lst (s_core s') = k_lst (s_core s) | _ => True end) ->
    pres kept_sim m.
  Proof. intros Hm Hq. apply both_sim; [done|]. intros s _. specialize (Hq s). destruct (m s); try done; destruct Hq; by apply kept_quiet. Qed.
  Lemma ks_inputs t : pres kept_sim (on_core' (inputs g t)).
  Proof.
    apply ks_core; [apply pres_inputs|]. unfold inputs. apply pres_bnd; [apply _|by apply kept_emit|intros _].
    apply pres_bnd; [apply _| |intros _; apply kept_store]. destruct (g_inputs g); [apply kept_store|apply pres_ret, _].
  Qed.
  Lemma ks_pre t : pres kept_sim (on_core' (pre_step (g_dbg g) (g_tree g) t ;;; snap (EvBegin t))).
  Proof.
    apply ks_core; [apply pres_pre_snap|]. apply pres_bnd; [apply _|by apply kept_pre_step|intros _; by apply kept_snap].
  Qed.
  Lemma ks_eval t : pres kept_sim (eval_model g t).
  Proof.
    apply both_sim; [apply pres_eval_model|]. intros s Hr. unfold s_core. destruct (g_mode g) eqn:Em.
    - rewrite eval_default by done. unfold evaluate, process_all.
      pose proof (kept_loop (g_dbg g) (S (length (leaves (g_tree g)))) (g_tree g) t Hst (mark_unprocessed (g_tree g) (s_dyn s))) as Hp.
      destruct (process_loop _ _ _ _ _); try done; cbn; (etrans; [by apply (kept_marked (g_tree g))|exact Hp]).
    - unfold ready in Hr. rewrite Em in Hr. destruct Hr as [Hc|Ho].
      + unfold eval_model. rewrite Em. unfold bnd, on_dyn, lift, modify, gets. cbn. by rewrite Hc.
      + unfold ordered in Ho. rewrite Em in Ho. destruct Ho as (po & Ep & Hcov). rewrite (eval_reuse g t s po Em Ep). unfold evaluate_reuse.
        assert (forall n, n ∈ po -> steady_node n) as Hn.
        { intros [l|b k] Hn; [|done]. cbn. apply Hst. apply Hcov in Hn. by apply nodes_leaves. }
        pose proof (kept_reuse_all (g_dbg g) po t Hn (mark_unprocessed (g_tree g) (s_dyn s))) as Hp.
        destruct (reuse_all _ _ _ _) as [po' d|e d|u|]; try done.
        * change (kept (s_core s) (s_core (remember po' (put_dyn d s)))). rewrite remember_core. etrans; [by apply (kept_marked (g_tree g))|exact Hp].
        * etrans; [by apply (kept_marked (g_tree g))|exact Hp].
    - unfold ready in Hr. rewrite Em in Hr. unfold eval_model. rewrite Em. unfold bnd, gets, on_core', on_dyn, on_core, lift.
      pose proof (kept_fast_eval (g_dbg g) (s_fast s) t) as Hp. assert (forall l, l ∈ concat (s_fast s) -> steady l) as Hl by (intros l; rewrite Hr; apply Hst).
      specialize (Hp Hl (d_core (s_dyn s))). by destruct (fast_eval _ _ _ _).
  Qed.
  Lemma ks_process t b1 b2 : pres kept_sim (process_model g t b1 b2).
  Proof.
    unfold process_model. apply pres_bnd; [apply _|apply ks_inputs|intros _].
    apply pres_bnd; [apply _|apply pres_if; [apply ks_pre|apply pres_ret, _]|intros _].
    apply pres_bnd; [apply _|apply ks_eval|intros _].
    apply pres_bnd; [apply _|apply ks_core; [apply pres_snap|by apply kept_snap]|intros _].
    apply pres_if; [|apply pres_ret, _]. apply ks_core.
    - apply pres_bnd; [apply _|apply pres_post_step|intros _; apply pres_snap].
    - apply pres_bnd; [apply _|apply kept_post|intros _; apply kept_step].
  Qed.
  Lemma ks_clear : pres kept_sim clear_all.
  Proof.
    unfold clear_all. apply pres_bnd; [apply _|apply pres_gets, _|intros vs]. apply ks_store. apply pres_forM; [apply _|]. intros s. apply pres_clear.
  Qed.
  Lemma ks_reset sv : pres kept_sim (reset_sv g sv).
  Proof.
    unfold reset_sv. apply pres_bnd; [apply _|apply ks_clear|intros _]. apply pres_bnd; [apply _|apply pres_gets, _|intros ss].
    apply pres_bnd; [apply _|apply pres_gets, _|intros aa]. apply ks_store.
    apply pres_bnd; [apply _|apply pres_set_scalars|intros r]. apply pres_bnd; [apply _|apply pres_set_arrays|intros r']. apply pres_ret, _.
  Qed.
  Lemma ks_get arr : pres kept_sim (get_sv g arr).
  Proof.
    unfold get_sv. apply pres_bnd; [apply _|apply pres_gets, _|intros n]. apply pres_bnd; [apply _|apply pres_debug, _|intros _].
    apply pres_bnd; [apply _|apply pres_gets, _|intros ss]. apply pres_bnd; [apply _|apply pres_gets, _|intros aa].
    apply pres_bnd; [apply _| |intros x; destruct (write_prefix x arr); [apply pres_ret, _|apply pres_undef]].
    apply ks_store. apply pres_bnd; [apply _|apply pres_collect, pres_get_scalar|intros x1].
    apply pres_bnd; [apply _|apply pres_collect, pres_get_array|intros x2; apply pres_ret, _].
  Qed.
  Lemma ks_minor t sv : pres kept_sim (minor_cb g t sv).
  Proof.
    unfold minor_cb. apply pres_bnd; [apply _|apply ks_reset|intros _]. apply pres_bnd; [apply _|apply ks_process|intros _].
    apply pres_bnd; [apply _|apply pres_gets, _|intros ss]. apply pres_bnd; [apply _|apply pres_gets, _|intros aa].
    apply pres_bnd; [apply _| |intros x].
    { apply ks_store. apply pres_bnd; [apply _|apply pres_collect; intros s; apply pres_deriv_of, pres_get_scalar|intros x1].
      apply pres_bnd; [apply _|apply pres_collect; intros s; apply pres_deriv_of, pres_get_array|intros ?; apply pres_ret, _]. }
    apply pres_bnd; [apply _|apply pres_gets, _|intros dv]. destruct (write_prefix x dv); [|apply pres_undef].
    apply pres_bnd; [apply _| |intros ?; apply pres_ret, _]. apply ks_same; [done|]. intros s. by split.
  Qed.
  Lemma ks_begin t : pres kept_sim (begin_step g t).
  Proof.
    unfold begin_step. apply pres_bnd; [apply _|apply ks_clear|intros _]. apply pres_bnd; [apply _|apply ks_inputs|intros _]. apply ks_pre.
  Qed.
  Lemma ks_loop fuel t lo hi t1 t2 force : pres kept_sim (run_loop g fuel t lo hi t1 t2 force).
  Proof.
    revert t1 t2 force. induction fuel as [|fuel IH]; intros t1 t2 force; cbn [run_loop].
    { apply pres_if; [apply pres_oof|apply pres_ret, _]. }
    apply pres_if; [|apply pres_ret, _].
    apply pres_bnd; [apply _|apply ks_begin|intros _].
    apply pres_bnd; [apply _|apply pres_gets, _|intros o]. apply pres_bnd; [apply _|apply ks_get|intros x].
    apply pres_bnd; [apply _|apply ks_same; [done|intros s; by split]|intros _].
    destruct (g_stepper g) as [stp|] eqn:Es; [|apply pres_undef].
    apply pres_bnd; [apply _|apply Hstp; [done|apply _|intros; apply ks_minor]|intros r].
    apply pres_bnd; [apply _|apply ks_same; [done|intros s; by split]|intros _].
    apply pres_bnd; [apply _|apply ks_core; [apply pres_emit|by apply kept_emit]|intros _]. cbv zeta.
    apply pres_if; [|apply IH].
    apply pres_bnd; [apply _| |intros _; apply IH]. apply pres_if; [|apply pres_ret, _].
    apply pres_bnd; [apply _|apply pres_gets, _|intros sv]. apply pres_bnd; [apply _|apply ks_reset|intros _]. apply ks_process.
  Qed.
  (** A run, but for the last assignment to [_t_prev]. *)
  Lemma run_throws fuel t lo hi s e s' : s_init s = true -> run g fuel t lo hi s = Exn e s' -> kept_sim s s'.
  Proof.
    intros Hi. unfold run. unfold bnd at 1, gets at 1. rewrite Hi. cbn [negb].
    unfold bnd at 1, gets at 1. unfold bnd at 1, gets at 1.
    set (m := match length (s_sv s) with O => _ | S _ => _ end).
    assert (pres kept_sim m) as Hm.
    { subst m. destruct (length (s_sv s)); [apply pres_ret, _|]. apply pres_if; [apply pres_throw, _|]. apply pres_if.
      - apply pres_bnd; [apply _|apply ks_begin|intros _].
        apply pres_bnd; [apply _|apply pres_gets, _|intros o]. apply pres_bnd; [apply _|apply ks_get|intros x].
        apply ks_same; [done|]. intros s1. by split.
      - apply pres_bnd; [apply _|apply pres_debug, _|intros _]. apply pres_bnd; [apply _|apply pres_debug, _|intros _].
        apply pres_bnd; [apply _|apply pres_debug, _|intros _]. apply ks_loop. }
    unfold bnd at 1. specialize (Hm s). destruct (m s) as [[] s1|e1 s1|u|]; [| |done..].
    2:{ intros [= <- <-]. exact Hm. }
    unfold bnd at 1, gets at 1. unfold bnd at 1. pose proof (ks_reset (s_sv s1) s1) as H2.
    destruct (reset_sv g (s_sv s1) s1) as [[] s2|e2 s2|u|]; [| |done..].
    2:{ intros [= <- <-]. by etrans. }
    unfold bnd at 1. match goal with |- context [process_model g t ?b true s2] => pose proof (ks_process t b true s2) as H3; destruct (process_model g t b true s2) as [[] s3|e3 s3|u|]; [| |done..] end.
    2:{ intros [= <- <-]. etrans; [exact Hm|]. by etrans. }
    done.
  Qed.
End run.
