(** In a debug build evaluations only add values to signals. *)
From stdpp Require Import prelude gmap.
From Coq Require Import ZArith.
From Verif Require Import Num Res Store Leaf Sched Stepper Sim SpecSched P_Store P_Prog P_Modes P_Eval P_Sim P_Evolve P_Rel SpecHist P_Trace.

(** A relation on cores that activations keep is kept by evaluations. *)
Section gen.
  Context {D : Type} `{NumOps D} (dbg : bool) (t : D) (R : core D -> core D -> Prop) `{!PreOrder R}.
  Context (Hact : forall l, pres R (activate dbg l t)).
  Context (Hdone : forall c dn, R c (Core (k_store c) (k_lst c) dn (k_log c))).
  Definition dR (d d' : dyn D) : Prop := R (d_core d) (d_core d').
  Global Instance dR_pre : PreOrder dR.
  Proof. split; [intros d; unfold dR; reflexivity|]. intros d1 d2 d3. unfold dR. apply transitivity. Qed.
  Lemma gen_leaf_process l : pres R (leaf_process dbg l t).
  Proof.
    intros c. unfold leaf_process. destruct (_ || _); [reflexivity|].
    revert c. change (pres R (activate dbg l t ;;; set_done (l_id l) ;;; ret 1)).
    apply pres_bnd; [apply _|apply Hact|intros _].
    apply pres_bnd; [apply _| |intros _; by apply pres_ret; apply _].
    apply pres_modify. intros c. apply Hdone.
  Qed.
  Lemma gen_fast_eval order : pres R (fast_eval dbg order t).
  Proof.
    unfold fast_eval. apply pres_forM; [apply _|]. intros ls. apply pres_forM; [apply _|]. intros l. apply Hact.
  Qed.
  Lemma gen_fast_pass po n : pres R (fast_pass dbg po t n).
  Proof.
    revert n. induction po as [|l po IH]; intros n; cbn [fast_pass]; [apply pres_ret, _|].
    destruct n as [|n]; [apply pres_ret, _|].
    apply pres_bnd; [apply _|apply pres_gets, _|intros []; [apply IH|]].
    apply pres_bnd; [apply _|apply gen_leaf_process|intros _].
    apply pres_bnd; [apply _|apply pres_gets, _|intros []; [|apply pres_ret, _]].
    apply pres_bnd; [apply _|apply IH|intros ?; apply pres_ret, _].
  Qed.
  Lemma gen_fast_loop fuel po acc n : pres R (fast_loop dbg fuel po t acc n).
  Proof.
    revert acc n. induction fuel as [|fuel IH]; intros acc n; cbn [fast_loop]; [apply pres_oof|].
    apply pres_bnd; [apply _|apply pres_gets, _|intros [|k]; [apply pres_ret, _|]].
    apply pres_bnd; [apply _|apply gen_fast_pass|intros r].
    apply pres_if; [apply IH|apply pres_ret, _].
  Qed.
  Lemma gen_on_core {A} (m : M (core D) A) : pres R m -> pres dR (on_core m).
  Proof. apply pres_lift. intros c σ Hs. exact Hs. Qed.
  Lemma gen_process : forall (tr : tree D), pres dR (process dbg tr t).
  Proof.
    fix IH 1. intros [l|b k ch]; cbn [process]; [apply gen_on_core, gen_leaf_process|].
    apply pres_bnd; [apply _|apply pres_gets, _|intros []; [apply pres_ret, _|]].
    apply pres_bnd; [apply _|apply pres_modify; intros d; unfold dR; cbn; reflexivity|intros _].
    generalize 0. induction ch as [|c ch IHc]; intros n; [apply pres_ret, _|].
    apply pres_bnd; [apply _|apply IH|intros kk].
    apply pres_bnd; [apply _|apply pres_gets, _|intros q].
    apply pres_bnd; [apply _| |intros _; apply IHc].
    apply pres_if; [apply pres_ret, _|]. apply pres_modify. intros d. unfold dR; cbn; reflexivity.
  Qed.
  Lemma gen_process_loop fuel (tr : tree D) : pres dR (process_loop dbg fuel tr t).
  Proof.
    induction fuel as [|fuel IH]; cbn [process_loop]; [apply pres_oof|].
    apply pres_bnd; [apply _|apply gen_process|intros [|k]; [apply pres_ret, _|done]].
  Qed.
  Lemma gen_mark : forall (tr : tree D) d, dR d (mark_unprocessed tr d).
  Proof.
    fix IH 1. intros [l|b k ch] d; cbn [mark_unprocessed]; [unfold dR; cbn; apply Hdone|].
    transitivity (Dyn (d_core d) (d_sdone d ∖ {[b]})); [unfold dR; cbn; reflexivity|].
    generalize (Dyn (d_core d) (d_sdone d ∖ {[b]})). induction ch as [|c ch IHc]; intros d'; [reflexivity|].
    cbn [fold_left]. etrans; [apply (IH c)|apply IHc].
  Qed.
  Lemma gen_reuse_pass po : pres dR (reuse_pass dbg po t).
  Proof.
    induction po as [|n po IH]; cbn [reuse_pass]; [apply pres_ret, _|].
    apply pres_bnd; [apply _|apply pres_gets, _|intros []; [done|]].
    apply pres_bnd; [apply _| |intros _].
    { destruct n as [l|b k]; cbn [node_process].
      - apply pres_bnd; [apply _|apply gen_on_core, gen_leaf_process|intros ?; apply pres_ret, _].
      - apply pres_modify. intros d. unfold dR; cbn; reflexivity. }
    apply pres_bnd; [apply _|apply pres_gets, _|intros q].
    apply pres_bnd; [apply _|done|intros r; apply pres_ret, _].
  Qed.
  Lemma gen_reuse_all po : pres dR (reuse_all dbg po t).
  Proof.
    assert (forall fuel acc, pres dR (reuse_loop dbg fuel po t acc)) as Hl.
    { intros fuel. revert po. induction fuel as [|fuel IH]; intros po acc; cbn [reuse_loop]; [apply pres_oof|].
      apply pres_bnd; [apply _|apply gen_reuse_pass|intros [|? ?]; [apply pres_ret, _|apply IH]]. }
    unfold reuse_all. apply pres_bnd; [apply _|apply Hl|intros acc].
    apply pres_bnd; [apply _|apply pres_gets, _|intros rest].
    apply pres_bnd; [apply _|apply pres_debug, _|intros _; apply pres_ret, _].
  Qed.
  Definition sR (s s' : simst D) : Prop := R (s_core s) (s_core s').
  Global Instance sR_pre : PreOrder sR.
  Proof. split; [intros d; unfold sR; reflexivity|]. intros d1 d2 d3. unfold sR. apply transitivity. Qed.
  Lemma gen_on_dyn {A} (m : M (dyn D) A) : pres dR m -> pres sR (on_dyn m).
  Proof. apply pres_lift. intros c σ Hs. exact Hs. Qed.
  Lemma gen_on_core' {A} (m : M (core D) A) : pres R m -> pres sR (on_core' m).
  Proof. intros Hm. by apply gen_on_dyn, gen_on_core. Qed.
  Lemma gen_eval (g : cfg D) : g_dbg g = dbg -> pres sR (eval_model g t).
  Proof.
    intros Hg. unfold eval_model. rewrite Hg. destruct (g_mode g).
    - apply pres_bnd; [apply _|apply gen_on_dyn, pres_modify, gen_mark|intros _]. apply gen_on_dyn, gen_process_loop.
    - apply pres_bnd; [apply _|apply gen_on_dyn, pres_modify, gen_mark|intros _].
      apply pres_bnd; [apply _|apply pres_gets, _|intros [[]|]]; [| |apply pres_undef].
      + apply pres_bnd; [apply _|apply pres_gets, _|intros po]. apply pres_bnd; [apply _|apply gen_on_dyn, gen_reuse_all|intros po'].
        apply pres_modify. intros s. unfold sR. cbn. reflexivity.
      + apply pres_bnd; [apply _|apply pres_gets, _|intros po]. apply pres_bnd; [apply _|apply gen_on_dyn, gen_reuse_all|intros po'].
        apply pres_modify. intros s. unfold sR. cbn. reflexivity.
    - apply pres_bnd; [apply _|apply pres_gets, _|intros o]. apply gen_on_core', gen_fast_eval.
  Qed.
End gen.

Section grow.
  Context {D : Type} `{NumOps D}.
  Definition adding (c c' : core D) : Prop := ext (k_store c) (k_store c').
  Global Instance ext_pre : PreOrder (@ext D).
  Proof. split; [intros σ; apply ext_refl|]. intros σ1 σ2 σ3. apply ext_trans. Qed.
  Global Instance adding_pre : PreOrder adding.
  Proof. split; [intros c; unfold adding; reflexivity|]. intros c1 c2 c3. unfold adding. apply transitivity. Qed.
  Lemma grow_prog {A} (p : prog D A) : pres ext (run_prog true p).
  Proof.
    induction p as [a|s k IH|s v k IH|b e k IH|e|u]; cbn [run_prog].
    - apply pres_ret, _.
    - apply pres_bnd; [apply _| |done]. intros σ. destruct (get_value true s σ) as [v σ'|e σ'| |] eqn:E; try done;
        unfold get_value in E; destruct (σ !! s) as [c|]; try done; destruct (payload_size_ok c), (c_asg c); cbn in E; try destruct (c_val c); simplify_eq; apply ext_refl.
    - apply pres_bnd; [apply _| |done]. intros σ. destruct (set_value true s v σ) as [[] σ'|e σ'| |] eqn:E; try done.
      + apply (run_prog_ext (PSet s v (PRet tt)) σ tt). cbn. unfold bnd. by rewrite E.
      + unfold set_value in E. destruct (σ !! s) as [c|]; try done. destruct (kind_fits (c_kind c) v); [|done].
        destruct (payload_size_ok c), (c_asg c), (size_fits (c_kind c) v); cbn in E; simplify_eq; apply ext_refl.
    - apply pres_bnd; [apply _|apply pres_debug, _|done].
    - apply pres_throw, _.
    - apply pres_undef.
  Qed.
  Lemma grow_leaf ev l p : pres adding (run_leaf true ev l p).
  Proof.
    intros c. unfold run_leaf. pose proof (grow_prog (p (lst_of c (l_id l))) (k_store c)) as Hp. by destruct (run_prog _ _ _).
  Qed.
  Lemma grow_on_store {A} (m : M (store D) A) : pres ext m -> pres adding (on_store m).
  Proof. apply pres_lift. intros c σ Hs. exact Hs. Qed.
  Lemma grow_emit e : pres adding (emit e).
  Proof. apply pres_modify. intros c. unfold adding. cbn. reflexivity. Qed.
  Lemma grow_snap e : pres adding (snap e).
  Proof. apply pres_modify. intros c. unfold adding. cbn. reflexivity. Qed.
  Lemma grow_pre : forall (tr : tree D) t, pres adding (pre_step true tr t).
  Proof.
    fix IH 1. intros [l|b k ch] t; cbn [pre_step]; [apply grow_leaf|].
    induction ch as [|c ch IHc]; [apply pres_ret, _|].
    apply pres_bnd; [apply _|apply IH|intros _; apply IHc].
  Qed.
  Lemma grow_post : forall (tr : tree D) t, pres adding (post_step true tr t).
  Proof.
    fix IH 1. intros [l|b k ch] t; cbn [post_step]; [apply grow_leaf|].
    induction ch as [|c ch IHc]; [apply pres_ret, _|].
    apply pres_bnd; [apply _|apply IH|intros _; apply IHc].
  Qed.
  Context (g : cfg D) (Hg : g_dbg g = true).
  Lemma grow_inputs t : pres adding (inputs g t).
  Proof.
    unfold inputs. rewrite Hg. apply pres_bnd; [apply _|apply grow_emit|intros _].
    apply pres_bnd; [apply _| |intros _; apply grow_on_store, grow_prog].
    destruct (g_inputs g); [apply grow_on_store, grow_prog|apply pres_ret, _].
  Qed.
  Lemma grow_process t b1 b2 : pres (sR adding) (process_model g t b1 b2).
  Proof.
    unfold process_model. apply pres_bnd; [apply _|apply gen_on_core', grow_inputs|intros _].
    apply pres_bnd; [apply _| |intros _].
    { apply pres_if; [|apply pres_ret, _]. rewrite Hg. apply gen_on_core', pres_bnd; [apply _|apply grow_pre|intros _; apply grow_snap]. }
    apply pres_bnd; [apply _| |intros _].
    { apply (gen_eval true t adding); [intros l; apply grow_leaf|intros c dn; unfold adding; cbn; reflexivity|done]. }
    apply pres_bnd; [apply _|apply gen_on_core', grow_snap|intros _].
    apply pres_if; [|apply pres_ret, _]. rewrite Hg. apply gen_on_core', pres_bnd; [apply _|apply grow_post|intros _; apply grow_snap].
  Qed.
End grow.
