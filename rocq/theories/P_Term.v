(** The loop of run ends. *)
From stdpp Require Import prelude gmap.
From Coq Require Import ZArith Reals Lra.
From Verif Require Import Num NumR NumOrd NumAdd Res Store Leaf Sched Stepper Sim SpecSched P_Store P_Prog P_Modes P_Eval P_Sim P_Evolve
  SpecSim P_Simulated SpecHist SpecRun P_Log P_Run.
Local Open Scope nat_scope.

(** [m] comes to an end whenever [J] holds, and keeps it. *)
Definition sure {S A} (J : S -> Prop) (m : M S A) : Prop :=
  forall s, J s -> match m s with Ok _ s' => J s' | OOF => False | _ => True end.
(** A stepper comes to an end if its callback does. *)
Definition never_hangs {D} (stp : stepper D) : Prop :=
  forall S (J : S -> Prop) f t0 v0 t1, (forall t v, sure J (f t v)) -> sure J (stp S f t0 v0 t1).

Section sure.
  Context {S : Type} (J : S -> Prop).
  Lemma sure_bnd {A B} (m : M S A) (k : A -> M S B) : sure J m -> (forall a, sure J (k a)) -> sure J (bnd m k).
  Proof. intros Hm Hk s Hs. specialize (Hm s Hs). unfold bnd. destruct (m s); try done. by apply Hk. Qed.
  Lemma sure_ret {A} (a : A) : sure J (ret a).
  Proof. by intros s Hs. Qed.
  Lemma sure_gets {A} (f : S -> A) : sure J (gets f).
  Proof. by intros s Hs. Qed.
  Lemma sure_undef {A} u : sure J (undef (A:=A) u).
  Proof. by intros s Hs. Qed.
  Lemma sure_throw {A} e : sure J (throw (A:=A) e).
  Proof. by intros s Hs. Qed.
  Lemma sure_debug dbg c e : sure J (debug_verify dbg c e).
  Proof. intros s Hs. by destruct dbg, c. Qed.
  Lemma sure_verify c e : sure J (verify c e).
  Proof. intros s Hs. by destruct c. Qed.
  Lemma sure_if {A} (b : bool) (m1 m2 : M S A) : sure J m1 -> sure J m2 -> sure J (if b then m1 else m2).
  Proof. by destruct b. Qed.
  Lemma sure_modify f : (forall s, J s -> J (f s)) -> sure J (modify f).
  Proof. intros Hf s Hs. by apply Hf. Qed.
End sure.
Section steppers.
  Context {D : Type} `{NumOps D}.
  Lemma sure_call {S} (J : S -> Prop) f n (t : D) v : (forall t v, sure J (f t v)) -> sure J (call f n t v).
  Proof. intros Hf. unfold call. apply sure_bnd; [apply Hf|intros k]. apply sure_if; [apply sure_ret|apply sure_undef]. Qed.
  Lemma euler_ends : never_hangs (D:=D) euler.
  Proof. intros S J f t0 v0 t1 Hf. unfold euler. apply sure_bnd; [by apply sure_call|intros ?; apply sure_ret]. Qed.
  Lemma rk4_ends : never_hangs (D:=D) rk4.
  Proof.
    intros S J f t0 v0 t1 Hf. unfold rk4. cbv zeta. repeat (apply sure_bnd; [by apply sure_call|intros ?]). apply sure_ret.
  Qed.
  Lemma rkf45_ends : never_hangs (D:=D) rkf45.
  Proof.
    intros S J f t0 v0 t1 Hf. unfold rkf45. cbv zeta. repeat (apply sure_bnd; [by apply sure_call|intros ?]).
    destruct (max_coeff _); [apply sure_ret|apply sure_undef].
  Qed.

  (** ** Everything outside the loop *)
  Lemma finite_forM {S A} (l : list A) (f : A -> M S unit) : (forall a, finite (f a)) -> finite (forM l f).
  Proof. intros Hf. induction l as [|a l IH]; cbn [forM]; [done|]. by apply finite_bnd. Qed.
  Lemma finite_set dbg s v : finite (set_value (D:=D) dbg s v).
  Proof. intros σ. unfold set_value, bnd, debug_verify, verify, gets, ret, throw, undef. repeat case_match; done. Qed.
  Lemma finite_get dbg s : finite (get_value (D:=D) dbg s).
  Proof. intros σ. unfold get_value, bnd, debug_verify, verify, gets, ret, throw, undef. repeat case_match; done. Qed.
  Lemma finite_clear s : finite (clear_sig (D:=D) s).
  Proof. intros σ. unfold clear_sig, bnd, gets, modify, undef, ret. repeat case_match; done. Qed.
  Context (g : cfg D) (Hw : wf_tree (g_tree g)).
  Lemma finite_clear_all : finite (clear_all (D:=D)).
  Proof. apply finite_bnd; [done|intros vs]. do 3 apply finite_lift. apply finite_forM. intros s. apply finite_clear. Qed.
  Lemma finite_scalars ss sv : finite (set_scalars g ss sv).
  Proof.
    revert sv. induction ss as [|s ss IH]; intros sv; cbn [set_scalars]; [done|]. destruct sv; [done|].
    apply finite_bnd; [apply finite_set|intros _; apply IH].
  Qed.
  Lemma finite_arrays ss sv : finite (set_arrays g ss sv).
  Proof.
    revert sv. induction ss as [|s ss IH]; intros sv; cbn [set_arrays]; [done|]. apply finite_bnd; [done|intros n].
    destruct (_ <=? _); [|done]. apply finite_bnd; [apply finite_set|intros _; apply IH].
  Qed.
  Lemma finite_reset sv : finite (reset_sv g sv).
  Proof.
    apply finite_bnd; [apply finite_clear_all|intros _]. apply finite_bnd; [done|intros ss]. apply finite_bnd; [done|intros aa].
    do 3 apply finite_lift. apply finite_bnd; [apply finite_scalars|intros r]. apply finite_bnd; [apply finite_arrays|done].
  Qed.
  Lemma finite_scalar s : finite (get_scalar g s).
  Proof. apply finite_bnd; [apply finite_get|]. by intros []. Qed.
  Lemma finite_array s : finite (get_array g s).
  Proof. apply finite_bnd; [done|intros n]. apply finite_bnd; [apply finite_get|]. intros []; try done. by destruct (_ =? _). Qed.
  Lemma finite_collect (f : nat -> M (store D) (list D)) ss : (forall s, finite (f s)) -> finite (collect f ss).
  Proof. intros Hf. induction ss as [|s ss IH]; cbn [collect]; [done|]. apply finite_bnd; [done|intros x]. by apply finite_bnd. Qed.
  Lemma finite_deriv (f : nat -> M (store D) (list D)) s : (forall s, finite (f s)) -> finite (deriv_of f s).
  Proof. intros Hf. apply finite_bnd; [done|]. intros [ds|]; [apply Hf|done]. Qed.
  Lemma finite_get_sv arr : finite (get_sv g arr).
  Proof.
    apply finite_bnd; [done|intros n]. apply finite_bnd; [intros s; by destruct (g_dbg g), (_ =? _)|intros _].
    apply finite_bnd; [done|intros ss]. apply finite_bnd; [done|intros aa]. apply finite_bnd; [|intros x; by destruct (write_prefix x arr)].
    do 3 apply finite_lift. apply finite_bnd; [apply finite_collect, finite_scalar|intros x1].
    apply finite_bnd; [apply finite_collect, finite_array|done].
  Qed.
  Lemma finite_begin t : finite (begin_step g t).
  Proof.
    apply finite_bnd; [apply finite_clear_all|intros _]. apply finite_bnd; [do 2 apply finite_lift; apply finite_inputs|intros _].
    do 2 apply finite_lift. apply finite_bnd; [apply finite_pre|done].
  Qed.

  (** The simulator has an order to follow, if it needs one. *)
  Definition usable (s : simst D) : Prop := g_mode g = MReuse -> s_cur s = None \/ ordered g s.
  Lemma usable_evo s s' : evo g s s' -> usable s -> usable s'.
  Proof.
    intros He Hu Hm. destruct (Hu Hm) as [Hc|Ho]; [left; by apply (ev_none _ _ _ He)|right; by apply (ev_ord _ _ _ He)].
  Qed.
  Lemma sure_finite {A} (m : M (simst D) A) : finite m -> pres (evo g) m -> sure usable m.
  Proof.
    intros Hf Hp s Hs. specialize (Hf s). specialize (Hp s). destruct (m s); try done. by eapply usable_evo.
  Qed.
  Lemma sure_process t a b : sure usable (process_model g t a b).
  Proof.
    intros s Hs. pose proof (pres_process_model g t a b s) as Hp.
    assert (process_model g t a b s ≠ OOF) as Hn.
    2:{ destruct (process_model g t a b s); try done. by eapply usable_evo. }
    destruct (g_mode g) eqn:Em.
    - apply process_model_finite; [done|]. unfold ordered. by rewrite Em.
    - destruct (Hs Em) as [Hc|Ho]; [|by apply process_model_finite].
      (* no order: the evaluation is undefined *)
      unfold process_model. unfold bnd at 1. assert (finite (on_core' (inputs g t))) as Hi by (do 2 apply finite_lift; apply finite_inputs).
      specialize (Hi s). pose proof (pres_on_core' g _ (pres_inputs g t) s) as Pi.
      destruct (on_core' (inputs g t) s) as [[] s1| | |]; try done. pose proof (ev_none _ _ _ Pi Em Hc) as (Hc1 & _).
      unfold bnd at 1. set (mp := on_core' (pre_step (g_dbg g) (g_tree g) t ;;; snap (EvBegin t))).
      assert (match (if a then mp else ret tt) s1 with Ok _ s2 => s_cur s2 = None | OOF => False | _ => True end) as Hx.
      { destruct a; [|done]. assert (finite mp) as Hfm by (do 2 apply finite_lift; apply finite_bnd; [apply finite_pre|done]).
        specialize (Hfm s1). assert (pres (evo g) mp) as Pm by apply pres_on_core', pres_pre_snap. specialize (Pm s1).
        destruct (mp s1); try done. by apply (ev_none _ _ _ Pm). }
      destruct ((if a then mp else ret tt) s1) as [[] s2| | |]; try done.
      unfold bnd at 1, eval_model. rewrite Em. unfold bnd at 1, gets, on_dyn, lift, modify. cbn. by rewrite Hx.
    - unfold process_model. apply finite_bnd; [do 2 apply finite_lift; apply finite_inputs|intros _].
      apply finite_bnd; [destruct a; [|done]; do 2 apply finite_lift; apply finite_bnd; [apply finite_pre|done]|intros _].
      apply finite_bnd; [|intros _].
      { unfold eval_model. rewrite Em. apply finite_bnd; [done|intros o]. do 2 apply finite_lift. unfold fast_eval.
        apply finite_forM. intros ls. apply finite_forM. intros l. apply finite_leaf. }
      apply finite_bnd; [done|intros _]. destruct b; [|done]. do 2 apply finite_lift. apply finite_bnd; [apply finite_post|done].
  Qed.
  Lemma sure_minor t sv : sure usable (minor_cb g t sv).
  Proof.
    unfold minor_cb. apply sure_bnd; [apply sure_finite; [apply finite_reset|apply pres_reset_sv]|intros _].
    apply sure_bnd; [apply sure_process|intros _]. apply sure_bnd; [apply sure_gets|intros ss]. apply sure_bnd; [apply sure_gets|intros aa].
    apply sure_bnd.
    { apply sure_finite.
      - do 3 apply finite_lift. apply finite_bnd; [apply finite_collect; intros s; apply finite_deriv, finite_scalar|intros x1].
        apply finite_bnd; [apply finite_collect; intros s; apply finite_deriv, finite_array|done].
      - apply pres_on_store'. apply pres_bnd; [apply _|apply pres_collect; intros s; apply pres_deriv_of, pres_get_scalar|intros x1].
        apply pres_bnd; [apply _|apply pres_collect; intros s; apply pres_deriv_of, pres_get_array|intros ?; apply pres_ret, _]. }
    intros x. apply sure_bnd; [apply sure_gets|intros dv]. destruct (write_prefix x dv); [|apply sure_undef].
    apply sure_bnd; [by apply sure_modify|intros _; apply sure_ret].
  Qed.
End steppers.

(** ** The loop, in real arithmetic *)
(** The suggested step is not smaller than the attempted one, or smaller by at least
    the factor [c]. *)
Definition backs_off (c : R) (stp : stepper R) : Prop :=
  forall S f (t0 : R) v0 t1 (s : S) r s', stp S f t0 v0 t1 s = Ok r s' -> (t0 < t1)%R ->
    (t1 - t0 <= snd r \/ snd r <= c * (t1 - t0))%R.
Section real.
  Local Open Scope R_scope.
  Lemma euler_suggests c : backs_off c euler.
  Proof.
    intros S f t0 v0 t1 s r s'. unfold euler, bnd. destruct (call _ _ _ _ _) as [k x| | |]; [|done..].
    intros [= <- <-] _. left. cbn. lra.
  Qed.
  Lemma rk4_suggests c : backs_off c rk4.
  Proof.
    intros S f t0 v0 t1 s r s'. unfold rk4. cbv zeta. unfold bnd. do 4 (destruct (call _ _ _ _ _) as [? ?| | |]; [|done..]).
    intros [= <- <-] _. left. cbn [snd]. cbn. lra.
  Qed.
  Lemma rkf45_suggests : backs_off (1/2) rkf45.
  Proof.
    intros S f t0 v0 t1 s r s'. unfold rkf45. cbv zeta. unfold bnd. do 6 (destruct (call _ _ _ _ _) as [? ?| | |]; [|done..]).
    destruct (max_coeff _) as [e|]; [|done]. intros [= <- <-] Ht. cbn [snd]. unfold rkf45_new_h.
    destruct (nltb _ (q 81 256)); [|destruct (nltb _ _)]; cbn; [right|left|left]; lra.
  Qed.

  Context (g : cfg R) (Hw : wf_tree (g_tree g)) (t lo hi c T : R) (K : nat) (stp : stepper R).
  Context (Hlo : 0 < lo) (Hc : 0 <= c < 1) (HK : T * c ^ K <= lo).
  Context (Es : g_stepper g = Some stp) (Hok : stepper_ok stp) (Hn : never_hangs stp) (Hb : backs_off c stp).
  Lemma sure_loop fuel : forall m j t1 t2 force,
    (m * (K + 1) + j + 1 <= fuel)%nat -> t - t1 <= INR m * lo -> t - t1 <= T ->
    (t1 < t -> t1 < t2 <= t /\ (lo <= t2 - t1 \/ t2 = t) /\ (force = true \/ (t2 - t1) * c ^ j <= lo)) ->
    sure (usable g) (run_loop g fuel t lo hi t1 t2 force).
  Proof.
    induction fuel as [|fuel IH]; intros m j t1 t2 force Hf Hm HT Hinv; [lia|]. cbn [run_loop].
    destruct (t1 <? t)%num eqn:Et; [|apply sure_ret]. cbn in Et. rewrite Rltb_true in Et.
    destruct (Hinv Et) as (Ht2 & Hlong & Hj).
    apply sure_bnd; [apply sure_finite; [done|apply finite_begin|apply pres_begin_step]|intros _].
    apply sure_bnd; [apply sure_gets|intros o].
    apply sure_bnd; [apply sure_finite; [done|apply finite_get_sv|apply pres_get_sv]|intros x].
    apply sure_bnd; [by apply sure_modify|intros _]. rewrite Es.
    intros s Hs. unfold bnd at 1. pose proof (Hn _ (usable g) (minor_cb g) t1 x t2 (fun t v => sure_minor g Hw t v) s Hs) as Hst.
    destruct (stp _ (minor_cb g) t1 x t2 s) as [[y new_h] s1| | |] eqn:Er; try done.
    pose proof (Hb _ _ _ _ _ _ _ _ Er (proj1 Ht2)) as Hsug. cbn [snd] in Hsug. cbn [fst snd].
    clear Er. revert s1 Hst.
    change (sure (usable g) (modify (put_sv y) ;;; on_core' (emit (EvTry t1 x t2 y new_h)) ;;;
      if force || (t2 - t1 <=? new_h)%num || (t2 - t1 <=? lo)%num then
        (if (t2 <? t)%num then sv <~ gets s_sv ;; reset_sv g sv ;;; process_model g t2 false true else ret tt) ;;;
        run_loop g fuel t lo hi t2 (nmin (t2 + clip lo hi new_h)%num t) false
      else run_loop g fuel t lo hi t1 (t1 + clip lo hi new_h)%num (new_h <=? lo)%num)).
    apply sure_bnd; [by apply sure_modify|intros _]. apply sure_bnd; [apply sure_finite; [done|done|apply pres_on_core', pres_emit]|intros _].
    assert (lo <= clip lo hi new_h) as Hcl.
    { pose proof (clip_ge lo hi new_h) as E. cbn in E. by rewrite Rleb_true in E. }
    destruct (force || (t2 - t1 <=? new_h)%num || (t2 - t1 <=? lo)%num) eqn:Ea.
    - (* accepted *)
      apply sure_bnd.
      { destruct (t2 <? t)%num; [|apply sure_ret]. apply sure_bnd; [apply sure_gets|intros sv].
        apply sure_bnd; [apply sure_finite; [done|apply finite_reset|apply pres_reset_sv]|intros _; by apply sure_process]. }
      intros _. destruct m as [|m]; [cbn in Hm; lra|].
      apply (IH m K); [lia| |lra|].
      + destruct Hlong as [Hl | ->]; [rewrite S_INR in Hm; lra|]. pose proof (pos_INR m). nra.
      + intros Hlt. assert (t2 < t) as Hlt' by exact Hlt. unfold nmin. cbn. destruct (Rltb t (t2 + clip lo hi new_h)) eqn:Emin.
        * split; [lra|]. split; [by right|]. right. eapply Rle_trans; [|exact HK]. apply Rmult_le_compat_r; [apply pow_le; lra|lra].
        * rewrite Rltb_false in Emin. split; [lra|]. split; [left; lra|]. right. eapply Rle_trans; [|exact HK]. apply Rmult_le_compat_r; [apply pow_le; lra|lra].
    - (* rejected *)
      apply orb_false_iff in Ea as [Ea E2]. apply orb_false_iff in Ea as [-> E1]. cbn in E1, E2. rewrite Rleb_false in E1, E2.
      destruct Hj as [?|Hj]; [done|]. destruct j as [|j]; [cbn in Hj; lra|].
      destruct Hsug as [?|Hsug]; [lra|].
      assert (new_h <= lo \/ clip lo hi new_h <= new_h) as Hh.
      { destruct (Rle_lt_dec new_h lo); [by left|right]. unfold clip, nmax, nmin. cbn.
        destruct (Rltb hi new_h) eqn:H1; destruct (Rltb lo _) eqn:H2; rewrite ?Rltb_true, ?Rltb_false in *; lra. }
      assert (clip lo hi new_h < t2 - t1) as Hlt.
      { destruct Hh as [Hh|Hh]; [|lra]. unfold clip, nmax, nmin. cbn.
        destruct (Rltb hi new_h) eqn:H1; destruct (Rltb lo _) eqn:H2; rewrite ?Rltb_true, ?Rltb_false in *; lra. }
      apply (IH m j); [lia|done|done|]. intros _. cbn. split; [lra|]. split; [left; lra|].
      destruct Hh as [Hh|Hh]; [left; by apply Rleb_true|right].
      assert (0 <= c ^ j) by (apply pow_le; lra). replace (t1 + clip lo hi new_h - t1) with (clip lo hi new_h) by lra.
      cbn in Hj. apply Rle_trans with (c * (t2 - t1) * c ^ j); [apply Rmult_le_compat_r; lra|lra].
  Qed.
End real.
