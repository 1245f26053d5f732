(** Lifetimes: whole simulations. *)
From stdpp Require Import prelude gmap strings.
From Verif Require Import Num Res Store Leaf Sched P_Sched Stepper Sim Visit World Api P_World P_Ops P_Compile Props_Forest Dead P_Dead.

(** [m1] and [m2] do the same in the states of [J], and do not leave them. *)
Definition alike {S A} (J : S -> Prop) (m1 m2 : M S A) : Prop :=
  forall s, J s -> m1 s = m2 s /\ forall a s', m2 s = Ok a s' -> J s'.
Section alike.
  Context {S : Type} (J : S -> Prop).
  Lemma alike_bnd {A B} (m1 m2 : M S A) (k1 k2 : A -> M S B) : alike J m1 m2 -> (forall a, alike J (k1 a) (k2 a)) -> alike J (bnd m1 k1) (bnd m2 k2).
  Proof.
    intros Hm Hk s Hs. destruct (Hm s Hs) as [E Hj]. unfold bnd. rewrite E. destruct (m2 s) as [a s1|?|?|]; try done.
    apply Hk. by eapply Hj.
  Qed.
  Lemma alike_bndP {A B} (P : A -> Prop) (m1 m2 : M S A) (k1 k2 : A -> M S B) : alike J m1 m2 -> (forall s a s', m2 s = Ok a s' -> P a) ->
    (forall a, P a -> alike J (k1 a) (k2 a)) -> alike J (bnd m1 k1) (bnd m2 k2).
  Proof.
    intros Hm HP Hk s Hs. destruct (Hm s Hs) as [E Hj]. unfold bnd. rewrite E. destruct (m2 s) as [a s1|?|?|] eqn:E2; try done.
    apply Hk; [by eapply HP|]. by eapply Hj.
  Qed.
  Lemma alike_ret {A} (a : A) : alike J (ret a) (ret a).
  Proof. intros s Hs. split; [done|]. by intros ? ? [= <- <-]. Qed.
  Lemma alike_gets {A} (f : S -> A) : alike J (gets f) (gets f).
  Proof. intros s Hs. split; [done|]. by intros ? ? [= <- <-]. Qed.
  Lemma alike_gets' {A B} (f : S -> A) (k1 k2 : A -> M S B) : (forall a s0, J s0 -> f s0 = a -> k1 a s0 = k2 a s0 /\ forall b s', k2 a s0 = Ok b s' -> J s') ->
    alike J (bnd (gets f) k1) (bnd (gets f) k2).
  Proof. intros Hk s Hs. unfold bnd, gets. by apply Hk. Qed.
  Lemma alike_modify f : (forall s, J s -> J (f s)) -> alike J (modify f) (modify f).
  Proof. intros Hf s Hs. split; [done|]. intros ? ? [= <- <-]. by apply Hf. Qed.
  Lemma alike_throw {A} e : alike J (throw (A:=A) e) (throw e).
  Proof. intros s Hs. by split. Qed.
  Lemma alike_undef {A} u : alike J (undef (A:=A) u) (undef u).
  Proof. intros s Hs. by split. Qed.
  Lemma alike_oof {A} : alike J (fun _ => OOF (A:=A)) (fun _ => OOF).
  Proof. intros s Hs. by split. Qed.
  Lemma alike_verify c e : alike J (verify c e) (verify c e).
  Proof. destruct c; [apply alike_ret|apply alike_throw]. Qed.
  Lemma alike_debug dbg c e : alike J (debug_verify dbg c e) (debug_verify dbg c e).
  Proof. destruct dbg; [apply alike_verify|apply alike_ret]. Qed.
  Lemma alike_skip {B} (m : M S unit) (k1 k2 : M S B) : (forall s, m s = Ok tt s) -> alike J k1 k2 -> alike J (bnd m (fun _ => k1)) k2.
  Proof. intros Hm Hk s Hs. rewrite bnd_tt by apply Hm. by apply Hk. Qed.
End alike.

(** A stepper only uses the callback. *)
Definition steps_alike {D} (stp : stepper D) : Prop := forall S (J : S -> Prop) f1 f2,
  (forall t v, alike J (f1 t v) (f2 t v)) -> forall t0 v t1, alike J (stp S f1 t0 v t1) (stp S f2 t0 v t1).
Section steppers.
  Context {D : Type} `{NumOps D}.
  Lemma call_alike {S} (J : S -> Prop) f1 f2 n t v : (forall t v, alike J (f1 t v) (f2 t v)) -> alike J (call (D:=D) f1 n t v) (call f2 n t v).
  Proof. intros Hf. unfold call. apply alike_bnd; [apply Hf|]. intros k. match goal with |- context [if ?c then _ else _] => destruct c end; [apply alike_ret|apply alike_undef]. Qed.
  Lemma euler_alike : steps_alike (D:=D) euler.
  Proof. intros S J f1 f2 Hf t0 v t1. unfold euler. apply alike_bnd; [by apply call_alike|]. intros k. apply alike_ret. Qed.
  Lemma rk4_alike : steps_alike (D:=D) rk4.
  Proof.
    intros S J f1 f2 Hf t0 v t1. unfold rk4. cbv zeta. do 4 (apply alike_bnd; [by apply call_alike|]; intros ?). apply alike_ret.
  Qed.
  Lemma rkf45_alike : steps_alike (D:=D) rkf45.
  Proof.
    intros S J f1 f2 Hf t0 v t1. unfold rkf45. cbv zeta. do 6 (apply alike_bnd; [by apply call_alike|]; intros ?).
    destruct (max_coeff _); [apply alike_ret|apply alike_undef].
  Qed.
End steppers.

Section lsim.
  Context {D : Type} `{NumOps D}.
  Context (w : world D) (dead : gset bid) (g : cfg D).
  Notation tr := (g_tree g).
  (** The pointers a simulator has stored are to blocks of its model. *)
  Record stored (s : simst D) : Prop := Stored {
    st_po1 : forall n, n ∈ s_po1 s -> n ∈ nodes tr;
    st_po2 : forall n, n ∈ s_po2 s -> n ∈ nodes tr;
    st_fast : forall l, l ∈ concat (s_fast s) -> NLeaf l ∈ nodes tr
  }.
  Lemma stored_new d : stored (new_sim d).
  Proof. split; cbn; intros ? Hn; by apply elem_of_nil in Hn. Qed.
  Lemma stored_same s s' : s_po1 s' = s_po1 s -> s_po2 s' = s_po2 s -> s_fast s' = s_fast s -> stored s -> stored s'.
  Proof. intros E1 E2 E3 [H1 H2 H3]. split; rewrite ?E1, ?E2, ?E3; done. Qed.

  Context (Hstp : forall stp, g_stepper g = Some stp -> steps_alike stp).
  Context (Hc : calls (g_dbg g) w dead (ids tr)).
  Notation al := (alike stored).

  Lemma on_dyn_al {A} (m1 m2 : M (dyn D) A) : (forall d, m1 d = m2 d) -> al (on_dyn m1) (on_dyn m2).
  Proof.
    intros Hm s Hs. unfold on_dyn, lift. rewrite Hm. split; [done|]. intros a s'. destruct (m2 (s_dyn s)); try done.
    intros [= <- <-]. by apply (stored_same s).
  Qed.
  Lemma on_core_al {A} (m1 m2 : M (core D) A) : (forall d, m1 d = m2 d) -> al (on_core' m1) (on_core' m2).
  Proof. intros Hm. apply on_dyn_al. intros d. unfold on_core, lift. by rewrite Hm. Qed.
  Lemma on_store_al {A} (m : M (store D) A) : al (on_store' m) (on_store' m).
  Proof. by apply on_core_al. Qed.
  Lemma nodes_calls po : (forall n, n ∈ po -> n ∈ nodes tr) -> calls (g_dbg g) w dead (map node_id po).
  Proof. intros Hp x Hx. apply Hc. apply elem_of_list_fmap in Hx as (n & -> & Hn). apply elem_of_list_fmap. exists n. split; [done|by apply Hp]. Qed.
  Lemma visit_al : forall s, lvisit_all w dead g s = Ok tt s.
  Proof. intros s. unfold lvisit_all, bnd. by rewrite lvisit_live. Qed.
  Lemma root_al {S} (s : S) : deref dead (root_id g) s = Ok tt s.
  Proof. apply (calls_live (g_dbg g) w dead _ (ids tr)); [done|]. unfold root_id. destruct tr; apply here. Qed.

  (** The order only ever contains blocks of the old one. *)
  Lemma reuse_pass_sub dbg po t d r d' : reuse_pass dbg po t d = Ok r d' -> forall n, n ∈ r -> n ∈ po.
  Proof.
    revert d r d'. induction po as [|n po IH]; intros d r d' Hr; cbn in Hr.
    - injection Hr as <- <-. done.
    - unfold bnd at 1, gets at 1 in Hr. destruct (node_processed n d).
      + intros m Hm. apply elem_of_list_further. by eapply IH.
      + unfold bnd at 1 in Hr. destruct (node_process dbg n t d) as [u d1|?|?|]; try done. unfold bnd, gets in Hr.
        destruct (reuse_pass dbg po t d1) as [r1 d2|?|?|] eqn:E; try done. injection Hr as <- <-. intros m Hm.
        destruct (node_processed n d1); [apply elem_of_cons in Hm as [->|Hm]; [apply elem_of_list_here|]|]; apply elem_of_list_further; by eapply IH.
  Qed.
  Lemma reuse_loop_sub dbg fuel po t acc d r d' : reuse_loop dbg fuel po t acc d = Ok r d' -> (forall n, n ∈ acc -> n ∈ po) -> forall n, n ∈ r -> n ∈ po.
  Proof.
    revert acc d. induction fuel as [|fuel IH]; intros acc d Hr Ha; [done|]. cbn in Hr. unfold bnd in Hr.
    destruct (reuse_pass dbg po t d) as [r1 d1|?|?|] eqn:E; try done. destruct r1 as [|x r1].
    - by injection Hr as <- <-.
    - eapply IH; [exact Hr|]. intros n Hn. apply elem_of_app in Hn as [Hn|Hn]; [by apply Ha|by eapply reuse_pass_sub].
  Qed.
  Lemma reuse_all_sub dbg po t d r d' : reuse_all dbg po t d = Ok r d' -> forall n, n ∈ r -> n ∈ po.
  Proof.
    intros Hr. unfold reuse_all in Hr. unfold bnd at 1 in Hr. destruct (reuse_loop dbg _ po t [] d) as [acc d1|?|?|] eqn:E; try done.
    unfold bnd, gets in Hr. destruct (debug_verify dbg _ EAssert d1) as [u d2|?|?|]; try done. injection Hr as <- <-.
    intros n Hn. apply elem_of_app in Hn as [Hn|Hn].
    - eapply reuse_loop_sub; [exact E| |done]. intros ? Hm. by apply elem_of_nil in Hm.
    - apply elem_of_list_In, filter_In in Hn as [Hn _]. by apply elem_of_list_In.
  Qed.

  Lemma eval_al t : al (leval_model w dead g t) (eval_model g t).
  Proof.
    unfold leval_model, eval_model. destruct (g_mode g) eqn:Em.
    - apply alike_bnd. { apply on_dyn_al. intros d. by rewrite lmark_ok. }
      intros _. intros s Hs. assert (forall m : M (simst D) unit, bnd m (fun _ => if g_dbg g then lvisit_all w dead g else ret tt) s = m s) as ->.
      { intros m. unfold bnd. destruct (m s) as [[] s1|?|?|]; try done. case (g_dbg g); [by rewrite visit_al|done]. }
      apply (on_dyn_al (lprocess_all (g_dbg g) w dead tr t) (process_all (g_dbg g) tr t)); [|done].
      intros d. unfold lprocess_all, process_all. by apply lprocess_loop_ok.
    - apply alike_bnd. { apply on_dyn_al. intros d. by rewrite lmark_ok. }
      intros _ s Hs.
      assert (forall A (m : M (simst D) A) (k : A -> M (simst D) unit), bnd m (fun a => bnd (k a) (fun _ => if g_dbg g then lvisit_all w dead g else ret tt)) s = bnd m k s) as Hb.
      { intros A m k. unfold bnd. destruct (m s) as [a s1|?|?|]; try done. destruct (k a s1) as [[] s2|?|?|]; try done. case (g_dbg g); [by rewrite visit_al|done]. }
      rewrite Hb. clear Hb. revert s Hs.
      apply alike_bnd; [apply alike_gets|]. intros [[|]|]; [| |apply alike_undef].
      + intros s Hs. unfold bnd at 1 3, gets. unfold bnd, on_dyn, lift. rewrite lreuse_all_ok by (apply nodes_calls, Hs). split; [done|].
        intros a s'. destruct (reuse_all (g_dbg g) (s_po1 s) t (s_dyn s)) as [po' d1|?|?|] eqn:E; try done. intros [= <- <-].
        destruct Hs as [H1 H2 H3]. split; cbn; [done| |done]. intros n Hn. apply H1. by eapply reuse_all_sub.
      + intros s Hs. unfold bnd at 1 3, gets. unfold bnd, on_dyn, lift. rewrite lreuse_all_ok by (apply nodes_calls, Hs). split; [done|].
        intros a s'. destruct (reuse_all (g_dbg g) (s_po2 s) t (s_dyn s)) as [po' d1|?|?|] eqn:E; try done. intros [= <- <-].
        destruct Hs as [H1 H2 H3]. split; cbn; [|done|done]. intros n Hn. apply H2. by eapply reuse_all_sub.
    - intros s Hs. unfold bnd, gets. apply (on_core_al (lfast_eval (g_dbg g) w dead (s_fast s) t) (fast_eval (g_dbg g) (s_fast s) t)); [|done].
      intros c. apply lfast_ok. intros x Hx. apply elem_of_list_fmap in Hx as (l & -> & Hl). apply Hc.
      apply elem_of_list_fmap. exists (NLeaf l). split; [done|]. by apply (st_fast _ Hs).
  Qed.
  Lemma begin_al t : al (on_core' (lpre_step (g_dbg g) w dead tr t ;;; snap (EvBegin t))) (on_core' (pre_step (g_dbg g) tr t ;;; snap (EvBegin t))).
  Proof. apply on_core_al. intros c. apply bnd_eq; [by apply lpre_ok|done]. Qed.
  Lemma process_al t b1 b2 : al (lprocess_model w dead g t b1 b2) (process_model g t b1 b2).
  Proof.
    unfold lprocess_model, process_model. apply alike_skip; [intros s; apply root_al|].
    apply alike_bnd; [by apply on_core_al|]. intros _. apply alike_bnd; [destruct b1; [apply begin_al|apply alike_ret]|]. intros _.
    apply alike_bnd; [apply eval_al|]. intros _. apply alike_bnd; [by apply on_core_al|]. intros _.
    destruct b2; [|apply alike_ret]. apply on_core_al. intros c. apply bnd_eq; [by apply lpost_ok|done].
  Qed.
  Lemma clear_al : al clear_all clear_all.
  Proof. unfold clear_all. apply alike_bnd; [apply alike_gets|]. intros vs. apply on_store_al. Qed.
  Lemma base_al t : al (base_init g t) (base_init g t).
  Proof.
    unfold base_init. apply alike_bnd; [apply alike_modify; intros s; by apply stored_same|]. intros _.
    apply alike_bnd; [apply clear_al|]. intros _. apply alike_modify. intros s. by apply stored_same.
  Qed.

  Lemma fast_pass_sub dbg (po : list (leaf D)) t n c r c' : fast_pass dbg po t n c = Ok r c' -> forall l, l ∈ r -> l ∈ po.
  Proof.
    revert n c r c'. induction po as [|l po IH]; intros n c r c' Hr; cbn in Hr.
    - injection Hr as <- <-. done.
    - destruct n as [|n]; [injection Hr as <- <-; intros ? Hx; by apply elem_of_nil in Hx|].
      unfold bnd at 1, gets at 1 in Hr. destruct (is_done c (l_id l) || negb (ready c l)).
      + intros m Hm. apply elem_of_list_further. by eapply IH.
      + unfold bnd at 1 in Hr. destruct (leaf_process dbg l t c) as [u c1|?|?|]; try done. unfold bnd at 1, gets in Hr.
        destruct (is_done c1 (l_id l)); [|injection Hr as <- <-; intros ? Hx; by apply elem_of_nil in Hx].
        unfold bnd in Hr. destruct (fast_pass dbg po t n c1) as [r1 c2|?|?|] eqn:E; try done. injection Hr as <- <-.
        intros m [->|Hm]%elem_of_cons; [apply elem_of_list_here|]. apply elem_of_list_further. by eapply IH.
  Qed.
  Lemma fast_loop_sub dbg fuel (po : list (leaf D)) t acc k c r c' : fast_loop dbg fuel po t acc k c = Ok r c' -> (forall l, l ∈ concat acc -> l ∈ po) ->
    forall l, l ∈ concat (fst r) -> l ∈ po.
  Proof.
    revert acc k c. induction fuel as [|fuel IH]; intros acc k c Hr Ha; [done|]. cbn in Hr. unfold bnd at 1, gets in Hr.
    destruct (count_ready po c) as [|n]; [by injection Hr as <- <-|]. unfold bnd in Hr.
    destruct (fast_pass dbg po t (S n) c) as [r1 c1|?|?|] eqn:E; try done.
    assert (forall l, l ∈ concat (acc ++ [r1]) -> l ∈ po) as Hx.
    { intros l. rewrite concat_app. cbn. rewrite app_nil_r. intros [Hl|Hl]%elem_of_app; [by apply Ha|by eapply fast_pass_sub]. }
    destruct (Nat.eqb _ _); [by eapply IH|]. injection Hr as <- <-. done.
  Qed.
  Lemma leaf_nodes l : l ∈ leaves tr -> NLeaf l ∈ nodes tr.
  Proof.
    clear. induction tr as [l0|b k ch IH] using tree_ind'; cbn.
    - intros ->%elem_of_list_singleton. apply elem_of_list_here.
    - intros Hl. apply elem_of_list_further. induction IH as [|t ch Ht _ IH2]; cbn in *; [by apply elem_of_nil in Hl|].
      apply elem_of_app in Hl as [Hl|Hl]; apply elem_of_app; auto.
  Qed.
  Lemma init_al t : al (linit w dead g t) (init g t).
  Proof.
    unfold linit, init. apply alike_skip; [apply visit_al|]. destruct (g_mode g) eqn:Em.
    - unfold simulator_init. rewrite Em. apply alike_bnd; [apply base_al|]. intros _. apply alike_bnd; [apply alike_gets|]. intros n.
      apply alike_bnd; [apply alike_ret|]. intros _. apply process_al.
    - unfold simulator_init. rewrite Em. apply alike_bnd; [apply base_al|]. intros _. apply alike_bnd; [apply alike_gets|]. intros n.
      apply alike_bnd; [|intros _; apply process_al]. destruct n as [|n]; [apply alike_ret|].
      apply alike_bnd; [apply alike_gets|]. intros p1. apply alike_bnd; [apply alike_gets|]. intros p2.
      apply alike_bnd; [apply alike_debug|]. intros _. apply alike_bnd; [apply alike_debug|]. intros _.
      apply alike_skip; [apply visit_al|]. apply alike_modify. intros s [H1 H2 H3]. split; cbn; [|done|done].
      intros m [Hm|Hm]%elem_of_app; [by apply H1|done].
    - unfold fast_init. apply alike_bnd; [apply base_al|]. intros _. apply alike_bnd; [apply alike_gets|]. intros o0.
      apply alike_bnd; [apply alike_debug|]. intros _. apply alike_skip; [apply visit_al|].
      apply alike_bnd; [by apply on_core_al|]. intros _. apply alike_bnd; [apply begin_al|]. intros _.
      apply (alike_bndP stored (fun r : list (list (leaf D)) * nat => forall l, l ∈ concat (fst r) -> l ∈ leaves tr)).
      + by apply on_core_al.
      + intros s r s'. unfold on_core', on_dyn, on_core, lift. destruct (fast_schedule (g_dbg g) (leaves tr) t (d_core (s_dyn s))) as [r1 c1|?|?|] eqn:E; try done.
        intros [= <- <-]. eapply fast_loop_sub; [exact E|]. intros l Hl. by apply elem_of_nil in Hl.
      + intros r Hr. apply alike_bnd.
        { apply alike_modify. intros s [H1 H2 H3]. split; cbn; [done|done|]. intros l. rewrite concat_app.
          intros [Hl|Hl]%elem_of_app; [by apply H3|by apply leaf_nodes, Hr]. }
        intros _. apply alike_bnd; [apply alike_verify|]. intros _. apply alike_bnd; [by apply on_core_al|]. intros _.
        apply alike_bnd; [apply clear_al|]. intros _. apply process_al.
  Qed.

  Lemma reset_al sv : al (reset_sv g sv) (reset_sv g sv).
  Proof.
    unfold reset_sv. apply alike_bnd; [apply clear_al|]. intros _. apply alike_bnd; [apply alike_gets|]. intros ss.
    apply alike_bnd; [apply alike_gets|]. intros aa. apply on_store_al.
  Qed.
  Lemma get_sv_al arr : al (get_sv g arr) (get_sv g arr).
  Proof.
    unfold get_sv. apply alike_bnd; [apply alike_gets|]. intros n. apply alike_bnd; [apply alike_debug|]. intros _.
    apply alike_bnd; [apply alike_gets|]. intros ss. apply alike_bnd; [apply alike_gets|]. intros aa. apply alike_bnd; [apply on_store_al|]. intros x.
    destruct (write_prefix x arr); [apply alike_ret|apply alike_undef].
  Qed.
  Lemma minor_al t sv : al (lminor_cb w dead g t sv) (minor_cb g t sv).
  Proof.
    unfold lminor_cb, minor_cb. apply alike_bnd; [apply reset_al|]. intros _. apply alike_bnd; [apply process_al|]. intros _.
    apply alike_bnd; [apply alike_gets|]. intros ss. apply alike_bnd; [apply alike_gets|]. intros aa.
    apply alike_bnd; [apply on_store_al|]. intros x. apply alike_bnd; [apply alike_gets|]. intros dv.
    destruct (write_prefix x dv); [|apply alike_undef]. apply alike_bnd; [apply alike_modify; intros s; by apply stored_same|]. intros _. apply alike_ret.
  Qed.
  Lemma begin_step_al t : al (lbegin_step w dead g t) (begin_step g t).
  Proof.
    unfold lbegin_step, begin_step. apply alike_bnd; [apply clear_al|]. intros _. apply alike_skip; [intros s; apply root_al|].
    apply alike_bnd; [by apply on_core_al|]. intros _. apply begin_al.
  Qed.
  Lemma run_loop_al fuel t lo hi t1 t2 force : al (lrun_loop w dead g fuel t lo hi t1 t2 force) (run_loop g fuel t lo hi t1 t2 force).
  Proof.
    revert t1 t2 force. induction fuel as [|fuel IH]; intros t1 t2 force; cbn [lrun_loop run_loop]; (destruct (nltb t1 t); [|apply alike_ret]); [apply alike_oof|].
    apply alike_bnd; [apply begin_step_al|]. intros _. apply alike_bnd; [apply alike_gets|]. intros o.
    apply alike_bnd; [apply get_sv_al|]. intros x. apply alike_bnd; [apply alike_modify; intros s; by apply stored_same|]. intros _.
    destruct (g_stepper g) as [stp|] eqn:Es; [|apply alike_undef].
    apply alike_bnd; [apply Hstp; [done|]; intros; apply minor_al|]. intros r.
    apply alike_bnd; [apply alike_modify; intros s; by apply stored_same|]. intros _.
    apply alike_bnd; [by apply on_core_al|]. intros _. cbv zeta. destruct (_ || _).
    - apply alike_bnd; [|intros _; apply IH]. destruct (nltb t2 t); [|apply alike_ret].
      apply alike_bnd; [apply alike_gets|]. intros sv. apply alike_bnd; [apply reset_al|]. intros _. apply process_al.
    - apply IH.
  Qed.
  Lemma run_al fuel t lo hi : al (lrun w dead g fuel t lo hi) (run g fuel t lo hi).
  Proof.
    unfold lrun, run. apply alike_bnd; [apply alike_gets|]. intros ini. destruct (negb ini); [apply init_al|].
    apply alike_bnd; [apply alike_gets|]. intros n. apply alike_bnd; [apply alike_gets|]. intros tp.
    apply alike_bnd.
    - destruct n as [|n]; [apply alike_ret|]. destruct (nltb t tp); [apply alike_throw|]. destruct (neqb t tp).
      + apply alike_bnd; [apply begin_step_al|]. intros _. apply alike_bnd; [apply alike_gets|]. intros o. apply alike_bnd; [apply get_sv_al|]. intros x.
        apply alike_modify; intros s; by apply stored_same.
      + do 3 (apply alike_bnd; [apply alike_debug|]; intros _). apply run_loop_al.
    - intros _. apply alike_bnd; [apply alike_gets|]. intros sv. apply alike_bnd; [apply reset_al|]. intros _.
      apply alike_bnd; [apply process_al|]. intros _. apply alike_modify; intros s; by apply stored_same.
  Qed.
End lsim.

Lemma elem_of_concat_map {A B} (f : A -> list B) (l : list A) (x : B) : x ∈ concat (map f l) <-> exists a, a ∈ l /\ x ∈ f a.
Proof.
  induction l as [|a l IH]; cbn.
  - split; [intros Hx; by apply elem_of_nil in Hx|intros (a & Ha & _); by apply elem_of_nil in Ha].
  - rewrite elem_of_app, IH. split.
    + intros [Hx|(a' & Ha & Hx)]; [exists a; split; [apply elem_of_list_here|done]|exists a'; split; [by apply elem_of_list_further|done]].
    + intros (a' & [->|Ha]%elem_of_cons & Hx); [by left|right; by exists a'].
Qed.
(** The blocks of a model are the block and everything below it. *)
Section world.
  Context {D : Type} `{NumOps D}.
  Context (dbg : bool) (w : world D) (Hw : wreach dbg w) (Hf : forest w).
  Lemma ids_closed n b tr y oy x : compile n w b = Some tr -> y ∈ ids tr -> w_blks w !! y = Some oy -> x ∈ bo_children oy -> x ∈ ids tr.
  Proof.
    pose proof (ok_tree _ (reach_ok dbg w Hw)) as HT.
    revert b tr. induction n as [|n IH]; intros b tr Hb Hy Ho Hx; [done|]. cbn in Hb.
    destruct (w_blks w !! b) as [o|] eqn:Eb; [|done]. destruct (is_submodel (bo_cls o)) eqn:Es.
    - destruct (mapM (compile n w) (bo_children o)) as [ch|] eqn:Em; [|done]. injection Hb as <-. apply mapM_Some in Em.
      rewrite ids_sub in Hy |- *. apply elem_of_list_further. apply elem_of_cons in Hy as [->|Hy].
      + simplify_eq. apply elem_of_list_lookup in Hx as [i Hi]. destruct (Forall2_lookup_l _ _ _ _ _ Em Hi) as (t & Ht & Hct).
        apply elem_of_concat_map. exists t. split; [by eapply elem_of_list_lookup_2|].
        destruct n; [done|]. cbn in Hct. destruct (w_blks w !! x) as [ox|]; [|done]. destruct (is_submodel (bo_cls ox)).
        * destruct (mapM _ _); [|done]. injection Hct as <-. rewrite ids_sub. apply elem_of_list_here.
        * injection Hct as <-. apply elem_of_list_here.
      + apply elem_of_concat_map in Hy as (t & Ht & Hy). apply elem_of_concat_map. exists t. split; [done|].
        apply elem_of_list_lookup in Ht as [i Hi]. destruct (Forall2_lookup_r _ _ _ _ _ Em Hi) as (c & _ & Hct).
        by eapply IH.
    - injection Hb as <-. apply elem_of_list_singleton in Hy. cbn in Hy. subst y. simplify_eq.
      pose proof (child_submodel w HT _ _ _ Eb Hx). congruence.
  Qed.
  Lemma ids_above b tr x : compile_model w b = Some tr -> x ∈ ids tr <-> x = b \/ above w x b.
  Proof.
    pose proof (ok_tree _ (reach_ok dbg w Hw)) as HT. intros Hb. split.
    - intros Hx. destruct (compile_ids w _ _ _ _ Hb Hx) as [k Hk]. clear Hx. induction Hk as [b|k b x y oy Hk IH Hy Hx]; [by left|]. right.
      destruct (t_child _ HT _ _ _ Hy Hx) as (ox & Hox & Hp). assert (child_of w x y) as Hc by (by exists ox).
      destruct (IH Hb) as [->|Ha]; [by apply tc_once|by eapply tc_l].
    - assert (b ∈ ids tr) as Hbi.
      { unfold compile_model in Hb. cbn in Hb. destruct (w_blks w !! b) as [o|]; [|done]. destruct (is_submodel (bo_cls o)).
        - destruct (mapM _ _); [|done]. injection Hb as <-. rewrite ids_sub. apply elem_of_list_here.
        - injection Hb as <-. apply elem_of_list_here. }
      intros [->|Ha]; [done|]. unfold above in Ha. induction Ha as [x b (o & Ho & Hp)|x y b (o & Ho & Hp) _ IH];
        destruct (t_parent _ HT _ _ _ Ho Hp) as (op & Hop & _ & Hin).
      + eapply ids_closed; [exact Hb|exact Hbi|done|done].
      + eapply ids_closed; [exact Hb|by apply IH|done|done].
  Qed.
  Lemma ids_named b tr x : compile_model w b = Some tr -> x ∈ ids tr -> exists nm, full_name (S (length (w_blks w))) w x = Some nm.
  Proof.
    pose proof (ok_tree _ (reach_ok dbg w Hw)) as HT. intros Hb Hx.
    assert (x < length (w_blks w)) as Hl.
    { apply (ids_above b tr x Hb) in Hx as [->|Hx].
      - unfold compile_model in Hb. cbn in Hb. destruct (w_blks w !! b) as [o|] eqn:E; [|done]. by eapply lookup_lt_Some.
      - unfold above in Hx. inversion Hx as [? ? (o & Ho & _)|? ? ? (o & Ho & _)]; by eapply lookup_lt_Some. }
    rewrite <- Nat.add_1_r. by apply (C15_ends D dbg w x Hw Hf Hl).
  Qed.
End world.
