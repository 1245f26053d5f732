(** Debug and release builds: whatever completes with the debug checks completes
    without them, with the same result. *)
From stdpp Require Import prelude gmap.
From Coq Require Import ZArith.
From Verif Require Import Num Res Store Leaf Sched Stepper Sim World Api.

Definition mle {S A} (m1 m2 : M S A) : Prop :=
  forall s a s', m1 s = Ok a s' -> m2 s = Ok a s'.
Infix "⊑m" := mle (at level 70).

Section mle.
  Context {S : Type}.
  Lemma mle_refl {A} (m : M S A) : m ⊑m m.
  Proof. by intros s a s'. Qed.
  Lemma mle_bnd {A B} (m1 m2 : M S A) (k1 k2 : A -> M S B) :
    m1 ⊑m m2 -> (forall a, k1 a ⊑m k2 a) -> bnd m1 k1 ⊑m bnd m2 k2.
  Proof.
    intros Hm Hk s b s'. unfold bnd. destruct (m1 s) as [a s1| | |] eqn:E; try done.
    rewrite (Hm _ _ _ E). apply Hk.
  Qed.
  Lemma mle_debug c e : debug_verify (S:=S) true c e ⊑m debug_verify false c e.
  Proof. intros s a s'. unfold debug_verify, verify. destruct c; cbn; [done|]. unfold throw. done. Qed.
  Lemma mle_verify c e : verify (S:=S) c e ⊑m ret tt.
  Proof. intros s a s'. unfold verify. by destruct c. Qed.
  Lemma mle_forM {A} (l : list A) (f1 f2 : A -> M S unit) :
    (forall x, f1 x ⊑m f2 x) -> forM l f1 ⊑m forM l f2.
  Proof. intros Hf. induction l as [|x l IH]; cbn; [apply mle_refl|]. by apply mle_bnd. Qed.
  Lemma mle_lift {T A} (get : T -> S) (put : S -> T -> T) (m1 m2 : M S A) :
    m1 ⊑m m2 -> lift get put m1 ⊑m lift get put m2.
  Proof.
    intros Hm t a t'. unfold lift. destruct (m1 (get t)) as [a1 s1| | |] eqn:E; try done.
    by rewrite (Hm _ _ _ E).
  Qed.
  Lemma mle_if {A} (b : bool) (m1 m2 n1 n2 : M S A) :
    m1 ⊑m m2 -> n1 ⊑m n2 -> (if b then m1 else n1) ⊑m (if b then m2 else n2).
  Proof. by destruct b. Qed.
End mle.

Create HintDb mle.
Global Hint Constants Opaque : mle.
Global Hint Resolve mle_refl mle_debug mle_verify : mle.
Ltac mle_step :=
  match goal with
  | |- forall _, _ => intro
  | |- ?m ⊑m ?m => apply mle_refl
  | |- bnd _ _ ⊑m bnd _ _ => apply mle_bnd
  | |- forM _ _ ⊑m forM _ _ => apply mle_forM
  | |- lift _ _ _ ⊑m lift _ _ _ => apply mle_lift
  | |- (if ?b then _ else _) ⊑m (if ?b then _ else _) => destruct b
  | |- (match ?x with _ => _ end) ⊑m (match ?x with _ => _ end) => destruct x
  end.
Ltac mle := repeat (first [mle_step | solve [auto 2 with mle nocore]]).

(** ** Signals, programs, evaluation *)
Section eval.
  Context {D : Type} `{NumOps D}.

  Lemma get_value_mle s : get_value (D:=D) true s ⊑m get_value false s.
  Proof. intros σ a σ'. unfold get_value. cbn. repeat case_match; naive_solver. Qed.
  Lemma set_value_mle s (v : val D) : set_value true s v ⊑m set_value false s v.
  Proof. intros σ a σ'. unfold set_value. cbn. repeat case_match; naive_solver. Qed.
  Hint Resolve get_value_mle set_value_mle : mle.
  Lemma run_prog_mle {A} (p : prog D A) : run_prog true p ⊑m run_prog false p.
  Proof. induction p; cbn; mle. Qed.
  Hint Resolve run_prog_mle : mle.
  Lemma run_leaf_mle ev l p : run_leaf (D:=D) true ev l p ⊑m run_leaf false ev l p.
  Proof.
    intros c a c'. unfold run_leaf. destruct (run_prog true _ _) eqn:E; try done.
    by rewrite (run_prog_mle _ _ _ _ E).
  Qed.
  Hint Resolve run_leaf_mle : mle.
  Lemma activate_mle l t : activate (D:=D) true l t ⊑m activate false l t.
  Proof. apply run_leaf_mle. Qed.
  Hint Resolve activate_mle : mle.
  Lemma leaf_process_mle l t : leaf_process (D:=D) true l t ⊑m leaf_process false l t.
  Proof.
    intros c a c'. unfold leaf_process. destruct (is_done c (l_id l) || negb (ready c l)); [done|]. revert c a c'.
    change ((activate true l t;;; set_done (l_id l);;; ret 1) ⊑m (activate false l t;;; set_done (l_id l);;; ret 1)).
    mle.
  Qed.
  Hint Resolve leaf_process_mle : mle.
  Lemma process_mle : forall (tr : tree D) t, process true tr t ⊑m process false tr t.
  Proof.
    fix IH 1. intros [l|b k ch] t; cbn [process].
    - unfold on_core. apply mle_lift, leaf_process_mle.
    - apply mle_bnd; [apply mle_refl|]. intros p. destruct p; [apply mle_refl|].
      apply mle_bnd; [apply mle_refl|]. intros _. generalize 0.
      induction ch as [|c ch IHch]; intros n; [apply mle_refl|].
      apply mle_bnd; [apply IH|]. intros kk. apply mle_bnd; [apply mle_refl|]. intros q.
      apply mle_bnd; [apply mle_refl|]. intros _. apply IHch.
  Qed.
  Hint Resolve process_mle : mle.
  Lemma process_loop_mle fuel tr t : process_loop (D:=D) true fuel tr t ⊑m process_loop false fuel tr t.
  Proof. induction fuel; cbn; mle. Qed.
  Lemma process_all_mle tr t : process_all (D:=D) true tr t ⊑m process_all false tr t.
  Proof. apply process_loop_mle. Qed.
  Hint Resolve process_all_mle : mle.
  Lemma pre_step_mle : forall (tr : tree D) t, pre_step true tr t ⊑m pre_step false tr t.
  Proof.
    fix IH 1. intros [l|b k ch] t; cbn [pre_step]; [apply run_leaf_mle|].
    induction ch as [|c ch IHch]; [apply mle_refl|]. apply mle_bnd; [apply IH|]. intros _. apply IHch.
  Qed.
  Lemma post_step_mle : forall (tr : tree D) t, post_step true tr t ⊑m post_step false tr t.
  Proof.
    fix IH 1. intros [l|b k ch] t; cbn [post_step]; [apply run_leaf_mle|].
    induction ch as [|c ch IHch]; [apply mle_refl|]. apply mle_bnd; [apply IH|]. intros _. apply IHch.
  Qed.
  Hint Resolve pre_step_mle post_step_mle : mle.
  Lemma node_process_mle n t : node_process (D:=D) true n t ⊑m node_process false n t.
  Proof. destruct n; cbn; unfold on_core; mle. Qed.
  Hint Resolve node_process_mle : mle.
  Lemma reuse_pass_mle po t : reuse_pass (D:=D) true po t ⊑m reuse_pass false po t.
  Proof. induction po; cbn; mle. Qed.
  Hint Resolve reuse_pass_mle : mle.
  Lemma reuse_loop_mle fuel po t acc : reuse_loop (D:=D) true fuel po t acc ⊑m reuse_loop false fuel po t acc.
  Proof. revert acc. induction fuel; intros; cbn; mle. Qed.
  Hint Resolve reuse_loop_mle : mle.
  Lemma reuse_all_mle po t : reuse_all (D:=D) true po t ⊑m reuse_all false po t.
  Proof. unfold reuse_all. mle. Qed.
  Lemma fast_pass_mle po t n : fast_pass (D:=D) true po t n ⊑m fast_pass false po t n.
  Proof. revert n. induction po; intros; cbn; mle. Qed.
  Hint Resolve fast_pass_mle : mle.
  Lemma fast_loop_mle fuel po t acc n : fast_loop (D:=D) true fuel po t acc n ⊑m fast_loop false fuel po t acc n.
  Proof. revert acc n. induction fuel; intros; cbn; mle. Qed.
  Lemma fast_schedule_mle po t : fast_schedule (D:=D) true po t ⊑m fast_schedule false po t.
  Proof. apply fast_loop_mle. Qed.
  Lemma fast_eval_mle o t : fast_eval (D:=D) true o t ⊑m fast_eval false o t.
  Proof. unfold fast_eval. mle. Qed.
End eval.
Global Hint Resolve get_value_mle set_value_mle run_prog_mle run_leaf_mle activate_mle
  leaf_process_mle process_mle process_all_mle pre_step_mle post_step_mle reuse_all_mle
  fast_schedule_mle fast_eval_mle : mle.

(** ** Steppers *)
(** A stepper uses the callback only by calling it. *)
Definition stepper_mono {D} (stp : stepper D) : Prop :=
  forall S f1 f2 t0 v0 t1, (forall t v, f1 t v ⊑m f2 t v) -> stp S f1 t0 v0 t1 ⊑m stp S f2 t0 v0 t1.

Section stepper.
  Context {D : Type} `{NumOps D}.
  Lemma call_mle {S} (f1 f2 : D -> list D -> M S (list D)) n t v :
    (forall t v, f1 t v ⊑m f2 t v) -> call f1 n t v ⊑m call f2 n t v.
  Proof. intros Hf. unfold call. mle. Qed.
  Lemma euler_mono : stepper_mono (D:=D) euler.
  Proof. intros S f1 f2 t0 v0 t1 Hf. unfold euler. apply mle_bnd; [by apply call_mle|]. intros. apply mle_refl. Qed.
  Lemma rk4_mono : stepper_mono (D:=D) rk4.
  Proof.
    intros S f1 f2 t0 v0 t1 Hf. unfold rk4. cbv zeta.
    repeat (apply mle_bnd; [by apply call_mle|intros ?]). apply mle_refl.
  Qed.
  Lemma rkf45_mono : stepper_mono (D:=D) rkf45.
  Proof.
    intros S f1 f2 t0 v0 t1 Hf. unfold rkf45. cbv zeta.
    repeat (apply mle_bnd; [by apply call_mle|intros ?]). apply mle_refl.
  Qed.
End stepper.

(** ** Simulators *)
Definition with_dbg {D} (b : bool) (g : cfg D) : cfg D :=
  Cfg b (g_mode g) (g_tree g) (g_inputs g) (g_icb g) (g_stepper g) (g_iter g) (g_junk g).

Section sim.
  Context {D : Type} `{NumOps D}.
  Context (g : cfg D).
  Notation gd := (with_dbg true g).
  Notation gr := (with_dbg false g).

  Lemma inputs_mle t : inputs gd t ⊑m inputs gr t.
  Proof. unfold inputs, on_store. cbn [g_inputs g_icb g_dbg with_dbg]. mle. Qed.
  Hint Resolve inputs_mle : mle.
  Lemma eval_model_mle t : eval_model gd t ⊑m eval_model gr t.
  Proof. unfold eval_model, on_dyn, on_core', on_dyn, on_core. cbn [g_mode g_tree g_dbg with_dbg]. mle. Qed.
  Hint Resolve eval_model_mle : mle.
  Lemma process_model_mle t b1 b2 : process_model gd t b1 b2 ⊑m process_model gr t b1 b2.
  Proof. unfold process_model, on_core', on_dyn, on_core. cbn [g_tree g_dbg with_dbg]. mle. Qed.
  Hint Resolve process_model_mle : mle.
  Lemma base_init_mle t : base_init gd t ⊑m base_init gr t.
  Proof. unfold base_init. apply mle_refl. Qed.
  Hint Resolve base_init_mle : mle.
  Lemma simulator_init_mle t : simulator_init gd t ⊑m simulator_init gr t.
  Proof. unfold simulator_init. cbn [g_tree g_dbg g_mode with_dbg]. mle. Qed.
  Lemma fast_init_mle t : fast_init gd t ⊑m fast_init gr t.
  Proof. unfold fast_init, on_core', on_dyn, on_core. cbn [g_tree g_dbg g_mode with_dbg]. mle. Qed.
  Hint Resolve simulator_init_mle fast_init_mle : mle.
  Lemma init_mle t : init gd t ⊑m init gr t.
  Proof. unfold init. cbn [g_mode with_dbg]. mle. Qed.
  Hint Resolve init_mle : mle.
  Lemma set_scalars_mle ss sv : set_scalars gd ss sv ⊑m set_scalars gr ss sv.
  Proof. revert sv. induction ss; intros; cbn; mle. Qed.
  Lemma set_arrays_mle ss sv : set_arrays gd ss sv ⊑m set_arrays gr ss sv.
  Proof. revert sv. induction ss; intros; cbn; mle. Qed.
  Hint Resolve set_scalars_mle set_arrays_mle : mle.
  Lemma reset_sv_mle sv : reset_sv gd sv ⊑m reset_sv gr sv.
  Proof. unfold reset_sv, on_store', on_core', on_dyn, on_core, on_store. mle. Qed.
  Hint Resolve reset_sv_mle : mle.
  Lemma get_scalar_mle s : get_scalar gd s ⊑m get_scalar gr s.
  Proof. unfold get_scalar. cbn. mle. Qed.
  Lemma get_array_mle s : get_array gd s ⊑m get_array gr s.
  Proof. unfold get_array. cbn. mle. Qed.
  Hint Resolve get_scalar_mle get_array_mle : mle.
  Lemma collect_mle (f1 f2 : nat -> M (store D) (list D)) ss :
    (forall s, f1 s ⊑m f2 s) -> collect f1 ss ⊑m collect f2 ss.
  Proof. intros Hf. induction ss; cbn; mle. Qed.
  Lemma get_sv_mle arr : get_sv gd arr ⊑m get_sv gr arr.
  Proof.
    unfold get_sv, on_store', on_core', on_dyn, on_core, on_store. cbn [g_dbg with_dbg].
    repeat (mle_step; try (apply collect_mle; mle); try apply mle_debug; try apply get_scalar_mle; try apply get_array_mle).
  Qed.
  Lemma deriv_of_mle (f1 f2 : nat -> M (store D) (list D)) s :
    (forall s, f1 s ⊑m f2 s) -> deriv_of f1 s ⊑m deriv_of f2 s.
  Proof. intros Hf. unfold deriv_of. mle. Qed.
  Hint Resolve get_sv_mle : mle.
  Lemma minor_cb_mle t sv : minor_cb gd t sv ⊑m minor_cb gr t sv.
  Proof.
    unfold minor_cb, on_store', on_core', on_dyn, on_core, on_store. 
    repeat (first [apply mle_refl | apply reset_sv_mle | apply process_model_mle | mle_step |
      (apply collect_mle; intros ?; apply deriv_of_mle; intros ?; first [apply get_scalar_mle|apply get_array_mle]) ]).
  Qed.
  Hint Resolve minor_cb_mle : mle.
  Lemma begin_step_mle t : begin_step gd t ⊑m begin_step gr t.
  Proof. unfold begin_step, on_core', on_dyn, on_core. cbn [g_tree g_dbg with_dbg]. mle. Qed.
  Hint Resolve begin_step_mle : mle.
  Lemma run_loop_mle fuel t lo hi t1 t2 force :
    (forall stp, g_stepper g = Some stp -> stepper_mono stp) ->
    run_loop gd fuel t lo hi t1 t2 force ⊑m run_loop gr fuel t lo hi t1 t2 force.
  Proof.
    intros Hs. revert t1 t2 force. induction fuel as [|fuel IH]; intros t1 t2 force; cbn [run_loop]; [mle|].
    cbn [g_stepper with_dbg]. destruct (nltb t1 t); [|mle].
    repeat (apply mle_bnd; [mle|intros ?]).
    destruct (g_stepper g) as [stp|] eqn:E; [|mle].
    apply mle_bnd; [apply Hs; [done|]; intros; apply minor_cb_mle|]. intros r. cbv zeta. mle.
  Qed.
  Lemma run_mle fuel t lo hi :
    (forall stp, g_stepper g = Some stp -> stepper_mono stp) ->
    run gd fuel t lo hi ⊑m run gr fuel t lo hi.
  Proof.
    intros Hs. pose proof (run_loop_mle fuel t lo hi) as Hl. unfold run. cbn [g_stepper g_dbg with_dbg]. mle.
  Qed.
End sim.

(** ** Client operations *)
Section world.
  Context {D : Type} `{NumOps D}.
  Lemma connect_simple_mle b ib ob : connect_simple (D:=D) true b ib ob ⊑m connect_simple false b ib ob.
  Proof. unfold connect_simple, check_inputs. mle. Qed.
  Hint Resolve connect_simple_mle : mle.
  Lemma add_block_simple_mle p b ib ob : add_block_simple (D:=D) true p b ib ob ⊑m add_block_simple false p b ib ob.
  Proof. unfold add_block_simple. mle. Qed.
  Hint Resolve add_block_simple_mle : mle.
  Lemma build_one_mle b lb si so : build_one (D:=D) true b lb si so ⊑m build_one false b lb si so.
  Proof. unfold build_one, build_memory, build_pipe. mle. Qed.
  Hint Resolve build_one_mle : mle.
  Lemma visit_bus_mle fuel b excl im om pre m :
    visit_bus (D:=D) true fuel b excl im om pre m ⊑m visit_bus false fuel b excl im om pre m.
  Proof. revert pre m. induction fuel; intros; cbn [visit_bus]; mle. Qed.
  Hint Resolve visit_bus_mle : mle.
  Lemma connect_mle b ib ob : connect (D:=D) true b ib ob ⊑m connect false b ib ob.
  Proof. unfold connect. mle. Qed.
  Hint Resolve connect_mle : mle.
  Lemma exec_mle o : exec (D:=D) true o ⊑m exec false o.
  Proof. destruct o; cbn [exec]; unfold add_block, float_set_deriv, user_link; mle. Qed.
End world.
