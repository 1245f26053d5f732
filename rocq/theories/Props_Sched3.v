(** FastSimulator, block equations, algebraic loops, debug and release builds:
    C23 to C27. *)
From stdpp Require Import prelude gmap strings.
From Coq Require Import ZArith QArith.
From Verif Require Import Num NumQ Res Store Leaf Sched Stepper Sim SpecSched Util P_Store P_Prog P_Sched P_Modes P_Conf P_Eval P_Fast
  P_Sim P_Evolve SpecSim P_Simulated World Api P_World P_Compile SpecBlock P_Lib P_Refine P_Rel P_Rel2 Ex_Models Props_Sched Props_Sched2.

Local Open Scope nat_scope.

(** ** C23.  The order search of FastSimulator. *)
(** FastSimulator::init up to the start of the search: lists of signals, clearing,
    inputs and pre_step at [t0]. *)
Definition setup {D} `{NumOps D} (g : cfg D) (t0 : D) : M (simst D) unit :=
  base_init g t0 ;;; on_core' (inputs g t0) ;;; on_core' (pre_step (g_dbg g) (g_tree g) t0 ;;; snap (EvBegin t0)).
(** ... and up to the end of the search (fast_simulator.cpp:43-111). *)
Definition search {D} `{NumOps D} (g : cfg D) (t0 : D) : M (simst D) unit :=
  base_init g t0 ;;;
  o0 <~ gets s_fast ;;
  debug_verify (g_dbg g) (match o0 with [] => true | _ => false end) EAssert ;;;
  on_core' (inputs g t0) ;;;
  on_core' (pre_step (g_dbg g) (g_tree g) t0 ;;; snap (EvBegin t0)) ;;;
  r <~ on_core' (fast_schedule (g_dbg g) (leaves (g_tree g)) t0) ;;
  modify (fun s => put_fast (s_fast s ++ fst r) s) ;;;
  verify (Nat.eqb (snd r) (length (leaves (g_tree g)))) EFast.
Lemma fast_init_search {D} `{NumOps D} (g : cfg D) t0 s :
  fast_init g t0 s = (search g t0 ;;; on_core' (snap (EvEval t0)) ;;; clear_all ;;; process_model g t0 true true) s.
Proof.
  unfold fast_init, search, bnd. repeat (match goal with |- context [match ?x with _ => _ end] => destruct x end; try done).
Qed.

Section fast.
  Context {D : Type} `{NumOps D} (g : cfg D).
  Lemma on_core'_frame {A} (m : M (core D) A) (s : simst D) a s' : on_core' m s = Ok a s' ->
    m (s_core s) = Ok a (s_core s') /\ s_fast s' = s_fast s.
  Proof. unfold on_core', on_dyn, on_core, lift, s_core. destruct (m _); try done. by intros [= <- <-]. Qed.
  Definition keeps_done (c c' : core D) : Prop := k_done c' = k_done c.
  Local Instance keeps_done_pre : PreOrder keeps_done.
  Proof. split; [done|]. intros x y z. unfold keeps_done. congruence. Qed.
  Lemma keep_leaf dbg ev (l : leaf D) p : pres keeps_done (run_leaf dbg ev l p).
  Proof. intros c. unfold run_leaf. by destruct (run_prog _ _ _). Qed.
  Lemma keep_pre dbg : forall (tr : tree D) t, pres keeps_done (pre_step dbg tr t).
  Proof.
    fix IH 1. intros [l|b k ch] t; cbn [pre_step]; [apply keep_leaf|].
    induction ch as [|c ch IHc]; [apply pres_ret, _|].
    apply pres_bnd; [apply _|apply IH|intros _; apply IHc].
  Qed.
  Lemma keep_pre_snap dbg (tr : tree D) t ev : pres keeps_done (pre_step dbg tr t ;;; snap ev).
  Proof. apply pres_bnd; [apply _|apply keep_pre|intros _]. by apply pres_modify. Qed.
  Lemma keep_store {A} (m : M (store D) A) : pres keeps_done (on_store m).
  Proof. intros c. unfold on_store, lift. by destruct (m _). Qed.
  Lemma keep_inputs t : pres keeps_done (inputs g t).
  Proof.
    unfold inputs. apply pres_bnd; [apply _|by intros c|intros _].
    apply pres_bnd; [apply _| |intros _; apply keep_store]. destruct (g_inputs g); [apply keep_store|apply pres_ret, _].
  Qed.
  Lemma keep_clear s u s' : clear_all (D:=D) s = Ok u s' -> k_done (s_core s') = k_done (s_core s).
  Proof.
    unfold clear_all, bnd, gets, on_store', on_core', on_dyn, on_core, on_store, lift.
    destruct (forM _ _ _); try done. by intros [= <- <-].
  Qed.
  Lemma setup_spec t0 s s1 : setup g t0 s = Ok tt s1 ->
    k_done (s_core s1) = k_done (s_core s) /\ s_fast s1 = s_fast s /\ dyn_evo (g_dbg g) (s_dyn s) (s_dyn s1).
  Proof.
    unfold setup. unfold bnd at 1. pose proof (pres_base_init g t0 s) as Hbi.
    destruct (base_init g t0 s) as [[] x1| | |] eqn:E1; try done.
    assert (k_done (s_core x1) = k_done (s_core s)) as K1.
    { revert E1. unfold base_init, bnd, modify. destruct (clear_all _) as [[] y| | |] eqn:Ec; try done. intros [= <-].
      apply keep_clear in Ec. exact Ec. }
    apply base_init_sv in E1 as (_ & _ & _ & _ & F1).
    unfold bnd at 1. destruct (on_core' (inputs g t0) x1) as [[] x2| | |] eqn:E2; try done. intros E3.
    pose proof (pres_on_core' g _ (pres_inputs g t0) x1) as H2. rewrite E2 in H2.
    pose proof (pres_on_core' g _ (pres_pre_snap (g_dbg g) (g_tree g) t0 (EvBegin t0)) x2) as H3. rewrite E3 in H3.
    apply on_core'_frame in E2 as [E2 F2]. apply on_core'_frame in E3 as [E3 F3].
    pose proof (keep_inputs t0 (s_core x1)) as K2. rewrite E2 in K2.
    pose proof (keep_pre_snap (g_dbg g) (g_tree g) t0 (EvBegin t0) (s_core x2)) as K3. rewrite E3 in K3.
    unfold keeps_done in *. split; [congruence|]. split; [congruence|].
    etrans; [exact Hbi|]. etrans; [apply (ev_dyn _ _ _ H2)|apply (ev_dyn _ _ _ H3)].
  Qed.
  Lemma search_setup t0 s : s_fast s = [] ->
    search g t0 s = (setup g t0 ;;; r <~ on_core' (fast_schedule (g_dbg g) (leaves (g_tree g)) t0) ;;
      modify (fun s => put_fast (s_fast s ++ fst r) s) ;;;
      verify (Nat.eqb (snd r) (length (leaves (g_tree g)))) EFast) s.
  Proof.
    intros Hf. unfold search, setup, bnd.
    destruct (base_init g t0 s) as [[] x1| | |] eqn:E1; try done.
    apply base_init_sv in E1 as (_ & _ & _ & _ & F1). unfold gets. rewrite F1, Hf.
    unfold debug_verify, verify, ret. destruct (g_dbg g); destruct (on_core' (inputs g t0) x1); done.
  Qed.
End fast.

(** On a model not processed before, with nothing recorded yet, in a debug build:
    the search succeeds exactly when all leaves can be activated one after the
    other from the state at [t0], each after what it waits for. *)
Theorem C23_accepts : forall D `{NumOps D} w b (g : cfg D) s t0 s1,
  drives w b g s -> g_dbg g = true ->
  (forall l, l ∈ leaves (g_tree g) -> user_reads (dom (initial_store w)) l) ->
  (forall l, l ∈ leaves (g_tree g) -> l_id l ∉ k_done (s_core s)) -> s_fast s = [] ->
  setup g t0 s = Ok tt s1 ->
  (exists s2, search g t0 s = Ok tt s2) <->
  (exists ls c, ls ≡ₚ leaves (g_tree g) /\ legal_run true t0 (s_core s1) ls c).
Proof.
  intros D ? w b g s t0 s1 Hd Hg Hu Hdn Hf Hs. pose proof (drives_wf _ _ _ _ Hd) as Hw.
  rewrite search_setup by done. unfold bnd at 1. rewrite Hs, Hg.
  apply setup_spec in Hs as (Hk & Hf1 & Hev). rewrite Hg in Hev.
  pose proof (drives_evo _ _ _ _ Hd) as Hev0. rewrite Hg in Hev0.
  split.
  - intros [s2 E]. unfold bnd, on_core', on_dyn, on_core, lift in E.
    pose proof (fast_schedule_spec true t0 (leaves (g_tree g)) (s_core s1) (wf_leaves _ Hw)) as Hfs. unfold s_core in Hfs.
    destruct (fast_schedule true (leaves (g_tree g)) t0 (d_core (s_dyn s1))) as [[o n] c'|e c'|u|] eqn:Es; try done.
    cbn in E. unfold verify in E. destruct (Nat.eqb_spec n (length (leaves (g_tree g)))) as [Hn|Hn]; [|done].
    destruct Hfs as (Hr & Hin & _ & _). exists (concat o), c'. split; [|done].
    eapply fast_complete; [by apply wf_leaves|exact Es|done].
  - intros (ls & c & Hp & Hr).
    destruct (fast_schedule_converse t0 (leaves (g_tree g)) (s_core s1) ls c) as (o & c' & Es & _); try done.
    { eapply (reach_store_ok w). etrans; [exact Hev0|exact Hev]. }
    { by apply wf_leaves. }
    { intros l Hl. destruct Hd as [[dbg Hr'] Hc Hsm]. eapply reach_local; [exact Hr'|exact Hc| |done|by apply Hu].
      etrans; [exact Hev0|exact Hev]. }
    unfold bnd, on_core', on_dyn, on_core, lift. unfold s_core in Es. rewrite Es. cbn. unfold verify. rewrite Nat.eqb_refl. eauto.
Qed.
(** The order recorded, in either build: every leaf exactly once, each after what
    it waits for was there. *)
Theorem C23_order : forall D `{NumOps D} w b (g : cfg D) s t0 s2,
  drives w b g s -> s_fast s = [] -> search g t0 s = Ok tt s2 ->
  exists s1, setup g t0 s = Ok tt s1 /\ concat (s_fast s2) ≡ₚ leaves (g_tree g) /\ NoDup (map l_id (concat (s_fast s2))) /\
    legal_run (g_dbg g) t0 (s_core s1) (concat (s_fast s2)) (s_core s2).
Proof.
  intros D ? w b g s t0 s2 Hd Hf E. pose proof (drives_wf _ _ _ _ Hd) as Hw.
  rewrite search_setup in E by done. unfold bnd at 1 in E. destruct (setup g t0 s) as [[] s1| | |] eqn:Hs; try done.
  apply setup_spec in Hs as (Hk & Hf1 & Hev). unfold bnd, on_core', on_dyn, on_core, lift in E.
  pose proof (fast_schedule_spec (g_dbg g) t0 (leaves (g_tree g)) (s_core s1) (wf_leaves _ Hw)) as Hfs. unfold s_core in Hfs.
  destruct (fast_schedule (g_dbg g) (leaves (g_tree g)) t0 (d_core (s_dyn s1))) as [[o n] c'|e c'|u|] eqn:Es; try done.
  cbn in E. unfold verify in E. destruct (Nat.eqb_spec n (length (leaves (g_tree g)))) as [Hn|Hn]; [|done].
  injection E as <-. cbn. rewrite Hf1, Hf. cbn. exists s1. split; [done|].
  destruct Hfs as (Hr & Hin & _ & _).
  split; [eapply fast_complete; [by apply wf_leaves|exact Es|done]|]. split; [|done]. by apply legal_run_ids in Hr as [? _].
Qed.
(** What follows the search in init is process_model on cleared signals. *)
Theorem C23_init : forall D `{NumOps D} (g : cfg D) t0 s, g_mode g = MFast ->
  init g t0 s = (search g t0 ;;; on_core' (snap (EvEval t0)) ;;; clear_all ;;; process_model g t0 true true) s.
Proof. intros D ? g t0 s Hm. unfold init. rewrite Hm. apply fast_init_search. Qed.
Definition ex_setup : simst Q := st_of (new_sim ex5_dyn) (setup (ex5_cfg MFast) 0%Q (new_sim ex5_dyn)).
Example C23_ex :
  drives ex5_world 0 (ex5_cfg MFast) (new_sim ex5_dyn) /\
  (forall l, l ∈ leaves ex5_tree -> user_reads (dom (initial_store ex5_world)) l) /\
  (forall l, l ∈ leaves ex5_tree -> l_id l ∉ k_done (s_core (new_sim ex5_dyn))) /\
  is_ok (setup (ex5_cfg MFast) 0%Q (new_sim ex5_dyn)) = true /\
  is_ok (search (ex5_cfg MFast) 0%Q (new_sim ex5_dyn)) = true /\
  map (map l_id) (s_fast (st_of (new_sim ex5_dyn) (search (ex5_cfg MFast) 0%Q (new_sim ex5_dyn)))) = [[2; 3]; [1]].
Proof.
  split; [apply ex5_drives|]. split; [exact ex5_user|]. split; [|split; [|split]; vm_compute; reflexivity].
  intros l _. change (l_id l ∉ (∅ : gset nat)). apply not_elem_of_empty.
Qed.
(** A model already evaluated by a Simulator is refused: FastSimulator never marks
    the blocks unprocessed, so it finds nothing to do. *)
Definition ex5_used : simst Q := st_of (new_sim ex5_dyn) (init (ex5_cfg MDefault) 0%Q (new_sim ex5_dyn)).
Definition ex5_used' : simst Q := st_of (new_sim ex5_dyn) (init (ex5_cfg MFast) 0%Q (new_sim (s_dyn ex5_used))).
Theorem C23_used_model_refuted :
  exists (w : world Q) (tr : tree Q) (g : mode -> cfg Q) s s',
    wreach true w /\ compile_model w 0 = Some tr /\ (forall m, g_mode (g m) = m /\ g_tree (g m) = tr) /\
    is_ok (init (g MFast) 0%Q (new_sim (initial_dyn w))) = true /\
    init (g MDefault) 0%Q (new_sim (initial_dyn w)) = Ok tt s /\
    init (g MFast) 0%Q (new_sim (s_dyn s)) = Exn EFast s'.
Proof.
  exists ex5_world, ex5_tree, ex5_cfg, ex5_used, ex5_used'. split; [exact ex5_reach|]. split; [exact ex5_model|].
  split; [done|]. split; [vm_compute; reflexivity|]. split; vm_compute; reflexivity.
Qed.
Print Assumptions C23_accepts.
Print Assumptions C23_order.
Print Assumptions C23_init.
Print Assumptions C23_used_model_refuted.

(** ** C24.  Evaluating in the recorded order. *)
(** The order was recorded by a search from [s0] at time [t0], after [setup] had
    led to [s1].  [O l] are the signals block [l] writes, always the same.  If all
    signals assigned in [s1] are assigned now, evaluating in the recorded order
    and Simulator's evaluation return in the same cases, with the same result. *)
Lemma builder_no_outs {D} `{NumOps D} (O : leaf D -> list nat) l dbg (t : D) :
  is_builder (l_cls l) = true -> writes_exactly dbg O l -> O l = [].
Proof.
  intros Hb Hw. set (c := Core (D:=D) ∅ ∅ ∅ []). destruct (builder_activate dbg t l c Hb) as (c' & Ha & Hs).
  destruct (O l) as [|x xs] eqn:E; [done|]. exfalso.
  assert (assigned (k_store c') x = true) as Hx.
  { eapply (Hw t c c' Ha x). right. rewrite E. apply elem_of_list_here. }
  destruct Hs as [Hs _]. rewrite <- Hs in Hx. unfold c, assigned in Hx. cbn in Hx. by rewrite lookup_empty in Hx.
Qed.
Theorem C24_evaluation : forall D `{NumOps D} w b (g : cfg D) (O : leaf D -> list nat) s0 t0 s1 s2 s t,
  drives w b g s0 -> s_fast s0 = [] -> setup g t0 s0 = Ok tt s1 -> search g t0 s0 = Ok tt s2 ->
  drives w b g s -> g_dbg g = true -> g_mode g = MFast -> s_fast s = s_fast s2 ->
  (forall l, l ∈ leaves (g_tree g) -> user_reads (dom (initial_store w)) l) ->
  (forall l dbg, l ∈ leaves (g_tree g) -> writes_exactly dbg O l) ->
  (forall x, assigned (s_store s1) x = true -> assigned (s_store s) x = true) ->
  (forall d1, evaluate true (g_tree g) t (s_dyn s) = Ok tt d1 ->
     exists s', eval_model g t s = Ok tt s' /\ same_state (d_core d1) (s_core s')) /\
  (forall s', eval_model g t s = Ok tt s' ->
     exists d1, evaluate true (g_tree g) t (s_dyn s) = Ok tt d1 /\ same_state (d_core d1) (s_core s')).
Proof.
  intros D ? w b g O s0 t0 s1 s2 s t Hd0 Hf0 Hsu Hse Hd Hg Hm Hf Hu HO Hasg. pose proof (drives_wf _ _ _ _ Hd) as Hw.
  destruct (C23_order D w b g s0 t0 s2 Hd0 Hf0 Hse) as (s1' & Hsu' & Hall & _ & Hr).
  rewrite Hsu in Hsu'. injection Hsu' as <-. rewrite <- Hf in Hall, Hr.
  assert (forall l, l ∈ leaves (g_tree g) -> is_builder (l_cls l) = true -> O l = []) as Hb.
  { intros l Hl Hb. exact (builder_no_outs O l true t Hb (HO l true Hl)). }
  pose proof (order_supplied (g_tree g) t0 O _ _ _ _ HO Hb Hr Hall) as Hsup.
  assert (forall l, l ∈ leaves (g_tree g) -> local (dom (k_store (d_core (s_dyn s)))) l) as Hloc.
  { intros l Hl. eapply drives_local; eauto. }
  pose proof (drives_store_ok _ _ _ _ Hd Hg) as Hok.
  assert (eval_model g t s = match fast_eval true (s_fast s) t (d_core (s_dyn s)) with
    | Ok a c => Ok a (put_dyn (Dyn c (d_sdone (s_dyn s))) s) | Exn e c => Exn e (put_dyn (Dyn c (d_sdone (s_dyn s))) s) | UB u => UB u | OOF => OOF end) as Heq.
  { unfold eval_model. rewrite Hm, Hg. unfold bnd, gets, on_core', on_dyn, on_core, lift. by destruct (fast_eval _ _ _ _). }
  rewrite Heq. split.
  - intros d1 He. destruct (evaluate_then_fast (g_tree g) t O (s_fast s) _ (s_dyn s) Hw Hloc HO Hall Hsup Hasg Hok d1 He) as (c2 & -> & Hs).
    eexists. split; [done|]. cbn. by apply same_state_sym.
  - intros s' He. destruct (fast_eval true (s_fast s) t (d_core (s_dyn s))) as [[] c2| | |] eqn:E; try done. injection He as <-.
    destruct (fast_then_evaluate (g_tree g) t O (s_fast s) _ (s_dyn s) Hw Hloc HO Hall Hsup Hasg Hok c2 E) as (d1 & -> & Hs).
    eexists. split; [done|]. cbn. by apply same_state_sym.
Qed.
(** Models made of library blocks: all of them write their output signal in every
    activation (integrators and bus builders write nothing). *)
Definition library_leaf {D} `{NumOps D} (l : leaf D) : Prop := user_pure l /\ is_Some (outs l).
Theorem C24_library : forall D `{NumOps D} (tr : tree D),
  (forall l, l ∈ leaves tr -> library_leaf l) ->
  forall l dbg, l ∈ leaves tr -> writes_exactly dbg (fun l => default [] (outs l)) l.
Proof.
  intros D ? tr Hl l dbg Hin t c c' Ha s. destruct (Hl l Hin) as [Hp [O HO]]. rewrite HO. cbn. by eapply lib_writes.
Qed.
Definition ex5_s2 : simst Q := st_of (new_sim ex5_dyn) (init (ex5_cfg MFast) 0%Q (new_sim ex5_dyn)).
Lemma ex5_s2_drives : drives ex5_world 0 (ex5_cfg MFast) ex5_s2.
Proof.
  split; [exists true; exact ex5_reach|exact ex5_model|]. eapply (sm_init _ _ _ (new_sim ex5_dyn) 0%Q); [apply (ex5_drives MFast)|].
  vm_compute. reflexivity.
Qed.
Lemma ex5_library l : l ∈ leaves ex5_tree -> library_leaf l.
Proof.
  revert l. apply forall_leaves. eapply Forall_impl; [exact ex5_leaves|]. cbn beta. intros l Hl. unfold library_leaf, user_pure, outs.
  destruct (l_cls l); try done; split; try done; eauto.
Qed.
Lemma assigned_check {D} (σ τ : store D) :
  forallb (fun x => implb (assigned σ x) (assigned τ x)) (map fst (map_to_list σ)) = true ->
  forall x, assigned σ x = true -> assigned τ x = true.
Proof.
  intros Hf x Hx. rewrite forallb_forall in Hf. specialize (Hf x). rewrite Hx in Hf. apply Hf.
  apply elem_of_list_In. unfold assigned in Hx. destruct (σ !! x) as [c|] eqn:E; [|done].
  apply elem_of_list_fmap. exists (x, c). split; [done|]. by apply elem_of_map_to_list.
Qed.
Example C24_ex : drives ex5_world 0 (ex5_cfg MFast) ex5_s2 /\
  (forall l, l ∈ leaves ex5_tree -> library_leaf l) /\
  is_ok (search (ex5_cfg MFast) 0%Q (new_sim ex5_dyn)) = true /\
  s_fast ex5_s2 = s_fast (st_of (new_sim ex5_dyn) (search (ex5_cfg MFast) 0%Q (new_sim ex5_dyn))) /\
  (forall x, assigned (s_store ex_setup) x = true -> assigned (s_store ex5_s2) x = true).
Proof.
  split; [exact ex5_s2_drives|]. split; [exact ex5_library|]. split; [vm_compute; reflexivity|]. split; [vm_compute; reflexivity|].
  apply assigned_check. vm_compute. reflexivity.
Qed.
Print Assumptions C24_evaluation.
Print Assumptions C24_library.

(** ** C25.  Block equations. *)
Lemma leaf_by_id {D} (L : list (leaf D)) l l' : NoDup (map l_id L) -> l ∈ L -> l' ∈ L -> l_id l = l_id l' -> l = l'.
Proof.
  induction L as [|x L IH]; cbn; intros Hn Hl Hl' He; [by apply elem_of_nil in Hl|].
  apply NoDup_cons in Hn as [Hx Hn]. apply elem_of_cons in Hl as [->|Hl], Hl' as [->|Hl']; auto; exfalso; apply Hx.
  - rewrite He. by apply elem_of_list_fmap_1.
  - rewrite <- He. by apply elem_of_list_fmap_1.
Qed.
Lemma nonb_sublist {D} (ls : list (leaf D)) : map l_id (nonb ls) `sublist_of` map l_id ls.
Proof.
  unfold nonb. induction ls as [|l ls IH]; [constructor|]. rewrite filter_cons.
  case_decide; cbn; [by apply sublist_skip|by apply sublist_cons].
Qed.
(** [equation] (SpecBlock) relates the values that the signals of a block have at
    the end.  Evaluations by Simulator, with or without reuse_order. *)
Theorem C25_equations : forall D `{NumOps D} w b (g : cfg D) s t s' l,
  drives w b g s -> has_order g s -> g_dbg g = true -> eval_model g t s = Ok tt s' ->
  l ∈ leaves (g_tree g) -> EvAct (l_id l) t ∈ drop (length (s_log s)) (s_log s') ->
  equation l t (lst_of (s_core s) (l_id l)) (s_store s').
Proof.
  intros D ? w b g s t s' l Hd Ho Hg He Hl Hlog. pose proof (drives_wf _ _ _ _ Hd) as Hw.
  pose proof (eval_model_spec g t s Hw (drives_ordered _ _ _ _ Hd Ho)) as Hs. rewrite He in Hs. cbn [sim_post] in Hs.
  destruct Hs as ((ls & Hr & Hin & _) & _). rewrite Hg in Hr.
  pose proof (legal_run_ids _ _ _ _ _ Hr) as [_ Hlg]. rewrite marked_log in Hlg by done.
  change (k_log (s_core s')) with (s_log s') in Hlg. rewrite Hlg in Hlog. change (k_log (d_core (s_dyn s))) with (s_log s) in Hlog.
  rewrite drop_app in Hlog. apply elem_of_list_fmap in Hlog as (l' & Hid & Hl').
  assert (l' = l) as ->.
  { apply (leaf_by_id (leaves (g_tree g))); [by apply wf_leaves|by apply Hin|done|]. by injection Hid as ->. }
  pose proof (run_equations t _ ls _ Hr l Hl') as Hq.
  unfold lst_of in *. rewrite marked_lst in Hq by done. exact Hq.
Qed.
(** Evaluations by FastSimulator, every leaf. *)
Theorem C25_fast : forall D `{NumOps D} w b (g : cfg D) (O : leaf D -> list nat) s0 t0 s1 s2 s t s' l,
  drives w b g s0 -> s_fast s0 = [] -> setup g t0 s0 = Ok tt s1 -> search g t0 s0 = Ok tt s2 ->
  drives w b g s -> g_dbg g = true -> g_mode g = MFast -> s_fast s = s_fast s2 ->
  (forall l, l ∈ leaves (g_tree g) -> user_reads (dom (initial_store w)) l) ->
  (forall l dbg, l ∈ leaves (g_tree g) -> writes_exactly dbg O l) ->
  (forall x, assigned (s_store s1) x = true -> assigned (s_store s) x = true) ->
  eval_model g t s = Ok tt s' -> l ∈ leaves (g_tree g) ->
  equation l t (lst_of (s_core s) (l_id l)) (s_store s').
Proof.
  intros D ? w b g O s0 t0 s1 s2 s t s' l Hd0 Hf0 Hsu Hse Hd Hg Hm Hf Hu HO Hasg He Hl. pose proof (drives_wf _ _ _ _ Hd) as Hw.
  destruct (C23_order D w b g s0 t0 s2 Hd0 Hf0 Hse) as (s1' & Hsu' & Hall & _ & Hr).
  rewrite Hsu in Hsu'. injection Hsu' as <-. rewrite <- Hf in Hall, Hr.
  destruct (is_builder (l_cls l)) eqn:Hbl. { unfold equation. by destruct (l_cls l). }
  assert (forall l, l ∈ leaves (g_tree g) -> is_builder (l_cls l) = true -> O l = []) as Hb.
  { intros l' Hl' Hb. exact (builder_no_outs O l' true t Hb (HO l' true Hl')). }
  pose proof (order_supplied (g_tree g) t0 O _ _ _ _ HO Hb Hr Hall) as Hsup.
  unfold eval_model in He. rewrite Hm, Hg in He. unfold bnd, gets, on_core', on_dyn, on_core, lift in He.
  rewrite fast_eval_acts in He.
  destruct (acts true t (concat (s_fast s)) (d_core (s_dyn s))) as [[] c2| | |] eqn:Ea; try done. injection He as <-.
  apply acts_nonb in Ea as (c3 & Ea & Hs3). cbn.
  destruct (acts_legal true t O (nonb (concat (s_fast s))) (d_core (s_dyn s)) c3 (Core (s_store s) (k_lst (s_core s)) ∅ []) (fun x => assigned (s_store s1) x = true) Ea) as (cm & Hrm & Hsm);
    [done| | | |exact Hasg|exact Hsup|].
  - eapply sublist_NoDup; [apply nonb_sublist|]. rewrite Hall. by apply wf_leaves.
  - intros x _. cbn. apply not_elem_of_empty.
  - intros x Hx. apply elem_of_list_filter in Hx as [_ Hx]. rewrite Hall in Hx. by apply HO.
  - assert (l ∈ nonb (concat (s_fast s))) as Hln. { apply elem_of_list_filter. split; [done|]. by rewrite Hall. }
    pose proof (run_equations t _ _ _ Hrm l Hln) as Hq. destruct Hs3 as [Hs3 _]. destruct Hsm as [Hsm _].
    unfold s_store, s_core. cbn. rewrite Hs3, Hsm. exact Hq.
Qed.

Example C25_ex : let r := eval_model (ex1_cfg MDefault) 0%Q (new_sim ex1_dyn) in
  drives ex1_world 0 (ex1_cfg MDefault) (new_sim ex1_dyn) /\
  is_ok r = true /\ map l_id (leaves ex1_tree) = [1; 3; 4] /\
  s_log (st_of (new_sim ex1_dyn) r) = [EvAct 4 0%Q; EvAct 3 0%Q; EvAct 1 0%Q].
Proof. split; [apply ex1_drives|]. vm_compute. split_and!; reflexivity. Qed.
Print Assumptions C25_equations.
Print Assumptions C25_fast.

(** ** C26.  Algebraic loops. *)
(** [rank] orders the blocks so that each waits only for signals that are there
    at the start of the evaluation or that a block of lower rank always writes. *)
Theorem C26_ranked : forall D `{NumOps D} w b (g : cfg D) s t s' (rank : leaf D -> nat),
  drives w b g s -> has_order g s -> eval_model g t s = Ok tt s' ->
  (forall l x, l ∈ leaves (g_tree g) -> is_builder (l_cls l) = false -> x ∈ required l ->
     assigned (s_store s) x = true \/
     exists l', l' ∈ leaves (g_tree g) /\ is_builder (l_cls l') = false /\ rank l' < rank l /\ always_writes (g_dbg g) l' x) ->
  forall l, l ∈ leaves (g_tree g) -> is_builder (l_cls l) = false ->
    EvAct (l_id l) t ∈ drop (length (s_log s)) (s_log s').
Proof.
  intros D ? w b g s t s' rank Hd Ho He Hrank l Hl Hb. pose proof (drives_wf _ _ _ _ Hd) as Hw.
  pose proof (eval_model_spec g t s Hw (drives_ordered _ _ _ _ Hd Ho)) as Hs. rewrite He in Hs. cbn [sim_post] in Hs.
  destruct Hs as ((ls & Hr & Hin & Hex) & _).
  pose proof (legal_run_ids _ _ _ _ _ Hr) as [_ Hlog]. rewrite marked_log in Hlog by done.
  change (k_log (s_core s')) with (s_log s') in Hlog. rewrite Hlog. change (k_log (d_core (s_dyn s))) with (s_log s).
  rewrite drop_app. apply elem_of_list_fmap. exists l. split; [done|].
  assert (forall x, x ∈ nonb (leaves (g_tree g)) <-> x ∈ leaves (g_tree g) /\ is_builder (l_cls x) = false) as Hnb.
  { intros x. unfold nonb. rewrite elem_of_list_filter. tauto. }
  eapply (ranked_complete (g_dbg g) t _ ls _ (nonb (leaves (g_tree g))) rank); [exact Hr| | | | | |by apply Hnb].
  - intros x Hx. apply Hnb. split; [by apply Hin|].
    destruct (is_builder (l_cls x)) eqn:E; [|done]. exfalso.
    apply legal_run_basic in Hr as (_ & Hdn & _). apply (Hdn x Hx). rewrite marked_leaf by (auto; by apply Hin). done.
  - eapply sublist_NoDup; [apply nonb_sublist|by apply wf_leaves].
  - intros x Hx. apply Hex. by apply Hnb in Hx as [? _].
  - intros x Hx. apply Hnb in Hx as [? Hx]. rewrite marked_leaf by done. by rewrite Hx.
  - intros x y Hx Hy. apply Hnb in Hx as [Hx Hxb]. rewrite marked_store by done.
    destruct (Hrank x y Hx Hxb Hy) as [?|(l' & ? & ? & ? & ?)]; [by left|right]. exists l'. rewrite Hnb. done.
Qed.
(** A set [X] of blocks, each waiting for a signal that is not there at the start
    and that no block outside the set writes: none of them is activated, whether
    the evaluation returns or throws. *)
Theorem C26_loop : forall D `{NumOps D} w b (g : cfg D) s t s' (X : leaf D -> Prop),
  drives w b g s -> has_order g s -> leaves_behind (eval_model g t s) s' ->
  (forall l, l ∈ leaves (g_tree g) -> X l -> exists x, x ∈ required l /\ assigned (s_store s) x = false /\
     forall l', l' ∈ leaves (g_tree g) -> ~ X l' -> never_writes (g_dbg g) l' x) ->
  forall l, l ∈ leaves (g_tree g) -> X l -> EvAct (l_id l) t ∉ drop (length (s_log s)) (s_log s').
Proof.
  intros D ? w b g s t s' X Hd Ho He HX l Hl HXl. pose proof (drives_wf _ _ _ _ Hd) as Hw.
  destruct (C18_at_most_once D w b g s t s' Hd Ho He) as (ls & c1 & Hr & _ & Hin & Hlog & _).
  rewrite Hlog, drop_app. intros Hx. apply elem_of_list_fmap in Hx as (l' & Hid & Hl').
  assert (l' = l) as ->.
  { apply (leaf_by_id (leaves (g_tree g))); [by apply wf_leaves|by apply Hin|done|]. by injection Hid as ->. }
  apply (loop_never (g_dbg g) t _ ls _ (fun l => l ∈ leaves (g_tree g) /\ X l) Hr) in Hl'; [by apply Hl'|].
  intros x [Hx1 Hx2]. destruct (HX x Hx1 Hx2) as (y & H1 & H2 & H3). exists y. rewrite marked_store by done. split_and!; [done|done|].
  intros z Hz Hnz. apply H3; [by apply Hin|]. intros ?. apply Hnz. split; [by apply Hin|done].
Qed.
(** Library blocks: what a block writes is its output. *)
Theorem C26_library : forall D `{NumOps D} dbg (l : leaf D) x, library_leaf l ->
  (x ∈ default [] (outs l) -> always_writes dbg l x) /\ (x ∉ default [] (outs l) -> never_writes dbg l x).
Proof.
  intros D ? dbg l x [Hp [O HO]]. rewrite HO. cbn. split; intros Hx; [by eapply lib_always_writes|by eapply lib_never_writes].
Qed.
Definition check_rank {D} `{NumOps D} (tr : tree D) (rank : leaf D -> nat) : bool :=
  forallb (fun l => forallb (fun x => existsb (fun l' =>
    negb (is_builder (l_cls l')) && Nat.ltb (rank l') (rank l) && bool_decide (x ∈ default [] (outs l'))) (leaves tr)) (required l)) (leaves tr).
Lemma check_rank_ok {D} `{NumOps D} dbg (tr : tree D) rank : check_rank tr rank = true -> (forall l, l ∈ leaves tr -> library_leaf l) ->
  forall l x, l ∈ leaves tr -> x ∈ required l ->
    exists l', l' ∈ leaves tr /\ is_builder (l_cls l') = false /\ rank l' < rank l /\ always_writes dbg l' x.
Proof.
  intros Hc Hlib l x Hl Hx. unfold check_rank in Hc. rewrite forallb_forall in Hc.
  apply elem_of_list_In in Hl, Hx. specialize (Hc l Hl). rewrite forallb_forall in Hc. specialize (Hc x Hx).
  apply existsb_exists in Hc as (l' & Hl' & Hc). apply elem_of_list_In in Hl'.
  apply andb_true_iff in Hc as [Hc Ho]. apply andb_true_iff in Hc as [Hb Hr].
  exists l'. split; [done|]. split; [by apply negb_true_iff|]. split; [by apply Nat.ltb_lt|].
  apply C26_library; [by apply Hlib|]. by apply bool_decide_eq_true in Ho.
Qed.
Lemma lib_check {D} `{NumOps D} (tr : tree D) :
  Forall (fun l => match l_cls l with CInteg _ | CGain _ _ | CAdd _ _ | CConst _ _ | CMemory _ => True | _ => False end) (leaves tr) ->
  forall l, l ∈ leaves tr -> library_leaf l.
Proof.
  intros HF. apply forall_leaves. eapply Forall_impl; [exact HF|]. cbn beta. intros l Hl. unfold library_leaf, user_pure, outs.
  destruct (l_cls l); try done; split; try done; eauto.
Qed.
Lemma ex1_library l : l ∈ leaves ex1_tree -> library_leaf l.
Proof. revert l. apply lib_check. vm_compute. repeat constructor. Qed.
Lemma ex3_library l : l ∈ leaves ex3_tree -> library_leaf l.
Proof. revert l. apply lib_check. vm_compute. repeat constructor. Qed.
(** ex1: Const, Gain, Add in this order of rank. *)
Example C26_ex :
  drives ex1_world 0 (ex1_cfg MDefault) (new_sim ex1_dyn) /\ has_order (ex1_cfg MDefault) (new_sim ex1_dyn) /\
  is_ok (eval_model (ex1_cfg MDefault) 0%Q (new_sim ex1_dyn)) = true /\
  (forall l x, l ∈ leaves ex1_tree -> x ∈ required l ->
     exists l', l' ∈ leaves ex1_tree /\ is_builder (l_cls l') = false /\ 5 - l_id l' < 5 - l_id l /\ always_writes true l' x).
Proof.
  split; [apply ex1_drives|]. split; [exact I|]. split; [vm_compute; reflexivity|].
  apply (check_rank_ok true ex1_tree (fun l => 5 - l_id l)); [vm_compute; reflexivity|exact ex1_library].
Qed.
(** ex3: the two gains wait for each other. *)
Definition check_loop {D} `{NumOps D} (tr : tree D) (σ : store D) (X : leaf D -> bool) : bool :=
  forallb (fun l => negb (X l) || existsb (fun x => negb (assigned σ x) &&
    forallb (fun l' => X l' || bool_decide (x ∉ default [] (outs l'))) (leaves tr)) (required l)) (leaves tr).
Lemma check_loop_ok {D} `{NumOps D} dbg (tr : tree D) σ X : check_loop tr σ X = true -> (forall l, l ∈ leaves tr -> library_leaf l) ->
  forall l, l ∈ leaves tr -> X l = true -> exists x, x ∈ required l /\ assigned σ x = false /\
     forall l', l' ∈ leaves tr -> ~ X l' = true -> never_writes dbg l' x.
Proof.
  intros Hc Hlib l Hl HX. unfold check_loop in Hc. rewrite forallb_forall in Hc. apply elem_of_list_In in Hl. specialize (Hc l Hl).
  rewrite HX in Hc. cbn in Hc. apply existsb_exists in Hc as (x & Hx & Hc). apply elem_of_list_In in Hx.
  apply andb_true_iff in Hc as [Ha Hf]. exists x. split; [done|]. split; [by apply negb_true_iff|].
  intros l' Hl' HX'. apply elem_of_list_In in Hl' as Hl2. rewrite forallb_forall in Hf. specialize (Hf l' Hl2).
  apply C26_library; [by apply Hlib|]. apply orb_true_iff in Hf as [?|Hf]; [done|]. by apply bool_decide_eq_true in Hf.
Qed.
Example C26_loop_ex :
  drives ex3_world 0 (ex3_cfg MDefault) (new_sim ex3_dyn) /\ has_order (ex3_cfg MDefault) (new_sim ex3_dyn) /\
  is_ok (eval_model (ex3_cfg MDefault) 0%Q (new_sim ex3_dyn)) = true /\
  (forall l, l ∈ leaves ex3_tree -> Nat.ltb (l_id l) 3 = true -> exists x, x ∈ required l /\ assigned (s_store (new_sim ex3_dyn)) x = false /\
     forall l', l' ∈ leaves ex3_tree -> ~ Nat.ltb (l_id l') 3 = true -> never_writes true l' x).
Proof.
  split; [apply ex3_drives|]. split; [exact I|]. split; [vm_compute; reflexivity|].
  apply (check_loop_ok true ex3_tree _ (fun l => Nat.ltb (l_id l) 3)); [vm_compute; reflexivity|exact ex3_library].
Qed.
Print Assumptions C26_ranked.
Print Assumptions C26_loop.
Print Assumptions C26_library.

(** ** C27.  Debug and release builds. *)
(** Everything that returns in a debug build returns in a release build, with the
    same result and the same state of signals, blocks and simulator. *)
Theorem C27_evaluation : forall D `{NumOps D} (g : cfg D) t s u s',
  eval_model (with_dbg true g) t s = Ok u s' -> eval_model (with_dbg false g) t s = Ok u s'.
Proof. intros D ? g t s u s'. apply eval_model_mle. Qed.
Theorem C27_process : forall D `{NumOps D} (g : cfg D) t pre post s u s',
  process_model (with_dbg true g) t pre post s = Ok u s' -> process_model (with_dbg false g) t pre post s = Ok u s'.
Proof. intros D ? g t pre post s u s'. apply process_model_mle. Qed.
Theorem C27_init : forall D `{NumOps D} (g : cfg D) t s u s',
  init (with_dbg true g) t s = Ok u s' -> init (with_dbg false g) t s = Ok u s'.
Proof. intros D ? g t s u s'. apply init_mle. Qed.
(** [stepper_mono]: a solver that gets the same answers from its callback does
    the same; true of the three solvers. *)
Theorem C27_run : forall D `{NumOps D} (g : cfg D) fuel ops s u s',
  (forall stp, g_stepper g = Some stp -> stepper_mono stp) ->
  runs (with_dbg true g) fuel ops s = Ok u s' -> runs (with_dbg false g) fuel ops s = Ok u s'.
Proof.
  intros D ? g fuel ops s u s' Hm. revert s. induction ops as [|[[t lo] hi] ops IH]; intros s; unfold runs in *; cbn; [done|].
  unfold bnd. destruct (run (with_dbg true g) fuel t lo hi s) as [[] s1| | |] eqn:E; try done. intros Hr.
  rewrite (run_mle g fuel t lo hi Hm s tt s1 E). by apply IH.
Qed.
Theorem C27_solvers : forall D `{NumOps D}, stepper_mono (D:=D) euler /\ stepper_mono (D:=D) rk4 /\ stepper_mono (D:=D) rkf45.
Proof. intros D ?. split; [apply euler_mono|]. split; [apply rk4_mono|apply rkf45_mono]. Qed.
(** The same for constructing and connecting. *)
Theorem C27_client : forall D `{NumOps D} (os : list (wop D)) w u w',
  exec_all true os w = Ok u w' -> exec_all false os w = Ok u w'.
Proof.
  intros D ? os. induction os as [|o os IH]; intros w u w'; cbn; [done|]. unfold bnd.
  destruct (exec true o w) as [[] w1| | |] eqn:E; try done. intros Hr. rewrite (exec_mle o w tt w1 E). by apply IH.
Qed.
Example C27_ex :
  is_ok (exec_all true ex5_ops empty_world) = true /\
  is_ok (runs (with_dbg true (ex5_cfg MReuse)) 10 ex5_ops' (new_sim ex5_dyn)) = true.
Proof. split; vm_compute; reflexivity. Qed.
(** The converse is false: a release build goes on where a debug build throws. *)
Theorem C27_converse_refuted : exists (w : world Q) (tr : tree Q) (g : cfg Q) s,
  wreach true w /\ compile_model w 0 = Some tr /\ g_tree g = tr /\
  init (with_dbg true g) 0%Q (new_sim (initial_dyn w)) = Exn EAssert s /\
  is_ok (init (with_dbg false g) 0%Q (new_sim (initial_dyn w))) = true.
Proof.
  exists ex6_world, ex6_tree, (ex6_cfg MReuse true), (st_of (new_sim ex6_dyn) (init (ex6_cfg MReuse true) 0%Q (new_sim ex6_dyn))).
  split; [exact ex6_reach|]. split; [vm_compute; reflexivity|]. split; [done|]. split; vm_compute; reflexivity.
Qed.
Print Assumptions C27_evaluation.
Print Assumptions C27_process.
Print Assumptions C27_init.
Print Assumptions C27_run.
Print Assumptions C27_solvers.
Print Assumptions C27_client.
Print Assumptions C27_converse_refuted.
