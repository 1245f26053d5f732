(** Properties C57 and C58: initialising and running a FastSimulator and a Simulator
    (fast_simulator.cpp, simulator.cpp). *)
From stdpp Require Import prelude gmap.
From Coq Require Import ZArith QArith.
From Verif Require Import Num NumQ Res Name Store Leaf Sched Stepper Sim World Api SpecBlock Ex_Models Ex_Hist SpecSched P_Store P_Prog P_Modes P_Conf P_Sched P_Eval P_Lib P_Fast P_Sim P_Evolve
  SpecSim P_Simulated P_World P_Compile P_Rel P_Rel2 Props_Sched Props_Sched2 Props_Sched3 SpecHist P_Trace SpecRun P_Log P_Run P_Pack P_Repeat Props_Pack
  SpecAgain P_Over P_Redo Props_Again P_Both P_Fast2 P_FastRun.
Local Open Scope nat_scope.

(** A new FastSimulator and a new Simulator are given the same model.  If no block is
    a TriggeredIntegrator and both accept the model, they leave behind the same
    signals and the same members, and have the same lists of signals, the same
    states and the same previous time. *)
Theorem C57_alike : forall D `{NumOps D} w b (g : cfg D) s t0 sd sf,
  drives w b g s -> s_fast s = [] -> g_dbg g = true ->
  (forall l, l ∈ leaves (g_tree g) -> user_reads (dom (initial_store w)) l) ->
  (forall l, l ∈ leaves (g_tree g) -> steady_class l) ->
  init (with_mode MDefault g) t0 s = Ok tt sd -> init (with_mode MFast g) t0 s = Ok tt sf ->
  s_store sf = s_store sd /\ (forall l, lst_of (s_core sf) l = lst_of (s_core sd) l) /\
  s_tprev sf = s_tprev sd /\ s_vsigs sf = s_vsigs sd /\ s_scal sf = s_scal sd /\ s_arr sf = s_arr sd /\ s_sv sf = s_sv sd.
Proof.
  intros D ? w b g s t0 sd sf Hd Hf Hg Hu Hst Ed Ef.
  destruct (both_init g (drives_wf _ _ _ _ Hd) Hg Hst t0 s sd sf Hf) as [[S1 S2] (E1 & E2 & E3 & E4 & E5 & _)];
    [by eapply drives_store_ok|intros l Hl; eapply drives_local; eauto|done|done|].
  split; [by unfold s_store|]. split; [by intros l|]. done.
Qed.
Definition plainb {D} (l : leaf D) : bool :=
  match l_cls l with CTrig _ | CSource _ _ | CSources _ | CFunction _ | CSISO _ _ | CSO _ _ | CUser _ _ _ => false | _ => true end.
Lemma plainb_reads {D} (ls : list (leaf D)) X : forallb plainb ls = true -> forall l, l ∈ ls -> user_reads X l /\ steady_class l.
Proof.
  rewrite forallb_forall. intros Hb l Hl. apply elem_of_list_In in Hl. specialize (Hb l Hl). unfold plainb in Hb. unfold user_reads, steady_class. by destruct (l_cls l).
Qed.
(** ex13 has an integrator in a loop, a Memory, a Derivative and a Delay. *)
Example C57_ex :
  drives ex13_world 0 (ex13_cfg MFast) ex13_new /\ s_fast ex13_new = [] /\
  (forall l, l ∈ leaves ex13_tree -> user_reads (dom (initial_store ex13_world)) l) /\
  (forall l, l ∈ leaves ex13_tree -> steady_class l) /\
  is_ok (init (ex13_cfg MDefault) 0%Q ex13_new) = true /\ is_ok (init (ex13_cfg MFast) 0%Q ex13_new) = true /\ length (leaves ex13_tree) = 7.
Proof.
  assert (forallb plainb (leaves ex13_tree) = true) as Hb by (vm_compute; reflexivity).
  split_and!; [|reflexivity| |intros l Hl; apply (plainb_reads _ ∅ Hb l Hl)|vm_compute; reflexivity..].
  - split; [exists true; exact ex13_reach|exact ex13_model|]. apply sm_first; [reflexivity|]. intros stp E. injection E as <-. exact wary_ok.
  - intros l Hl. apply (plainb_reads _ _ Hb l Hl).
Qed.
Print Assumptions C57_alike.

(** Not so with a TriggeredIntegrator.  The trigger of model ex9 is true at time 1.
    FastSimulator evaluates the model twice: the search sets [_triggered], and
    pre_step of the second evaluation sets the integrator, and its output, to
    zero.  Simulator evaluates once, and the output is the initial value 6. *)
Definition ex9_first (m : mode) : simst Q := st_of ex9_new (init (ex9_cfg true m) 1%Q ex9_new).
Lemma ex9_first_ok m : is_ok (init (ex9_cfg true m) 1%Q ex9_new) = true -> init (ex9_cfg true m) 1%Q ex9_new = Ok tt (ex9_first m).
Proof. intros E. unfold ex9_first. apply is_ok_init. exact E. Qed.
Theorem C57_refuted : exists (w : world Q) b (g : cfg Q) s t0 sd sf x,
  drives w b g s /\ s_fast s = [] /\ g_dbg g = true /\
  init (with_mode MDefault g) t0 s = Ok tt sd /\ init (with_mode MFast g) t0 s = Ok tt sf /\
  (s_store sd !! x ≫= c_val) = Some (VS 6%Q) /\ (s_store sf !! x ≫= c_val) = Some (VS 0%Q).
Proof.
  exists ex9_world, 0, (ex9_cfg true MFast), ex9_new, 1%Q, (ex9_first MDefault), (ex9_first MFast), 5.
  split. { split; [exists true; exact ex9_reach|exact ex9_model|]. apply sm_first; [reflexivity|]. intros stp E. injection E as <-. apply euler_ok. }
  split; [reflexivity|]. split; [reflexivity|].
  change (with_mode MDefault (ex9_cfg true MFast)) with (ex9_cfg true MDefault). change (with_mode MFast (ex9_cfg true MFast)) with (ex9_cfg true MFast).
  split; [apply (ex9_first_ok MDefault); vm_compute; reflexivity|]. split; [apply (ex9_first_ok MFast); vm_compute; reflexivity|].
  split; vm_compute; reflexivity.
Qed.
Print Assumptions C57_refuted.

(** ** C58.  Running them. *)
(** What the two have done since [sd] and [sf]: the same signals, members, states and
    previous times, and the same input reads, pre_step and post_step calls, finished
    evaluations and attempted steps in the same order. *)
Definition alike {D} `{NumOps D} (sd sf s1 s2 : simst D) : Prop :=
  s_store s2 = s_store s1 /\ (forall l, lst_of (s_core s2) l = lst_of (s_core s1) l) /\ s_sv s2 = s_sv s1 /\ s_tprev s2 = s_tprev s1 /\
  exists v, List.filter P_Rel.quiet (s_log s1) = List.filter P_Rel.quiet (s_log sd) ++ v /\ List.filter P_Rel.quiet (s_log s2) = List.filter P_Rel.quiet (s_log sf) ++ v.
Theorem C58_runs : forall D `{NumOps D} w b (g : cfg D) (O : leaf D -> list nat) (I : list nat) d t0 sd sf fuel ops,
  drives w b g (new_sim d) -> g_dbg g = true -> (forall l, g_iter g l ≡ₚ l) ->
  (forall stp, g_stepper g = Some stp -> stepper_rel stp) ->
  (forall l, l ∈ leaves (g_tree g) -> user_reads (dom (initial_store w)) l) ->
  (forall l, l ∈ leaves (g_tree g) -> steady_class l /\ not_user l) ->
  (forall l dbg, l ∈ leaves (g_tree g) -> writes_exactly dbg O l) -> inputs_set g I ->
  (forall l x, l ∈ leaves (g_tree g) -> is_integ l -> h_out (l_h l) = Some x -> is_state_of g (initial_store w) x) ->
  init (with_mode MDefault g) t0 (new_sim d) = Ok tt sd -> init (with_mode MFast g) t0 (new_sim d) = Ok tt sf ->
  (forall s1, runs (with_mode MDefault g) fuel ops sd = Ok tt s1 -> exists s2, runs (with_mode MFast g) fuel ops sf = Ok tt s2 /\ alike sd sf s1 s2) /\
  (forall s2, runs (with_mode MFast g) fuel ops sf = Ok tt s2 -> exists s1, runs (with_mode MDefault g) fuel ops sd = Ok tt s1 /\ alike sd sf s1 s2).
Proof.
  intros D ? w b g O I d t0 sd sf fuel ops Hd Hg Hit Hstp Hu Hst HO HI Hint Ed Ef.
  pose proof (drives_store_ok _ _ _ _ Hd Hg) as Hok. cbn in Hok.
  pose proof (simulated_cfg _ _ _ _ (dr_sim _ _ _ _ Hd)) as [_ Hso].
  pose proof (drives_evo _ _ _ _ Hd) as [Hsh _]. cbn in Hsh.
  destruct (both_runs g (drives_wf _ _ _ _ Hd) Hg (fun l Hl => proj1 (Hst l Hl)) (fun l Hl => proj2 (Hst l Hl)) O HO I HI Hit d Hok) with (t0 := t0) (sd := sd) (sf := sf) (fuel := fuel) (ops := ops) as [H1 H2];
    [|intros l x Hl Hi Ho; eapply state_shape; [exact Hsh|by eapply Hint]|exact Hstp|exact Hso|exact Ed|exact Ef|].
  { intros l Hl. change (local (dom (s_store (new_sim d))) l). eapply drives_local; eauto. }
  split; intros s Hs.
  - destruct (H1 s Hs) as (s2 & E2 & [([S1 S2] & (v & V1 & V2) & _) ? ? ? ? ? ? ? ? ? ?]). exists s2. split; [done|].
    split_and!; [by symmetry|intros l; by symmetry|done|done|]. exists v. split; [exact V1|exact V2].
  - destruct (H2 s Hs) as (s1 & E2 & [([S1 S2] & (v & V1 & V2) & _) ? ? ? ? ? ? ? ? ? ?]). exists s1. split; [done|].
    split_and!; [done|intros l; done|done|done|]. exists v. split; [exact V2|exact V1].
Qed.
Lemma inputs_set_none {D} `{NumOps D} (g : cfg D) : g_inputs g = None -> (forall t, g_icb g t = PRet tt) -> inputs_set g [].
Proof.
  intros H1 H2 t c c'. unfold inputs. rewrite H1, H2. cbn. intros E. injection E as <-. intros x. cbn. split; [by left|]. intros [?|Hx]; [done|]. by apply elem_of_nil in Hx.
Qed.
Definition stateb {D} (tr : tree D) (σ : store D) (x : nat) : bool :=
  bool_decide (x ∈ linked_signals tr) &&
  match σ !! x with Some c => match c_kind c, c_deriv c with KScalar, Some _ | KArray _, Some _ => true | _, _ => false end | None => false end.
Definition outb {D} (tr : tree D) (σ : store D) (l : leaf D) : bool :=
  match l_cls l, h_out (l_h l) with CInteg _, Some x | CTrig _, Some x => stateb tr σ x | _, _ => true end.
Lemma outb_states {D} `{NumOps D} (g : cfg D) tr σ : g_tree g = tr -> forallb (outb tr σ) (leaves tr) = true ->
  forall l x, l ∈ leaves tr -> is_integ l -> h_out (l_h l) = Some x -> is_state_of g σ x.
Proof.
  intros <-. rewrite forallb_forall. intros Hb l x Hl Hi Ho. apply elem_of_list_In in Hl. specialize (Hb l Hl). unfold outb in Hb. rewrite Ho in Hb.
  assert (stateb (g_tree g) σ x = true) as Hs. { unfold is_integ in Hi. by destruct (l_cls l). }
  unfold stateb in Hs. apply andb_true_iff in Hs as [Hx Hc]. apply bool_decide_eq_true in Hx. split; [done|].
  destruct (σ !! x) as [c|]; [|done]. destruct (c_kind c) eqn:Ek, (c_deriv c) eqn:Ed; try done; eexists _, _; (split; [done|]); rewrite Ek; eauto.
Qed.
Definition libb {D} (l : leaf D) : bool := plainb l && match outs l with Some _ => true | None => false end.
Lemma libb_leaf {D} `{NumOps D} (ls : list (leaf D)) : forallb libb ls = true -> forall l, l ∈ ls -> library_leaf l /\ steady_class l /\ not_user l.
Proof.
  rewrite forallb_forall. intros Hb l Hl. apply elem_of_list_In in Hl. specialize (Hb l Hl). unfold libb in Hb. apply andb_true_iff in Hb as [Hp Ho].
  unfold plainb in Hp. unfold library_leaf, steady_class, not_user, user_pure. destruct (outs l) as [os|] eqn:Eo; [|done].
  destruct (l_cls l); try done; split; try done; split; try done; by exists os.
Qed.
Definition ex13_ops2 : list (Q * Q * Q) := [(2, 1#100, 10); (3, 1#100, 10)]%Q.
Lemma ex13_cfg_tree m : g_tree (ex13_cfg m) = ex13_tree.
Proof. unfold ex13_cfg. cbn [g_tree]. reflexivity. Qed.
Example C58_ex :
  drives ex13_world 0 (ex13_cfg MFast) (new_sim (initial_dyn ex13_world)) /\ (forall l, g_iter (ex13_cfg MFast) l ≡ₚ l) /\
  (forall stp, g_stepper (ex13_cfg MFast) = Some stp -> stepper_rel stp) /\
  (forall l, l ∈ leaves ex13_tree -> user_reads (dom (initial_store ex13_world)) l) /\
  (forall l, l ∈ leaves ex13_tree -> library_leaf l /\ steady_class l /\ not_user l) /\
  inputs_set (ex13_cfg MFast) [] /\
  (forall l x, l ∈ leaves ex13_tree -> is_integ l -> h_out (l_h l) = Some x -> is_state_of (ex13_cfg MFast) (initial_store ex13_world) x) /\
  (forall m, m = MDefault \/ m = MFast -> is_ok (init (ex13_cfg m) 0%Q ex13_new) = true /\ is_ok (runs (ex13_cfg m) 20 ex13_ops2 (ex13_0 m)) = true).
Proof.
  assert (forallb plainb (leaves ex13_tree) = true) as Hb by (vm_compute; reflexivity).
  assert (forallb (outb ex13_tree (initial_store ex13_world)) (leaves ex13_tree) = true) as Ho by (vm_compute; reflexivity).
  split_and!.
  - split; [exists true; exact ex13_reach|exact ex13_model|]. apply sm_first; [reflexivity|]. intros stp E. injection E as <-. exact wary_ok.
  - intros l. apply reverse_Permutation.
  - intros stp E. injection E as <-. exact wary_rel.
  - intros l Hl. apply (plainb_reads _ _ Hb l Hl).
  - apply libb_leaf. vm_compute. reflexivity.
  - by apply inputs_set_none.
  - exact (outb_states (ex13_cfg MFast) ex13_tree (initial_store ex13_world) (ex13_cfg_tree MFast) Ho).
  - intros m [-> | ->]; split; vm_compute; reflexivity.
Qed.
Print Assumptions C58_runs.
