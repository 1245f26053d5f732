(** Evaluation of a model at one time point: C17, C18, C19, C20. *)
From stdpp Require Import prelude gmap strings.
From Coq Require Import ZArith QArith.
From Verif Require Import Num NumQ Res Store Leaf Sched Stepper Sim SpecSched Util P_Store P_Prog P_Sched P_Modes P_Conf P_Eval
  P_Sim P_Evolve SpecSim P_Simulated World Api P_World P_Compile SpecBlock P_Lib Ex_Models.

Local Open Scope nat_scope.

(** The simulator [g] in state [s] drives the model below block [b] of the
    reachable world [w], after any history of simulation. *)
Record drives {D} `{NumOps D} (w : world D) (b : nat) (g : cfg D) (s : simst D) : Prop := {
  dr_world : exists dbg, wreach dbg w;
  dr_model : compile_model w b = Some (g_tree g);
  dr_sim : simulated (g_dbg g) (initial_dyn w) g s
}.
(** Simulator has an order to follow when reuse_order is set. *)
Definition has_order {D} (g : cfg D) (s : simst D) : Prop :=
  match g_mode g with MDefault => True | MReuse => g_dbg g = true /\ s_cur s ≠ None | MFast => False end.

Section drives.
  Context {D : Type} `{NumOps D} (w : world D) (b : nat) (g : cfg D) (s : simst D) (Hd : drives w b g s).
  Lemma drives_wf : wf_tree (g_tree g).
  Proof. destruct Hd as [[dbg Hr] Hc _]. by eapply reach_wf. Qed.
  Lemma drives_evo : dyn_evo (g_dbg g) (initial_dyn w) (s_dyn s).
  Proof. eapply simulated_evo, Hd. Qed.
  Lemma drives_ordered : has_order g s -> ordered g s.
  Proof.
    unfold has_order, ordered. destruct (g_mode g) eqn:Em; try done. intros [Hg Hc].
    pose proof (dr_sim _ _ _ _ Hd) as Hs. rewrite Hg in Hs.
    destruct (simulated_order _ _ _ Hs drives_wf Em) as [(? & _)|Ho]; [done|]. unfold ordered in Ho. by rewrite Em in Ho.
  Qed.
  Lemma drives_local l : l ∈ leaves (g_tree g) -> user_reads (dom (initial_store w)) l -> local (dom (s_store s)) l.
  Proof.
    intros Hl Hu. destruct Hd as [[dbg Hr] Hc Hs]. eapply reach_local; [exact Hr|exact Hc|by eapply simulated_evo|done|done].
  Qed.
  Lemma drives_store_ok : g_dbg g = true -> store_ok (s_store s).
  Proof. intros Hg. destruct Hd as [[dbg Hr] Hc Hs]. rewrite Hg in Hs. by eapply reach_store_ok, simulated_evo. Qed.
End drives.

(** ** C17.  Evaluations terminate. *)
(** [while (model.process(t));] with any bound above the number of leaf blocks
    stops before the bound, and the bound does not matter. *)
Theorem C17_passes : forall D `{NumOps D} dbg (tr : tree D) t d fuel,
  wf_tree tr -> length (leaves tr) < fuel ->
  process_loop dbg fuel tr t (mark_unprocessed tr d) ≠ OOF /\
  process_loop dbg fuel tr t (mark_unprocessed tr d) = evaluate dbg tr t d.
Proof.
  intros D ? dbg tr t d fuel Hw Hf.
  pose proof (evaluate_not_oof dbg tr t d Hw) as Hn.
  replace fuel with (S (length (leaves tr)) + (fuel - S (length (leaves tr)))) by lia.
  rewrite (process_loop_more dbg (S (length (leaves tr)))); [|exact Hn]. done.
Qed.
(** Every process_model in every reachable situation returns or throws. *)
Theorem C17_terminates : forall D `{NumOps D} w b (g : cfg D) s t pre post,
  drives w b g s -> has_order g s -> process_model g t pre post s ≠ OOF.
Proof.
  intros D ? w b g s t pre post Hd Ho. apply process_model_finite; [by eapply drives_wf|by eapply drives_ordered].
Qed.
(** So does the search for an order by FastSimulator. *)
Theorem C17_fast : forall D `{NumOps D} dbg (tr : tree D) t c, wf_tree tr -> fast_schedule dbg (leaves tr) t c ≠ OOF.
Proof.
  intros D ? dbg tr t c Hw He. pose proof (fast_schedule_spec dbg t (leaves tr) c (wf_leaves _ Hw)) as Hs. by rewrite He in Hs.
Qed.

Definition ex1_cfg (m : mode) : cfg Q := Cfg true m ex1_tree None (fun _ => PRet tt) None (fun x => x) 0%Q.
Lemma ex1_model : compile_model ex1_world 0 = Some ex1_tree.
Proof. vm_compute. reflexivity. Qed.
Lemma ex1_drives m : drives ex1_world 0 (ex1_cfg m) (new_sim ex1_dyn).
Proof. split; [exists true; exact ex1_reach|exact ex1_model|]. by apply sm_first. Qed.
Example C17_ex : drives ex1_world 0 (ex1_cfg MDefault) (new_sim ex1_dyn) /\ has_order (ex1_cfg MDefault) (new_sim ex1_dyn) /\
  is_ok (process_model (ex1_cfg MDefault) 0%Q true true (new_sim ex1_dyn)) = true.
Proof. split; [apply ex1_drives|]. split; [exact I|]. vm_compute. reflexivity. Qed.
Print Assumptions C17_passes.
Print Assumptions C17_terminates.
Print Assumptions C17_fast.

(** ** C18.  A leaf is activated at most once, with its inputs there. *)
(** [legal_run] says that each leaf of the list had not run before and had every
    signal it waits for when it was activated; the log shows that nothing else
    was activated, also when the evaluation ends with an exception. *)
Theorem C18_at_most_once : forall D `{NumOps D} w b (g : cfg D) s t s',
  drives w b g s -> has_order g s -> leaves_behind (eval_model g t s) s' ->
  exists ls c1,
    legal_run (g_dbg g) t (d_core (mark_unprocessed (g_tree g) (s_dyn s))) ls c1 /\
    NoDup (map l_id ls) /\ (forall l, l ∈ ls -> l ∈ leaves (g_tree g)) /\
    s_log s' = s_log s ++ map (fun l => EvAct (l_id l) t) ls /\
    (c1 = s_core s' \/
     exists l e, l ∈ leaves (g_tree g) /\ l_id l ∉ map l_id ls /\ inputs_there (k_store c1) l /\
       activate (g_dbg g) l t c1 = Exn e (s_core s')).
Proof.
  intros D ? w b g s t s' Hd Ho Hl. pose proof (drives_wf _ _ _ _ Hd) as Hw.
  pose proof (eval_model_spec g t s Hw (drives_ordered _ _ _ _ Hd Ho)) as Hs.
  assert (forall ls c, legal_run (g_dbg g) t (d_core (mark_unprocessed (g_tree g) (s_dyn s))) ls c ->
    NoDup (map l_id ls) /\ k_log c = s_log s ++ map (fun l => EvAct (l_id l) t) ls) as Hbase.
  { intros ls c Hr. apply legal_run_ids in Hr as [Hn Hlog]. rewrite marked_log in Hlog by done. done. }
  destruct (eval_model g t s) as [[] x|e x|u|]; try done; cbn in Hl; subst x; cbn [sim_post] in Hs.
  - destruct Hs as ((ls & Hr & Hin & _) & _). destruct (Hbase _ _ Hr) as [Hn Hlog].
    exists ls, (s_core s'). split_and!; auto.
  - destruct Hs as ([(ls & Hr & Hin)|(ls & c1 & l & Hr & Hin & Hl & Hp & Ha)] & _).
    + destruct (Hbase _ _ Hr) as [Hn Hlog]. exists ls, (s_core s'). split_and!; auto.
    + destruct (Hbase _ _ Hr) as [Hn Hlog]. exists ls, c1. split_and!; auto.
      * rewrite <- Hlog. unfold activate, run_leaf in Ha. destruct (run_prog _ _ _) as [? ?|? ?|?|]; try done.
        unfold s_log. by injection Ha as _ <-.
      * right. exists l, e. split_and!; [done| | |done].
        -- intros Hx. destruct Hp as [Hp _]. apply Hp. apply legal_run_basic in Hr as (_ & _ & -> & _).
           apply elem_of_union_l, elem_of_list_to_set. done.
        -- apply Hp.
Qed.
Example C18_ex : let r := eval_model (ex1_cfg MDefault) 0%Q (new_sim ex1_dyn) in
  drives ex1_world 0 (ex1_cfg MDefault) (new_sim ex1_dyn) /\
  is_ok r = true /\ s_log (st_of (new_sim ex1_dyn) r) = [EvAct 4 0%Q; EvAct 3 0%Q; EvAct 1 0%Q].
Proof. split; [apply ex1_drives|]. vm_compute. split; reflexivity. Qed.
Print Assumptions C18_at_most_once.

(** ** C19.  Nothing that could run is left out. *)
Theorem C19_exhaustive : forall D `{NumOps D} w b (g : cfg D) s t s',
  drives w b g s -> has_order g s -> eval_model g t s = Ok tt s' ->
  forall l, l ∈ leaves (g_tree g) -> is_builder (l_cls l) = false ->
    EvAct (l_id l) t ∈ drop (length (s_log s)) (s_log s') \/
    exists x, x ∈ required l /\ assigned (s_store s') x = false.
Proof.
  intros D ? w b g s t s' Hd Ho He l Hl Hb. pose proof (drives_wf _ _ _ _ Hd) as Hw.
  pose proof (eval_model_spec g t s Hw (drives_ordered _ _ _ _ Hd Ho)) as Hs. rewrite He in Hs. cbn [sim_post] in Hs.
  destruct Hs as ((ls & Hr & Hin & Hex) & _). destruct (Hex l Hl) as [Hdn|Hwt]; [left|by right].
  pose proof (legal_run_ids _ _ _ _ _ Hr) as [_ Hlog]. rewrite marked_log in Hlog by done.
  change (k_log (s_core s')) with (s_log s') in Hlog. rewrite Hlog. change (k_log (d_core (s_dyn s))) with (s_log s).
  rewrite drop_app. apply elem_of_list_fmap. exists l. split; [done|].
  eapply done_in_run; [exact Hr|exact Hin|by apply wf_leaves|done|done|]. rewrite marked_leaf by done. by rewrite Hb.
Qed.
(** An algebraic loop: two gains feeding each other, and a constant beside them. *)
Definition ex3_ops : list (wop Q) :=
  [ ONewSig KScalar "p"; ONewSig KScalar "q"; ONewSig KScalar "r";
    ONewBus [0] ""; ONewBus [1] ""; ONewBus [2] ""; ONewBus [] "";
    ONewBlock CSubmodel LNone None "root" NoIOLimit NoIOLimit;
    ONewBlock (CGain TyD (VS 2%Q)) LNone (Some 0) "g1" 1 1;
    ONewBlock (CGain TyD (VS 3%Q)) LNone (Some 0) "g2" 1 1;
    ONewBlock (CConst TyD (VS 5%Q)) LNone (Some 0) "const" 0 1;
    OConnect 1 3 4; OConnect 2 4 3; OConnect 3 6 5 ].
Definition ex3_world : world Q := world_of true ex3_ops.
Definition ex3_tree : tree Q := tree_of ex3_world.
Definition ex3_dyn : dyn Q := initial_dyn ex3_world.
Definition ex3_cfg (m : mode) : cfg Q := Cfg true m ex3_tree None (fun _ => PRet tt) None (fun x => x) 0%Q.
Lemma ex3_reach : wreach true ex3_world.
Proof.
  unfold ex3_world, world_of. destruct (exec_all true ex3_ops empty_world) as [u w|? ?|?|] eqn:E; [|constructor..].
  eapply exec_all_reach; [constructor| |exact E]. unfold ex3_ops. repeat (apply Forall_cons; split; [cbn; eauto|]). apply Forall_nil. done.
Qed.
Lemma ex3_model : compile_model ex3_world 0 = Some ex3_tree.
Proof. vm_compute. reflexivity. Qed.
Lemma ex3_drives m : drives ex3_world 0 (ex3_cfg m) (new_sim ex3_dyn).
Proof. split; [exists true; exact ex3_reach|exact ex3_model|]. by apply sm_first. Qed.
Example C19_ex : let r := eval_model (ex3_cfg MDefault) 0%Q (new_sim ex3_dyn) in
  drives ex3_world 0 (ex3_cfg MDefault) (new_sim ex3_dyn) /\
  is_ok r = true /\ s_log (st_of (new_sim ex3_dyn) r) = [EvAct 3 0%Q].
Proof. split; [apply ex3_drives|]. vm_compute. split; reflexivity. Qed.
Print Assumptions C19_exhaustive.

(** ** C20.  Order and grouping do not matter. *)
(** [tr'] is any other model made of the same leaf blocks, in any order and
    grouping.  The debug build checks that no signal is written twice. *)
Theorem C20_confluence : forall D `{NumOps D} w b (g : cfg D) s t tr' d1,
  drives w b g s -> g_dbg g = true ->
  (forall l, l ∈ leaves (g_tree g) -> user_reads (dom (initial_store w)) l) ->
  wf_tree tr' -> leaves tr' ≡ₚ leaves (g_tree g) ->
  evaluate true (g_tree g) t (s_dyn s) = Ok tt d1 ->
  exists d2 (ls1 ls2 : list (leaf D)), evaluate true tr' t (s_dyn s) = Ok tt d2 /\
    (forall x, value (k_store (d_core d1)) x = value (k_store (d_core d2)) x) /\
    k_store (d_core d1) = k_store (d_core d2) /\
    (forall l, lst_of (d_core d1) l = lst_of (d_core d2) l) /\
    k_log (d_core d1) = s_log s ++ map (fun l => EvAct (l_id l) t) ls1 /\
    k_log (d_core d2) = s_log s ++ map (fun l => EvAct (l_id l) t) ls2 /\ ls1 ≡ₚ ls2.
Proof.
  intros D ? w b g s t tr' d1 Hd Hg Hu Hw' Hp He. pose proof (drives_wf _ _ _ _ Hd) as Hw.
  destruct (evaluate_confluent (g_tree g) tr' t (s_dyn s) d1) as (d2 & ls1 & ls2 & H1 & H2 & H3 & H4 & H5 & H6 & H7);
    [done|done|by symmetry| | |done|].
  - intros l Hl. eapply drives_local; eauto.
  - eapply drives_store_ok; eauto.
  - exists d2, ls1, ls2. split_and!; try done.
    + intros x. by rewrite H2.
    + intros l. unfold lst_of. by rewrite H3.
Qed.
(** Failures do not depend on the order either: the other model cannot fail
    (throw or run into undefined behaviour) when the first one does not.  Both
    directions together: *)
Corollary C20_both : forall D `{NumOps D} w b (g : cfg D) s t tr',
  drives w b g s -> g_dbg g = true ->
  (forall l, l ∈ leaves (g_tree g) -> user_reads (dom (initial_store w)) l) ->
  wf_tree tr' -> leaves tr' ≡ₚ leaves (g_tree g) ->
  (exists d1, evaluate true (g_tree g) t (s_dyn s) = Ok tt d1) <-> (exists d2, evaluate true tr' t (s_dyn s) = Ok tt d2).
Proof.
  intros D ? w b g s t tr' Hd Hg Hu Hw' Hp. pose proof (drives_wf _ _ _ _ Hd) as Hw. split.
  - intros [d1 He]. destruct (C20_confluence D w b g s t tr' d1 Hd Hg Hu Hw' Hp He) as (d2 & _ & _ & H1 & _). eauto.
  - intros [d2 He]. destruct (evaluate_confluent tr' (g_tree g) t (s_dyn s) d2) as (d1 & _ & _ & H1 & _);
      [done|done|done| | |done|eauto].
    + intros l Hl. rewrite Hp in Hl. eapply drives_local; eauto.
    + eapply drives_store_ok; eauto.
Qed.
Lemma forall_leaves {D} (L : list (leaf D)) (P : leaf D -> Prop) : Forall P L -> forall l, l ∈ L -> P l.
Proof. intros HF l Hl. by eapply Forall_forall. Qed.
Example C20_ex :
  drives ex1_world 0 (ex1_cfg MDefault) (new_sim ex1_dyn) /\
  (forall l, l ∈ leaves ex1_tree -> user_reads (dom (initial_store ex1_world)) l) /\
  wf_tree ex1_tree' /\ leaves ex1_tree' ≡ₚ leaves ex1_tree /\
  is_ok (evaluate true ex1_tree 0%Q ex1_dyn) = true.
Proof.
  split; [apply ex1_drives|]. split; [|split; [|split]].
  - apply forall_leaves. assert (Forall (fun l => match l_cls l with CAdd _ _ | CGain _ _ | CConst _ _ => True | _ => False end) (leaves ex1_tree)) as HF.
    { vm_compute. repeat constructor. }
    eapply Forall_impl; [exact HF|]. cbn beta. intros l Hl. unfold user_reads. by destruct (l_cls l).
  - apply (bool_decide_unpack _). vm_compute. exact I.
  - assert (map l_id (leaves ex1_tree') = rev (map l_id (leaves ex1_tree)) /\ leaves ex1_tree' = rev (leaves ex1_tree)) as [_ ->].
    { vm_compute. split; reflexivity. }
    symmetry. apply Permutation_rev.
  - vm_compute. reflexivity.
Qed.
Print Assumptions C20_confluence.
Print Assumptions C20_both.

(** In a release build the same holds for every model that the debug build
    accepts in one order. *)
Theorem C20_release : forall D `{NumOps D} w b (g : cfg D) s t tr' d1,
  drives w b g s -> g_dbg g = true ->
  (forall l, l ∈ leaves (g_tree g) -> user_reads (dom (initial_store w)) l) ->
  wf_tree tr' -> leaves tr' ≡ₚ leaves (g_tree g) ->
  evaluate true (g_tree g) t (s_dyn s) = Ok tt d1 ->
  exists d2, evaluate false tr' t (s_dyn s) = Ok tt d2 /\
    k_store (d_core d1) = k_store (d_core d2) /\ (forall l, lst_of (d_core d1) l = lst_of (d_core d2) l).
Proof.
  intros D ? w b g s t tr' d1 Hd Hg Hu Hw' Hp He.
  destruct (C20_confluence D w b g s t tr' d1 Hd Hg Hu Hw' Hp He) as (d2 & _ & _ & H1 & _ & H2 & H3 & _).
  exists d2. split_and!; [|done|done]. exact (P_Refine.process_all_mle tr' t _ _ _ H1).
Qed.
Print Assumptions C20_release.

(** The condition on user functions is needed: a Function whose input is inside a
    nested bus does not wait for it (only the top level of a bus is linked), so
    the outcome depends on the order. *)
Definition ex4_ops : list (wop Q) :=
  [ ONewSig KScalar "x"; ONewSig KScalar "y";
    ONewBus [0] ""; ONewBus [2] ""; ONewBus [1] ""; ONewBus [] "";
    ONewBlock CSubmodel LNone None "root" NoIOLimit NoIOLimit;
    ONewBlock (CFunction (fun _ _ ob => PGet 0 (fun v => PSet (default 1 (snd <$> head ob)) v (PRet tt)))) LNone (Some 0) "fun" NoIOLimit NoIOLimit;
    ONewBlock (CConst TyD (VS 5%Q)) LNone (Some 0) "const" 0 1;
    OConnect 1 3 4; OConnect 2 5 2 ].
Definition ex4_world : world Q := world_of true ex4_ops.
Definition ex4_tree : tree Q := tree_of ex4_world.
Definition ex4_tree' : tree Q := TSub 0 [] (map TLeaf (rev (leaves ex4_tree))).
Lemma ex4_reach : wreach true ex4_world.
Proof.
  unfold ex4_world, world_of. destruct (exec_all true ex4_ops empty_world) as [u w|? ?|?|] eqn:E; [|constructor..].
  eapply exec_all_reach; [constructor| |exact E]. unfold ex4_ops. repeat (apply Forall_cons; split; [cbn; eauto|]). apply Forall_nil. done.
Qed.
Theorem C20_nested_bus_refuted :
  exists (w : world Q) (tr tr' : tree Q) d e d',
    wreach true w /\ compile_model w 0 = Some tr /\ wf_tree tr' /\ leaves tr' ≡ₚ leaves tr /\
    evaluate true tr' 0%Q (initial_dyn w) = Ok tt d /\ evaluate true tr 0%Q (initial_dyn w) = Exn e d'.
Proof.
  exists ex4_world, ex4_tree, ex4_tree', (st_of (initial_dyn ex4_world) (evaluate true ex4_tree' 0%Q (initial_dyn ex4_world))),
    EUnassigned, (st_of (initial_dyn ex4_world) (evaluate true ex4_tree 0%Q (initial_dyn ex4_world))).
  split; [exact ex4_reach|]. split; [vm_compute; reflexivity|]. split; [|split; [|split]].
  - apply (bool_decide_unpack _). vm_compute. exact I.
  - assert (leaves ex4_tree' = rev (leaves ex4_tree)) as -> by (vm_compute; reflexivity). symmetry. apply Permutation_rev.
  - vm_compute. reflexivity.
  - vm_compute. reflexivity.
Qed.
Print Assumptions C20_nested_bus_refuted.
