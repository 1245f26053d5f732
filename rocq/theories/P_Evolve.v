(** What never changes while a model is simulated: the signals that exist, their
    types, the block members' kinds, the lists of the simulator, and the log only
    grows. *)
From stdpp Require Import prelude gmap.
From Coq Require Import ZArith.
From Verif Require Import Num Res Store Leaf Sched Stepper Sim SpecSched P_Store P_Prog P_Modes P_Eval P_Sim.

(** Every outcome of [m] that leaves a state behind is related to the start. *)
Definition pres {S A} (R : S -> S -> Prop) (m : M S A) : Prop :=
  forall x, match m x with Ok _ x' | Exn _ x' => R x x' | _ => True end.

Section pres.
  Context {S : Type} (R : S -> S -> Prop) `{!PreOrder R}.
  Lemma pres_ret {A} (a : A) : pres R (ret a).
  Proof. intros x. cbn. reflexivity. Qed.
  Lemma pres_throw {A} e : pres R (throw (A:=A) e).
  Proof. intros x. cbn. reflexivity. Qed.
  Lemma pres_undef {A} u : pres R (undef (A:=A) u).
  Proof. by intros x. Qed.
  Lemma pres_oof {A} : pres R (fun _ => OOF (A:=A)).
  Proof. by intros x. Qed.
  Lemma pres_gets {A} (f : S -> A) : pres R (gets f).
  Proof. intros x. cbn. reflexivity. Qed.
  Lemma pres_modify f : (forall x, R x (f x)) -> pres R (modify f).
  Proof. intros Hf x. apply Hf. Qed.
  Lemma pres_bnd {A B} (m : M S A) (k : A -> M S B) : pres R m -> (forall a, pres R (k a)) -> pres R (bnd m k).
  Proof.
    intros Hm Hk x. unfold bnd. specialize (Hm x). destruct (m x) as [a x'|e x'|u|]; [|done..].
    specialize (Hk a x'). destruct (k a x'); try done; by etrans.
  Qed.
  Lemma pres_verify c e : pres R (verify c e).
  Proof. unfold verify. destruct c; [apply pres_ret|apply pres_throw]. Qed.
  Lemma pres_debug dbg c e : pres R (debug_verify dbg c e).
  Proof. unfold debug_verify. destruct dbg; [apply pres_verify|apply pres_ret]. Qed.
  Lemma pres_forM {A} (l : list A) f : (forall a, pres R (f a)) -> pres R (forM l f).
  Proof. intros Hf. induction l as [|a l IH]; cbn; [apply pres_ret|]. by apply pres_bnd. Qed.
  Lemma pres_if {A} (b : bool) (m1 m2 : M S A) : pres R m1 -> pres R m2 -> pres R (if b then m1 else m2).
  Proof. by destruct b. Qed.
End pres.
Lemma pres_lift {S T A} (R : S -> S -> Prop) (R' : T -> T -> Prop) (get : T -> S) put (m : M S A) :
  (forall t s, R (get t) s -> R' t (put s t)) -> pres R m -> pres R' (lift get put m).
Proof. intros Hr Hm t. unfold lift. specialize (Hm (get t)). destruct (m (get t)); try done; by apply Hr. Qed.

Create HintDb pres.
Global Hint Resolve pres_ret pres_throw pres_undef pres_oof pres_gets pres_modify pres_bnd pres_verify pres_debug pres_forM pres_if : pres.

Section evolve.
  Context {D : Type} `{NumOps D}.

  (** ** Signals *)
  Definition same_cell (c c' : cell D) : Prop := c_kind c' = c_kind c /\ c_deriv c' = c_deriv c.
  (** Contents of a signal have its type (in any build; sizes only in a debug one). *)
  Definition cell_typed (c : cell D) : Prop :=
    (c_asg c = true -> is_Some (c_val c)) /\ (forall v, c_val c = Some v -> kind_fits (c_kind c) v = true).
  Definition store_typed (σ : store D) : Prop := map_Forall (fun _ c => cell_typed c) σ.
  Record shape (dbg : bool) (σ σ' : store D) : Prop := {
    sh_cell s c : σ !! s = Some c -> exists c', σ' !! s = Some c' /\ same_cell c c';
    sh_none s : σ !! s = None -> σ' !! s = None;
    sh_ok : dbg = true -> store_ok σ -> store_ok σ';
    sh_typed : store_typed σ -> store_typed σ'
  }.
  Global Instance shape_pre dbg : PreOrder (shape dbg).
  Proof.
    split.
    - intros σ. split; [|done..]. intros s c Hc. exists c. split; [done|]. by split.
    - intros σ1 σ2 σ3 [H1 H1' H1o H1t] [H2 H2' H2o H2t]. split; [|auto..].
      intros s c Hc. destruct (H1 s c Hc) as (c2 & Hc2 & Hk & Hd). destruct (H2 s c2 Hc2) as (c3 & Hc3 & Hk' & Hd').
      exists c3. split; [done|]. split; congruence.
  Qed.
  Lemma shape_insert dbg (σ : store D) s c c' : σ !! s = Some c -> same_cell c c' ->
    (dbg = true -> cell_ok c -> cell_ok c') -> (cell_typed c -> cell_typed c') -> shape dbg σ (<[s := c']> σ).
  Proof.
    intros Hc Hs Hok Hty. split.
    - intros x cx Hx. destruct (decide (x = s)) as [->|Hne].
      + rewrite lookup_insert. rewrite Hc in Hx. injection Hx as <-. eauto.
      + rewrite lookup_insert_ne by done. exists cx. split; [done|]. by split.
    - intros x Hx. destruct (decide (x = s)) as [->|Hne]; [congruence|]. by rewrite lookup_insert_ne.
    - intros Hd Ho. apply map_Forall_insert_2; [|done]. apply Hok; [done|]. by eapply Ho.
    - intros Ho. apply map_Forall_insert_2; [|done]. apply Hty. by eapply Ho.
  Qed.
  Lemma shape_dom dbg (σ σ' : store D) : shape dbg σ σ' -> dom σ' = dom σ.
  Proof.
    intros [Hc Hn _ _]. apply set_eq. intros s. rewrite !elem_of_dom. split.
    - intros [c Hs]. destruct (σ !! s) eqn:E; [eauto|]. rewrite Hn in Hs by done. done.
    - intros [c Hs]. destruct (Hc s c Hs) as (c' & -> & _). eauto.
  Qed.
  Lemma pres_get dbg dbg' s : pres (shape dbg) (get_value (D:=D) dbg' s).
  Proof. intros σ. unfold get_value. repeat (case_match; try done); simplify_eq; reflexivity. Qed.
  Lemma pres_set dbg s v : pres (shape dbg) (set_value (D:=D) dbg s v).
  Proof.
    intros σ. unfold set_value. destruct (σ !! s) as [c|] eqn:E; [|done].
    destruct (kind_fits (c_kind c) v) eqn:Ek; [|done]. cbn [negb].
    destruct (dbg && negb (payload_size_ok c)); [reflexivity|].
    destruct (dbg && c_asg c); [reflexivity|].
    destruct (dbg && negb (size_fits (c_kind c) v)) eqn:Es; [reflexivity|].
    apply (shape_insert dbg σ s c); [done|by split| |].
    - intros -> _. cbn in Es. split; cbn; [eauto|]. intros v' [= <-]. by destruct (size_fits (c_kind c) v).
    - intros _. split; cbn; [eauto|]. by intros v' [= <-].
  Qed.
  Lemma pres_clear dbg s : pres (shape dbg) (clear_sig (D:=D) s).
  Proof.
    intros σ. unfold clear_sig. destruct (σ !! s) as [c|] eqn:E; [|done].
    apply (shape_insert dbg σ s c); [done|by split| |].
    - intros _ [_ Hv]. by split.
    - intros [_ Hv]. by split.
  Qed.
  Lemma pres_prog dbg {A} (p : prog D A) : pres (shape dbg) (run_prog dbg p).
  Proof.
    induction p as [a|s k IH|s v k IH|b e k IH|e|u]; cbn [run_prog].
    - by apply pres_ret; apply _.
    - apply pres_bnd; [apply _|apply pres_get|done].
    - apply pres_bnd; [apply _|apply pres_set|done].
    - apply pres_bnd; [apply _|apply pres_debug, _|done].
    - by apply pres_throw; apply _.
    - by apply pres_undef.
  Qed.

  (** ** Blocks *)
  Definition core_evo (dbg : bool) (c c' : core D) : Prop :=
    shape dbg (k_store c) (k_store c') /\ k_log c `prefix_of` k_log c'.
  Global Instance core_evo_pre dbg : PreOrder (core_evo dbg).
  Proof.
    split; [intros c; by split|]. intros c1 c2 c3 [H1 H1'] [H2 H2']. split; by etrans.
  Qed.
  Lemma pres_on_store dbg {A} (m : M (store D) A) : pres (shape dbg) m -> pres (core_evo dbg) (on_store m).
  Proof. apply pres_lift. intros c σ Hs. by split. Qed.
  Lemma pres_emit dbg e : pres (core_evo dbg) (emit (D:=D) e).
  Proof. apply pres_modify. intros c. split; [done|]. cbn. by eexists. Qed.
  Lemma pres_snap dbg ev : pres (core_evo dbg) (snap (D:=D) ev).
  Proof. apply pres_modify. intros c. split; [done|]. cbn. by eexists. Qed.
  Lemma pres_leaf dbg ev l p : pres (core_evo dbg) (run_leaf (D:=D) dbg ev l p).
  Proof.
    intros c. unfold run_leaf. pose proof (pres_prog dbg (p (lst_of c (l_id l))) (k_store c)) as Hp.
    destruct (run_prog _ _ _); try done; split; try done; cbn. by eexists.
  Qed.
  Lemma pres_activate dbg l t : pres (core_evo dbg) (activate (D:=D) dbg l t).
  Proof. apply pres_leaf. Qed.
  Lemma pres_leaf_process dbg l t : pres (core_evo dbg) (leaf_process (D:=D) dbg l t).
  Proof.
    intros c. unfold leaf_process. destruct (_ || _); [reflexivity|].
    revert c. change (pres (core_evo dbg) (activate dbg l t ;;; set_done (l_id l) ;;; ret 1)).
    apply pres_bnd; [apply _|apply pres_activate|intros _].
    apply pres_bnd; [apply _| |intros _; by apply pres_ret; apply _].
    apply pres_modify. by intros c.
  Qed.
  Lemma pres_pre_step dbg : forall (tr : tree D) t, pres (core_evo dbg) (pre_step dbg tr t).
  Proof.
    fix IH 1. intros [l|b k ch] t; cbn [pre_step]; [apply pres_leaf|].
    induction ch as [|c ch IHc]; [apply pres_ret, _|].
    apply pres_bnd; [apply _|apply IH|intros _; apply IHc].
  Qed.
  Lemma pres_pre_snap dbg (tr : tree D) t ev : pres (core_evo dbg) (pre_step dbg tr t ;;; snap ev).
  Proof. apply pres_bnd; [apply _|apply pres_pre_step|intros _; apply pres_snap]. Qed.
  Lemma pres_post_step dbg : forall (tr : tree D) t, pres (core_evo dbg) (post_step dbg tr t).
  Proof.
    fix IH 1. intros [l|b k ch] t; cbn [post_step]; [apply pres_leaf|].
    induction ch as [|c ch IHc]; [apply pres_ret, _|].
    apply pres_bnd; [apply _|apply IH|intros _; apply IHc].
  Qed.
  Lemma pres_fast_eval dbg order t : pres (core_evo dbg) (fast_eval (D:=D) dbg order t).
  Proof.
    unfold fast_eval. apply pres_forM; [apply _|]. intros ls. apply pres_forM; [apply _|]. intros l. apply pres_activate.
  Qed.
  Lemma pres_fast_pass dbg po t n : pres (core_evo dbg) (fast_pass (D:=D) dbg po t n).
  Proof.
    revert n. induction po as [|l po IH]; intros n; cbn [fast_pass]; [apply pres_ret, _|].
    destruct n as [|n]; [apply pres_ret, _|].
    apply pres_bnd; [apply _|apply pres_gets, _|intros []; [apply IH|]].
    apply pres_bnd; [apply _|apply pres_leaf_process|intros _].
    apply pres_bnd; [apply _|apply pres_gets, _|intros []; [|apply pres_ret, _]].
    apply pres_bnd; [apply _|apply IH|intros ?; apply pres_ret, _].
  Qed.
  Lemma pres_fast_loop dbg fuel po t acc n : pres (core_evo dbg) (fast_loop (D:=D) dbg fuel po t acc n).
  Proof.
    revert acc n. induction fuel as [|fuel IH]; intros acc n; cbn [fast_loop]; [apply pres_oof|].
    apply pres_bnd; [apply _|apply pres_gets, _|intros [|k]; [apply pres_ret, _|]].
    apply pres_bnd; [apply _|apply pres_fast_pass|intros r].
    apply pres_if; [apply IH|apply pres_ret, _].
  Qed.
  Definition dyn_evo (dbg : bool) (d d' : dyn D) : Prop := core_evo dbg (d_core d) (d_core d').
  Global Instance dyn_evo_pre dbg : PreOrder (dyn_evo dbg).
  Proof. split; [intros d; unfold dyn_evo; reflexivity|]. intros d1 d2 d3. unfold dyn_evo. apply transitivity. Qed.
  Lemma pres_on_core dbg {A} (m : M (core D) A) : pres (core_evo dbg) m -> pres (dyn_evo dbg) (on_core m).
  Proof. apply pres_lift. intros c σ Hs. exact Hs. Qed.
  Lemma pres_process dbg : forall (tr : tree D) t, pres (dyn_evo dbg) (process dbg tr t).
  Proof.
    fix IH 1. intros [l|b k ch] t; cbn [process]; [apply pres_on_core, pres_leaf_process|].
    apply pres_bnd; [apply _|apply pres_gets, _|intros []; [apply pres_ret, _|]].
    apply pres_bnd; [apply _|apply pres_modify; intros d; by unfold dyn_evo; cbn|intros _].
    generalize 0. induction ch as [|c ch IHc]; intros n; [apply pres_ret, _|].
    apply pres_bnd; [apply _|apply IH|intros kk].
    apply pres_bnd; [apply _|apply pres_gets, _|intros q].
    apply pres_bnd; [apply _| |intros _; apply IHc].
    apply pres_if; [apply pres_ret, _|]. apply pres_modify. intros d. by unfold dyn_evo; cbn.
  Qed.
  Lemma pres_process_loop dbg fuel (tr : tree D) t : pres (dyn_evo dbg) (process_loop dbg fuel tr t).
  Proof.
    induction fuel as [|fuel IH]; cbn [process_loop]; [apply pres_oof|].
    apply pres_bnd; [apply _|apply pres_process|intros [|k]; [apply pres_ret, _|done]].
  Qed.
  Lemma mark_evo dbg : forall (tr : tree D) d, dyn_evo dbg d (mark_unprocessed tr d).
  Proof.
    fix IH 1. intros [l|b k ch] d; cbn [mark_unprocessed]; [by unfold dyn_evo; cbn|].
    transitivity (Dyn (d_core d) (d_sdone d ∖ {[b]})); [by unfold dyn_evo; cbn|].
    generalize (Dyn (d_core d) (d_sdone d ∖ {[b]})). induction ch as [|c ch IHc]; intros d'; [reflexivity|].
    cbn [fold_left]. etrans; [apply (IH c)|apply IHc].
  Qed.
  Lemma pres_reuse_pass dbg po t : pres (dyn_evo dbg) (reuse_pass (D:=D) dbg po t).
  Proof.
    induction po as [|n po IH]; cbn [reuse_pass]; [apply pres_ret, _|].
    apply pres_bnd; [apply _|apply pres_gets, _|intros []; [done|]].
    apply pres_bnd; [apply _| |intros _].
    { destruct n as [l|b k]; cbn [node_process].
      - apply pres_bnd; [apply _|apply pres_on_core, pres_leaf_process|intros ?; apply pres_ret, _].
      - apply pres_modify. intros d. by unfold dyn_evo; cbn. }
    apply pres_bnd; [apply _|apply pres_gets, _|intros q].
    apply pres_bnd; [apply _|done|intros r; apply pres_ret, _].
  Qed.
  Lemma pres_reuse_loop dbg fuel po t acc : pres (dyn_evo dbg) (reuse_loop (D:=D) dbg fuel po t acc).
  Proof.
    revert acc. induction fuel as [|fuel IH]; intros acc; cbn [reuse_loop]; [apply pres_oof|].
    apply pres_bnd; [apply _|apply pres_reuse_pass|intros [|? ?]; [apply pres_ret, _|apply IH]].
  Qed.
  Lemma pres_reuse_all dbg po t : pres (dyn_evo dbg) (reuse_all (D:=D) dbg po t).
  Proof.
    unfold reuse_all. apply pres_bnd; [apply _|apply pres_reuse_loop|intros acc].
    apply pres_bnd; [apply _|apply pres_gets, _|intros rest].
    apply pres_bnd; [apply _|apply pres_debug, _|intros _; apply pres_ret, _].
  Qed.

  (** ** Simulators *)
  Record evo (g : cfg D) (s s' : simst D) : Prop := {
    ev_dyn : dyn_evo (g_dbg g) (s_dyn s) (s_dyn s');
    ev_fast : s_fast s' = s_fast s;
    ev_tprev : s_tprev s' = s_tprev s;
    ev_vsigs : s_vsigs s' = s_vsigs s;
    ev_scal : s_scal s' = s_scal s;
    ev_arr : s_arr s' = s_arr s;
    ev_init : s_init s' = s_init s;
    ev_ord : wf_tree (g_tree g) -> ordered g s -> ordered g s';
    ev_none : g_mode g = MReuse -> s_cur s = None -> s_cur s' = None /\ s_po1 s' = s_po1 s /\ s_po2 s' = s_po2 s
  }.
  Context (g : cfg D).
  Global Instance evo_pre : PreOrder (evo g).
  Proof.
    split; [intros s; split; try done; reflexivity|].
    intros s1 s2 s3 [A1 A2 A3 A4 A5 A6 A7 A8 A9] [B1 B2 B3 B4 B5 B6 B7 B8 B9]. split; try congruence; [by etrans|auto|].
    intros Hm Hc. destruct (A9 Hm Hc) as (H1 & H2 & H3). destruct (B9 Hm H1) as (H4 & H5 & H6). split_and!; congruence.
  Qed.
  Lemma pres_on_dyn {A} (m : M (dyn D) A) : pres (dyn_evo (g_dbg g)) m -> pres (evo g) (on_dyn m).
  Proof. apply pres_lift. intros s d Hd. by split. Qed.
  Lemma pres_on_core' {A} (m : M (core D) A) : pres (core_evo (g_dbg g)) m -> pres (evo g) (on_core' m).
  Proof. intros Hm. by apply pres_on_dyn, pres_on_core. Qed.
  Lemma pres_on_store' {A} (m : M (store D) A) : pres (shape (g_dbg g)) m -> pres (evo g) (on_store' m).
  Proof. intros Hm. by apply pres_on_core', pres_on_store. Qed.
  Lemma pres_inputs t : pres (core_evo (g_dbg g)) (inputs g t).
  Proof.
    unfold inputs. apply pres_bnd; [apply _|apply pres_emit|intros _].
    apply pres_bnd; [apply _| |intros _; apply pres_on_store, pres_prog].
    destruct (g_inputs g); [apply pres_on_store, pres_prog|apply pres_ret, _].
  Qed.
  Lemma pres_eval_model t : pres (evo g) (eval_model g t).
  Proof.
    assert (forall s, match eval_model g t s with Ok _ s' | Exn _ s' =>
      dyn_evo (g_dbg g) (s_dyn s) (s_dyn s') /\ s_fast s' = s_fast s /\ s_tprev s' = s_tprev s /\ s_vsigs s' = s_vsigs s /\
      s_scal s' = s_scal s /\ s_arr s' = s_arr s /\ s_init s' = s_init s /\
      (g_mode g = MReuse -> s_cur s = None -> s_cur s' = None /\ s_po1 s' = s_po1 s /\ s_po2 s' = s_po2 s) | _ => True end) as Hfr.
    { intros s. destruct (g_mode g) eqn:Em.
      - rewrite eval_default by done.
        pose proof (pres_process_loop (g_dbg g) (S (length (leaves (g_tree g)))) (g_tree g) t (mark_unprocessed (g_tree g) (s_dyn s))) as Hp.
        unfold evaluate, process_all. destruct (process_loop _ _ _ _ _); try done; cbn; split_and!; try done; (etrans; [apply mark_evo|exact Hp]).
      - destruct (remembered s) as [po|] eqn:Ep.
        + rewrite (eval_reuse g t s po Em Ep). unfold evaluate_reuse.
          pose proof (pres_reuse_all (g_dbg g) po t (mark_unprocessed (g_tree g) (s_dyn s))) as Hp.
          destruct (reuse_all _ _ _ _) as [po' d|e d|u|]; try done.
          * assert (dyn_evo (g_dbg g) (s_dyn s) d) by (etrans; [apply mark_evo|exact Hp]).
            unfold remember, remembered in *. cbn. by destruct (s_cur s) as [[]|].
          * cbn; split_and!; try done. etrans; [apply mark_evo|exact Hp].
        + unfold eval_model. rewrite Em. unfold remembered in Ep.
          unfold bnd, on_dyn, lift, modify, gets. cbn. by destruct (s_cur s) as [[]|].
      - unfold eval_model. rewrite Em. unfold bnd, gets.
        pose proof (pres_on_core (g_dbg g) _ (pres_fast_eval (g_dbg g) (s_fast s) t) (s_dyn s)) as Hp.
        unfold on_core', on_dyn, lift in *. by destruct (on_core _ _). }
    intros s. specialize (Hfr s). pose proof (eval_model_spec g t s) as Hs.
    destruct (eval_model g t s) as [[] s'|e s'|u|]; try done; destruct Hfr as (?&?&?&?&?&?&?&?); split; try done; intros Hw Ho; by apply Hs.
  Qed.
  Lemma pres_process_model t b1 b2 : pres (evo g) (process_model g t b1 b2).
  Proof.
    unfold process_model. apply pres_bnd; [apply _|apply pres_on_core', pres_inputs|intros _].
    apply pres_bnd; [apply _| |intros _].
    { apply pres_if; [|apply pres_ret, _]. apply pres_on_core', pres_bnd; [apply _|apply pres_pre_step|intros _; apply pres_snap]. }
    apply pres_bnd; [apply _|apply pres_eval_model|intros _].
    apply pres_bnd; [apply _|apply pres_on_core', pres_snap|intros _].
    apply pres_if; [|apply pres_ret, _]. apply pres_on_core', pres_bnd; [apply _|apply pres_post_step|intros _; apply pres_snap].
  Qed.
  Lemma pres_clear_all : pres (evo g) clear_all.
  Proof.
    unfold clear_all. apply pres_bnd; [apply _|apply pres_gets, _|intros vs].
    apply pres_on_store'. apply pres_forM; [apply _|]. intros s. apply pres_clear.
  Qed.
  Lemma pres_set_scalars ss sv : pres (shape (g_dbg g)) (set_scalars g ss sv).
  Proof.
    revert sv. induction ss as [|s ss IH]; intros sv; cbn [set_scalars]; [apply pres_ret, _|].
    destruct sv as [|x sv]; [apply pres_undef|]. apply pres_bnd; [apply _|apply pres_set|intros _; apply IH].
  Qed.
  Lemma pres_set_arrays ss sv : pres (shape (g_dbg g)) (set_arrays g ss sv).
  Proof.
    revert sv. induction ss as [|s ss IH]; intros sv; cbn [set_arrays]; [apply pres_ret, _|].
    apply pres_bnd; [apply _|apply pres_gets, _|intros n]. apply pres_if; [|apply pres_undef].
    apply pres_bnd; [apply _|apply pres_set|intros _; apply IH].
  Qed.
  Lemma pres_reset_sv sv : pres (evo g) (reset_sv g sv).
  Proof.
    unfold reset_sv. apply pres_bnd; [apply _|apply pres_clear_all|intros _].
    apply pres_bnd; [apply _|apply pres_gets, _|intros ss]. apply pres_bnd; [apply _|apply pres_gets, _|intros aa].
    apply pres_on_store'. apply pres_bnd; [apply _|apply pres_set_scalars|intros r].
    apply pres_bnd; [apply _|apply pres_set_arrays|intros ?; apply pres_ret, _].
  Qed.
  Lemma pres_get_scalar s : pres (shape (g_dbg g)) (get_scalar g s).
  Proof.
    unfold get_scalar. apply pres_bnd; [apply _|apply pres_get|]. intros []; try apply pres_undef. apply pres_ret, _.
  Qed.
  Lemma pres_get_array s : pres (shape (g_dbg g)) (get_array g s).
  Proof.
    unfold get_array. apply pres_bnd; [apply _|apply pres_gets, _|intros n].
    apply pres_bnd; [apply _|apply pres_get|]. intros []; try apply pres_undef.
    apply pres_if; [apply pres_ret, _|apply pres_undef].
  Qed.
  Lemma pres_collect (f : nat -> M (store D) (list D)) ss :
    (forall s, pres (shape (g_dbg g)) (f s)) -> pres (shape (g_dbg g)) (collect f ss).
  Proof.
    intros Hf. induction ss as [|s ss IH]; cbn [collect]; [apply pres_ret, _|].
    apply pres_bnd; [apply _|apply Hf|intros x]. apply pres_bnd; [apply _|done|intros ?; apply pres_ret, _].
  Qed.
  Lemma pres_get_sv arr : pres (evo g) (get_sv g arr).
  Proof.
    unfold get_sv. apply pres_bnd; [apply _|apply pres_gets, _|intros n].
    apply pres_bnd; [apply _|apply pres_debug, _|intros _].
    apply pres_bnd; [apply _|apply pres_gets, _|intros ss]. apply pres_bnd; [apply _|apply pres_gets, _|intros aa].
    apply pres_bnd; [apply _| |intros x; destruct (write_prefix x arr); [apply pres_ret, _|apply pres_undef]].
    apply pres_on_store'. apply pres_bnd; [apply _|apply pres_collect, pres_get_scalar|intros x1].
    apply pres_bnd; [apply _|apply pres_collect, pres_get_array|intros ?; apply pres_ret, _].
  Qed.
  Lemma pres_deriv_of (f : nat -> M (store D) (list D)) s :
    (forall s, pres (shape (g_dbg g)) (f s)) -> pres (shape (g_dbg g)) (deriv_of f s).
  Proof.
    intros Hf. unfold deriv_of. apply pres_bnd; [apply _|apply pres_gets, _|intros [ds|]]; [apply Hf|apply pres_undef].
  Qed.
  Lemma pres_minor_cb t sv : pres (evo g) (minor_cb g t sv).
  Proof.
    unfold minor_cb. apply pres_bnd; [apply _|apply pres_reset_sv|intros _].
    apply pres_bnd; [apply _|apply pres_process_model|intros _].
    apply pres_bnd; [apply _|apply pres_gets, _|intros ss]. apply pres_bnd; [apply _|apply pres_gets, _|intros aa].
    apply pres_bnd; [apply _| |intros x].
    { apply pres_on_store'. apply pres_bnd; [apply _|apply pres_collect; intros s; apply pres_deriv_of, pres_get_scalar|intros x1].
      apply pres_bnd; [apply _|apply pres_collect; intros s; apply pres_deriv_of, pres_get_array|intros ?; apply pres_ret, _]. }
    apply pres_bnd; [apply _|apply pres_gets, _|intros dv]. destruct (write_prefix x dv); [|apply pres_undef].
    apply pres_bnd; [apply _| |intros ?; apply pres_ret, _]. apply pres_modify. intros s. by split.
  Qed.
  Lemma pres_begin_step t : pres (evo g) (begin_step g t).
  Proof.
    unfold begin_step. apply pres_bnd; [apply _|apply pres_clear_all|intros _].
    apply pres_bnd; [apply _|apply pres_on_core', pres_inputs|intros _]. apply pres_on_core', pres_pre_snap.
  Qed.
End evolve.

(** A stepper only acts through the callback and returns as many values as it got. *)
Record stepper_ok {D} (stp : stepper D) : Prop := {
  so_pres S (R : S -> S -> Prop) f t0 v0 t1 : PreOrder R -> (forall t v, pres R (f t v)) -> pres R (stp S f t0 v0 t1);
  so_len S f t0 v0 t1 (x : S) r x' : stp S f t0 v0 t1 x = Ok r x' -> length (fst r) = length v0
}.
Section stepper.
  Context {D : Type} `{NumOps D}.
  Lemma pres_call {S} (R : S -> S -> Prop) `{!PreOrder R} (f : D -> list D -> M S (list D)) n t v :
    (forall t v, pres R (f t v)) -> pres R (call f n t v).
  Proof.
    intros Hf. unfold call. apply pres_bnd; [apply _|apply Hf|intros k]. apply pres_if; [apply pres_ret, _|apply pres_undef].
  Qed.
  Lemma call_len {S} (f : D -> list D -> M S (list D)) n t v x k x' : call f n t v x = Ok k x' -> length k = n.
  Proof.
    unfold call, bnd. destruct (f t v x) as [k' x1| | |]; try done. destruct (Nat.eqb_spec (length k') n); [|done].
    intros He. injection He as <- <-. done.
  Qed.
  Lemma va_len (x y : list D) : length y = length x -> length (va x y) = length x.
  Proof. intros Hl. unfold va. rewrite zip_with_length. lia. Qed.
  Lemma vs_len (x y : list D) : length y = length x -> length (vs x y) = length x.
  Proof. intros Hl. unfold vs. rewrite zip_with_length. lia. Qed.
  Lemma vk_len k (x : list D) : length (vk k x) = length x.
  Proof. apply map_length. Qed.
  Ltac call_step E := unfold bnd at 1; let k := fresh "k" in
    destruct (call _ _ _ _ _) as [k ?x'| | |] eqn:E; [apply call_len in E|done..].
  Lemma euler_ok : stepper_ok (D:=D) euler.
  Proof.
    split.
    - intros S R f t0 v0 t1 HR Hf. unfold euler. apply pres_bnd; [apply _|by apply pres_call|intros k]. apply pres_ret, _.
    - intros S f t0 v0 t1 x r x'. unfold euler. call_step E1. intros He. injection He as <- <-. cbn. apply va_len. by rewrite vk_len.
  Qed.
  Lemma rk4_ok : stepper_ok (D:=D) rk4.
  Proof.
    split.
    - intros S R f t0 v0 t1 HR Hf. unfold rk4. cbv zeta. repeat (apply pres_bnd; [apply _|by apply pres_call|intros ?]). apply pres_ret, _.
    - intros S f t0 v0 t1 x r x'. unfold rk4. cbv zeta. call_step E1. call_step E2. call_step E3. call_step E4.
      intros He. injection He as <- <-. cbn [fst]. unfold va, vs, vk. rewrite !zip_with_length, !map_length. lia.
  Qed.
  Lemma rkf45_ok : stepper_ok (D:=D) rkf45.
  Proof.
    split.
    - intros S R f t0 v0 t1 HR Hf. unfold rkf45. cbv zeta. repeat (apply pres_bnd; [apply _|by apply pres_call|intros ?]).
      destruct (max_coeff _); [apply pres_ret, _|apply pres_undef].
    - intros S f t0 v0 t1 x r x'. unfold rkf45. cbv zeta.
      call_step E1. call_step E2. call_step E3. call_step E4. call_step E5. call_step E6.
      destruct (max_coeff _); [|done].
      intros He. injection He as <- <-. cbn [fst]. unfold va, vs, vk. rewrite !zip_with_length, !map_length. lia.
  Qed.
End stepper.

Section run.
  Context {D : Type} `{NumOps D} (g : cfg D).
  Context (Hstp : forall stp, g_stepper g = Some stp -> stepper_ok stp).

  (** The state vectors have [n] elements. *)
  Definition lens (n : nat) (s : simst D) : Prop :=
    length (s_sv s) = n /\ length (s_svo s) = n /\ length (s_dv s) = n.

  Lemma pres_run_loop fuel t lo hi t1 t2 force : pres (evo g) (run_loop g fuel t lo hi t1 t2 force).
  Proof.
    revert t1 t2 force. induction fuel as [|fuel IH]; intros t1 t2 force; cbn [run_loop].
    { apply pres_if; [apply pres_oof|apply pres_ret, _]. }
    apply pres_if; [|apply pres_ret, _].
    apply pres_bnd; [apply _|apply pres_begin_step|intros _].
    apply pres_bnd; [apply _|apply pres_gets, _|intros o]. apply pres_bnd; [apply _|apply pres_get_sv|intros x].
    apply pres_bnd; [apply _|apply pres_modify; intros s; by split|intros _].
    destruct (g_stepper g) as [stp|] eqn:Es; [|apply pres_undef].
    apply pres_bnd; [apply _|apply Hstp; [done|apply _|intros; apply pres_minor_cb]|intros r].
    apply pres_bnd; [apply _|apply pres_modify; intros s; by split|intros _].
    apply pres_bnd; [apply _|apply pres_on_core', pres_emit|intros _]. cbv zeta.
    apply pres_if; [|apply IH].
    apply pres_bnd; [apply _| |intros _; apply IH]. apply pres_if; [|apply pres_ret, _].
    apply pres_bnd; [apply _|apply pres_gets, _|intros sv]. apply pres_bnd; [apply _|apply pres_reset_sv|intros _].
    apply pres_process_model.
  Qed.

  (** The part of it that initialisation also keeps. *)
  Definition sim_evo (s s' : simst D) : Prop := dyn_evo (g_dbg g) (s_dyn s) (s_dyn s').
  Local Instance sim_evo_pre : PreOrder sim_evo.
  Proof. split; [intros s; unfold sim_evo; reflexivity|]. intros s1 s2 s3. unfold sim_evo. apply transitivity. Qed.
  Lemma evo_sim {A} (m : M (simst D) A) : pres (evo g) m -> pres sim_evo m.
  Proof. intros Hm s. specialize (Hm s). destruct (m s); try done; by apply ev_dyn in Hm. Qed.
  Lemma pres_base_init t : pres sim_evo (base_init g t).
  Proof.
    unfold base_init. apply pres_bnd; [apply _|apply pres_modify; intros s; by unfold sim_evo; cbn|intros _].
    apply pres_bnd; [apply _|apply evo_sim, pres_clear_all|intros _]. apply pres_modify. intros s. by unfold sim_evo; cbn.
  Qed.
  Lemma pres_simulator_init t : pres sim_evo (simulator_init g t).
  Proof.
    unfold simulator_init. apply pres_bnd; [apply _|apply pres_base_init|intros _].
    apply pres_bnd; [apply _|apply pres_gets, _|intros n].
    apply pres_bnd; [apply _| |intros _; apply evo_sim, pres_process_model].
    destruct (g_mode g); try apply pres_ret, _. destruct n; [apply pres_ret, _|].
    apply pres_bnd; [apply _|apply pres_gets, _|intros p1]. apply pres_bnd; [apply _|apply pres_gets, _|intros p2].
    apply pres_bnd; [apply _|apply pres_debug, _|intros _]. apply pres_bnd; [apply _|apply pres_debug, _|intros _].
    apply pres_modify. intros s. by unfold sim_evo; cbn.
  Qed.
  Lemma pres_fast_init t : pres sim_evo (fast_init g t).
  Proof.
    unfold fast_init. apply pres_bnd; [apply _|apply pres_base_init|intros _].
    apply pres_bnd; [apply _|apply pres_gets, _|intros n].
    apply pres_bnd; [apply _|apply pres_debug, _|intros _].
    apply pres_bnd; [apply _|apply evo_sim, pres_on_core', pres_inputs|intros _].
    apply pres_bnd; [apply _|apply evo_sim, pres_on_core', pres_pre_snap|intros _].
    apply pres_bnd; [apply _|apply evo_sim, pres_on_core', pres_fast_loop|intros r].
    apply pres_bnd; [apply _|apply pres_modify; intros s; by unfold sim_evo; cbn|intros _].
    apply pres_bnd; [apply _|apply pres_verify, _|intros _].
    apply pres_bnd; [apply _|apply evo_sim, pres_on_core', pres_snap|intros _].
    apply pres_bnd; [apply _|apply evo_sim, pres_clear_all|intros _]. apply evo_sim, pres_process_model.
  Qed.
  Lemma pres_init t : pres sim_evo (init g t).
  Proof. unfold init. destruct (g_mode g); [apply pres_simulator_init|apply pres_simulator_init|apply pres_fast_init]. Qed.
  Lemma pres_run fuel t lo hi : pres sim_evo (run g fuel t lo hi).
  Proof.
    unfold run. apply pres_bnd; [apply _|apply pres_gets, _|intros ini]. apply pres_if; [apply pres_init|].
    apply pres_bnd; [apply _|apply pres_gets, _|intros n]. apply pres_bnd; [apply _|apply pres_gets, _|intros tp].
    apply pres_bnd; [apply _| |intros _].
    { destruct n; [apply pres_ret, _|]. apply pres_if; [apply pres_throw, _|]. apply pres_if.
      - apply pres_bnd; [apply _|apply evo_sim, pres_begin_step|intros _].
        apply pres_bnd; [apply _|apply pres_gets, _|intros o]. apply pres_bnd; [apply _|apply evo_sim, pres_get_sv|intros x].
        apply pres_modify. intros s. by unfold sim_evo; cbn.
      - apply pres_bnd; [apply _|apply pres_debug, _|intros _]. apply pres_bnd; [apply _|apply pres_debug, _|intros _].
        apply pres_bnd; [apply _|apply pres_debug, _|intros _]. apply evo_sim, pres_run_loop. }
    apply pres_bnd; [apply _|apply pres_gets, _|intros sv]. apply pres_bnd; [apply _|apply evo_sim, pres_reset_sv|intros _].
    apply pres_bnd; [apply _|apply evo_sim, pres_process_model|intros _]. apply pres_modify. intros s. by unfold sim_evo; cbn.
  Qed.

  (** ** Sizes of the state vectors *)
  Lemma write_prefix_len (xs arr r : list D) : write_prefix xs arr = Some r -> length r = length arr.
  Proof.
    unfold write_prefix. destruct (Nat.leb_spec (length xs) (length arr)); [|done].
    intros [= <-]. rewrite app_length, drop_length. lia.
  Qed.
End run.

Section lens.
  Context {D : Type} `{NumOps D} (g : cfg D).
  (** Everything but the state vectors may change. *)
  Definition vecs (s s' : simst D) : Prop := s_sv s' = s_sv s /\ s_svo s' = s_svo s /\ length (s_dv s') = length (s_dv s).
  Global Instance vecs_pre : PreOrder vecs.
  Proof. split; [by intros s|]. intros s1 s2 s3 (?&?&?) (?&?&?). split_and!; congruence. Qed.
  Lemma vecs_on_dyn {A} (m : M (dyn D) A) : pres vecs (on_dyn m).
  Proof. intros s. unfold on_dyn, lift. by destruct (m _). Qed.
  Lemma vecs_eval_model t : pres vecs (eval_model g t).
  Proof.
    unfold eval_model. destruct (g_mode g).
    - apply pres_bnd; [apply _|apply vecs_on_dyn|intros _; apply vecs_on_dyn].
    - apply pres_bnd; [apply _|apply vecs_on_dyn|intros _]. apply pres_bnd; [apply _|apply pres_gets, _|intros [[]|]]; [| |apply pres_undef].
      + apply pres_bnd; [apply _|apply pres_gets, _|intros po]. apply pres_bnd; [apply _|apply vecs_on_dyn|intros po'].
        apply pres_modify. by intros s.
      + apply pres_bnd; [apply _|apply pres_gets, _|intros po]. apply pres_bnd; [apply _|apply vecs_on_dyn|intros po'].
        apply pres_modify. by intros s.
    - apply pres_bnd; [apply _|apply pres_gets, _|intros o]. apply vecs_on_dyn.
  Qed.
  Lemma vecs_process_model t b1 b2 : pres vecs (process_model g t b1 b2).
  Proof.
    unfold process_model. apply pres_bnd; [apply _|apply vecs_on_dyn|intros _].
    apply pres_bnd; [apply _|apply pres_if; [apply vecs_on_dyn|apply pres_ret, _]|intros _].
    apply pres_bnd; [apply _|apply vecs_eval_model|intros _].
    apply pres_bnd; [apply _|apply vecs_on_dyn|intros _]. apply pres_if; [apply vecs_on_dyn|apply pres_ret, _].
  Qed.
  Lemma vecs_clear_all : pres vecs (clear_all (D:=D)).
  Proof. unfold clear_all. apply pres_bnd; [apply _|apply pres_gets, _|intros ?; apply vecs_on_dyn]. Qed.
  Lemma vecs_reset_sv sv : pres vecs (reset_sv g sv).
  Proof.
    unfold reset_sv. apply pres_bnd; [apply _|apply vecs_clear_all|intros _].
    apply pres_bnd; [apply _|apply pres_gets, _|intros ss]. apply pres_bnd; [apply _|apply pres_gets, _|intros aa]. apply vecs_on_dyn.
  Qed.
  Lemma vecs_get_sv arr : pres vecs (get_sv g arr).
  Proof.
    unfold get_sv. apply pres_bnd; [apply _|apply pres_gets, _|intros n].
    apply pres_bnd; [apply _|apply pres_debug, _|intros _].
    apply pres_bnd; [apply _|apply pres_gets, _|intros ss]. apply pres_bnd; [apply _|apply pres_gets, _|intros aa].
    apply pres_bnd; [apply _|apply vecs_on_dyn|intros x; destruct (write_prefix x arr); [apply pres_ret, _|apply pres_undef]].
  Qed.
  Lemma get_sv_len arr s x s' : get_sv g arr s = Ok x s' -> length x = length arr.
  Proof.
    unfold get_sv, bnd, gets. destruct (debug_verify _ _ _ _) as [u s1| | |]; try done.
    destruct (on_store' _ _) as [y s2| | |]; try done. destruct (write_prefix y arr) as [r|] eqn:E; [|done].
    intros He. injection He as <- <-. by eapply write_prefix_len.
  Qed.
  Lemma vecs_minor_cb t sv : pres vecs (minor_cb g t sv).
  Proof.
    unfold minor_cb. apply pres_bnd; [apply _|apply vecs_reset_sv|intros _].
    apply pres_bnd; [apply _|apply vecs_process_model|intros _].
    apply pres_bnd; [apply _|apply pres_gets, _|intros ss]. apply pres_bnd; [apply _|apply pres_gets, _|intros aa].
    apply pres_bnd; [apply _|apply vecs_on_dyn|intros x].
    intros s. unfold bnd, gets. destruct (write_prefix x (s_dv s)) as [r|] eqn:E; [|done]. cbn.
    split; [done|]. split; [done|]. by eapply write_prefix_len.
  Qed.
  Lemma vecs_begin_step t : pres vecs (begin_step g t).
  Proof.
    unfold begin_step. apply pres_bnd; [apply _|apply vecs_clear_all|intros _].
    apply pres_bnd; [apply _|apply vecs_on_dyn|intros _]. apply vecs_on_dyn.
  Qed.
End lens.
