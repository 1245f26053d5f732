(** Following the members of one block through a simulation in a debug build. *)
From stdpp Require Import prelude gmap.
From Coq Require Import ZArith.
From Verif Require Import Num Res Store Leaf Sched Stepper Sim SpecSched P_Store P_Prog P_Modes P_Conf P_Sched P_Eval P_Lib P_Fast P_Sim P_Evolve
  P_Simulated P_Rel SpecHist.

(** [p], when every read returns the value in [τ], returns [a], and what it wrote
    is in [τ]. *)
Definition shows {D A} (τ : store D) (p : prog D A) (a : A) : Prop :=
  exists ws, ceval (value τ) p = Some (a, ws) /\ forall s v, (s, v) ∈ ws -> value τ s = Some v.

Section each.
  Context {D : Type} `{NumOps D}.
  Lemma run_prog_ext {A} (p : prog D A) σ a σ' : run_prog true p σ = Ok a σ' -> ext σ σ'.
  Proof. intros Hr. apply run_prog_dbg in Hr as (ws & -> & Hw & _). by apply write_all_ext. Qed.
  Lemma run_prog_shows {A} (p : prog D A) σ a σ' τ : run_prog true p σ = Ok a σ' -> ext σ' τ -> shows τ p a.
  Proof.
    intros Hr Ht. apply run_prog_dbg in Hr as (ws & -> & Hw & Hc). exists ws. split; [by apply Hc|].
    intros s v Hin. eapply ext_value; [exact Ht|]. by apply write_all_value.
  Qed.
  Lemma shows_ext {A} (p : prog D A) σ τ a : shows σ p a -> ext σ τ -> shows τ p a.
  Proof.
    intros (ws & Hc & Hw) He. exists ws. split; [|intros s v Hin; eapply ext_value; [exact He|by apply Hw]].
    revert ws Hc Hw. induction p as [a0|s k IH|s v p IH|c e p IH|e|u]; intros ws Hc Hw; cbn in *; try done.
    - destruct (value σ s) as [v|] eqn:Ev; [|done]. rewrite (ext_value _ _ _ _ He Ev). by apply IH.
    - destruct (ceval (value σ) p) as [[a1 w1]|] eqn:E; [|done]. injection Hc as <- <-.
      rewrite (IH w1 eq_refl); [done|]. intros s' v' Hin. apply Hw. by apply elem_of_list_further.
    - destruct c; [|done]. by apply IH.
  Qed.

  (** Calling a member function of several blocks in turn. *)
  Definition each (dbg : bool) (ev : nat -> event D) (p : leaf D -> lstate D -> prog D (lstate D)) (ls : list (leaf D)) : M (core D) unit :=
    forM ls (fun l => run_leaf dbg (ev (l_id l)) l (p l)).
  Lemma each_app dbg ev p ls1 ls2 c : each dbg ev p (ls1 ++ ls2) c = (each dbg ev p ls1 ;;; each dbg ev p ls2) c.
  Proof.
    revert c. induction ls1 as [|l ls1 IH]; intros c; [done|]. cbn [app each forM]. unfold bnd.
    destruct (run_leaf dbg (ev (l_id l)) l (p l) c) as [u c1| | |]; [|done..]. pose proof (IH c1) as Hi. unfold bnd, each in *.
    by rewrite Hi.
  Qed.
  Lemma pre_each dbg tr t c : pre_step dbg tr t c = each dbg (fun b => EvPre b t) (fun l => pre l t) (leaves tr) c.
  Proof.
    revert c. induction tr as [l|b k ch IH] using tree_ind'; intros c; cbn [pre_step leaves].
    - unfold each. cbn [forM]. unfold bnd. by destruct (run_leaf _ _ _ _ c) as [[] c1| | |].
    - revert c. induction ch as [|x ch IHc]; intros c; [done|]. cbn [map concat]. rewrite each_app.
      apply Forall_cons in IH as [Hx IH]. unfold bnd. rewrite Hx. destruct (each _ _ _ _ c) as [[] c1| | |]; [|done..]. by apply IHc.
  Qed.
  Lemma post_each dbg tr t c : post_step dbg tr t c = each dbg (fun b => EvPost b t) (fun l => post l t) (leaves tr) c.
  Proof.
    revert c. induction tr as [l|b k ch IH] using tree_ind'; intros c; cbn [post_step leaves].
    - unfold each. cbn [forM]. unfold bnd. by destruct (run_leaf _ _ _ _ c) as [[] c1| | |].
    - revert c. induction ch as [|x ch IHc]; intros c; [done|]. cbn [map concat]. rewrite each_app.
      apply Forall_cons in IH as [Hx IH]. unfold bnd. rewrite Hx. destruct (each _ _ _ _ c) as [[] c1| | |]; [|done..]. by apply IHc.
  Qed.
  Lemma acts_each dbg ls t c : acts dbg t ls c = each dbg (fun b => EvAct b t) (fun l => act l t) ls c.
  Proof. done. Qed.
  Lemma each_spec ev p ls c c' : each true ev p ls c = Ok tt c' -> NoDup (map l_id ls) ->
    ext (k_store c) (k_store c') /\ k_log c' = k_log c ++ map (fun l => ev (l_id l)) ls /\
    (forall l, l ∈ ls -> shows (k_store c') (p l (lst_of c (l_id l))) (lst_of c' (l_id l))) /\
    (forall b, b ∉ map l_id ls -> lst_of c' b = lst_of c b).
  Proof.
    revert c. induction ls as [|l ls IH]; intros c He Hn; cbn in He.
    - injection He as <-. split_and!; [apply ext_refl|by rewrite app_nil_r|by intros l Hl; apply elem_of_nil in Hl|done].
    - unfold bnd in He. destruct (run_leaf true (ev (l_id l)) l (p l) c) as [[] c1| | |] eqn:E; try done.
      cbn in Hn. apply NoDup_cons in Hn as [Hni Hn]. destruct (IH c1 He Hn) as (H1 & H2 & H3 & H4). clear IH He.
      unfold run_leaf in E. destruct (run_prog true (p l (lst_of c (l_id l))) (k_store c)) as [st σ| | |] eqn:Er; try done.
      injection E as <-. cbn in *. split_and!.
      + eapply ext_trans; [by eapply run_prog_ext|done].
      + rewrite H2. by rewrite <- app_assoc.
      + intros l' [->|Hl']%elem_of_cons.
        * assert (lst_of c' (l_id l) = st) as ->.
          { rewrite H4 by done. unfold lst_of. cbn. by rewrite lookup_insert. }
          by eapply run_prog_shows.
        * specialize (H3 l' Hl'). assert (l_id l' ≠ l_id l) as Hne.
          { intros Heq. apply Hni. rewrite <- Heq. by apply elem_of_list_fmap_1. }
          unfold lst_of in H3 at 1. cbn in H3. rewrite lookup_insert_ne in H3 by done. exact H3.
      + intros b Hb. apply not_elem_of_cons in Hb as [Hb Hb']. rewrite H4 by done. unfold lst_of. cbn. by rewrite lookup_insert_ne.
  Qed.
  Lemma legal_each t c ls c' : legal_run true t c ls c' ->
    ext (k_store c) (k_store c') /\
    (forall l, l ∈ ls -> shows (k_store c') (act l t (lst_of c (l_id l))) (lst_of c' (l_id l))) /\
    (forall b, b ∉ map l_id ls -> lst_of c' b = lst_of c b).
  Proof.
    intros Hr. destruct (legal_acts _ _ _ _ _ Hr) as (c'' & Ha & Hs & Hl). apply legal_run_ids in Hr as [Hn _].
    rewrite acts_each in Ha. destruct (each_spec _ _ _ _ _ Ha Hn) as (H1 & H2 & H3 & H4).
    rewrite <- Hs. split_and!; [done| |].
    - intros l Hin. rewrite <- Hl. by apply H3.
    - intros b Hb. rewrite <- Hl. by apply H4.
  Qed.

  Lemma member_lst (c : core D) b : member (members c) b = lst_of c b.
  Proof.
    unfold member, members, lst_of. rewrite lookup_omap. by destruct (k_lst c !! b) as [[]|].
  Qed.
  Lemma marks_app (l1 l2 : list (event D)) : marks (l1 ++ l2) = marks l1 ++ marks l2.
  Proof. apply List.filter_app. Qed.
  Lemma marks_quiet {A} (l : list A) (f : A -> event D) : (forall a, is_mark (f a) = false) -> marks (map f l) = [].
  Proof. intros Hf. induction l as [|a l IH]; [done|]. unfold marks in *. cbn. by rewrite Hf. Qed.
  Lemma marks_one (e : event D) : marks [e] = if is_mark e then [e] else [].
  Proof. done. Qed.
End each.

(** Outcomes that return keep [J]. *)
Definition keep {S A} (J : S -> Prop) (m : M S A) : Prop := forall s a s', J s -> m s = Ok a s' -> J s'.
Section keep.
  Context {S : Type} (J : S -> Prop).
  Lemma keep_ret {A} (a : A) : keep J (ret a).
  Proof. intros s a' s' Hj [= <- <-]. done. Qed.
  Lemma keep_throw {A} e : keep J (throw (A:=A) e).
  Proof. done. Qed.
  Lemma keep_undef {A} u : keep J (undef (A:=A) u).
  Proof. done. Qed.
  Lemma keep_gets {A} (f : S -> A) : keep J (gets f).
  Proof. intros s a' s' Hj [= <- <-]. done. Qed.
  Lemma keep_modify f : (forall s, J s -> J (f s)) -> keep J (modify f).
  Proof. intros Hf s a s' Hj [= <- <-]. auto. Qed.
  Lemma keep_bnd {A B} (m : M S A) (k : A -> M S B) : keep J m -> (forall a, keep J (k a)) -> keep J (bnd m k).
  Proof. intros Hm Hk s b s' Hj. unfold bnd. destruct (m s) as [a s1| | |] eqn:E; try done. by eapply Hk, Hm. Qed.
  Lemma keep_verify c e : keep J (verify c e).
  Proof. destruct c; [apply keep_ret|apply keep_throw]. Qed.
  Lemma keep_debug dbg c e : keep J (debug_verify dbg c e).
  Proof. destruct dbg; [apply keep_verify|apply keep_ret]. Qed.
  Lemma keep_if {A} (b : bool) (m1 m2 : M S A) : keep J m1 -> keep J m2 -> keep J (if b then m1 else m2).
  Proof. by destruct b. Qed.
  Lemma keep_forM {A} (f : A -> M S unit) l : (forall a, keep J (f a)) -> keep J (forM l f).
  Proof. intros Hf. induction l as [|a l IH]; cbn; [apply keep_ret|]. by apply keep_bnd. Qed.
End keep.
Lemma stepper_keep {D} (stp : stepper D) {S} (J : S -> Prop) cb t0 v0 t1 : stepper_rel stp ->
  (forall t v, keep J (cb t v)) -> keep J (stp S cb t0 v0 t1).
Proof.
  intros Hs Hc s a s' Hj Hr.
  pose proof (Hs S S (fun x y => x = y /\ J x) cb cb t0 v0 t1) as Hm.
  assert (forall t v, mrel (fun x y => x = y /\ J x) (cb t v) (cb t v)) as Hcb.
  { intros t v x y [<- Hx]. specialize (Hc t v x). destruct (cb t v x) as [b y| | |]; try done. exists y. split; [done|]. split; [done|].
    by apply (Hc b y). }
  specialize (Hm Hcb s s (conj eq_refl Hj)). rewrite Hr in Hm. by destruct Hm as (y & _ & _ & Hy).
Qed.

(** [life l m v m']: with member [m] at the beginning, what the members of [l] go
    through while the marks [v] are recorded, ending with [m']. *)
Inductive life {D} `{NumOps D} (l : leaf D) (m0 : lstate D) : list (event D) -> lstate D -> Prop :=
| life_nil : life l m0 [] m0
| life_pre v m t σ ms m' : life l m0 v m -> shows σ (pre l t m) m' -> member ms (l_id l) = m' -> life l m0 (v ++ [EvBegin t σ ms]) m'
| life_act v m t σ ms m' : life l m0 v m -> shows σ (act l t m) m' -> member ms (l_id l) = m' -> life l m0 (v ++ [EvEval t σ ms]) m'
| life_idle v m t σ ms : life l m0 v m -> waits σ l \/ is_builder (l_cls l) = true -> member ms (l_id l) = m ->
    life l m0 (v ++ [EvEval t σ ms]) m
| life_post v m t σe mse σ ms m' : life l m0 (v ++ [EvEval t σe mse]) m -> ext σe σ -> shows σ (post l t m) m' -> member ms (l_id l) = m' ->
    life l m0 ((v ++ [EvEval t σe mse]) ++ [EvStep t σ ms]) m'
| life_try v m t1 x t2 y h : life l m0 v m -> life l m0 (v ++ [EvTry t1 x t2 y h]) m.

Lemma leaf_by_id {D} (L : list (leaf D)) l l' : NoDup (map l_id L) -> l ∈ L -> l' ∈ L -> l_id l = l_id l' -> l = l'.
Proof.
  intros Hn Hl Hl' E. apply elem_of_list_lookup in Hl as [i Hi], Hl' as [j Hj].
  assert (i = j) as <-; [|congruence]. eapply (NoDup_lookup _ _ _ (l_id l) Hn); rewrite list_lookup_fmap; [by rewrite Hi|by rewrite Hj, E].
Qed.

Section trace.
  Context {D : Type} `{NumOps D}.
  Context (g : cfg D) (Hw : wf_tree (g_tree g)) (Hg : g_dbg g = true).
  Context (l : leaf D) (Hl : l ∈ leaves (g_tree g)) (m0 : lstate D) (v0 : list (event D)).
  Notation tr := (g_tree g).

  Definition alive (c : core D) : Prop := exists v, marks (k_log c) = v0 ++ v /\ life l m0 v (lst_of c (l_id l)).
  Definition quiet {A} (m : M (core D) A) : Prop :=
    forall c a c', m c = Ok a c' -> marks (k_log c') = marks (k_log c) /\ lst_of c' (l_id l) = lst_of c (l_id l).
  Lemma quiet_alive {A} (m : M (core D) A) : quiet m -> keep alive m.
  Proof. intros Hm c a c' (v & E & Hv) Hr. destruct (Hm _ _ _ Hr) as [H1 H2]. exists v. by rewrite H1, H2. Qed.
  Lemma quiet_store {A} (m : M (store D) A) : quiet (on_store m).
  Proof. intros c a c'. unfold on_store, lift. destruct (m (k_store c)); intros He; try done. by injection He as <- <-. Qed.
  Lemma quiet_ret {A} (a : A) : quiet (ret a).
  Proof. intros c a' c' [= <- <-]. done. Qed.
  Lemma quiet_bnd {A B} (m : M (core D) A) (k : A -> M (core D) B) : quiet m -> (forall a, quiet (k a)) -> quiet (bnd m k).
  Proof.
    intros Hm Hk c b c'. unfold bnd. destruct (m c) as [a c1| | |] eqn:E; try done. intros He.
    destruct (Hm _ _ _ E), (Hk _ _ _ _ He). split; congruence.
  Qed.
  Lemma quiet_emit e : is_mark e = false -> quiet (emit e).
  Proof. intros He c a c' [= <- <-]. cbn. by rewrite marks_app, marks_one, He, app_nil_r. Qed.
  Lemma quiet_inputs t : quiet (inputs g t).
  Proof.
    unfold inputs. apply quiet_bnd; [by apply quiet_emit|intros _]. apply quiet_bnd; [|intros _; apply quiet_store].
    destruct (g_inputs g); [apply quiet_store|apply quiet_ret].
  Qed.

  Lemma leaves_nodup : NoDup (map l_id (leaves tr)).
  Proof. by apply wf_leaves. Qed.

  Lemma alive_try t1 x t2 y h : keep alive (emit (EvTry t1 x t2 y h)).
  Proof.
    intros c a c' (v & E & Hv) [= <- <-]. exists (v ++ [EvTry t1 x t2 y h]). cbn. rewrite marks_app, E, <- app_assoc.
    split; [done|]. by apply life_try.
  Qed.
  Lemma alive_pre t : keep alive (pre_step (g_dbg g) tr t ;;; snap (EvBegin t)).
  Proof.
    rewrite Hg. intros c [] c' (v & E & Hv). unfold bnd. rewrite pre_each. destruct (each _ _ _ _ c) as [[] c1| | |] eqn:Ee; try done.
    intros [= <-]. destruct (each_spec _ _ _ _ _ Ee leaves_nodup) as (H1 & H2 & H3 & H4).
    exists (v ++ [EvBegin t (k_store c1) (members c1)]). cbn. rewrite marks_app, H2, marks_app, marks_quiet by done.
    rewrite app_nil_r, E, <- app_assoc. split; [done|]. eapply life_pre; [exact Hv|by apply (H3 l)|by rewrite member_lst].
  Qed.
  (** What an evaluation does to [l], seen when it has returned. *)
  Definition evaluated (t : D) (c c' : core D) : Prop :=
    marks (k_log c') = marks (k_log c) /\
    (shows (k_store c') (act l t (lst_of c (l_id l))) (lst_of c' (l_id l)) \/
     (waits (k_store c') l \/ is_builder (l_cls l) = true) /\ lst_of c' (l_id l) = lst_of c (l_id l)).
  Lemma alive_eval t c c' a c'' : alive c -> evaluated t c c' -> snap (EvEval t) c' = Ok a c'' ->
    alive c'' /\ exists v, marks (k_log c'') = v0 ++ v ++ [EvEval t (k_store c'') (members c'')].
  Proof.
    intros (v & E & Hv) [Hm He] [= <- <-]. cbn. rewrite marks_app, Hm, E. split.
    - exists (v ++ [EvEval t (k_store c') (members c')]). split; [by rewrite <- app_assoc, Hm, E || (cbn; rewrite marks_app, Hm, E, <- app_assoc)|].
      destruct He as [He|[Hwt He]].
      + eapply life_act; [exact Hv|exact He|by rewrite member_lst].
      + cbn. change (lst_of _ _) with (lst_of c' (l_id l)). rewrite He. apply life_idle; [done|done|]. by rewrite member_lst.
    - exists v. cbn. by rewrite app_assoc.
  Qed.
  Lemma alive_post t c a c' v : alive c -> marks (k_log c) = v0 ++ v ++ [EvEval t (k_store c) (members c)] ->
    (post_step (g_dbg g) tr t ;;; snap (EvStep t)) c = Ok a c' -> alive c'.
  Proof.
    rewrite Hg. intros (v' & E & Hv) E'. unfold bnd. rewrite post_each. destruct (each _ _ _ _ c) as [[] c1| | |] eqn:Ee; try done.
    intros [= <- <-]. destruct (each_spec _ _ _ _ _ Ee leaves_nodup) as (H1 & H2 & H3 & H4).
    rewrite E in E'. apply app_inv_head in E'. subst v'.
    exists ((v ++ [EvEval t (k_store c) (members c)]) ++ [EvStep t (k_store c1) (members c1)]). cbn.
    rewrite marks_app, H2, marks_app, marks_quiet by done. rewrite app_nil_r, E, <- !app_assoc. split; [done|]. rewrite app_assoc.
    eapply life_post; [exact Hv|exact H1|by apply (H3 l)|by rewrite member_lst].
  Qed.

  (** ** Simulators *)
  Definition ready (s : simst D) : Prop :=
    match g_mode g with
    | MDefault => True
    | MReuse => s_cur s = None \/ ordered g s
    | MFast => concat (s_fast s) ≡ₚ leaves tr
    end.
  Definition well (s : simst D) : Prop := alive (s_core s) /\ ready s.

  Lemma well_core {A} (m : M (core D) A) : keep alive m -> keep well (on_core' m).
  Proof.
    intros Hm s a s' [Ha Hr]. unfold on_core', on_dyn, on_core, lift. pose proof (Hm (s_core s)) as Hs. unfold s_core in Hs.
    destruct (m (d_core (s_dyn s))) as [x c| | |]; try done. intros [= <- <-]. split; [by eapply Hs|]. done.
  Qed.
  Lemma well_store {A} (m : M (store D) A) : keep well (on_store' m).
  Proof. apply well_core, quiet_alive, quiet_store. Qed.
  Lemma well_clear : keep well clear_all.
  Proof. apply keep_bnd; [apply keep_gets|intros vs]. apply well_store. Qed.

  Lemma eval_evaluated t s s' : ready s -> eval_model g t s = Ok tt s' -> evaluated t (s_core s) (s_core s') /\ ready s'.
  Proof.
    intros Hr He. destruct (g_mode g) eqn:Em.
    3:{ unfold ready in Hr. rewrite Em in Hr. unfold eval_model in He. rewrite Em in He. unfold bnd, gets, on_core', on_dyn, on_core, lift in He.
      rewrite fast_eval_acts, acts_each, Hg in He. change (d_core (s_dyn s)) with (s_core s) in He.
      destruct (each _ _ _ _ (s_core s)) as [[] c1| | |] eqn:Ee; try done. injection He as <-.
      destruct (each_spec _ _ _ _ _ Ee) as (H1 & H2 & H3 & H4); [rewrite Hr; by apply wf_leaves|].
      cbn. split; [|unfold ready; by rewrite Em]. split.
      - rewrite H2, marks_app, marks_quiet by done. by rewrite app_nil_r.
      - left. apply H3. by rewrite Hr. }
    all: assert (ordered g s) as Ho.
    1:{ unfold ordered. by rewrite Em. }
    2:{ unfold ready in Hr. rewrite Em in Hr. destruct Hr as [Hc|Ho]; [|done]. exfalso. unfold eval_model in He. rewrite Em in He.
        unfold bnd, gets, on_dyn, lift, modify in He. cbn in He. by rewrite Hc in He. }
    all: pose proof (eval_model_spec g t s Hw Ho) as Hs; rewrite He in Hs; destruct Hs as ((ls & Hrun & Hin & Hex) & Ho').
    all: split; [|unfold ready; rewrite Em; by try right].
    all: rewrite Hg in Hrun; destruct (legal_each _ _ _ _ Hrun) as (H1 & H2 & H3); pose proof (legal_run_ids _ _ _ _ _ Hrun) as [Hn Hlog].
    all: rewrite marked_log in Hlog by done.
    all: assert (forall b, lst_of (d_core (mark_unprocessed tr (s_dyn s))) b = lst_of (s_core s) b) as Hml by
      (intros b; unfold lst_of; by rewrite marked_lst).
    all: split; [change (k_log (s_core s)) with (k_log (d_core (s_dyn s))); rewrite Hlog, marks_app, marks_quiet by done; by rewrite app_nil_r|].
    all: destruct (decide (l_id l ∈ map l_id ls)) as [Hi|Hni];
      [left; apply elem_of_list_fmap in Hi as (l2 & E2 & Hl2); rewrite (leaf_by_id _ _ _ leaves_nodup Hl (Hin _ Hl2) E2), <- Hml; by apply H2|right].
    all: split; [|rewrite H3 by done; apply Hml].
    all: destruct (Hex l Hl) as [Hd|Hwt]; [|by left]; right.
    all: apply legal_run_basic in Hrun as (_ & _ & Hdone & _); rewrite Hdone in Hd; apply elem_of_union in Hd as [Hd|Hd];
      [apply elem_of_list_to_set in Hd; done|]; by apply marked_leaf in Hd.
  Qed.
  Lemma well_process t a b : keep well (process_model g t a b).
  Proof.
    unfold process_model. apply keep_bnd; [apply well_core, quiet_alive, quiet_inputs|intros _].
    apply keep_bnd; [apply keep_if; [apply well_core, alive_pre|apply keep_ret]|intros _].
    intros s [] s' [Ha Hr]. unfold bnd at 1. destruct (eval_model g t s) as [[] s1| | |] eqn:Ee; try done.
    destruct (eval_evaluated _ _ _ Hr Ee) as [Hev Hr1]. unfold bnd at 1.
    change (on_core' (snap (EvEval t)) s1) with (Ok (S:=simst D) tt (put_dyn (Dyn (Core (k_store (s_core s1)) (k_lst (s_core s1)) (k_done (s_core s1))
      (k_log (s_core s1) ++ [EvEval t (k_store (s_core s1)) (members (s_core s1))])) (d_sdone (s_dyn s1))) s1)).
    set (s2 := put_dyn _ s1). assert (ready s2) as Hr2 by exact Hr1.
    destruct (alive_eval t (s_core s) (s_core s1) tt (s_core s2) Ha Hev eq_refl) as [Ha2 (v & Hv)].
    destruct b; [|intros [= <-]; done]. clearbody s2. clear -Ha2 Hr2 Hv Hg Hw Hl.
    unfold on_core', on_dyn, on_core. unfold lift at 1. unfold lift at 1.
    change (d_core (s_dyn s2)) with (s_core s2). destruct ((post_step _ _ _ ;;; _) (s_core s2)) as [[] c3| | |] eqn:Ep; try done.
    intros [= <-]. split; [by eapply alive_post|done].
  Qed.
  Definition same_order (s s' : simst D) : Prop :=
    s_dyn s' = s_dyn s /\ s_cur s' = s_cur s /\ s_po1 s' = s_po1 s /\ s_po2 s' = s_po2 s /\ s_fast s' = s_fast s.
  Lemma well_same s s' : same_order s s' -> well s -> well s'.
  Proof.
    intros (H1 & H2 & H3 & H4 & H5) [Ha Hr]. split; [unfold s_core; by rewrite H1|].
    unfold ready, ordered, remembered in *. by rewrite H2, H3, H4, H5.
  Qed.
  Lemma well_modify f : (forall s, same_order s (f s)) -> keep well (modify f).
  Proof. intros Hf. apply keep_modify. intros s. by apply well_same. Qed.
  Lemma well_reset sv : keep well (reset_sv g sv).
  Proof.
    unfold reset_sv. apply keep_bnd; [apply well_clear|intros _]. apply keep_bnd; [apply keep_gets|intros ss].
    apply keep_bnd; [apply keep_gets|intros aa]. apply well_store.
  Qed.
  Lemma well_get_sv arr : keep well (get_sv g arr).
  Proof.
    unfold get_sv. apply keep_bnd; [apply keep_gets|intros n]. apply keep_bnd; [apply keep_debug|intros _].
    apply keep_bnd; [apply keep_gets|intros ss]. apply keep_bnd; [apply keep_gets|intros aa].
    apply keep_bnd; [apply well_store|intros x]. destruct (write_prefix x arr); [apply keep_ret|apply keep_undef].
  Qed.
  Lemma well_minor t sv : keep well (minor_cb g t sv).
  Proof.
    unfold minor_cb. apply keep_bnd; [apply well_reset|intros _]. apply keep_bnd; [apply well_process|intros _].
    apply keep_bnd; [apply keep_gets|intros ss]. apply keep_bnd; [apply keep_gets|intros aa].
    apply keep_bnd; [apply well_store|intros x]. apply keep_bnd; [apply keep_gets|intros dv].
    destruct (write_prefix x dv); [|apply keep_undef]. apply keep_bnd; [by apply well_modify|intros _; apply keep_ret].
  Qed.
  Lemma well_begin t : keep well (begin_step g t).
  Proof.
    unfold begin_step. apply keep_bnd; [apply well_clear|intros _].
    apply keep_bnd; [apply well_core, quiet_alive, quiet_inputs|intros _]. apply well_core, alive_pre.
  Qed.
  Context (Hs : forall stp, g_stepper g = Some stp -> stepper_rel stp).
  Lemma well_loop fuel t lo hi t1 t2 force : keep well (run_loop g fuel t lo hi t1 t2 force).
  Proof.
    revert t1 t2 force. induction fuel as [|fuel IH]; intros t1 t2 force; cbn [run_loop]; (apply keep_if; [|apply keep_ret]); [done|].
    apply keep_bnd; [apply well_begin|intros _]. apply keep_bnd; [apply keep_gets|intros o].
    apply keep_bnd; [apply well_get_sv|intros x]. apply keep_bnd; [by apply well_modify|intros _].
    destruct (g_stepper g) as [stp|] eqn:E; [|apply keep_undef].
    apply keep_bnd; [apply stepper_keep; [by apply Hs|intros; apply well_minor]|intros r].
    apply keep_bnd; [by apply well_modify|intros _]. apply keep_bnd; [apply well_core, alive_try|intros _]. cbv zeta.
    apply keep_if; [|apply IH]. apply keep_bnd; [|intros _; apply IH]. apply keep_if; [|apply keep_ret].
    apply keep_bnd; [apply keep_gets|intros sv]. apply keep_bnd; [apply well_reset|intros _]. apply well_process.
  Qed.

  (** Between calls. *)
  Definition well' (s : simst D) : Prop :=
    alive (s_core s) /\ (g_mode g = MFast -> s_init s = true -> concat (s_fast s) ≡ₚ leaves tr) /\ (g_mode g = MReuse -> s_cur s = None \/ ordered g s).
  Lemma well_well' s : well s -> well' s.
  Proof. intros [Ha Hr]. unfold ready in Hr. split; [done|]. by split; [intros Hm _|intros Hm]; rewrite Hm in Hr. Qed.
  Lemma well'_well s : well' s -> (g_mode g = MFast -> s_init s = true) -> well s.
  Proof.
    intros (Ha & Hf & Hr) Hi. split; [done|]. unfold ready. destruct (g_mode g); [done|by apply Hr|]. apply Hf; [done|by apply Hi].
  Qed.
  Lemma well_base t : g_mode g ≠ MFast -> keep well (base_init g t).
  Proof.
    intros _. unfold base_init. apply keep_bnd; [by apply well_modify|intros _].
    apply keep_bnd; [apply well_clear|intros _]. by apply well_modify.
  Qed.
  Lemma core_alive {A} (m : M (core D) A) : keep alive m -> keep (fun s => alive (s_core s)) (on_core' m).
  Proof.
    intros Hm s a s' Ha. unfold on_core', on_dyn, on_core, lift. pose proof (Hm (s_core s)) as Hk. unfold s_core in Hk.
    destruct (m (d_core (s_dyn s))) as [x c| | |]; try done. intros [= <- <-]. by eapply Hk.
  Qed.
  Lemma clear_alive : keep (fun s => alive (s_core s)) clear_all.
  Proof. apply keep_bnd; [apply keep_gets|intros vs]. apply core_alive, quiet_alive, quiet_store. Qed.
  Lemma base_alive t : keep (fun s => alive (s_core s)) (base_init g t).
  Proof.
    unfold base_init. apply keep_bnd; [by apply keep_modify|intros _].
    apply keep_bnd; [apply clear_alive|intros _]. by apply keep_modify.
  Qed.
  Lemma well_init t s s' : well' s -> init g t s = Ok tt s' -> well s'.
  Proof.
    intros Hwl. unfold init. destruct (g_mode g) eqn:Em.
    1,2: intros Hi; assert (well s) as Hws by (apply well'_well; [done|congruence]); revert Hi; apply (fun K : keep well (simulator_init g t) => K s tt s' Hws).
    1,2: unfold simulator_init; rewrite Em; (apply keep_bnd; [apply well_base; congruence|intros _]).
    1,2: apply keep_bnd; [apply keep_gets|intros n]; (apply keep_bnd; [|intros _; apply well_process]).
    - apply keep_ret.
    - destruct n; [apply keep_ret|]. rewrite Hg. intros s1 a s2 [Ha Hr]. unfold bnd, gets, debug_verify, verify, ret, throw, modify.
      destruct (s_po1 s1) as [|] eqn:E1; [|done]. destruct (s_po2 s1) eqn:E2; [|done]. intros [= <- <-].
      split; [done|]. unfold ready. rewrite Em. right. unfold ordered. rewrite Em. unfold remembered. cbn. rewrite E1. exists (nodes tr).
      split; [done|]. by apply covers_perm.
    - destruct Hwl as (Ha & _). unfold fast_init. unfold bnd at 1. destruct (base_init g t s) as [[] s1| | |] eqn:E1; try done.
      pose proof (base_alive _ _ _ _ Ha E1) as Ha1. clear Ha E1 s. unfold bnd at 1, gets at 1. unfold bnd at 1.
      destruct (s_fast s1) as [|] eqn:Ef; [|by rewrite Hg].
      assert (debug_verify (g_dbg g) true EAssert s1 = Ok tt s1) as -> by (by destruct (g_dbg g)).
      unfold bnd at 1. destruct (on_core' (inputs g t) s1) as [[] s2| | |] eqn:E2; try done.
      pose proof (core_alive _ (quiet_alive _ (quiet_inputs t)) _ _ _ Ha1 E2) as Ha2.
      assert (s_fast s2 = []) as Ef2.
      { unfold on_core', on_dyn, on_core, lift in E2. destruct (inputs g t _) as [[] ?| | |]; try done. injection E2 as <-. done. }
      clear Ha1 E2 Ef s1. unfold bnd at 1. destruct (on_core' (pre_step (g_dbg g) tr t ;;; snap (EvBegin t)) s2) as [[] s3| | |] eqn:E3; try done.
      pose proof (core_alive _ (alive_pre t) _ _ _ Ha2 E3) as Ha3.
      assert (s_fast s3 = []) as Ef3.
      { unfold on_core', on_dyn, on_core, lift in E3. destruct ((pre_step _ _ _ ;;; _) _) as [[] ?| | |]; try done. injection E3 as <-. done. }
      clear Ha2 E3 Ef2 s2. unfold bnd at 1. destruct (on_core' (fast_schedule (g_dbg g) (leaves tr) t) s3) as [[order0 n0] s3'| | |] eqn:E4; try done.
      unfold on_core', on_dyn, on_core, lift in E4.
      change (d_core (s_dyn s3)) with (s_core s3) in E4. pose proof (fast_schedule_spec (g_dbg g) t (leaves tr) (s_core s3) leaves_nodup) as Hsp.
      destruct (fast_schedule (g_dbg g) (leaves tr) t (s_core s3)) as [[order' n'] c4| | |] eqn:Efs; try done. injection E4 as <- <- <-. rename order' into order, n' into n.
      destruct Hsp as (Hrun & Hin & Hn & Hex). unfold bnd at 1, modify at 1. cbn [fst snd].
      unfold bnd at 1. destruct (Nat.eqb n (length (leaves tr))) eqn:En; [|done]. cbn [verify]. unfold ret at 1.
      apply Nat.eqb_eq in En.
      pose proof (proj1 (fast_complete _ _ _ _ _ _ _ leaves_nodup Efs) En) as Hperm.
      set (s4 := put_fast _ _). assert (s_core s4 = c4) as Hc4 by done. assert (concat (s_fast s4) ≡ₚ leaves tr) as Hf4.
      { cbn. by rewrite Ef3. }
      assert (evaluated t (s_core s3) (s_core s4)) as Hev.
      { rewrite Hc4. rewrite Hg in Hrun. destruct (legal_each _ _ _ _ Hrun) as (_ & H2 & _). pose proof (legal_run_ids _ _ _ _ _ Hrun) as [_ Hlog]. split.
        - rewrite Hlog, marks_app, marks_quiet by done. by rewrite app_nil_r.
        - left. apply H2. by rewrite Hperm. }
      clearbody s4. unfold bnd at 1. destruct (on_core' (snap (EvEval t)) s4) as [[] s5| | |] eqn:E5; try done.
      assert (well s5) as Hw5.
      { injection E5 as <-. split; [|unfold ready; by rewrite Em].
        eapply (alive_eval t (s_core s3) (s_core s4) tt); [exact Ha3|exact Hev|reflexivity]. }
      apply (fun K : keep well (clear_all ;;; process_model g t true true) => K s5 tt s' Hw5).
      apply keep_bnd; [apply well_clear|intros _; apply well_process].
  Qed.
  Lemma well_run fuel t lo hi s s' : well' s -> run g fuel t lo hi s = Ok tt s' -> well' s'.
  Proof.
    intros Hwl. unfold run. unfold bnd at 1, gets at 1. destruct (s_init s) eqn:Ei; cbn [negb].
    2:{ intros Hi. by eapply well_well', well_init. }
    intros Hr. apply well_well'. assert (well s) as Hws by (by apply well'_well). revert Hr.
    match goal with |- ?m s = _ -> _ => apply (fun K : keep well m => K s tt s' Hws) end.
    apply keep_bnd; [apply keep_gets|intros n]. apply keep_bnd; [apply keep_gets|intros tp].
    apply keep_bnd.
    { destruct n; [apply keep_ret|]. apply keep_if; [apply keep_throw|]. apply keep_if.
      - apply keep_bnd; [apply well_begin|intros _]. apply keep_bnd; [apply keep_gets|intros o].
        apply keep_bnd; [apply well_get_sv|intros x]. by apply well_modify.
      - apply keep_bnd; [apply keep_debug|intros _]. apply keep_bnd; [apply keep_debug|intros _].
        apply keep_bnd; [apply keep_debug|intros _]. apply well_loop. }
    intros _. apply keep_bnd; [apply keep_gets|intros sv]. apply keep_bnd; [apply well_reset|intros _].
    apply keep_bnd; [apply well_process|intros _]. by apply well_modify.
  Qed.
End trace.

Theorem simulated_life {D} `{NumOps D} (tr : tree D) d0 g s l : wf_tree tr -> simulated_ok true tr d0 g s -> l ∈ leaves tr ->
  exists v, marks (s_log s) = marks (k_log (d_core d0)) ++ v /\ life l (lst_of (d_core d0) (l_id l)) v (lst_of (s_core s) (l_id l)).
Proof.
  intros Hw Hsm Hl.
  assert (g_dbg g = true /\ g_tree g = tr /\ (forall stp, g_stepper g = Some stp -> stepper_rel stp) /\
    well' g l (lst_of (d_core d0) (l_id l)) (marks (k_log (d_core d0))) s) as (_ & _ & _ & Ha & _); [|exact Ha].
  induction Hsm as [g Hg Ht Hs|g0 s0 g Hsm IH Hg Ht Hs|g s t s' Hsm IH Hi|g s fuel t lo hi s' Hsm IH Hr].
  - split_and!; [done..|]. split; [|split; [done|by left]]. exists []. rewrite app_nil_r. split; [done|]. constructor.
  - destruct IH as (_ & _ & _ & Ha & _). split_and!; [done..|]. split; [exact Ha|]. split; [done|by left].
  - destruct IH as (Hg & <- & Hs & Hwl). split_and!; [done..|]. eapply well_well', well_init; done.
  - destruct IH as (Hg & <- & Hs & Hwl). split_and!; [done..|]. eapply well_run; done.
Qed.
