(** Reading the life of a block backwards. *)
From stdpp Require Import prelude gmap.
From Coq Require Import ZArith.
From Verif Require Import Num Res Store Leaf Sched Stepper Sim World Api SpecSched P_Store P_Prog P_Evolve P_Simulated P_Compile P_World SpecHist P_Trace.

Section shows.
  Context {D : Type}.
  Implicit Types τ : store D.
  Lemma shows_ret {A} τ (a b : A) : shows τ (PRet a) b -> b = a.
  Proof. by intros (ws & [= <- <-] & _). Qed.
  Lemma shows_get {A} τ s (k : val D -> prog D A) a : shows τ (PGet s k) a -> exists v, value τ s = Some v /\ shows τ (k v) a.
  Proof. intros (ws & Hc & Hw). cbn in Hc. destruct (value τ s) as [v|]; [|done]. exists v. split; [done|]. by exists ws. Qed.
  Lemma shows_set {A} τ s v (p : prog D A) a : shows τ (PSet s v p) a -> value τ s = Some v /\ shows τ p a.
  Proof.
    intros (ws & Hc & Hw). cbn in Hc. destruct (ceval (value τ) p) as [[a1 w1]|] eqn:E; [|done]. injection Hc as <- <-.
    split; [apply Hw, elem_of_list_here|]. exists w1. split; [done|]. intros s' v' Hin. by apply Hw, elem_of_list_further.
  Qed.
  Lemma shows_debug {A} τ c e (p : prog D A) a : shows τ (PDebug c e p) a -> c = true /\ shows τ p a.
  Proof. intros (ws & Hc & Hw). cbn in Hc. destruct c; [|done]. split; [done|]. by exists ws. Qed.
  Lemma shows_ub {A} τ u (a : A) : ~ shows τ (PUB u) a.
  Proof. by intros (ws & Hc & Hw). Qed.
  Lemma shows_opt τ s o p a : shows τ (pset_opt s o p) a -> exists v, o = Some v /\ value τ s = Some v /\ shows τ p a.
  Proof. destruct o as [v|]; cbn; intros Hs; [|by apply shows_ub in Hs]. exists v. split; [done|]. by apply shows_set. Qed.
  Lemma shows_h {A} τ h (k : nat -> prog D A) a : shows τ (with_h h k) a -> exists s, h = Some s /\ shows τ (k s) a.
  Proof. destruct h as [s|]; cbn; intros Hs; [by exists s|by apply shows_ub in Hs]. Qed.
End shows.

Section life.
  Context {D : Type} `{NumOps D}.
  Implicit Types (l : leaf D) (v : list (event D)) (e : event D).
  Definition live l v m e m' : Prop :=
    match e with
    | EvBegin t σ ms => shows σ (pre l t m) m' /\ member ms (l_id l) = m'
    | EvEval t σ ms =>
        (shows σ (act l t m) m' \/ (waits σ l \/ is_builder (l_cls l) = true) /\ m' = m) /\ member ms (l_id l) = m'
    | EvStep t σ ms => (exists v0 σe mse, v = v0 ++ [EvEval t σe mse] /\ ext σe σ) /\ shows σ (post l t m) m' /\ member ms (l_id l) = m'
    | EvTry _ _ _ _ _ => m' = m
    | _ => False
    end.
  Lemma life_snoc l m0 v e m' : life l m0 (v ++ [e]) m' -> exists m, life l m0 v m /\ live l v m e m'.
  Proof.
    intros Hl. inversion Hl as [E|v1 m t σ ms m1 H1 H2 H3 E|v1 m t σ ms m1 H1 H2 H3 E|v1 m t σ ms H1 H2 H3 E|v1 m t σe mse σ ms m1 H1 H2 H3 H4 E|v1 m t1 x t2 y h H1 E].
    - by destruct v.
    - apply app_inj_tail in E as [-> <-]. exists m. done.
    - apply app_inj_tail in E as [-> <-]. exists m. split; [done|]. split; [by left|done].
    - apply app_inj_tail in E as [-> <-]. exists m'. split; [done|]. split; [by right|done].
    - apply app_inj_tail in E as [<- <-]. exists m. split; [done|]. split; [by exists v1, σe, mse|done].
    - apply app_inj_tail in E as [-> <-]. exists m'. done.
  Qed.
  Lemma life_prefix l m0 v1 v2 m : life l m0 (v1 ++ v2) m -> exists m1, life l m0 v1 m1.
  Proof.
    revert m. induction v2 as [|e v2 IH] using rev_ind; intros m Hl; [rewrite app_nil_r in Hl; by exists m|].
    rewrite app_assoc in Hl. apply life_snoc in Hl as (m1 & Hl & _). by eapply IH.
  Qed.
  Lemma life_at l m0 v e v2 m : life l m0 (v ++ e :: v2) m ->
    exists m1 m2, life l m0 v m1 /\ live l v m1 e m2 /\ life l m0 (v ++ [e]) m2.
  Proof.
    rewrite cons_middle, app_assoc. intros Hl. apply life_prefix in Hl as [m2 Hl]. destruct (life_snoc _ _ _ _ _ Hl) as (m1 & H1 & H2).
    by exists m1, m2.
  Qed.
  (** Induction over the marks. *)
  Lemma life_ind' l m0 (P : list (event D) -> lstate D -> Prop) : P [] m0 ->
    (forall v m e m', life l m0 v m -> P v m -> live l v m e m' -> P (v ++ [e]) m') -> forall v m, life l m0 v m -> P v m.
  Proof.
    intros H0 Hs v. induction v as [|e v IH] using rev_ind; intros m Hl.
    - inversion Hl as [E|v1 ? ? ? ? ? ? ? ? E|v1 ? ? ? ? ? ? ? ? E|v1 ? ? ? ? ? ? ? E|v1 ? ? ? ? ? ? ? ? ? ? ? E|v1 ? ? ? ? ? ? ? E]; [by subst|by apply app_nil in E as [_ ?]..].
    - apply life_snoc in Hl as (m1 & Hl & Hv). eauto.
  Qed.
  Lemma steps_app (v1 v2 : list (event D)) : SpecHist.steps (v1 ++ v2) = SpecHist.steps v1 ++ SpecHist.steps v2.
  Proof. unfold SpecHist.steps. by rewrite map_app, concat_app. Qed.
  Lemma steps_snoc v e : SpecHist.steps (v ++ [e]) = SpecHist.steps v ++ step_of e.
  Proof. rewrite steps_app. unfold SpecHist.steps. cbn. by rewrite app_nil_r. Qed.

  Lemma simulation_leaf w b (g : cfg D) s l : simulation_of w b g s -> l ∈ leaves (g_tree g) ->
    exists o, w_blks w !! l_id l = Some o /\ l_cls l = bo_cls o /\ l_h l = bo_h o.
  Proof.
    intros (_ & tr & Hc & Hs) Hl. assert (g_tree g = tr) as Ht. { clear Hl Hc. by induction Hs. } rewrite Ht in Hl.
    destruct (compile_leaf _ _ _ _ _ Hc Hl) as (o & Ho & _ & ->). by exists o.
  Qed.
  Lemma simulation_life w b (g : cfg D) s l o : simulation_of w b g s -> block_of w g l o ->
    l_cls l = bo_cls o /\ l_h l = bo_h o /\ life l (bo_st o) (marks (s_log s)) (lst_of (s_core s) (l_id l)).
  Proof.
    intros Hsim [Hl Ho]. destruct (simulation_leaf _ _ _ _ _ Hsim Hl) as (o' & Ho' & Hc & Hh). rewrite Ho in Ho'. injection Ho' as <-.
    destruct Hsim as ([dbg Hr] & tr & Hcm & Hs). assert (g_tree g = tr) as Ht. { clear -Hs. by induction Hs. } rewrite Ht in Hl.
    split_and!; [done|done|]. destruct (simulated_life tr _ g s l (reach_wf _ _ Hr _ _ Hcm) Hs Hl) as (v & Hv & Hlife).
    assert (lst_of (d_core (initial_dyn w)) (l_id l) = bo_st o) as Hst.
    { unfold lst_of, initial_dyn, initial_core. cbn. rewrite (elem_of_list_to_map_1 _ (l_id l) (bo_st o)); [done| |].
      - rewrite fmap_imap. cbn. apply NoDup_alt. intros i j x. rewrite !list_lookup_imap. cbn.
        destruct (w_blks w !! i), (w_blks w !! j); cbn; try done. congruence.
      - apply elem_of_list_lookup. exists (l_id l). rewrite list_lookup_imap, Ho. done. }
    rewrite Hst in Hlife. cbn in Hv. change (marks (k_log _)) with (marks (D:=D) []) in Hv. by rewrite Hv.
  Qed.
  Lemma marked_life w b (g : cfg D) s l o v e : simulation_of w b g s -> block_of w g l o -> marked s v e ->
    exists m1 m2, life l (bo_st o) v m1 /\ live l v m1 e m2 /\ life l (bo_st o) (v ++ [e]) m2.
  Proof. intros Hsim Hb [rest Hm]. destruct (simulation_life _ _ _ _ _ _ Hsim Hb) as (_ & _ & Hl). rewrite Hm in Hl. by eapply life_at. Qed.
End life.
