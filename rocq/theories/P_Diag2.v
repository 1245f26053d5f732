(** Block diagrams as formulas: reading the formulas off the wiring. *)
From stdpp Require Import prelude gmap.
From Coq Require Import Reals Lra.
From Verif Require Import Num NumR Res Store Leaf Sched Stepper Sim SpecSched P_Store P_Prog P_Lib SpecBlock P_Trace P_Pack SpecField P_Posed SpecSmooth P_Smooth SpecDiag P_Diag.
Local Open Scope nat_scope.
Local Open Scope R_scope.

Lemma ceval_pbind_ret {A B} (ρ : nat -> option (val R)) (p : prog R A) (h : A -> B) :
  ceval ρ (pbind p (fun a => PRet (h a))) = match ceval ρ p with Some (a, ws) => Some (h a, ws) | None => None end.
Proof.
  induction p as [a|s k IH|s v p IH|c e p IH|e|u]; cbn; try done.
  - destruct (ρ s); [apply IH|done].
  - rewrite IH. by destruct (ceval ρ p) as [[a ws]|].
  - by destruct c.
Qed.
Definition mean_ok (p : R -> prog R (lstate R)) (d : formulas) : Prop :=
  forall t ρ, scalars ρ d -> exists st', ceval ρ (p t) = Some (st', map (fun q => (fst q, VS (expr_at t (real ρ) (snd q)))) d).
Lemma mean_ok_sets p d : mean_ok p d -> forall t, sets (p t) t d /\ ends (p t) d.
Proof.
  intros Hm t. split.
  - intros ρ a ws Hsc Hc. destruct (Hm t ρ Hsc) as (st' & E). congruence.
  - intros ρ Hsc. destruct (Hm t ρ Hsc) as (st' & E). eauto.
Qed.
Lemma scalar_here ρ so e s : scalars ρ [(so, e)] -> s ∈ expr_sigs e -> ρ s = Some (VS (real ρ s)).
Proof. intros Hsc Hs. destruct (Hsc so e s (elem_of_list_here _ _) Hs) as (a & E). unfold real. by rewrite E. Qed.
Lemma fold_sigs (op : expr -> expr -> expr) (Hop : forall e1 e2, expr_sigs (op e1 e2) = expr_sigs e1 ++ expr_sigs e2) ss e s :
  s ∈ expr_sigs (fold_left (fun e s => op e (ESig s)) ss e) <-> s ∈ expr_sigs e \/ s ∈ ss.
Proof.
  revert e. induction ss as [|s1 ss IH]; intros e; cbn [fold_left].
  - split; [by left|]. intros [H|H]; [done|by apply elem_of_nil in H].
  - rewrite IH, Hop, elem_of_app, elem_of_cons. cbn [expr_sigs]. rewrite elem_of_list_singleton. tauto.
Qed.
Lemma fold_ok (f : R -> R -> R) (op : expr -> expr -> expr) (Hat : forall t v e1 e2, expr_at t v (op e1 e2) = f (expr_at t v e1) (expr_at t v e2))
  t ρ b e so st : (forall s, s ∈ map snd b -> ρ s = Some (VS (real ρ s))) ->
  ceval ρ (fold_bus f (VS (expr_at t (real ρ) e)) b (fun v => PSet so v (PRet st))) =
  Some (st, [(so, VS (expr_at t (real ρ) (fold_left (fun e s => op e (ESig s)) (map snd b) e)))]).
Proof.
  revert e. induction b as [|[n s] b IH]; intros e Hb; [done|]. cbn [fold_bus ceval map snd fold_left].
  rewrite (Hb s) by apply elem_of_list_here. cbn [vop2]. rewrite <- (IH (op e (ESig s))); [by rewrite Hat|]. intros s' Hs'. apply Hb. by apply elem_of_list_further.
Qed.
Lemma means_ok l st d : means l st d -> (forall t m, sets (act l t m) t d) /\ forall t, ends (act l t st) d.
Proof.
  assert ((forall m, mean_ok (fun t => act l t m) d) -> (forall t m, sets (act l t m) t d) /\ forall t, ends (act l t st) d) as Hfin.
  { intros Hm. split; [intros t m; by apply (mean_ok_sets (fun t => act l t m) d (Hm m))|intros t; by apply (mean_ok_sets (fun t => act l t st) d (Hm st))]. }
  intros Hm. inversion Hm as [a so Hc Ho|f h so Hc Hf Ho|f h si so Hc Hf Hi Ho|k si so Hc Hi Ho|a so Hc Ho|a so Hc Ho|s1 s2 so Hc H1 H2 Ho|s1 s2 so Hc H1 H2 Ho|si so Hc Hi Ho|ty Hc|f d' Hc Hd|a p q vs d' Hc Hst Hset Hend]; subst.
  - apply Hfin. intros m t ρ Hsc. unfold act. rewrite Hc, Ho. by eexists.
  - apply Hfin. intros m t ρ Hsc. unfold act. rewrite Hc, Ho. cbn. rewrite Hf. by eexists.
  - apply Hfin. intros m t ρ Hsc. unfold act. rewrite Hc, Ho, Hi. cbn. rewrite (scalar_here _ _ _ si Hsc) by apply elem_of_list_here. rewrite Hf. by eexists.
  - apply Hfin. intros m t ρ Hsc. unfold act. rewrite Hc, Ho, Hi. cbn. rewrite (scalar_here _ _ _ si Hsc) by apply elem_of_list_here. by eexists.
  - apply Hfin. intros m t ρ Hsc. unfold act. rewrite Hc, Ho. cbn [with_h]. eexists. cbn [map fst snd].
    apply (fold_ok Rplus EPlus (fun _ _ _ _ => eq_refl) t ρ (l_ibus l) (ENum a)). intros s Hs. eapply scalar_here; [exact Hsc|]. apply (fold_sigs EPlus); [done|by right].
  - apply Hfin. intros m t ρ Hsc. unfold act. rewrite Hc, Ho. cbn [with_h]. eexists. cbn [map fst snd].
    apply (fold_ok Rmult EMult (fun _ _ _ _ => eq_refl) t ρ (l_ibus l) (ENum a)). intros s Hs. eapply scalar_here; [exact Hsc|]. apply (fold_sigs EMult); [done|by right].
  - apply Hfin. intros m t ρ Hsc. unfold act. rewrite Hc, Ho, H1, H2. cbn. rewrite (scalar_here _ _ _ s1 Hsc) by apply elem_of_list_here. rewrite (scalar_here _ _ _ s2 Hsc) by apply elem_of_list_further, elem_of_list_here. by eexists.
  - apply Hfin. intros m t ρ Hsc. unfold act. rewrite Hc, Ho, H1, H2. cbn. rewrite (scalar_here _ _ _ s1 Hsc) by apply elem_of_list_here. rewrite (scalar_here _ _ _ s2 Hsc) by apply elem_of_list_further, elem_of_list_here. by eexists.
  - apply Hfin. intros m t ρ Hsc. unfold act. rewrite Hc, Ho, Hi. cbn. rewrite (scalar_here _ _ _ si Hsc) by apply elem_of_list_here. by eexists.
  - apply Hfin. intros m t ρ Hsc. unfold act. rewrite Hc. by eexists.
  - assert (forall t m ρ, ceval ρ (act l t m) = match ceval ρ (f t (l_ibus l) (l_obus l)) with Some (_, ws) => Some (m, ws) | None => None end) as E.
    { intros t m ρ. unfold act. rewrite Hc. apply (ceval_pbind_ret ρ (f t (l_ibus l) (l_obus l)) (fun _ => m)). }
    split.
    + intros t m ρ a ws Hsc Hce. rewrite E in Hce. destruct (ceval ρ (f t (l_ibus l) (l_obus l))) as [[u ws']|] eqn:E'; [|done]. injection Hce as _ <-. by apply (proj1 (Hd t) ρ u).
    + intros t ρ Hsc. destruct (proj2 (Hd t) ρ Hsc) as (u & ws & E'). rewrite E, E'. eauto.
  - assert (forall t vs' ρ, ceval ρ (act l t (LUser vs')) = match ceval ρ (a t (l_ibus l) (l_obus l) vs') with Some (vs2, ws) => Some (LUser vs2, ws) | None => None end) as E.
    { intros t vs' ρ. unfold act. rewrite Hc. apply (ceval_pbind_ret ρ (a t (l_ibus l) (l_obus l) vs') LUser). }
    split.
    + intros t m ρ a' ws Hsc Hce. destruct m; try (unfold act in Hce; rewrite Hc in Hce; discriminate Hce). rewrite E in Hce.
      destruct (ceval ρ (a t (l_ibus l) (l_obus l) vs0)) as [[u ws']|] eqn:E'; [|done]. injection Hce as _ <-. by apply (Hset t vs0 ρ u).
    + intros t ρ Hsc. destruct (Hend t ρ Hsc) as (u & ws & E'). rewrite E, E'. eauto.
Qed.

Lemma sigs_in (d : formulas) s e s' : (s, e) ∈ d -> s' ∈ expr_sigs e -> s' ∈ concat (map (fun q => expr_sigs (snd q)) d).
Proof.
  induction d as [|[s1 e1] d IH]; intros Hin Hs'; [by apply elem_of_nil in Hin|]. cbn. apply elem_of_app. apply elem_of_cons in Hin as [[= -> ->]|Hin]; [by left|right; by apply IH].
Qed.
Lemma chain_at mem known lds l d : chain mem known lds -> (l, d) ∈ lds ->
  means l (mem (l_id l)) d /\ (forall s, s ∈ concat (map (fun q => expr_sigs (snd q)) d) -> s ∈ required l) /\ forall s, s ∈ required l -> s ∈ known ++ map fst (concat (map snd lds)).
Proof.
  revert known. induction lds as [|[l1 d1] lds IH]; intros known Hch Hin; [by apply elem_of_nil in Hin|]. destruct Hch as (Hm & Hsig & Hreq & Hch). cbn [map snd concat]. apply elem_of_cons in Hin as [[= -> ->]|Hin].
  - split_and!; [done|done|]. intros s Hs. apply elem_of_app. left. by apply Hreq.
  - destruct (IH _ Hch Hin) as (H1 & H2 & H3). split_and!; [done|done|]. intros s Hs. specialize (H3 s Hs). by rewrite map_app, app_assoc.
Qed.
Lemma chain_source mem known lds env1 s e env2 : chain mem known lds -> concat (map snd lds) = env1 ++ (s, e) :: env2 ->
  exists l d, (l, d) ∈ lds /\ (s, e) ∈ d /\ forall s', s' ∈ required l -> s' ∈ known ++ map fst env1.
Proof.
  revert known env1. induction lds as [|[l d] lds IH]; intros known env1 Hch E; [by destruct env1|]. destruct Hch as (Hm & Hsig & Hreq & Hch). cbn in E.
  apply app_eq_inv in E as [(k & E1 & E2)|(k & E1 & E2)].
  - destruct k as [|q k].
    + rewrite app_nil_r in E1. subst env1. destruct (IH _ [] Hch (eq_sym E2)) as (l' & d' & H1 & H2 & H3). exists l', d'. split; [by apply elem_of_list_further|]. split; [done|].
      intros s' Hs'. specialize (H3 s' Hs'). cbn in H3. by rewrite app_nil_r in H3.
    + injection E2 as -> ->. exists l, d. split; [apply elem_of_list_here|]. split; [subst d; apply elem_of_app; right; apply elem_of_list_here|]. intros s' Hs'. apply elem_of_app. left. by apply Hreq.
  - subst env1. destruct (IH _ k Hch E2) as (l' & d' & H1 & H2 & H3). exists l', d'. split; [by apply elem_of_list_further|]. split; [done|].
    intros s' Hs'. specialize (H3 s' Hs'). by rewrite map_app, app_assoc.
Qed.
Lemma diagram_intro σ0 (g : cfg R) mem din lds zs ds :
  (forall s, s ∈ zs ++ map fst (din ++ concat (map snd lds)) -> exists c, σ0 !! s = Some c /\ c_kind c = KScalar) ->
  NoDup (zs ++ map fst (din ++ concat (map snd lds))) ->
  (forall l, l ∈ leaves (g_tree g) <-> l ∈ map fst lds) -> (forall l, l ∈ map fst lds -> is_builder (l_cls l) = false) ->
  (g_inputs g = None /\ din = [] \/ exists p, g_inputs g = Some p /\ forall t, sets (p t) t din /\ ends (p t) din) ->
  (forall s, s ∈ concat (map (fun q => expr_sigs (snd q)) din) -> s ∈ zs) ->
  (forall t, g_icb g t = PRet tt) -> chain mem (zs ++ map fst din) lds ->
  Forall2 (fun z d => exists c, σ0 !! z = Some c /\ c_deriv c = Some d /\ d ∈ zs ++ map fst (din ++ concat (map snd lds))) zs ds ->
  diagram σ0 g mem (din ++ concat (map snd lds)) zs ds.
Proof.
  intros Hsc Hnd Hlv Hnb Hin Hdin Hicb Hch Hder. split; try done.
  - intros l Hl Hb. apply Hlv, elem_of_list_fmap in Hl as ([l' d] & -> & Hl). exists d. cbn [fst] in *. destruct (chain_at _ _ _ _ _ Hch Hl) as (Hm & Hsig & Hreq). destruct (means_ok _ _ _ Hm) as [H1 H2]. split_and!; try done.
    + intros q Hq. apply elem_of_app. right. apply elem_of_list_In, in_concat. exists d. split; [|by apply elem_of_list_In]. apply elem_of_list_In, elem_of_list_fmap. by exists (l', d).
    + intros s e s' Hse Hs'. apply Hsig. by eapply sigs_in.
    + intros s' Hs'. specialize (Hreq s' Hs'). rewrite map_app, app_assoc. done.
  - intros p Hp. destruct Hin as [[E _]|(p' & E & Hse)]; [congruence|]. rewrite E in Hp. injection Hp as <-. exists din. split_and!; [intros q Hq; apply elem_of_app; by left| |done].
    intros s e s' Hin Hs'. apply Hdin. by eapply sigs_in.
  - exists []. split_and!; [intros q Hq; by apply elem_of_nil in Hq|intros s e s' Hq; by apply elem_of_nil in Hq|]. intros t. rewrite Hicb. split.
    + intros ρ a ws _ Hc. cbn in Hc. by injection Hc as <- <-.
    + intros ρ _. cbn. eauto.
  - intros env1 s e env2 E. apply app_eq_inv in E as [(k & E1 & E2)|(k & E1 & E2)].
    + destruct k as [|q k].
      * rewrite app_nil_r in E1. left. destruct (chain_source _ _ _ [] _ _ _ Hch (eq_sym E2)) as (l & d & H1 & H2 & H3). exists l, d. destruct (chain_at _ _ _ _ _ Hch H1) as (Hm & Hsig & _). destruct (means_ok _ _ _ Hm) as [Hs _].
        assert (l ∈ map fst lds) as Hl by (apply elem_of_list_fmap; by exists (l, d)). split_and!; [by apply Hlv|by apply Hnb|done|done| |].
        -- intros s1 e1 s' Hse Hs'. apply Hsig. by eapply sigs_in.
        -- intros s' Hs'. specialize (H3 s' Hs'). cbn in H3. rewrite app_nil_r in H3. by subst.
      * injection E2 as -> ->. right. destruct Hin as [[_ ->]|(p & Hp & Hse)]; [by destruct env1|]. exists p, din. split_and!; [by left|subst; apply elem_of_app; right; apply elem_of_list_here|intros t; by apply Hse|].
        intros s1 e1 s' Hse' Hs'. apply Hdin. by eapply sigs_in.
    + left. subst env1. destruct (chain_source _ _ _ k _ _ _ Hch E2) as (l & d & H1 & H2 & H3). exists l, d. destruct (chain_at _ _ _ _ _ Hch H1) as (Hm & Hsig & _). destruct (means_ok _ _ _ Hm) as [Hs _].
      assert (l ∈ map fst lds) as Hl by (apply elem_of_list_fmap; by exists (l, d)). split_and!; [by apply Hlv|by apply Hnb|done|done| |].
      * intros s1 e1 s' Hse Hs'. apply Hsig. by eapply sigs_in.
      * intros s' Hs'. specialize (H3 s' Hs'). by rewrite map_app, app_assoc.
Qed.
