(** Block diagrams as formulas: existence and uniqueness of the values of the signals. *)
From stdpp Require Import prelude gmap.
From Coq Require Import Reals Lra.
From Verif Require Import Num NumR Res Store Leaf Sched Stepper Sim SpecSched P_Store P_Prog P_Lib SpecBlock P_Trace P_Pack SpecField P_Posed SpecSmooth P_Smooth SpecDiag.
Local Open Scope nat_scope.
Local Open Scope R_scope.

Lemma expr_ext t v1 v2 e : (forall s, s ∈ expr_sigs e -> v1 s = v2 s) -> expr_at t v1 e = expr_at t v2 e.
Proof.
  induction e as [a| |s|e1 IH1 e2 IH2|e1 IH1 e2 IH2|e1 IH1 e2 IH2|e1 IH1 e2 IH2|h e IH]; cbn; intros Hv; try done;
    try (rewrite IH1, IH2; [done|intros s Hs; apply Hv, elem_of_app; by right|intros s Hs; apply Hv, elem_of_app; by left]).
  - apply Hv, elem_of_list_here.
  - by rewrite IH.
Qed.
Lemma solve_other env t v s : s ∉ map fst env -> solve env t v s = v s.
Proof.
  revert v. induction env as [|[s1 e1] env IH]; intros v Hs; [done|]. cbn in Hs |- *. apply not_elem_of_cons in Hs as [Hn Hs].
  rewrite IH by done. destruct (Nat.eqb_spec s s1); [done|done].
Qed.
Lemma solve_app env1 env2 t v : solve (env1 ++ env2) t v = solve env2 t (solve env1 t v).
Proof. revert v. induction env1 as [|[s e] env1 IH]; intros v; [done|]. cbn. apply IH. Qed.
(** A signal has the value of its formula. *)
Lemma solve_here env1 s e env2 t v zs : NoDup (zs ++ map fst (env1 ++ (s, e) :: env2)) -> (forall s', s' ∈ expr_sigs e -> s' ∈ zs ++ map fst env1) ->
  let v' := solve (env1 ++ (s, e) :: env2) t v in v' s = expr_at t v' e.
Proof.
  cbn zeta. rewrite map_app. cbn [map fst]. rewrite app_assoc. intros Hnd Hsig. apply NoDup_app in Hnd as (Hnd & Hdis & Hnd2). apply NoDup_cons in Hnd2 as [Hs Hnd2].
  rewrite !solve_app. cbn [solve]. rewrite solve_other by done. rewrite Nat.eqb_refl. apply expr_ext. intros s' Hs'. specialize (Hsig s' Hs').
  pose proof (Hdis s' Hsig) as Hn. apply not_elem_of_cons in Hn as [Hn1 Hn2]. rewrite (solve_other env2) by done. by destruct (Nat.eqb_spec s' s).
Qed.
Lemma solve_state env t v zs s : NoDup (zs ++ map fst env) -> s ∈ zs -> solve env t v s = v s.
Proof. intros Hnd Hs. apply NoDup_app in Hnd as (_ & Hd & _). by apply solve_other, Hd. Qed.
Lemma states_nth zs x i z : NoDup zs -> length x = length zs -> zs !! i = Some z -> states_are zs x z = nth i x 0.
Proof.
  revert x i. induction zs as [|z1 zs IH]; intros x i Hnd Hl Hi; [done|]. destruct x as [|a x]; [done|]. apply NoDup_cons in Hnd as [Hn Hnd]. cbn.
  destruct i as [|i]; cbn in Hi.
  - injection Hi as ->. by rewrite Nat.eqb_refl.
  - destruct (Nat.eqb_spec z z1) as [->|_]; [exfalso; apply Hn; by eapply elem_of_list_lookup_2|]. apply IH; [done|by injection Hl|done].
Qed.

Section diag.
  Context (σ0 : store R) (g : cfg R) (mem : nat -> lstate R) (env : formulas) (zs ds : list nat).
  Context (Hd : diagram σ0 g mem env zs ds).
  Notation sigs := (zs ++ map fst env).
  Notation val t x := (solve env t (states_are zs x)).

  (** Formulas use earlier signals. *)
  Lemma dg_order env1 s e env2 s' : env = env1 ++ (s, e) :: env2 -> s' ∈ expr_sigs e -> s' ∈ zs ++ map fst env1.
  Proof.
    intros E Hs'. destruct (dg_source _ _ _ _ _ _ Hd _ _ _ _ E) as [(l & d & _ & _ & Hin & _ & Hsub & Hreq)|(p & d & _ & Hin & _ & Hsub)].
    - apply Hreq. by eapply Hsub.
    - apply elem_of_app. left. by eapply Hsub.
  Qed.
  Lemma val_here t x s e : (s, e) ∈ env -> val t x s = expr_at t (val t x) e.
  Proof.
    intros Hin. apply elem_of_list_split in Hin as (env1 & env2 & E). pose proof (dg_once _ _ _ _ _ _ Hd) as Hnd.
    pose proof (fun s' => dg_order env1 s e env2 s' E) as Ho. clear Hd. subst env. by apply (solve_here env1 s e env2 t _ zs).
  Qed.

  (** ** At every instant the signals have the values of the formulas. *)
  Lemma instant_val t m x dx σ : length x = length zs -> instant σ0 g zs t m x dx σ -> forall s, s ∈ sigs -> value σ s = Some (VS (val t x s)).
  Proof.
    intros Hl Hi.
    assert (forall z, z ∈ zs -> value σ z = Some (VS (val t x z))) as Hz.
    { intros z Hz. assert (forall z, z ∈ zs -> scalar_sig σ0 z) as Hsc by (intros z' Hz'; apply (dg_scalar _ _ _ _ _ _ Hd), elem_of_app; by left).
      destruct (scalar_value σ0 g zs Hsc _ _ _ _ _ _ Hi Hz) as (a & Ea). destruct (instant_state σ0 g zs Hsc _ _ _ _ _ Hi) as [_ Hx].
      pose proof (dg_once _ _ _ _ _ _ Hd) as Hnd. rewrite (solve_state _ _ _ zs) by done. apply elem_of_list_lookup in Hz as [i Ei].
      apply NoDup_app in Hnd as (Hnz & _ & _). rewrite (states_nth zs x i z Hnz Hl Ei). by rewrite (Hx i z a Ei Ea). }
    assert (forall env1 env2, env = env1 ++ env2 -> forall s, s ∈ zs ++ map fst env1 -> value σ s = Some (VS (val t x s))) as Hall; [|intros s Hs; eapply (Hall env []); [by rewrite app_nil_r|done]].
    intros env1. induction env1 as [|[s e] env1 IH] using rev_ind; intros env2 E s' Hs'; [cbn in Hs'; rewrite app_nil_r in Hs'; by apply Hz|].
    rewrite <- app_assoc in E. cbn in E. specialize (IH _ E). rewrite map_app, app_assoc in Hs'. apply elem_of_app in Hs' as [Hs'|Hs']; [by apply IH|].
    cbn in Hs'. apply elem_of_list_singleton in Hs' as ->.
    assert ((s, e) ∈ env) as Hin by (rewrite E; apply elem_of_app; right; apply elem_of_list_here). rewrite (val_here t x s e Hin).
    assert (forall s', s' ∈ expr_sigs e -> real (value σ) s' = val t x s') as Hreal. { intros s' Hs'. unfold real. by rewrite (IH s' (dg_order _ _ _ _ _ E Hs')). }
    destruct (dg_source _ _ _ _ _ _ Hd _ _ _ _ E) as [(l & d & Hlf & Hb & Hde & Hset & Hsub & Hreq)|(p & d & Hp & Hde & Hset & Hsub)].
    - destruct (in_laws _ _ _ _ _ _ _ _ Hi l Hlf Hb) as [(s1 & Hs1 & Ha)|[_ (m' & ws & Hc & Hw)]].
      { pose proof (IH s1 (Hreq s1 Hs1)) as Hv. apply value_assigned in Hv. congruence. }
      apply (Hset t (m (l_id l)) (value σ) m' ws) in Hc; [|intros s1 e1 s1' H1 H1'; eexists; apply IH, Hreq; by eapply Hsub].
      apply Hw. subst ws. apply elem_of_list_fmap. exists (s, e). split; [|done]. cbn [fst snd]. by rewrite (expr_ext t _ _ e Hreal).
    - assert (shows σ (p t) tt) as (ws & Hc & Hw). { destruct Hp as [Hp|<-]; [by apply (in_inputs _ _ _ _ _ _ _ _ Hi)|apply (in_icb _ _ _ _ _ _ _ _ Hi)]. }
      apply (Hset t (value σ) tt ws) in Hc; [|intros s1 e1 s1' H1 H1'; eexists; apply Hz; by eapply Hsub].
      apply Hw. subst ws. apply elem_of_list_fmap. exists (s, e). split; [|done]. cbn [fst snd]. by rewrite (expr_ext t _ _ e Hreal).
  Qed.
  Lemma deriv_pack (σ : store R) (v : nat -> R) zs' ds' : Forall2 (fun z d => exists c, σ0 !! z = Some c /\ c_deriv c = Some d /\ d ∈ sigs) zs' ds' -> (forall s, s ∈ sigs -> value σ s = Some (VS (v s))) ->
    forall dd, Forall2 (fun z d => exists c w, σ0 !! z = Some c /\ c_deriv c = Some d /\ value σ d = Some w) zs' dd -> pack σ dd = map v ds'.
  Proof.
    intros Hds Hv. induction Hds as [|z d zs' ds' (c & Hc & Hdc & Hin) _ IH]; intros dd Hdd; inversion Hdd as [|? d' ? dd' (c' & w & Hc' & Hd' & Hw) Hdd']; subst; [done|].
    rewrite Hc in Hc'. injection Hc' as <-. rewrite Hdc in Hd'. injection Hd' as <-. rewrite pack_cons, Hw. rewrite (Hv d Hin) in Hw. injection Hw as <-. cbn. f_equal. by apply IH.
  Qed.
  Lemma field_rhs t m x dx : length x = length zs -> field σ0 g zs t m x dx -> dx = rhs env zs ds t x.
  Proof.
    intros Hl (σ & Hi). destruct (in_deriv _ _ _ _ _ _ _ _ Hi) as (dd & Hdd & ->). unfold rhs.
    eapply deriv_pack; [apply (dg_deriv _ _ _ _ _ _ Hd)|by eapply instant_val|done].
  Qed.

  (** ** There are such values. *)
  Definition sol_store (t : R) (x : list R) : store R := list_to_map (map (fun s => (s, Cell KScalar None true (Some (VS (val t x s))))) sigs).
  Lemma sol_value t x s : s ∈ sigs -> value (sol_store t x) s = Some (VS (val t x s)).
  Proof.
    intros Hs. unfold value. assert (sol_store t x !! s = Some (Cell KScalar None true (Some (VS (val t x s))))) as ->; [|done].
    apply elem_of_list_to_map. { rewrite map_map. cbn. rewrite map_id. apply (dg_once _ _ _ _ _ _ Hd). }
    apply elem_of_list_fmap. by exists s.
  Qed.
  Lemma sol_inv t x s v : value (sol_store t x) s = Some v -> s ∈ sigs /\ v = VS (val t x s).
  Proof.
    unfold value. destruct (sol_store t x !! s) as [c|] eqn:E; [|done]. intros Hv. apply elem_of_list_to_map_2 in E. apply elem_of_list_fmap in E as (s' & [= -> ->] & Hs).
    cbn in Hv. injection Hv as <-. done.
  Qed.
  Lemma sol_shows {A} (p : prog R A) t x d : sets p t d -> ends p d -> d ⊆ env -> (forall s e s', (s, e) ∈ d -> s' ∈ expr_sigs e -> s' ∈ sigs) -> exists a, shows (sol_store t x) p a.
  Proof.
    intros Hset Hend Hsub Hsig. assert (scalars (value (sol_store t x)) d) as Hsc. { intros s e s' Hin Hs'. eexists. apply sol_value. by eapply Hsig. }
    destruct (Hend _ Hsc) as (a & ws & Hc). exists a, ws. split; [done|]. intros s v Hw. rewrite (Hset _ _ _ Hsc Hc) in Hw.
    apply elem_of_list_fmap in Hw as ([s' e] & [= -> ->] & Hin). cbn [fst snd]. pose proof (Hsub _ Hin) as Hin'. rewrite sol_value by (apply elem_of_app; right; apply elem_of_list_fmap; by exists (s', e)).
    rewrite (val_here t x s' e Hin'). f_equal. f_equal. apply expr_ext. intros s1 Hs1. unfold real. by rewrite sol_value by (by eapply Hsig).
  Qed.
  Lemma deriv_list (σ : store R) zs' ds' : Forall2 (fun z d => exists c, σ0 !! z = Some c /\ c_deriv c = Some d /\ d ∈ sigs) zs' ds' -> (forall s, s ∈ sigs -> exists w, value σ s = Some w) ->
    Forall2 (fun z d => exists c w, σ0 !! z = Some c /\ c_deriv c = Some d /\ value σ d = Some w) zs' ds'.
  Proof. intros Hds Hv. eapply Forall2_impl; [exact Hds|]. intros z d (c & Hc & Hdc & Hin). destruct (Hv d Hin) as (w & Hw). by exists c, w. Qed.
  Lemma field_some t x : length x = length zs -> field σ0 g zs t mem x (rhs env zs ds t x).
  Proof.
    intros Hl. exists (sol_store t x). pose proof (dg_once _ _ _ _ _ _ Hd) as Hnd. split.
    - assert (forall zs' x', length x' = length zs' -> (forall i z, zs' !! i = Some z -> value (sol_store t x) z = Some (VS (nth i x' 0))) -> x' = pack (sol_store t x) zs') as Hp.
      { induction zs' as [|z zs' IH]; intros x' Hl' Hv; destruct x' as [|a x']; try done. rewrite pack_cons, (Hv 0%nat z eq_refl). cbn. f_equal. apply IH; [by injection Hl'|]. intros i z' Ez. by apply (Hv (S i) z'). }
      apply Hp; [done|]. intros i z Ez. assert (z ∈ zs) as Hz by (by eapply elem_of_list_lookup_2). rewrite sol_value by (apply elem_of_app; by left).
      rewrite (solve_state _ _ _ zs) by done. apply NoDup_app in Hnd as (Hnz & _). by rewrite (states_nth zs x i z Hnz Hl Ez).
    - intros z Hz. eexists. apply sol_value, elem_of_app. by left.
    - intros p Hp. destruct (dg_inputs _ _ _ _ _ _ Hd p Hp) as (d & Hsub & Hsig & Hse). destruct (Hse t) as [H1 H2].
      destruct (sol_shows (p t) t x d H1 H2 Hsub) as ([] & Hsh); [intros; apply elem_of_app; left; by eapply Hsig|done].
    - destruct (dg_icb _ _ _ _ _ _ Hd) as (d & Hsub & Hsig & Hse). destruct (Hse t) as [H1 H2].
      destruct (sol_shows (g_icb g t) t x d H1 H2 Hsub) as ([] & Hsh); [intros; apply elem_of_app; left; by eapply Hsig|done].
    - intros l Hlf Hb. right. destruct (dg_block _ _ _ _ _ _ Hd l Hlf Hb) as (d & Hsub & Hsig & Hreq & Hset & Hend).
      destruct (sol_shows _ t x d (Hset t (mem (l_id l))) (Hend t) Hsub) as (m' & Hsh); [intros; by eapply Hreq, Hsig|]. split; [|by exists m'].
      destruct Hsh as (ws & Hc & Hw). by eapply ceval_equation.
    - exists ds. split; [apply deriv_list; [apply (dg_deriv _ _ _ _ _ _ Hd)|intros s Hs; eexists; by apply sol_value]|].
      symmetry. unfold rhs. eapply deriv_pack; [apply (dg_deriv _ _ _ _ _ _ Hd)|intros s Hs; by apply sol_value|].
      apply deriv_list; [apply (dg_deriv _ _ _ _ _ _ Hd)|]. intros s Hs. eexists. by apply sol_value.
    - intros s v Hv. apply sol_inv in Hv as [Hs ->]. destruct (dg_scalar _ _ _ _ _ _ Hd s Hs) as (c & Hc & Hk). exists c. split; [done|]. by rewrite Hk.
  Qed.

  (** ** The derivatives are smooth functions. *)
  Context (φ : R -> list R) (t0 T : R).
  Lemma smooth_here e : (forall s', s' ∈ expr_sigs e -> s' ∈ sigs) -> (forall t, t0 <= t <= T -> length (φ t) = length zs) -> fine_expr (fun t => val t (φ t)) t0 T e -> smooth_expr σ0 g zs φ t0 T e.
  Proof.
    intros Hsig Hlen.
    assert (forall (P : R -> Prop) e', (forall s', s' ∈ expr_sigs e' -> s' ∈ sigs) -> (forall t, t0 <= t <= T -> P (expr_at t (val t (φ t)) e')) -> along σ0 g zs φ t0 T P e') as Hal.
    { intros P e' Hs' HP t m dx σ Ht Hi. rewrite (expr_ext t _ (val t (φ t))); [by apply HP|]. intros s Hs. unfold real_of.
      by rewrite (instant_val t m (φ t) dx σ (Hlen t Ht) Hi s (Hs' s Hs)). }
    induction e as [a| |s|e1 IH1 e2 IH2|e1 IH1 e2 IH2|e1 IH1 e2 IH2|e1 IH1 e2 IH2|h e IH]; cbn [fine_expr smooth_expr expr_sigs] in *; try done.
    - intros [H1 H2]. split; [apply IH1|apply IH2]; try done; intros; apply Hsig, elem_of_app; auto.
    - intros [H1 H2]. split; [apply IH1|apply IH2]; try done; intros; apply Hsig, elem_of_app; auto.
    - intros [H1 H2]. split; [apply IH1|apply IH2]; try done; intros; apply Hsig, elem_of_app; auto.
    - intros (H1 & H2 & Hz). split_and!; [apply IH1|apply IH2|apply Hal]; try done; intros; apply Hsig, elem_of_app; auto.
    - intros (H1 & U & HU & Hh & Hz). split; [by apply IH|]. exists U. split_and!; try done. by apply Hal.
  Qed.
  Lemma all_smooth : (forall t, t0 <= t <= T -> length (φ t) = length zs) -> fine_along env zs φ t0 T -> forall s, s ∈ sigs -> smoothly σ0 g zs φ t0 T s.
  Proof.
    intros Hlen Hfine.
    assert (forall env1 env2, env = env1 ++ env2 -> forall s, s ∈ zs ++ map fst env1 -> smoothly σ0 g zs φ t0 T s) as Hall; [|intros s Hs; eapply (Hall env []); [by rewrite app_nil_r|done]].
    intros env1. induction env1 as [|[s e] env1 IH] using rev_ind; intros env2 E s' Hs'; [cbn in Hs'; rewrite app_nil_r in Hs'; by apply sm_state|].
    rewrite <- app_assoc in E. cbn in E. specialize (IH _ E). rewrite map_app, app_assoc in Hs'. apply elem_of_app in Hs' as [Hs'|Hs']; [by apply IH|].
    cbn in Hs'. apply elem_of_list_singleton in Hs' as ->.
    assert ((s, e) ∈ env) as Hin by (rewrite E; apply elem_of_app; right; apply elem_of_list_here).
    assert (forall s', s' ∈ zs ++ map fst env1 -> s' ∈ sigs) as Hpre. { intros s' Hs'. rewrite E, map_app, app_assoc. apply elem_of_app. by left. }
    assert (smooth_expr σ0 g zs φ t0 T e) as Hsm. { apply smooth_here; [|done|by apply (Hfine s e)]. intros s' Hs'. by eapply Hpre, dg_order. }
    destruct (dg_source _ _ _ _ _ _ Hd _ _ _ _ E) as [(l & d & Hlf & Hb & Hde & Hset & Hsub & Hreq)|(p & d & Hp & Hde & Hset & Hsub)].
    - apply (sm_user _ _ _ _ _ _ l s e); [done|done|intros s' Hs'; by apply IH, Hreq| |done|intros s' Hs'; by eapply IH, dg_order].
      intros t m m' σ Hsc (ws & Hc & Hw) _. apply (Hset t m (value σ) m' ws) in Hc; [|intros s1 e1 s1' H1 H1'; by eapply Hsc, Hsub].
      apply Hw. subst ws. apply elem_of_list_fmap. by exists (s, e).
    - apply (sm_input _ _ _ _ _ _ s e); [|done|intros s' Hs'; by eapply IH, dg_order].
      intros t σ Hsc Hin1 Hin2 _. assert (shows σ (p t) tt) as (ws & Hc & Hw). { destruct Hp as [Hp|<-]; [by apply Hin1|done]. }
      apply (Hset t (value σ) tt ws) in Hc; [|intros s1 e1 s1' H1 H1'; by eapply Hsc, Hsub].
      apply Hw. subst ws. apply elem_of_list_fmap. by exists (s, e).
  Qed.
End diag.
