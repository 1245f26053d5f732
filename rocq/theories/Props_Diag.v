(** Property C73: a wired model means the differential equation its diagram shows, and
    simulations converge to its solution. *)
From stdpp Require Import prelude gmap strings.
From Coq Require Import ZArith QArith Reals Lra Qreals Psatz.
From Verif Require Import Num NumQ NumR NumOrd NumAdd Res Name Store Leaf Sched Stepper Sim World Api SpecSched P_Store P_Prog P_Lib P_World P_Compile P_Simulated P_Evolve P_Rel P_Rel2 SpecHist P_Trace SpecBlock Ex_Models
  SpecRun P_Log P_Run Props_Run P_Pack P_Grow P_Again P_Repeat Props_Pack SpecRK P_RK SpecAgain P_Over P_Redo Props_Again SpecField P_Field P_FieldRun P_Posed P_Path Props_Field SpecConv P_Conv Props_Conv SpecLin P_Lin Props_Lin
  SpecOrd P_Ord P_Ord2 P_Ord3 Props_Ord SpecSmooth P_Tame P_Tame2 P_Tame3 P_Smooth Props_Smooth SpecDiag P_Diag P_Diag2.
Local Open Scope nat_scope.
Local Open Scope R_scope.

(** The derivatives that blocks and input callbacks compute together are the values of
    the formulas. *)
Theorem C73_field : forall σ0 (g : cfg R) mem env zs ds t x, diagram σ0 g mem env zs ds -> length x = length zs ->
  field σ0 g zs t mem x (rhs env zs ds t x) /\ forall m dx, field σ0 g zs t m x dx -> dx = rhs env zs ds t x.
Proof. intros σ0 g mem env zs ds t x Hd Hl. split; [by apply field_some|]. intros m dx. by eapply field_rhs. Qed.
Print Assumptions C73_field.

(** The formulas can be read off the wiring. *)
Theorem C73_diagram : forall σ0 (g : cfg R) mem din lds zs ds,
  (forall s, s ∈ zs ++ map fst (din ++ concat (map snd lds)) -> exists c, σ0 !! s = Some c /\ c_kind c = KScalar) ->
  NoDup (zs ++ map fst (din ++ concat (map snd lds))) ->
  (forall l, l ∈ leaves (g_tree g) <-> l ∈ map fst lds) -> (forall l, l ∈ map fst lds -> is_builder (l_cls l) = false) ->
  (g_inputs g = None /\ din = [] \/ exists p, g_inputs g = Some p /\ forall t, sets (p t) t din /\ ends (p t) din) ->
  (forall s, s ∈ concat (map (fun q => expr_sigs (snd q)) din) -> s ∈ zs) ->
  (forall t, g_icb g t = PRet tt) -> chain mem (zs ++ map fst din) lds ->
  Forall2 (fun z d => exists c, σ0 !! z = Some c /\ c_deriv c = Some d /\ d ∈ zs ++ map fst (din ++ concat (map snd lds))) zs ds ->
  diagram σ0 g mem (din ++ concat (map snd lds)) zs ds.
Proof. exact diagram_intro. Qed.
Print Assumptions C73_diagram.

Lemma advance_same w b (g : cfg R) H s s' : advance g H s s' -> session_of w b g s -> s_sv s ≠ [] -> session_of w b g s' /\ layout s' = layout s.
Proof.
  induction 1 as [s|s fuel t lo hi s1 s' Hlt Hle Hr Ha IH]; intros Hs Hn; [done|].
  destruct (run_next _ _ _ _ _ _ _ _ _ Hs Hn Hlt Hr) as (Hs1 & E1 & Hn1 & Ep). destruct (IH Hs1 Hn1) as [Hs' E']. split; [done|congruence].
Qed.
Lemma session_scalar w b (g : cfg R) s z v : session_of w b g s -> g_dbg g = true -> (exists c, initial_store w !! z = Some c /\ c_kind c = KScalar) ->
  value (s_store s) z = Some v -> exists a, v = VS a.
Proof.
  intros Hs Hg (c & Hc & Hk) Hv. pose proof (session_shape _ _ _ _ Hs) as Hsh. destruct (session_of_packed _ _ _ _ Hs) as [Hp _]. pose proof (pk_ok _ _ Hp Hg) as Hok.
  unfold value in Hv. destruct (s_store s !! z) as [c'|] eqn:E; [|done]. destruct (shape_inv _ _ _ _ _ Hsh E) as (c0 & Hc0 & Hsame). rewrite Hc in Hc0. injection Hc0 as <-.
  destruct (c_asg c') eqn:Ea; [|done]. destruct (Hok z c' E) as [_ Hfit]. destruct (Hfit v Hv) as [Hf _]. destruct Hsame as [Ek _]. rewrite Ek, Hk in Hf. destruct v; try discriminate Hf. by eexists.
Qed.
Lemma within_scalars e (σ : store R) zs y : within e (pack σ zs) y -> length y = length zs -> (forall z v, z ∈ zs -> value σ z = Some v -> exists a, v = VS a) ->
  forall i z, zs !! i = Some z -> exists a, value σ z = Some (VS a) /\ Rabs (a - nth i y 0) <= e.
Proof.
  intros Hw Hl Hs. assert (length (pack σ zs) = length zs) as Hlen. { rewrite <- Hl. by apply Forall2_length in Hw. }
  assert (forall zs, (forall z v, z ∈ zs -> value σ z = Some v -> exists a, v = VS a) -> (length (pack σ zs) <= length zs)%nat) as Hle.
  { clear. induction zs as [|z zs IH]; intros Hs; [done|]. rewrite pack_cons, app_length. cbn [length]. assert (length (pack σ zs) <= length zs)%nat by (apply IH; intros z' v Hz'; apply Hs; by apply elem_of_list_further).
    destruct (value σ z) as [v|] eqn:E; [|cbn; lia]. destruct (Hs z v (elem_of_list_here _ _) E) as (a & ->). cbn. lia. }
  clear Hl. revert y Hw. induction zs as [|z0 zs IH]; intros y Hw i z Ei; [done|]. rewrite pack_cons in Hw, Hlen. rewrite app_length in Hlen. cbn [length] in Hlen.
  assert (forall z v, z ∈ zs -> value σ z = Some v -> exists a, v = VS a) as Hs' by (intros z' v Hz'; apply Hs; by apply elem_of_list_further). specialize (Hle zs Hs').
  destruct (value σ z0) as [v|] eqn:E; [|cbn in Hlen; lia]. destruct (Hs z0 v (elem_of_list_here _ _) E) as (a & ->). cbn in Hw, Hlen. inversion Hw as [|? b ? y' Hab Hw']; subst.
  destruct i as [|i]; cbn in Ei; [injection Ei as <-; exists a; split; [exact E|exact Hab]|]. assert (length (pack σ zs) = length zs) as Hlen' by lia. exact (IH Hs' Hlen' y' Hw' i z Ei).
Qed.

(** Simulations come as close to the solution of the differential equation as the order
    of the method promises. *)
Theorem C73_order : forall meth w b (g : cfg R) s mem env ds φ t0 T, t0 <= T ->
  session_of w b g s -> g_dbg g = true -> (forall l, l ∈ leaves (g_tree g) -> steady_class l) -> derivs_fit (initial_store w) ->
  g_stepper g = Some (stp_of meth) -> (forall z, z ∈ layout s -> integral g z) -> s_sv s ≠ [] ->
  diagram (initial_store w) g mem env (layout s) ds ->
  follows env (layout s) ds φ t0 T -> fine_along env (layout s) φ t0 T ->
  s_tprev s = t0 -> pack (s_store s) (layout s) = φ t0 ->
  exists K H0, 0 <= K /\ 0 < H0 /\ forall s' H, 0 <= H <= H0 -> advance g H s s' -> s_tprev s' <= T ->
    forall i z, layout s !! i = Some z -> exists a, value (s_store s') z = Some (VS a) /\ Rabs (a - nth i (φ (s_tprev s')) 0) <= K * H ^ order_of meth.
Proof.
  intros meth w b g s mem env ds φ t0 T HT Hs Hg Hst Hfit Es Hint Hn Hd Hf Hfine Htp Hx.
  assert (forall z, z ∈ layout s -> exists c, initial_store w !! z = Some c /\ c_kind c = KScalar) as Hsc. { intros z Hz. apply (dg_scalar _ _ _ _ _ _ Hd), elem_of_app. by left. }
  destruct (C71_order meth w b g s φ t0 T) as (K & H0 & HK & HH & Hall); try done.
  - intros t Ht. destruct (Hf t Ht) as [Hl Hder]. exists mem, (rhs env (layout s) ds t (φ t)). split; [|done]. by eapply field_some.
  - intros z c d Hz Hc Hdc. eapply all_smooth; [exact Hd|intros t Ht; by apply Hf|done|].
    apply elem_of_list_lookup in Hz as [i Ei]. destruct (Forall2_lookup_l _ _ _ _ _ (dg_deriv _ _ _ _ _ _ Hd) Ei) as (d' & _ & c' & Hc' & Hd' & Hin). congruence.
  - exists K, H0. split; [done|]. split; [done|]. intros s' H Hh Ha Hle i z Ei. destruct (advance_same _ _ _ _ _ _ Ha Hs Hn) as [Hs' El].
    pose proof (advance_time _ _ _ _ _ _ Ha Hs Hn) as Hge. specialize (Hall s' H Hh Ha Hle). rewrite El in Hall.
    eapply within_scalars; [exact Hall|apply Hf; lra| |done]. intros z' v Hz'. eapply session_scalar; [done|done|by apply Hsc].
Qed.
Print Assumptions C73_order.
