(** In a model whose derivatives are computed by smooth blocks the derivatives of the
    states are smooth functions of time and states. *)
From stdpp Require Import prelude gmap strings.
From Coq Require Import Reals Lra.
From Verif Require Import Num NumR Res Name Store Leaf Sched Stepper Sim SpecSched P_Store P_Prog P_Lib SpecBlock SpecHist P_Trace SpecRun P_Pack SpecField P_Field P_Posed SpecConv P_Conv SpecLin P_Lin
  SpecOrd P_Ord SpecSmooth P_Tame P_Tame2 P_Tame3.
Local Open Scope nat_scope.
Local Open Scope R_scope.

Definition scalar_sig (σ0 : store R) (z : nat) : Prop := exists c, σ0 !! z = Some c /\ c_kind c = KScalar.

Section smooth.
  Context (σ0 : store R) (g : cfg R) (zs : list nat) (φ : R -> list R) (t0 T : R) (HT : t0 <= T).
  Context (Hwired : forall l, l ∈ leaves (g_tree g) -> reads_wired (dom σ0) l).
  Context (Hzs : forall z, z ∈ zs -> scalar_sig σ0 z).
  Context (Hsol : solution σ0 g zs φ t0 T).
  Let n := length zs.

  Lemma scalar_value t m x dx σ z : instant σ0 g zs t m x dx σ -> z ∈ zs -> exists a, value σ z = Some (VS a).
  Proof.
    intros Hi Hz. destruct (in_known _ _ _ _ _ _ _ _ Hi z Hz) as (v & Ev). destruct (in_typed _ _ _ _ _ _ _ _ Hi z v Ev) as (c & Hc & Hk & Hs).
    destruct (Hzs z Hz) as (c' & Hc' & Hk'). rewrite Hc in Hc'. injection Hc' as <-. rewrite Hk' in Hk. destruct v; try done. by eexists.
  Qed.
  Lemma pack_scalars σ ys : (forall z, z ∈ ys -> exists a, value σ z = Some (VS a)) -> length (pack σ ys) = length ys /\ forall i z a, ys !! i = Some z -> value σ z = Some (VS a) -> nth i (pack σ ys) 0 = a.
  Proof.
    induction ys as [|y ys IH]; intros Hv; [done|]. destruct (Hv y (elem_of_list_here _ _)) as (a & Ea). destruct IH as [IH1 IH2]; [intros z Hz; apply Hv; by apply elem_of_list_further|].
    rewrite pack_cons, Ea. cbn [flat app length]. split; [by rewrite IH1|]. intros [|i] z b Ez Eb; cbn in Ez |- *; [injection Ez as <-; rewrite Ea in Eb; by injection Eb|by eapply IH2].
  Qed.
  Lemma instant_state t m x dx σ : instant σ0 g zs t m x dx σ -> length x = n /\ forall i z a, zs !! i = Some z -> value σ z = Some (VS a) -> nth i x 0 = a.
  Proof. intros Hi. rewrite (in_state _ _ _ _ _ _ _ _ Hi). apply pack_scalars. intros z Hz. by eapply scalar_value. Qed.
  Lemma sol_len t : t0 <= t <= T -> length (φ t) = n.
  Proof. intros Ht. destruct (Hsol t Ht) as (m & dx & (σ & Hi) & _). by destruct (instant_state _ _ _ _ _ Hi). Qed.
  Lemma sol_cont i t : (i < n)%nat -> t0 <= t <= T -> continuity_pt (fun τ => nth i (φ τ) 0) t.
  Proof. intros Hi Ht. destruct (Hsol t Ht) as (m & dx & _ & Hd). apply derivable_continuous_pt. eexists. by apply Hd. Qed.
  Notation tm := (tame n φ t0 T).
  (** The signal [s] has the value of a smooth function. *)
  Definition computed (s : nat) : Prop := exists f, tm f /\ forall t m x dx σ, t0 <= t <= T -> instant σ0 g zs t m x dx σ -> value σ s = Some (VS (f t x)).
  (** There is an instant. *)
  Lemma some_instant : exists m dx σ, instant σ0 g zs t0 m (φ t0) dx σ.
  Proof. destruct (Hsol t0 ltac:(lra)) as (m & dx & (σ & Hi) & _). by exists m, dx, σ. Qed.
  Lemma block_law l t m x dx σ : l ∈ leaves (g_tree g) -> is_builder (l_cls l) = false -> (forall s, s ∈ required l -> computed s) -> t0 <= t <= T -> instant σ0 g zs t m x dx σ -> equation l t (m (l_id l)) σ.
  Proof.
    intros Hl Hb Hr Ht Hi. destruct (in_laws _ _ _ _ _ _ _ _ Hi l Hl Hb) as [(s & Hs & Ha)|[He _]]; [|done].
    destruct (Hr s Hs) as (f & _ & Hf). specialize (Hf _ _ _ _ _ Ht Hi). apply value_assigned in Hf. congruence.
  Qed.
  Lemma has_cell t m x dx σ s v : instant σ0 g zs t m x dx σ -> value σ s = Some v -> s ∈ dom σ0.
  Proof. intros Hi Hv. destruct (in_typed _ _ _ _ _ _ _ _ Hi s v Hv) as (c & Hc & _). by eapply elem_of_dom_2. Qed.
  Lemma on_solution s f U : computed s -> stays σ0 g zs φ t0 T s U -> (forall t m x dx σ, t0 <= t <= T -> instant σ0 g zs t m x dx σ -> value σ s = Some (VS (f t x))) -> forall t, t0 <= t <= T -> U (f t (φ t)).
  Proof. intros _ Hst Hf t Ht. destruct (Hsol t Ht) as (m & dx & (σ & Hi) & _). eapply Hst; [exact Ht|exact Hi|]. by eapply Hf. Qed.
  Notation tcomp := (tame_comp n φ t0 T HT sol_len sol_cont).

  Lemma sums op (Hop : forall f h, tm f -> tm h -> tm (fun t x => op (f t x) (h t x))) : forall ss, (forall s, s ∈ ss -> computed s) -> forall f0, tm f0 ->
    exists f, tm f /\ forall t m x dx σ xs y, t0 <= t <= T -> instant σ0 g zs t m x dx σ -> Forall2 (fun s v => value σ s = Some v) ss xs -> accumulates op (VS (f0 t x)) xs y -> y = VS (f t x).
  Proof.
    induction ss as [|s ss IH]; intros Hs f0 H0.
    - exists f0. split; [done|]. intros t m x dx σ xs y Ht Hi Hxs Ha. inversion Hxs; subst. by inversion Ha.
    - destruct (Hs s (elem_of_list_here _ _)) as (h & Hh & Eh). destruct (IH (fun s' H' => Hs s' (elem_of_list_further _ _ _ H')) (fun t x => op (f0 t x) (h t x)) (Hop _ _ H0 Hh)) as (f & Hf & Ef).
      exists f. split; [done|]. intros t m x dx σ xs y Ht Hi Hxs Ha. inversion Hxs as [|? v ? vs Ev Hvs]; subst. rewrite (Eh _ _ _ _ _ Ht Hi) in Ev. injection Ev as <-.
      inversion Ha as [|? ? z ? ? Hp Ha']; subst. inversion Hp; subst. by eapply Ef.
  Qed.
  Lemma expr_computed e : smooth_expr σ0 g zs φ t0 T e -> (forall s, s ∈ expr_sigs e -> computed s) ->
    exists f, tm f /\ forall t m x dx σ, t0 <= t <= T -> instant σ0 g zs t m x dx σ -> expr_at t (real_of σ) e = f t x.
  Proof.
    induction e as [a| |s|e1 IH1 e2 IH2|e1 IH1 e2 IH2|e1 IH1 e2 IH2|e1 IH1 e2 IH2|h e IH]; intros Hsm Hs; cbn [smooth_expr expr_sigs expr_at] in *.
    - exists (fun _ _ => a). split; [apply tame_const|done].
    - exists (fun t _ => t). split; [by apply tame_time|done].
    - destruct (Hs s (elem_of_list_here _ _)) as (f & Tf & Ef). exists f. split; [done|]. intros t m x dx σ Ht Hi. unfold real_of. by rewrite (Ef _ _ _ _ _ Ht Hi).
    - destruct Hsm as [S1 S2]. destruct IH1 as (f1 & T1 & E1); [done|intros; apply Hs; apply elem_of_app; by left|]. destruct IH2 as (f2 & T2 & E2); [done|intros; apply Hs; apply elem_of_app; by right|].
      exists (fun t x => f1 t x + f2 t x). split; [by apply tame_plus|]. intros t m x dx σ Ht Hi. by rewrite (E1 _ _ _ _ _ Ht Hi), (E2 _ _ _ _ _ Ht Hi).
    - destruct Hsm as [S1 S2]. destruct IH1 as (f1 & T1 & E1); [done|intros; apply Hs; apply elem_of_app; by left|]. destruct IH2 as (f2 & T2 & E2); [done|intros; apply Hs; apply elem_of_app; by right|].
      exists (fun t x => f1 t x - f2 t x). split; [by apply tame_minus|]. intros t m x dx σ Ht Hi. by rewrite (E1 _ _ _ _ _ Ht Hi), (E2 _ _ _ _ _ Ht Hi).
    - destruct Hsm as [S1 S2]. destruct IH1 as (f1 & T1 & E1); [done|intros; apply Hs; apply elem_of_app; by left|]. destruct IH2 as (f2 & T2 & E2); [done|intros; apply Hs; apply elem_of_app; by right|].
      exists (fun t x => f1 t x * f2 t x). split; [by apply tame_mult|]. intros t m x dx σ Ht Hi. by rewrite (E1 _ _ _ _ _ Ht Hi), (E2 _ _ _ _ _ Ht Hi).
    - destruct Hsm as (S1 & S2 & Hz). destruct IH1 as (f1 & T1 & E1); [done|intros; apply Hs; apply elem_of_app; by left|]. destruct IH2 as (f2 & T2 & E2); [done|intros; apply Hs; apply elem_of_app; by right|].
      exists (fun t x => f1 t x / f2 t x). split; [|intros t m x dx σ Ht Hi; by rewrite (E1 _ _ _ _ _ Ht Hi), (E2 _ _ _ _ _ Ht Hi)].
      apply (tame_div n φ t0 T HT sol_len sol_cont); [done|done|]. intros t Ht. destruct (Hsol t Ht) as (m & dx & (σ & Hi) & _). rewrite <- (E2 _ _ _ _ _ Ht Hi). by eapply Hz.
    - destruct Hsm as (S1 & U & HU & Hh & Hz). destruct IH as (f & Tf & Ef); [done|done|]. exists (fun t x => h (f t x)). split; [|intros t m x dx σ Ht Hi; by rewrite (Ef _ _ _ _ _ Ht Hi)].
      apply (tcomp U); try done. intros t Ht. destruct (Hsol t Ht) as (m & dx & (σ & Hi) & _). rewrite <- (Ef _ _ _ _ _ Ht Hi). by eapply Hz.
  Qed.
  Lemma computed_known s t m x dx σ : computed s -> t0 <= t <= T -> instant σ0 g zs t m x dx σ -> exists a, value σ s = Some (VS a).
  Proof. intros (f & _ & Ef) Ht Hi. eexists. by eapply Ef. Qed.
  Lemma smoothly_computed s : smoothly σ0 g zs φ t0 T s -> computed s.
  Proof.
    induction 1 as [z Hz|l s Hl Hsm Hout Hreq IH|l s e Hl Hb Hreq IH Hset Hsm Hsig IHs|s e Hset Hsm Hsig IHs].
    { apply elem_of_list_lookup in Hz as Hz'. destruct Hz' as [i Ei]. exists (fun _ x => nth i x 0). split; [apply tame_state; [done|apply sol_cont|by apply lookup_lt_Some in Ei]|].
      intros t m x dx σ Ht Hi. destruct (scalar_value _ _ _ _ _ _ Hi Hz) as (a & Ea). destruct (instant_state _ _ _ _ _ Hi) as [_ Hx]. by rewrite (Hx i z a Ei Ea). }
    2: { destruct (expr_computed e Hsm IHs) as (f & Tf & Ef). exists f. split; [done|]. intros t m x dx σ Ht Hi.
      destruct (in_laws _ _ _ _ _ _ _ _ Hi l Hl Hb) as [(s' & Hs' & Ha)|[_ (m' & Hsh)]].
      - destruct (computed_known s' _ _ _ _ _ (IH s' Hs') Ht Hi) as (a & Ea). apply value_assigned in Ea. congruence.
      - rewrite (Hset _ _ _ _ (fun s' Hs' => computed_known s' _ _ _ _ _ (IH s' Hs') Ht Hi) Hsh); [|intros s' Hs'; eapply computed_known; [by apply IHs|exact Ht|exact Hi]]. by rewrite (Ef _ _ _ _ _ Ht Hi). }
    2: { destruct (expr_computed e Hsm IHs) as (f & Tf & Ef). exists f. split; [done|]. intros t m x dx σ Ht Hi.
      rewrite (Hset t σ (fun z Hz => scalar_value _ _ _ _ _ z Hi Hz) (fun p Hp => in_inputs _ _ _ _ _ _ _ _ Hi p Hp) (in_icb _ _ _ _ _ _ _ _ Hi)); [|intros s' Hs'; eapply computed_known; [by apply IHs|exact Ht|exact Hi]].
      by rewrite (Ef _ _ _ _ _ Ht Hi). }
    pose proof (Hwired l Hl) as Hw. destruct some_instant as (m0 & dx0 & σ1 & I0). assert (t0 <= t0 <= T) as Ht0 by lra.
    assert (is_builder (l_cls l) = false) as Hb by (unfold smooth_block in Hsm; by destruct (l_cls l)).
    pose proof (fun t m x dx σ => block_law l t m x dx σ Hl Hb IH) as Heq. pose proof (Heq _ _ _ _ _ Ht0 I0) as E0.
    unfold smooth_block in Hsm. unfold reads_wired in Hw. unfold equation in Heq, E0. rewrite Hout in Heq, E0. clear Hb Hreq.
    destruct (l_cls l) as [ty v|ty f| | |ty f| |ty v|ty v|ty v| | |ty| | | | | | | | |] eqn:Ec; try done; try (destruct ty; try done); try (destruct v as [k| | |]; try done).
    - (* Const *) exists (fun _ _ => k). split; [apply tame_const|]. intros t m x dx σ Ht Hi. destruct (Heq _ _ _ _ _ Ht Hi) as (so & Hso & Hv). injection Hso as <-. done.
    - (* Source *) destruct Hsm as (U & h & HU & Hh & Ef & Hin). exists (fun t _ => h t). split; [apply (tcomp U h (fun t _ => t)); [done|done|by apply tame_time|done]|].
      intros t m x dx σ Ht Hi. destruct (Heq _ _ _ _ _ Ht Hi) as (so & v & Hso & (ws & Hr) & Hv). injection Hso as <-. rewrite Ef in Hr. cbn in Hr. injection Hr as <- _. done.
    - (* SISO *) destruct Hsm as (U & h & si & HU & Hh & Ef & Hin & Hst). destruct E0 as (si' & so & x0 & v0 & Hsi & _ & Hx0 & _). rewrite Hin in Hsi. injection Hsi as <-.
      assert (computed si) as Hc by (apply IH, Hw; [done|by eapply has_cell]). pose proof Hc as (f1 & T1 & E1). exists (fun t x => h (f1 t x)). split; [apply (tcomp U); try done; by eapply on_solution|].
      intros t m x dx σ Ht Hi. destruct (Heq _ _ _ _ _ Ht Hi) as (si' & so' & x1 & v & Hsi & Hso & Hx1 & (ws & Hr) & Hv). rewrite Hin in Hsi. injection Hsi as <-. injection Hso as <-.
      rewrite (E1 _ _ _ _ _ Ht Hi) in Hx1. injection Hx1 as <-. rewrite Ef in Hr. cbn in Hr. injection Hr as <- _. done.
    - (* Gain *) destruct E0 as (si & so & x0 & y0 & Hsi & _ & Hx0 & _). assert (computed si) as (f1 & T1 & E1) by (apply IH, Hw; [done|by eapply has_cell]).
      exists (fun t x => k * f1 t x). split; [apply (tame_mult n φ t0 T (fun _ _ => k)); [apply tame_const|done]|].
      intros t m x dx σ Ht Hi. destruct (Heq _ _ _ _ _ Ht Hi) as (si' & so' & x1 & v & Hsi' & Hso & Hx1 & Hv & Hs). rewrite Hsi in Hsi'. injection Hsi' as <-. injection Hso as <-.
      rewrite (E1 _ _ _ _ _ Ht Hi) in Hx1. injection Hx1 as <-. inversion Hs; subst. done.
    - (* Add *) destruct E0 as (so & xs0 & y0 & _ & Hxs0 & _).
      destruct (sums Rplus (tame_plus n φ t0 T) (map snd (l_ibus l))) with (f0 := fun (_ : R) (_ : list R) => k) as (f & Tf & Ef); [|apply tame_const|].
      { intros s' Hs'. apply elem_of_list_fmap in Hs' as (e & -> & He). apply IH, Hw; [done|]. apply elem_of_list_lookup in He as [i Ei].
        destruct (Forall2_lookup_l _ _ _ _ _ Hxs0 Ei) as (v & _ & Ev). by eapply has_cell. }
      exists f. split; [done|]. intros t m x dx σ Ht Hi. destruct (Heq _ _ _ _ _ Ht Hi) as (so' & xs & y & Hso & Hxs & Hv & Hac). injection Hso as <-. rewrite Hv. f_equal.
      eapply Ef; [exact Ht|exact Hi| |exact Hac]. by apply Forall2_fmap_l.
    - (* Multiply *) destruct E0 as (so & xs0 & y0 & _ & Hxs0 & _).
      destruct (sums Rmult (tame_mult n φ t0 T) (map snd (l_ibus l))) with (f0 := fun (_ : R) (_ : list R) => k) as (f & Tf & Ef); [|apply tame_const|].
      { intros s' Hs'. apply elem_of_list_fmap in Hs' as (e & -> & He). apply IH, Hw; [done|]. apply elem_of_list_lookup in He as [i Ei].
        destruct (Forall2_lookup_l _ _ _ _ _ Hxs0 Ei) as (v & _ & Ev). by eapply has_cell. }
      exists f. split; [done|]. intros t m x dx σ Ht Hi. destruct (Heq _ _ _ _ _ Ht Hi) as (so' & xs & y & Hso & Hxs & Hv & Hac). injection Hso as <-. rewrite Hv. f_equal.
      eapply Ef; [exact Ht|exact Hi| |exact Hac]. by apply Forall2_fmap_l.
    - (* Subtract *) destruct E0 as (s1 & s2 & so & x1 & x2 & y0 & H1 & H2 & _ & Hx1 & Hx2 & _). destruct Hw as [Hw1 Hw2].
      assert (computed s1) as (f1 & T1 & E1) by (apply IH, Hw1; [done|by eapply has_cell]). assert (computed s2) as (f2 & T2 & E2) by (apply IH, Hw2; [done|by eapply has_cell]).
      exists (fun t x => f1 t x - f2 t x). split; [by apply tame_minus|].
      intros t m x dx σ Ht Hi. destruct (Heq _ _ _ _ _ Ht Hi) as (s1' & s2' & so' & z1 & z2 & y & H1' & H2' & Hso & Hz1 & Hz2 & Hv & Hp). rewrite H1 in H1'. injection H1' as <-. rewrite H2 in H2'. injection H2' as <-. injection Hso as <-.
      rewrite (E1 _ _ _ _ _ Ht Hi) in Hz1. injection Hz1 as <-. rewrite (E2 _ _ _ _ _ Ht Hi) in Hz2. injection Hz2 as <-. inversion Hp; subst. done.
    - (* Divide *) destruct E0 as (s1 & s2 & so & x1 & x2 & y0 & H1 & H2 & _ & Hx1 & Hx2 & _). destruct Hw as [Hw1 Hw2]. destruct Hsm as (s2' & H2' & Hst). rewrite H2 in H2'. injection H2' as <-.
      assert (computed s1) as (f1 & T1 & E1) by (apply IH, Hw1; [done|by eapply has_cell]). assert (computed s2) as Hc2 by (apply IH, Hw2; [done|by eapply has_cell]). pose proof Hc2 as (f2 & T2 & E2).
      exists (fun t x => f1 t x / f2 t x). split; [apply (tame_div n φ t0 T HT sol_len sol_cont); [done|done|]; by apply (on_solution s2 f2 (fun a => a <> 0))|].
      intros t m x dx σ Ht Hi. destruct (Heq _ _ _ _ _ Ht Hi) as (s1' & s2' & so' & z1 & z2 & y & H1' & H2' & Hso & Hz1 & Hz2 & Hv & Hp). rewrite H1 in H1'. injection H1' as <-. rewrite H2 in H2'. injection H2' as <-. injection Hso as <-.
      rewrite (E1 _ _ _ _ _ Ht Hi) in Hz1. injection Hz1 as <-. rewrite (E2 _ _ _ _ _ Ht Hi) in Hz2. injection Hz2 as <-. inversion Hp; subst. done.
    - (* Pipe *) destruct E0 as (si & so & x0 & Hsi & _ & Hx0 & _). assert (computed si) as (f1 & T1 & E1) by (apply IH, Hw; [done|by eapply has_cell]).
      exists f1. split; [done|]. intros t m x dx σ Ht Hi. destruct (Heq _ _ _ _ _ Ht Hi) as (si' & so' & x1 & Hsi' & Hso & Hx1 & Hv). rewrite Hsi in Hsi'. injection Hsi' as <-. injection Hso as <-.
      rewrite (E1 _ _ _ _ _ Ht Hi) in Hx1. by rewrite <- Hx1 in Hv.
  Qed.

  Context (Hder : forall z c d, z ∈ zs -> σ0 !! z = Some c -> c_deriv c = Some d -> smoothly σ0 g zs φ t0 T d).
  Lemma the_functions ys : (forall z, z ∈ ys -> z ∈ zs) -> exists fs, length fs = length ys /\ Forall tm fs /\ forall t m x dx σ ds, t0 <= t <= T -> instant σ0 g zs t m x dx σ ->
    Forall2 (fun z d => exists c v, σ0 !! z = Some c /\ c_deriv c = Some d /\ value σ d = Some v) ys ds -> pack σ ds = fun_of fs t x.
  Proof.
    induction ys as [|y ys IH]; intros Hys.
    { exists []. split; [done|]. split; [constructor|]. intros t m x dx σ ds _ _ Hds. by inversion Hds. }
    destruct IH as (fs & El & Tfs & Efs); [intros z Hz; by apply Hys, elem_of_list_further|]. pose proof (Hys y (elem_of_list_here _ _)) as Hy.
    destruct some_instant as (m0 & dx0 & σ1 & I0). destruct (in_deriv _ _ _ _ _ _ _ _ I0) as (ds0 & Hds0 & _). apply elem_of_list_lookup in Hy as Hy'. destruct Hy' as [i Ei].
    destruct (Forall2_lookup_l _ _ _ _ _ Hds0 Ei) as (d & _ & c & v & Hc & Hd & _). destruct (smoothly_computed d (Hder y c d Hy Hc Hd)) as (f & Tf & Ef).
    exists (f :: fs). split; [cbn; by rewrite El|]. split; [by constructor|]. intros t m x dx σ ds Ht Hi Hds. inversion Hds as [|? d' ? ds' (c' & v' & Hc' & Hd' & Hv') Hds']; subst.
    rewrite Hc in Hc'. injection Hc' as <-. rewrite Hd in Hd'. injection Hd' as <-. rewrite pack_cons, Hv'. rewrite (Ef _ _ _ _ _ Ht Hi) in Hv'. injection Hv' as <-. cbn. f_equal. by eapply Efs.
  Qed.
  Lemma smooth_field : exists fs, length fs = n /\ Forall tm fs /\ (forall t m x dx, t0 <= t <= T -> field σ0 g zs t m x dx -> dx = fun_of fs t x) /\ solves (fun_of fs) φ t0 T.
  Proof.
    destruct (the_functions zs (fun z Hz => Hz)) as (fs & El & Tfs & Efs). exists fs. split; [done|]. split; [done|].
    assert (forall t m x dx, t0 <= t <= T -> field σ0 g zs t m x dx -> dx = fun_of fs t x) as HF.
    { intros t m x dx Ht (σ & Hi). destruct (in_deriv _ _ _ _ _ _ _ _ Hi) as (ds & Hds & ->). by eapply Efs. }
    split; [done|]. intros t Ht. rewrite !sol_len by lra. split; [done|]. split; [unfold fun_of; by rewrite map_length|]. intros i Hi.
    destruct (Hsol t Ht) as (m & dx & Hf & Hd). rewrite <- (HF _ _ _ _ Ht Hf). by apply Hd.
  Qed.
End smooth.
