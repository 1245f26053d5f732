(** Solutions of the differential equation of a gentle diagram. *)
From stdpp Require Import prelude.
From Coq Require Import Reals Lra Lia.
From Verif Require Import SpecSmooth SpecDiag SpecConv P_Picard SpecExist.
Local Open Scope nat_scope.
Local Open Scope R_scope.

Definition vec (n : nat) (v : nat -> R) : list R := map v (seq 0 n).
Lemma vec_len n v : length (vec n v) = n.
Proof. unfold vec. by rewrite map_length, seq_length. Qed.
Lemma vec_nth n v i : (i < n)%nat -> nth i (vec n v) 0 = v i.
Proof.
  intros Hi. unfold vec. rewrite (nth_indep _ 0 (v 0%nat)); [|by rewrite map_length, seq_length].
  rewrite map_nth, seq_nth; [done|done].
Qed.
Lemma vec_of n x : length x = n -> vec n (fun i => nth i x 0) = x.
Proof.
  intros Hl. apply (nth_ext _ _ 0 0); [by rewrite vec_len|]. intros i Hi. rewrite vec_len in Hi. by rewrite vec_nth.
Qed.
Lemma within_nth e x y i : within e x y -> 0 <= e -> Rabs (nth i x 0 - nth i y 0) <= e.
Proof.
  intros H He. revert i. induction H as [|a b x y Hab H IH]; intros [|i]; cbn; try done; rewrite Rminus_eq_0, Rabs_R0; done.
Qed.
Lemma vec_ext n v w : (forall i, (i < n)%nat -> v i = w i) -> vec n v = vec n w.
Proof. intros H. unfold vec. apply map_ext_in. intros i Hi%in_seq. apply H. lia. Qed.

Lemma cont_ext f g t : (forall s, f s = g s) -> continuity_pt f t -> continuity_pt g t.
Proof. intros H Hf e He. destruct (Hf e He) as (d & Hd & Hx). exists d. split; [done|]. intros x Hx'. rewrite <- !H. by apply Hx. Qed.
Lemma deriv_ext f g t l : (forall s, f s = g s) -> derivable_pt_lim f t l -> derivable_pt_lim g t l.
Proof. intros H Hf e He. destruct (Hf e He) as (d & Hd). exists d. intros h Hh Hh'. rewrite <- !H. by apply Hd. Qed.
Lemma sloped_cont h : sloped h -> continuity h.
Proof.
  intros (L & HL & Hh) t e He. exists (e / (L + 1)). split; [apply Rdiv_lt_0_compat; lra|]. intros x [_ Hx]. cbn in *. unfold R_dist in *.
  eapply Rle_lt_trans; [apply Hh|]. apply Rle_lt_trans with ((L + 1) * Rabs (x - t)); [apply Rmult_le_compat_r; [apply Rabs_pos|lra]|].
  apply Rlt_le_trans with ((L + 1) * (e / (L + 1))); [apply Rmult_lt_compat_l; lra|right; field; lra].
Qed.

Section exist.
  Context (fs : list nat) (n : nat) (t0 T : R) (HT : t0 <= T).
  Implicit Types (V : R -> list R -> nat -> R) (f : R -> list R -> R).

  (** [f] is Lipschitz in the state, and continuous along every continuous curve. *)
  Definition lip f : Prop := exists L, 0 <= L /\ forall t x y e, t0 <= t <= T -> length x = n -> length y = n -> 0 <= e ->
    (forall i, (i < n)%nat -> Rabs (nth i x 0 - nth i y 0) <= e) -> Rabs (f t x - f t y) <= L * e.
  Definition con f : Prop := forall ψ : nat -> R -> R, (forall j, (j < n)%nat -> continuity (ψ j)) ->
    continuity (fun t => f (clamp t0 T t) (vec n (fun j => ψ j t))).
  Definition still f : Prop := forall t x y, length x = n -> length y = n -> f t x = f t y.

  Lemma still_bound f : still f -> con f -> exists M, 0 <= M /\ forall t x, t0 <= t <= T -> length x = n -> Rabs (f t x) <= M.
  Proof.
    intros Hs Hc. set (g := fun t => f (clamp t0 T t) (vec n (fun _ => 0))).
    assert (continuity g) as Hg by (apply (Hc (fun _ _ => 0)); intros j _ t; apply continuity_pt_const; intros ??; done).
    destruct (continuity_ab_maj (fun t => Rabs (g t)) t0 T HT) as (M & HM & _).
    { intros c _. apply (continuity_pt_comp g Rabs); [apply Hg|apply Rcontinuity_abs]. }
    exists (Rabs (g M)). split; [apply Rabs_pos|]. intros t x Ht Hx. rewrite (Hs t x (vec n (fun _ => 0)) Hx (vec_len _ _)).
    specialize (HM t Ht). unfold g in HM at 1. by rewrite (clamp_id t0 T t Ht) in HM.
  Qed.
  Lemma lip_mult f g : still f -> con f -> lip g -> lip (fun t x => f t x * g t x).
  Proof.
    intros Hs Hc (L & HL & Hg). destruct (still_bound f Hs Hc) as (M & HM & Hb). exists (M * L). split; [by apply Rmult_le_pos|].
    intros t x y e Ht Hx Hy He Hd. rewrite (Hs t x y Hx Hy). replace (f t y * g t x - f t y * g t y) with (f t y * (g t x - g t y)) by ring.
    rewrite Rabs_mult, Rmult_assoc. apply Rmult_le_compat; try apply Rabs_pos; [by apply Hb|by apply Hg].
  Qed.
  Lemma con_mult f g : con f -> con g -> con (fun t x => f t x * g t x).
  Proof. intros Hf Hg ψ Hψ t. apply continuity_pt_mult; [by apply Hf|by apply Hg]. Qed.
  Lemma con_inv f : con f -> (forall t x, t0 <= t <= T -> length x = n -> f t x <> 0) -> con (fun t x => / f t x).
  Proof.
    intros Hf Hn ψ Hψ t. apply (continuity_pt_inv (fun t => f (clamp t0 T t) (vec n (fun j => ψ j t)))); [by apply Hf|].
    apply Hn; [by apply clamp_in|apply vec_len].
  Qed.

  Definition nice V : Prop := (forall s, lip (fun t x => V t x s)) /\ (forall s, con (fun t x => V t x s)) /\
    forall s, s ∈ fs -> still (fun t x => V t x s).
  Lemma still_expr V e : nice V -> only fs e -> still (fun t x => expr_at t (V t x) e).
  Proof.
    intros (_ & _ & Hv) Ho t x y Hx Hy. revert Ho. unfold only. induction e as [a| |s|e1 IH1 e2 IH2|e1 IH1 e2 IH2|e1 IH1 e2 IH2|e1 IH1 e2 IH2|h e1 IH1]; cbn; intros Ho; try done;
      try (rewrite IH1, IH2; [done|intros s Hs; apply Ho, elem_of_app; by right|intros s Hs; apply Ho, elem_of_app; by left]).
    - apply (Hv s); [apply Ho, elem_of_list_singleton; done|done|done].
    - by rewrite IH1.
  Qed.
  Lemma nice_expr V e : nice V -> gentle fs n V t0 T e -> lip (fun t x => expr_at t (V t x) e) /\ con (fun t x => expr_at t (V t x) e).
  Proof.
    intros HV. induction e as [a| |s|e1 IH1 e2 IH2|e1 IH1 e2 IH2|e1 IH1 e2 IH2|e1 IH1 e2 IH2|h e1 IH1]; cbn [gentle expr_at].
    - intros _. split.
      + exists 0. split; [lra|]. intros. rewrite Rminus_eq_0, Rabs_R0. lra.
      + intros ψ _ t. apply continuity_pt_const. intros ??; done.
    - intros _. split.
      + exists 0. split; [lra|]. intros. rewrite Rminus_eq_0, Rabs_R0. lra.
      + intros ψ _ t. apply clamp_cont.
    - intros _. destruct HV as (H1 & H2 & _). split; [apply H1|apply H2].
    - intros [G1 G2]. destruct (IH1 G1) as [(L1 & P1 & B1) C1]. destruct (IH2 G2) as [(L2 & P2 & B2) C2]. split.
      + exists (L1 + L2). split; [lra|]. intros t x y e Ht Hx Hy He Hd. specialize (B1 t x y e Ht Hx Hy He Hd). specialize (B2 t x y e Ht Hx Hy He Hd).
        replace (expr_at t (V t x) e1 + expr_at t (V t x) e2 - (expr_at t (V t y) e1 + expr_at t (V t y) e2))
          with ((expr_at t (V t x) e1 - expr_at t (V t y) e1) + (expr_at t (V t x) e2 - expr_at t (V t y) e2)) by ring.
        eapply Rle_trans; [apply Rabs_triang|]. lra.
      + intros ψ Hψ t. apply continuity_pt_plus; [by apply C1|by apply C2].
    - intros [G1 G2]. destruct (IH1 G1) as [(L1 & P1 & B1) C1]. destruct (IH2 G2) as [(L2 & P2 & B2) C2]. split.
      + exists (L1 + L2). split; [lra|]. intros t x y e Ht Hx Hy He Hd. specialize (B1 t x y e Ht Hx Hy He Hd). specialize (B2 t x y e Ht Hx Hy He Hd).
        replace (expr_at t (V t x) e1 - expr_at t (V t x) e2 - (expr_at t (V t y) e1 - expr_at t (V t y) e2))
          with ((expr_at t (V t x) e1 - expr_at t (V t y) e1) + - (expr_at t (V t x) e2 - expr_at t (V t y) e2)) by ring.
        eapply Rle_trans; [apply Rabs_triang|]. rewrite Rabs_Ropp. lra.
      + intros ψ Hψ t. apply continuity_pt_minus; [by apply C1|by apply C2].
    - intros (G1 & G2 & Ho). destruct (IH1 G1) as [B1 C1]. destruct (IH2 G2) as [B2 C2]. split; [|by apply con_mult].
      destruct Ho as [Ho|Ho].
      + apply lip_mult; [by apply still_expr|done|done].
      + destruct (lip_mult (fun t x => expr_at t (V t x) e2) (fun t x => expr_at t (V t x) e1)) as (L & HL & HB); [by apply still_expr|done|done|].
        exists L. split; [done|]. intros t x y e Ht Hx Hy He Hd. specialize (HB t x y e Ht Hx Hy He Hd). cbn in HB.
        by rewrite (Rmult_comm (expr_at t (V t x) e1)), (Rmult_comm (expr_at t (V t y) e1)).
    - intros (G1 & G2 & Ho & Hn). destruct (IH1 G1) as [B1 C1]. destruct (IH2 G2) as [B2 C2].
      pose proof (con_inv _ C2 Hn) as Ci. split.
      + destruct (lip_mult (fun t x => / expr_at t (V t x) e2) (fun t x => expr_at t (V t x) e1)) as (L & HL & HB); [|done|done|].
        { intros t x y Hx Hy. by rewrite (still_expr V e2 HV Ho t x y Hx Hy). }
        exists L. split; [done|]. intros t x y e Ht Hx Hy He Hd. specialize (HB t x y e Ht Hx Hy He Hd). cbn in HB. unfold Rdiv.
        by rewrite (Rmult_comm (expr_at t (V t x) e1)), (Rmult_comm (expr_at t (V t y) e1)).
      + exact (con_mult _ _ C1 Ci).
    - intros (G1 & Ho). destruct (IH1 G1) as [(L1 & P1 & B1) C1]. destruct Ho as [Ho|[Ho Hc]].
      + pose proof (sloped_cont h Ho) as Hh. destruct Ho as (L & HL & Hs). split.
        * exists (L * L1). split; [by apply Rmult_le_pos|]. intros t x y e Ht Hx Hy He Hd. eapply Rle_trans; [apply Hs|].
          rewrite Rmult_assoc. apply Rmult_le_compat_l; [done|by apply B1].
        * intros ψ Hψ t. apply (continuity_pt_comp (fun t => expr_at (clamp t0 T t) (V (clamp t0 T t) (vec n (fun j => ψ j t))) e1) h); [by apply C1|apply Hh].
      + split.
        * exists 0. split; [lra|]. intros t x y e Ht Hx Hy He Hd. rewrite (still_expr V e1 HV Ho t x y Hx Hy), Rminus_eq_0, Rabs_R0. lra.
        * intros ψ Hψ t. apply (continuity_pt_comp (fun t => expr_at (clamp t0 T t) (V (clamp t0 T t) (vec n (fun j => ψ j t))) e1) h); [by apply C1|].
          apply Hc; [by apply clamp_in|apply vec_len].
  Qed.
  Lemma nice_all V env : nice V -> gentle_all fs n t0 T V env -> nice (fun t x => solve env t (V t x)).
  Proof.
    revert V. induction env as [|[s e] env IH]; intros V HV Hg; [done|]. cbn in Hg. destruct Hg as (Hge & Hfs & Hrest). cbn [solve].
    refine (IH _ _ Hrest). destruct (nice_expr V e HV Hge) as [Hl Hc]. pose proof HV as (H1 & H2 & H3).
    split; [|split].
    - intros s'. destruct (Nat.eqb_spec s' s) as [_|_]; [exact Hl|exact (H1 s')].
    - intros s'. destruct (Nat.eqb_spec s' s) as [_|_]; [exact Hc|exact (H2 s')].
    - intros s' Hs. destruct (Nat.eqb_spec s' s) as [-> |_]; [|exact (H3 s' Hs)]. apply still_expr; [done|by apply Hfs].
  Qed.
End exist.


Lemma states_nth zs s : (exists i, (i < length zs)%nat /\ s ∈ zs /\ forall y, length y = length zs -> states_are zs y s = nth i y 0) \/ (forall y, states_are zs y s = 0).
Proof.
  induction zs as [|z zs IH]; [by right|]. cbn [states_are]. destruct (Nat.eqb_spec s z) as [-> |Hne].
  - left. exists 0%nat. split; [cbn; lia|]. split; [apply elem_of_list_here|]. intros [|b y] Hy; done.
  - destruct IH as [(i & Hi & Hs & H)|H].
    + left. exists (Datatypes.S i). split; [cbn; lia|]. split; [by apply elem_of_list_further|]. intros [|b y] Hy; [done|]. cbn. apply H. cbn in Hy. lia.
    + right. intros [|b y]; done.
Qed.
Lemma nice_states zs fs t0 T : t0 <= T -> (forall z, z ∈ zs -> z ∉ fs) -> nice fs (length zs) t0 T (fun _ x => states_are zs x).
Proof.
  intros HT Hfs. split_and!; intros s; (destruct (states_nth zs s) as [(i & Hi & Hs & H)|H]).
  - exists 1. split; [lra|]. intros t x y e Ht Hx Hy He Hd. rewrite (H x Hx), (H y Hy). rewrite Rmult_1_l. by apply Hd.
  - exists 0. split; [lra|]. intros t x y e Ht Hx Hy He Hd. rewrite !H, Rminus_eq_0, Rabs_R0. lra.
  - intros ψ Hψ t. apply (cont_ext (ψ i)); [|by apply Hψ]. intros u. rewrite H; [|apply vec_len]. by rewrite vec_nth.
  - intros ψ Hψ t. apply (cont_ext (fun _ => 0)); [|apply continuity_pt_const; intros ??; done]. intros u. by rewrite H.
  - intros Hf. by destruct (Hfs s Hs).
  - intros _ t x y Hx Hy. by rewrite !H.
Qed.

Section solved.
  Context (env : formulas) (zs ds : list nat) (t0 T : R) (HT : t0 <= T) (Hg : gentle_diagram env zs t0 T).
  Let n := length zs.
  Definition comp (i : nat) (t : R) (v : nat -> R) : R := nth i (rhs env zs ds t (vec n v)) 0.

  Lemma rhs_nth i t x : nth i (rhs env zs ds t x) 0 = match ds !! i with Some d => solve env t (states_are zs x) d | None => 0 end.
  Proof.
    unfold rhs. revert i. induction ds as [|d ds' IH]; intros [|i]; cbn; done.
  Qed.
  Lemma comp_lip i : exists L, 0 <= L /\ forall t v w e, t0 <= t <= T -> 0 <= e -> (forall j, (j < n)%nat -> Rabs (v j - w j) <= e) ->
    Rabs (comp i t v - comp i t w) <= L * e.
  Proof.
    destruct Hg as (fs & Hfs & Hall). pose proof (nice_all fs n t0 T HT _ env (nice_states zs fs t0 T HT Hfs) Hall) as (H1 & _ & _).
    unfold comp. destruct (ds !! i) as [d|] eqn:E.
    - destruct (H1 d) as (L & HL & HB). exists L. split; [done|]. intros t v w e Ht He Hd. rewrite !rhs_nth, E.
      apply HB; try done; try apply vec_len. intros j Hj. rewrite !vec_nth by done. by apply Hd.
    - exists 0. split; [lra|]. intros. rewrite !rhs_nth, E, Rminus_eq_0, Rabs_R0. lra.
  Qed.
  Lemma comp_lips m : exists L, 0 <= L /\ forall i t v w e, (i < m)%nat -> t0 <= t <= T -> 0 <= e -> (forall j, (j < n)%nat -> Rabs (v j - w j) <= e) ->
    Rabs (comp i t v - comp i t w) <= L * e.
  Proof.
    induction m as [|m (L & HL & IH)]; [exists 0; split; [lra|]; intros; lia|]. destruct (comp_lip m) as (L' & HL' & H).
    exists (L + L'). split; [lra|]. intros i t v w e Hi Ht He Hd. assert (0 <= L * e /\ 0 <= L' * e) as [] by (split; by apply Rmult_le_pos).
    destruct (decide (i = m)) as [-> |Hne].
    - specialize (H t v w e Ht He Hd). lra.
    - specialize (IH i t v w e ltac:(lia) Ht He Hd). lra.
  Qed.
  Lemma comp_con i (y : nat -> R -> R) : (forall j, (j < n)%nat -> continuity (y j)) -> continuity (fun t => comp i (clamp t0 T t) (fun j => y j t)).
  Proof.
    destruct Hg as (fs & Hfs & Hall). pose proof (nice_all fs n t0 T HT _ env (nice_states zs fs t0 T HT Hfs) Hall) as (_ & H2 & _).
    intros Hy t. destruct (ds !! i) as [d|] eqn:E.
    - eapply cont_ext; [|exact (H2 d y Hy t)]. intros u. cbn. unfold comp. by rewrite rhs_nth, E.
    - apply (cont_ext (fun _ => 0)); [|apply continuity_pt_const; intros ??; done]. intros u. unfold comp. by rewrite rhs_nth, E.
  Qed.
  Lemma comp_lips' : exists L, 0 <= L /\ forall i t v w e, (i < n)%nat -> t0 <= t <= T -> (forall j, (j < n)%nat -> Rabs (v j - w j) <= e) ->
    Rabs (comp i t v - comp i t w) <= L * e.
  Proof.
    destruct (comp_lips n) as (L & HL & H). exists L. split; [done|]. intros i t v w e Hi Ht Hd. apply H; try done.
    pose proof (Rabs_pos (v i - w i)). specialize (Hd i Hi). lra.
  Qed.

  Lemma solution_exists x0 : length x0 = n -> exists φ, follows env zs ds φ t0 T /\ φ t0 = x0.
  Proof.
    intros Hx. destruct comp_lips' as (L & HL & Hlip).
    destruct (picard n comp t0 T L (fun i => nth i x0 0) HT HL Hlip (fun i y _ => comp_con i y)) as (x & H).
    exists (fun t => vec n (fun j => x j t)). split.
    - intros t Ht. split; [apply vec_len|]. intros i Hi. destruct (H i Hi) as [_ Hd]. apply (deriv_ext (x i)); [intros u; by rewrite vec_nth|]. exact (Hd t Ht).
    - rewrite <- (vec_of n x0 Hx). apply vec_ext. intros i Hi. by destruct (H i Hi).
  Qed.
  Lemma follows_solution φ : follows env zs ds φ t0 T -> solution n comp t0 T (fun i => nth i (φ t0) 0) (fun i t => nth i (φ t) 0).
  Proof.
    intros Hf i Hi. split; [done|]. intros t Ht. destruct (Hf t Ht) as [Hl Hd]. unfold comp. rewrite (vec_of n (φ t) Hl). by apply Hd.
  Qed.
  Lemma solution_unique φ φ' : follows env zs ds φ t0 T -> follows env zs ds φ' t0 T -> φ t0 = φ' t0 -> forall t, t0 <= t <= T -> φ t = φ' t.
  Proof.
    intros Hf Hf' E t Ht. destruct comp_lips' as (L & HL & Hlip). pose proof (follows_solution φ Hf) as S1. pose proof (follows_solution φ' Hf') as S2. rewrite <- E in S2.
    apply (nth_ext _ _ 0 0); [by rewrite (proj1 (Hf t Ht)), (proj1 (Hf' t Ht))|]. intros i Hi. rewrite (proj1 (Hf t Ht)) in Hi.
    exact (picard_unique n comp t0 T L _ HT HL Hlip (fun i y _ => comp_con i y) _ _ S1 S2 i t Hi Ht).
  Qed.
End solved.
