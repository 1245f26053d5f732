(** The history of a block: C28, C31, C32, C41, C56. *)
From stdpp Require Import prelude gmap strings.
From Coq Require Import ZArith QArith.
From Verif Require Import Num NumQ Res Name Store Leaf Sched Stepper Sim World Api SpecSched P_Store P_Prog P_Rel SpecHist P_Trace P_Life Ex_Models Ex_Hist.

Local Open Scope nat_scope.
Local Open Scope num_scope.
Notation steps := SpecHist.steps.

Section blocks.
  Context {D : Type} `{NumOps D}.
  Implicit Types (l : leaf D) (v : list (event D)).
  Lemma last_snoc_app {A} (xs : list A) x : last (xs ++ [x]) = Some x.
  Proof. apply last_snoc. Qed.

  (** What was seen of signal [s] in the last accepted step, or [x0] before the first. *)
  Definition kept v (s : nat) (x0 x : val D) : Prop :=
    match last (steps v) with None => x = x0 | Some (_, σ) => value σ s = Some x end.
  Lemma kept_nil s x0 : kept [] s x0 x0.
  Proof. done. Qed.
  Lemma kept_other v e s x0 x : step_of e = [] -> kept v s x0 x -> kept (v ++ [e]) s x0 x.
  Proof. intros He. unfold kept. by rewrite steps_snoc, He, app_nil_r. Qed.
  Lemma kept_step v t σ ms s x0 x : value σ s = Some x -> kept (v ++ [EvStep t σ ms]) s x0 x.
  Proof. intros He. unfold kept. rewrite steps_snoc. cbn. by rewrite last_snoc. Qed.
  Lemma not_builder l c : l_cls l = c -> is_builder c = false -> is_builder (l_cls l) = true -> False.
  Proof. by intros -> ->. Qed.

  Lemma memory_life l T si x0 v m : l_cls l = CMemory T -> h_in (l_h l) = Some si ->
    life l (LMem x0) v m -> exists x, m = LMem x /\ kept v si x0 x.
  Proof.
    intros Hc Hi. revert v m. apply life_ind'; [by exists x0|]. intros v m e m' _ (x & -> & Hk) Hl.
    destruct e as [| | | |t1 y t2 y' h|t σ ms|t σ ms|t σ ms]; try done; cbn in Hl.
    - subst m'. exists x. split; [done|]. by apply kept_other.
    - destruct Hl as [Hs _]. unfold pre in Hs. rewrite Hc in Hs. apply shows_ret in Hs as ->. exists x. split; [done|]. by apply kept_other.
    - assert (m' = LMem x) as ->.
      { destruct Hl as [[Hs|[_ ->]] _]; [|done]. unfold act in Hs. rewrite Hc in Hs. apply shows_h in Hs as (so & _ & Hs).
        apply shows_set in Hs as [_ Hs]. by apply shows_ret in Hs as ->. }
      exists x. split; [done|]. by apply kept_other.
    - destruct Hl as (_ & Hs & _). unfold post in Hs. rewrite Hc in Hs. cbn in Hs. rewrite Hi in Hs. cbn in Hs.
      apply shows_get in Hs as (x' & Hx & Hs). apply shows_ret in Hs as ->. exists x'. split; [done|]. by apply kept_step.
  Qed.
  Lemma deriv_life l si y0 v m : l_cls l = CDeriv -> h_in (l_h l) = Some si -> life l (LDeriv true None None y0) v m ->
    match last (steps v) with
    | None => exists t0 x0, m = LDeriv true t0 x0 y0
    | Some (tn, σn) => exists xn, value σn si = Some (VS xn) /\ m = LDeriv false (Some tn) (Some xn) xn
    end.
  Proof.
    intros Hc Hi. revert v m. apply (life_ind' l _ (fun v m => match last (steps v) with
      | None => exists t0 x0, m = LDeriv true t0 x0 y0
      | Some (tn, σn) => exists xn, value σn si = Some (VS xn) /\ m = LDeriv false (Some tn) (Some xn) xn end)); [by exists None, None|].
    intros v m e m' _ Hk Hl. rewrite steps_snoc.
    destruct e as [| | | |t1 y t2 y' h|t σ ms|t σ ms|t σ ms]; try done; cbn [step_of]; rewrite ?app_nil_r; cbn in Hl.
    - by subst m'.
    - destruct Hl as [Hs _]. unfold pre in Hs. rewrite Hc in Hs. by apply shows_ret in Hs as ->.
    - destruct Hl as [[Hs|[_ ->]] _]; [|done]. unfold act in Hs. rewrite Hc in Hs.
      destruct (last (steps v)) as [[tn σn]|].
      + destruct Hk as (xn & Hxn & ->). exists xn. split; [done|]. unfold deriv_act in Hs. rewrite Hi in Hs. cbn in Hs.
        apply shows_h in Hs as (so & _ & Hs). destruct (tn =? t).
        * apply shows_set in Hs as [_ Hs]. by apply shows_ret in Hs as ->.
        * apply shows_get in Hs as (x & _ & Hs). destruct x; try by apply shows_ub in Hs.
          apply shows_set in Hs as [_ Hs]. by apply shows_ret in Hs as ->.
      + destruct Hk as (t0 & x0 & ->). unfold deriv_act in Hs. rewrite Hi in Hs. cbn in Hs. apply shows_h in Hs as (so & _ & Hs).
        apply shows_get in Hs as (x & _ & Hs). destruct x; try by apply shows_ub in Hs.
        apply shows_set in Hs as [_ Hs]. apply shows_ret in Hs as ->. eauto.
    - destruct Hl as (_ & Hs & _). unfold post in Hs. rewrite Hc in Hs. rewrite last_snoc. unfold deriv_post in Hs. rewrite Hi in Hs. cbn in Hs.
      apply shows_get in Hs as (x & Hx & Hs). destruct x as [x| | |]; try by apply shows_ub in Hs. apply shows_ret in Hs as ->. by exists x.
  Qed.
  Lemma integ_life l T so x0 g0 v m : l_cls l = CInteg T -> h_out (l_h l) = Some so ->
    life l (LInteg x0 g0) v m -> exists x, m = LInteg x g0 /\ kept v so x0 x.
  Proof.
    intros Hc Hi. revert v m. apply life_ind'; [by exists x0|]. intros v m e m' _ (x & -> & Hk) Hl.
    destruct e as [| | | |t1 y t2 y' h|t σ ms|t σ ms|t σ ms]; try done; cbn in Hl.
    - subst m'. exists x. split; [done|]. by apply kept_other.
    - destruct Hl as [Hs _]. unfold pre in Hs. rewrite Hc, Hi in Hs. cbn in Hs. apply shows_set in Hs as [_ Hs].
      apply shows_ret in Hs as ->. exists x. split; [done|]. by apply kept_other.
    - assert (m' = LInteg x g0) as ->.
      { destruct Hl as [[Hs|[_ ->]] _]; [|done]. unfold act in Hs. rewrite Hc in Hs. by apply shows_ret in Hs as ->. }
      exists x. split; [done|]. by apply kept_other.
    - destruct Hl as (_ & Hs & _). unfold post in Hs. rewrite Hc, Hi in Hs. cbn in Hs.
      apply shows_get in Hs as (x' & Hx & Hs). apply shows_ret in Hs as ->. exists x'. split; [done|]. by apply kept_step.
  Qed.

  (** TriggeredIntegrator. *)
  Definition is_begin (e : event D) : Prop := match e with EvBegin _ _ _ => True | _ => False end.
  (** In an evaluation since the last pre_step [P] held for the signals. *)
  Definition since (P : store D -> Prop) v : Prop :=
    exists v1 t σ ms v2, v = v1 ++ EvEval t σ ms :: v2 /\ Forall (fun e => ~ is_begin e) v2 /\ P σ.
  (** Signals after each pre_step and each post_step. *)
  Definition anchor_of (e : event D) : list (store D) :=
    match e with EvBegin _ σ _ | EvStep _ σ _ => [σ] | _ => [] end.
  Definition anchors v : list (store D) := concat (map anchor_of v).
  Definition held v (s : nat) (x0 x : val D) : Prop :=
    match last (anchors v) with None => x = x0 | Some σ => value σ s = Some x end.
  Lemma anchors_snoc v e : anchors (v ++ [e]) = anchors v ++ anchor_of e.
  Proof. unfold anchors. rewrite map_app, concat_app. cbn. by rewrite app_nil_r. Qed.
  Lemma since_snoc P v e : since P (v ++ [e]) <->
    (~ is_begin e /\ since P v) \/ (exists t σ ms, e = EvEval t σ ms /\ P σ).
  Proof.
    split.
    - intros (v1 & t & σ & ms & v2 & E & Hv & HP). destruct v2 as [|e' v2 _] using rev_ind.
      + apply app_inj_tail in E as [-> ->]. right. by exists t, σ, ms.
      + change (EvEval t σ ms :: v2 ++ [e']) with ((EvEval t σ ms :: v2) ++ [e']) in E. rewrite app_assoc in E. apply app_inj_tail in E as [-> ->].
        apply Forall_app in Hv as [Hv He]. apply Forall_cons in He as [He _]. left. split; [exact He|]. by exists v1, t, σ, ms, v2.
    - intros [[Hb (v1 & t & σ & ms & v2 & -> & Hv & HP)]|(t & σ & ms & -> & HP)].
      + exists v1, t, σ, ms, (v2 ++ [e]). split_and!; [by rewrite <- app_assoc| |done]. apply Forall_app. split; [done|]. by apply Forall_cons.
      + exists v, t, σ, ms, []. done.
  Qed.
  Lemma held_other v e s x0 x : anchor_of e = [] -> held v s x0 x -> held (v ++ [e]) s x0 x.
  Proof. intros He. unfold held. by rewrite anchors_snoc, He, app_nil_r. Qed.
  Lemma held_anchor v e σ s x0 x : anchor_of e = [σ] -> value σ s = Some x -> held (v ++ [e]) s x0 x.
  Proof. intros He Hx. unfold held. by rewrite anchors_snoc, He, last_snoc. Qed.
  Lemma trig_life l T so sg x0 v m : l_cls l = CTrig T -> h_out (l_h l) = Some so -> h_trig (l_h l) = Some sg ->
    life l (LInteg x0 false) v m ->
    exists x g0, m = LInteg x g0 /\ held v so x0 x /\ (g0 = true -> since (fun σ => value σ sg = Some (VB true)) v) /\
      (since (fun σ => ~ waits σ l /\ value σ sg = Some (VB true)) v -> g0 = true).
  Proof.
    intros Hc Hi Ht. revert v m. apply life_ind'.
    { exists x0, false. split_and!; [done..|]. intros (v1 & t & σ & ms & v2 & E & _). by destruct v1. }
    intros v m e m' _ (x & g0 & -> & Hk & Hg1 & Hg2) Hl.
    destruct e as [| | | |t1 y t2 y' h|t σ ms|t σ ms|t σ ms]; try done; cbn in Hl.
    - subst m'. exists x, g0. split_and!; [done|by apply held_other| |]; rewrite since_snoc.
      + intros Hg. left. split; [by intros []|auto].
      + intros [[_ Hs]|(? & ? & ? & ? & _)]; [auto|done].
    - destruct Hl as [Hs _]. unfold pre in Hs. rewrite Hc, Hi in Hs. cbn in Hs. apply shows_set in Hs as [Hx Hs].
      apply shows_ret in Hs as ->. eexists _, false. split_and!; [done|by eapply held_anchor|done|].
      rewrite since_snoc. intros [[Hb _]|(? & ? & ? & ? & _)]; [|done]. by destruct Hb.
    - assert (exists g1, m' = LInteg x g1 /\ (g1 = true -> g0 = true \/ value σ sg = Some (VB true)) /\ (g0 = true -> g1 = true) /\
        (~ waits σ l -> value σ sg = Some (VB true) -> g1 = true)) as (g1 & -> & Ha & Hb & Hd).
      { destruct Hl as [[Hs|[Hwt ->]] _].
        - unfold act in Hs. rewrite Hc in Hs. destruct g0.
          + apply shows_ret in Hs as ->. exists true. split_and!; try done. by left.
          + rewrite Ht in Hs. cbn in Hs. apply shows_get in Hs as (vb & Hvb & Hs). destruct vb as [| |b1|]; try by apply shows_ub in Hs.
            apply shows_ret in Hs as ->. exists b1. split_and!; [done|intros ->; by right|done|]. intros _ E. rewrite Hvb in E. by injection E.
        - exists g0. split_and!; [done|by left|done|]. intros Hnw. destruct Hwt as [?|Hbl]; [done|]. by rewrite Hc in Hbl. }
      exists x, g1. split_and!; [done|by apply held_other| |]; rewrite since_snoc.
      + intros Hg. destruct (Ha Hg) as [?|?]; [left; split; [by intros []|auto]|right; by exists t, σ, ms].
      + intros [[_ Hs]|(? & ? & ? & [= <- <- <-] & ? & ?)]; [auto|auto].
    - destruct Hl as (_ & Hs & _). unfold post in Hs. rewrite Hc, Hi in Hs. cbn in Hs.
      apply shows_get in Hs as (x' & Hx & Hs). apply shows_ret in Hs as ->. exists x', g0. split_and!; [done|by eapply held_anchor| |]; rewrite since_snoc.
      + intros Hg. left. split; [by intros []|auto].
      + intros [[_ Hs]|(? & ? & ? & ? & _)]; [auto|done].
  Qed.
End blocks.

(** ** C28.  In every evaluation that activates it, a Memory outputs its input in the
    last accepted step, or its initial value before the first. *)
Theorem C28_evaluations : forall D `{NumOps D} w b (g : cfg D) s l o T x0 si so v t σ ms,
  simulation_of w b g s -> block_of w g l o -> bo_cls o = CMemory T -> bo_st o = LMem x0 ->
  h_in (bo_h o) = Some si -> h_out (bo_h o) = Some so -> marked s v (EvEval t σ ms) -> ~ waits σ l ->
  exists x, value σ so = Some x /\ match last (steps v) with None => x = x0 | Some (_, σn) => value σn si = Some x end.
Proof.
  intros D ? w b g s l o T x0 si so v t σ ms Hsim Hb Hc Hst Hi Ho Hm Hnw.
  destruct (simulation_life _ _ _ _ _ _ Hsim Hb) as (Ec & Eh & _). rewrite <- Ec in Hc. rewrite <- Eh in Hi, Ho.
  destruct (marked_life _ _ _ _ _ _ _ _ Hsim Hb Hm) as (m1 & m2 & H1 & [H2 _] & _). rewrite Hst in H1.
  destruct (memory_life l T si x0 v m1 Hc Hi H1) as (x & -> & Hk). exists x. split; [|exact Hk].
  destruct H2 as [Hs|[[?|Hbl] _]]; [|done|by rewrite Hc in Hbl]. unfold act in Hs. rewrite Hc, Ho in Hs. cbn in Hs. by apply shows_set in Hs as [? _].
Qed.
(** Each accepted step ends with an evaluation at its time. *)
Lemma marked_step {D} `{NumOps D} w b (g : cfg D) s l o v t σ ms : simulation_of w b g s -> block_of w g l o -> marked s v (EvStep t σ ms) ->
  exists v0 σe mse, v = v0 ++ [EvEval t σe mse] /\ ext σe σ /\ marked s v0 (EvEval t σe mse).
Proof.
  intros Hsim Hb Hm. destruct (marked_life _ _ _ _ _ _ _ _ Hsim Hb Hm) as (m1 & m2 & _ & ((v0 & σe & mse & -> & He) & _) & _).
  exists v0, σe, mse. split_and!; [done|done|]. destruct Hm as [rest Hm]. exists (EvStep t σ ms :: rest). by rewrite Hm, <- app_assoc.
Qed.
Lemma steps_at {D} (v : list (event D)) k t σ : steps v !! k = Some (t, σ) ->
  exists v1 ms v2, v = v1 ++ EvStep t σ ms :: v2 /\ length (steps v1) = k.
Proof.
  revert k. induction v as [|e v IH]; intros k Hk; [done|]. unfold steps in Hk. cbn in Hk. fold (steps v) in Hk.
  destruct e as [| | | | | | |t' σ' ms']; cbn in Hk.
  1-7: destruct (IH _ Hk) as (v1 & msx & v2 & -> & Hl); eexists (_ :: v1), msx, v2; (split; [done|exact Hl]).
  destruct k as [|k]; cbn in Hk.
  - injection Hk as -> ->. by exists [], ms', v.
  - destruct (IH _ Hk) as (v1 & ms & v2 & -> & Hl). exists (EvStep t' σ' ms' :: v1), ms, v2. split; [done|]. cbn. f_equal. exact Hl.
Qed.
(** Hence over accepted steps (a Memory waits for nothing, see C13): *)
Theorem C28_steps : forall D `{NumOps D} w b (g : cfg D) s l o T x0 si so k t σ,
  simulation_of w b g s -> block_of w g l o -> bo_cls o = CMemory T -> bo_st o = LMem x0 ->
  h_in (bo_h o) = Some si -> h_out (bo_h o) = Some so -> required l = [] ->
  steps (marks (s_log s)) !! k = Some (t, σ) ->
  match k with
  | O => value σ so = Some x0
  | S k' => exists t' σ' x, steps (marks (s_log s)) !! k' = Some (t', σ') /\ value σ' si = Some x /\ value σ so = Some x
  end.
Proof.
  intros D ? w b g s l o T x0 si so k t σ Hsim Hb Hc Hst Hi Ho Hr Hk.
  destruct (steps_at _ _ _ _ Hk) as (v & ms & v2 & Hv & Hlen).
  destruct (marked_step w b g s l o v t σ ms Hsim Hb) as (v0 & σe & mse & -> & He & Hm); [by exists v2|].
  destruct (C28_evaluations D w b g s l o T x0 si so v0 t σe mse Hsim Hb Hc Hst Hi Ho Hm) as (x & Hx & Hl).
  { intros (s' & Hs' & _). rewrite Hr in Hs'. by apply elem_of_nil in Hs'. }
  pose proof (ext_value _ _ _ _ He Hx) as Hx'. rewrite steps_snoc, app_nil_r in Hlen.
  destruct k as [|k].
  - apply nil_length_inv in Hlen. rewrite Hlen in Hl. cbn in Hl. by subst.
  - destruct (last (steps v0)) as [[tn σn]|] eqn:El; [|apply last_None in El; by rewrite El in Hlen].
    exists tn, σn, x. split_and!; [|done|done]. rewrite last_lookup, Hlen in El. cbn in El.
    rewrite Hv, steps_app, steps_snoc, app_nil_r. by rewrite lookup_app_l by lia.
Qed.

(** ** C31 *)
Theorem C31_first : forall D `{NumOps D} w b (g : cfg D) s l o y0 si so v t σ ms,
  simulation_of w b g s -> block_of w g l o -> bo_cls o = CDeriv -> bo_st o = LDeriv true None None y0 ->
  h_in (bo_h o) = Some si -> h_out (bo_h o) = Some so -> marked s v (EvEval t σ ms) -> ~ waits σ l ->
  steps v = [] -> value σ so = Some (VS y0).
Proof.
  intros D ? w b g s l o y0 si so v t σ ms Hsim Hb Hc Hst Hi Ho Hm Hnw Hn.
  destruct (simulation_life _ _ _ _ _ _ Hsim Hb) as (Ec & Eh & _). rewrite <- Ec in Hc. rewrite <- Eh in Hi, Ho.
  destruct (marked_life _ _ _ _ _ _ _ _ Hsim Hb Hm) as (m1 & m2 & H1 & [H2 _] & _). rewrite Hst in H1.
  pose proof (deriv_life l si y0 v m1 Hc Hi H1) as Hk. rewrite Hn in Hk. destruct Hk as (t0 & x0 & ->).
  destruct H2 as [Hs|[[?|Hbl] _]]; [|done|by rewrite Hc in Hbl]. unfold act, deriv_act in Hs. rewrite Hc, Hi, Ho in Hs. cbn in Hs.
  apply shows_get in Hs as (x & _ & Hs). destruct x; try by apply shows_ub in Hs. by apply shows_set in Hs as [? _].
Qed.
Lemma deriv_later {D} `{NumOps D} w b (g : cfg D) s l o y0 si so v t σ ms tn σn :
  simulation_of w b g s -> block_of w g l o -> bo_cls o = CDeriv -> bo_st o = LDeriv true None None y0 ->
  h_in (bo_h o) = Some si -> h_out (bo_h o) = Some so -> marked s v (EvEval t σ ms) -> ~ waits σ l ->
  last (steps v) = Some (tn, σn) -> exists xn, value σn si = Some (VS xn) /\
    if tn =? t then value σ so = Some (VS xn) else exists x, value σ si = Some (VS x) /\ value σ so = Some (VS ((x - xn) / (t - tn))).
Proof.
  intros Hsim Hb Hc Hst Hi Ho Hm Hnw Hn.
  destruct (simulation_life _ _ _ _ _ _ Hsim Hb) as (Ec & Eh & _). rewrite <- Ec in Hc. rewrite <- Eh in Hi, Ho.
  destruct (marked_life _ _ _ _ _ _ _ _ Hsim Hb Hm) as (m1 & m2 & H1 & [H2 _] & _). rewrite Hst in H1.
  pose proof (deriv_life l si y0 v m1 Hc Hi H1) as Hk. rewrite Hn in Hk. destruct Hk as (xn & Hxn & ->). exists xn. split; [done|].
  destruct H2 as [Hs|[[?|Hbl] _]]; [|done|by rewrite Hc in Hbl]. unfold act, deriv_act in Hs. rewrite Hc, Hi, Ho in Hs. cbn in Hs.
  destruct (tn =? t); [by apply shows_set in Hs as [? _]|].
  apply shows_get in Hs as (x & Hx & Hs). destruct x as [x| | |]; try by apply shows_ub in Hs. exists x. split; [done|]. by apply shows_set in Hs as [? _].
Qed.
Theorem C31_quotient : forall D `{NumOps D} w b (g : cfg D) s l o y0 si so v t σ ms tn σn,
  simulation_of w b g s -> block_of w g l o -> bo_cls o = CDeriv -> bo_st o = LDeriv true None None y0 ->
  h_in (bo_h o) = Some si -> h_out (bo_h o) = Some so -> marked s v (EvEval t σ ms) -> ~ waits σ l ->
  last (steps v) = Some (tn, σn) -> tn =? t = false ->
  exists x xn, value σ si = Some (VS x) /\ value σn si = Some (VS xn) /\ value σ so = Some (VS ((x - xn) / (t - tn))).
Proof.
  intros D ? w b g s l o y0 si so v t σ ms tn σn Hsim Hb Hc Hst Hi Ho Hm Hnw Hn Ht.
  destruct (deriv_later w b g s l o y0 si so v t σ ms tn σn Hsim Hb Hc Hst Hi Ho Hm Hnw Hn) as (xn & Hxn & Hk).
  rewrite Ht in Hk. destruct Hk as (x & ? & ?). by exists x, xn.
Qed.
(** ** C32.  At the time of the last accepted step the Derivative repeats not its
    output but its input of that step. *)
Theorem C32_repeat : forall D `{NumOps D} w b (g : cfg D) s l o y0 si so v t σ ms tn σn,
  simulation_of w b g s -> block_of w g l o -> bo_cls o = CDeriv -> bo_st o = LDeriv true None None y0 ->
  h_in (bo_h o) = Some si -> h_out (bo_h o) = Some so -> marked s v (EvEval t σ ms) -> ~ waits σ l ->
  last (steps v) = Some (tn, σn) -> tn =? t = true ->
  exists xn, value σn si = Some (VS xn) /\ value σ so = Some (VS xn).
Proof.
  intros D ? w b g s l o y0 si so v t σ ms tn σn Hsim Hb Hc Hst Hi Ho Hm Hnw Hn Ht.
  destruct (deriv_later w b g s l o y0 si so v t σ ms tn σn Hsim Hb Hc Hst Hi Ho Hm Hnw Hn) as (xn & Hxn & Hk).
  rewrite Ht in Hk. by exists xn.
Qed.

(** ** C41 *)
Theorem C41_start : forall D `{NumOps D} w b (g : cfg D) s l o T x0 g0 so v t σ ms,
  simulation_of w b g s -> block_of w g l o -> bo_cls o = CInteg T -> bo_st o = LInteg x0 g0 ->
  h_out (bo_h o) = Some so -> marked s v (EvBegin t σ ms) ->
  exists x, value σ so = Some x /\ match last (steps v) with None => x = x0 | Some (_, σn) => value σn so = Some x end.
Proof.
  intros D ? w b g s l o T x0 g0 so v t σ ms Hsim Hb Hc Hst Ho Hm.
  destruct (simulation_life _ _ _ _ _ _ Hsim Hb) as (Ec & Eh & _). rewrite <- Ec in Hc. rewrite <- Eh in Ho.
  destruct (marked_life _ _ _ _ _ _ _ _ Hsim Hb Hm) as (m1 & m2 & H1 & [H2 _] & _). rewrite Hst in H1.
  destruct (integ_life l T so x0 g0 v m1 Hc Ho H1) as (x & -> & Hk). exists x. split; [|exact Hk].
  unfold pre in H2. rewrite Hc, Ho in H2. cbn in H2. by apply shows_set in H2 as [? _].
Qed.

(** ** C56.  [x] is the output after the previous pre_step or post_step, whichever was
    later: the integrator starts from zero or from [x], depending on whether the
    trigger was true in an evaluation since the previous pre_step. *)
Theorem C56_start : forall D `{NumOps D} w b (g : cfg D) s l o T x0 so sg v t σ ms,
  simulation_of w b g s -> block_of w g l o -> bo_cls o = CTrig T -> bo_st o = LInteg x0 false ->
  h_out (bo_h o) = Some so -> h_trig (bo_h o) = Some sg -> marked s v (EvBegin t σ ms) ->
  exists x, match last (anchors v) with None => x = x0 | Some σn => value σn so = Some x end /\
    ((since (fun σ => value σ sg = Some (VB true)) v /\ value σ so = Some (vzero x)) \/
     (~ since (fun σ => ~ waits σ l /\ value σ sg = Some (VB true)) v /\ value σ so = Some x)).
Proof.
  intros D ? w b g s l o T x0 so sg v t σ ms Hsim Hb Hc Hst Ho Ht Hm.
  destruct (simulation_life _ _ _ _ _ _ Hsim Hb) as (Ec & Eh & _). rewrite <- Ec in Hc. rewrite <- Eh in Ho, Ht.
  destruct (marked_life _ _ _ _ _ _ _ _ Hsim Hb Hm) as (m1 & m2 & H1 & [H2 _] & _). rewrite Hst in H1.
  destruct (trig_life l T so sg x0 v m1 Hc Ho Ht H1) as (x & g0 & -> & Hk & Hg1 & Hg2). exists x. split; [exact Hk|].
  unfold pre in H2. rewrite Hc, Ho in H2. cbn in H2. apply shows_set in H2 as [H2 _]. destruct g0; [left; auto|right].
  split; [|done]. intros Hsn. by apply Hg2 in Hsn.
Qed.
(** In particular after a step that was accepted with the trigger true. *)
Theorem C56_restart : forall D `{NumOps D} w b (g : cfg D) s l o T x0 so sg v tn σe mse σn msn t σ ms,
  simulation_of w b g s -> block_of w g l o -> bo_cls o = CTrig T -> bo_st o = LInteg x0 false ->
  h_out (bo_h o) = Some so -> h_trig (bo_h o) = Some sg -> marked s (v ++ [EvEval tn σe mse; EvStep tn σn msn]) (EvBegin t σ ms) ->
  value σe sg = Some (VB true) -> ~ waits σe l ->
  exists x, value σn so = Some x /\ value σ so = Some (vzero x).
Proof.
  intros D ? w b g s l o T x0 so sg v tn σe mse σn msn t σ ms Hsim Hb Hc Hst Ho Ht Hm Hv Hnw.
  destruct (C56_start D w b g s l o T x0 so sg _ t σ ms Hsim Hb Hc Hst Ho Ht Hm) as (x & Hx & Hcase).
  assert (last (anchors (v ++ [EvEval tn σe mse; EvStep tn σn msn])) = Some σn) as Hl.
  { change [EvEval tn σe mse; EvStep tn σn msn] with ([EvEval tn σe mse] ++ [EvStep tn σn msn]). rewrite app_assoc, anchors_snoc. cbn [anchor_of]. by rewrite last_snoc. }
  rewrite Hl in Hx. exists x. split; [done|]. destruct Hcase as [[_ ?]|[Hn _]]; [done|]. destruct Hn.
  exists v, tn, σe, mse, [EvStep tn σn msn]. split_and!; [done| |done|done]. apply Forall_cons. split; [by intros []|done].
Qed.

(** ** The hypotheses hold in a concrete simulation (see the table in Ex_Hist.v) *)
Example C28_ex : simulation_of ex6_world 0 ex6_g ex6_s /\ block_of ex6_world ex6_g (ex6_leaf 0) (ex6_blk 1) /\
  bo_cls (ex6_blk 1) = CMemory TyD /\ bo_st (ex6_blk 1) = LMem (VS 7%Q) /\ h_in (bo_h (ex6_blk 1)) = Some 0 /\ h_out (bo_h (ex6_blk 1)) = Some 1 /\
  required (ex6_leaf 0) = [] /\ length (steps (marks (s_log ex6_s))) = 4 /\ exists t σ ms, marked ex6_s (ex6_before 14) (EvEval t σ ms).
Proof.
  split; [exact ex6_s_sim|]. split; [apply ex6_block; lia|]. do 6 (split; [vm_compute; reflexivity|]).
  eexists _, _, _. apply (ex6_marked 14 2); [vm_compute; reflexivity|lia].
Qed.
Example C31_ex : block_of ex6_world ex6_g (ex6_leaf 1) (ex6_blk 2) /\ bo_cls (ex6_blk 2) = CDeriv /\ bo_st (ex6_blk 2) = LDeriv true None None 9%Q /\
  h_in (bo_h (ex6_blk 2)) = Some 0 /\ h_out (bo_h (ex6_blk 2)) = Some 2 /\
  marked ex6_s (ex6_before 11) (EvEval (mark_time (ex6_mark 11)) (mark_store (ex6_mark 11)) (mark_members (ex6_mark 11))) /\
  ~ waits (mark_store (ex6_mark 11)) (ex6_leaf 1) /\
  option_map fst (last (steps (ex6_before 11))) = Some 1%Q /\ neqb 1%Q (mark_time (ex6_mark 11)) = false /\
  steps (ex6_before 1) = [].
Proof.
  split; [apply ex6_block; lia|]. do 4 (split; [vm_compute; reflexivity|]).
  split; [apply (ex6_marked 11 2); [vm_compute; reflexivity|lia]|]. split; [apply not_waits; vm_compute; reflexivity|].
  do 2 (split; [vm_compute; reflexivity|]). vm_compute. reflexivity.
Qed.
(** The Derivative evaluated again at the time 2 of the last accepted step, where its
    output was 3, outputs 4. *)
Theorem C32_refuted : exists D (H : NumOps D) w b (g : cfg D) s l o y0 si so v t σ ms tn σn,
  simulation_of w b g s /\ block_of w g l o /\ bo_cls o = CDeriv /\ bo_st o = LDeriv true None None y0 /\
  h_in (bo_h o) = Some si /\ h_out (bo_h o) = Some so /\ marked s v (EvEval t σ ms) /\ ~ waits σ l /\
  last (steps v) = Some (tn, σn) /\ tn = t /\ value σ si = value σn si /\ value σ so ≠ value σn so.
Proof.
  exists Q, num_Q, ex6_world, 0, ex6_g, ex6_s, (ex6_leaf 1), (ex6_blk 2), 9%Q, 0, 2, (ex6_before 14).
  exists (mark_time (ex6_mark 14)), (mark_store (ex6_mark 14)), (mark_members (ex6_mark 14)), 2%Q, (ex6_last 14).
  split; [exact ex6_s_sim|]. split; [apply ex6_block; lia|]. do 4 (split; [vm_compute; reflexivity|]).
  split; [apply (ex6_marked 14 2); [vm_compute; reflexivity|lia]|]. split; [apply not_waits; vm_compute; reflexivity|].
  split; [apply ex6_last_eq; vm_compute; reflexivity|]. split; [vm_compute; reflexivity|]. split; [vm_compute; reflexivity|].
  intros E. assert (value (mark_store (ex6_mark 14)) 2 = Some (VS 4%Q)) as E1 by (vm_compute; reflexivity).
  assert (value (ex6_last 14) 2 = Some (VS 3%Q)) as E2 by (vm_compute; reflexivity). rewrite E1, E2 in E. clear -E. discriminate E.
Qed.
Example C41_ex : block_of ex6_world ex6_g (ex6_leaf 2) (ex6_blk 3) /\ bo_cls (ex6_blk 3) = CInteg TyD /\ bo_st (ex6_blk 3) = LInteg (VS 5%Q) false /\
  h_out (bo_h (ex6_blk 3)) = Some 3 /\ (exists t σ ms, marked ex6_s (ex6_before 13) (EvBegin t σ ms)) /\ option_map fst (last (steps (ex6_before 13))) = Some 2%Q.
Proof.
  split; [apply ex6_block; lia|]. do 3 (split; [vm_compute; reflexivity|]).
  split; [eexists _, _, _; apply (ex6_marked 13 1); [vm_compute; reflexivity|lia]|]. vm_compute. reflexivity.
Qed.
Example C56_ex : block_of ex6_world ex6_g (ex6_leaf 3) (ex6_blk 4) /\ bo_cls (ex6_blk 4) = CTrig TyD /\ bo_st (ex6_blk 4) = LInteg (VS 5%Q) false /\
  h_out (bo_h (ex6_blk 4)) = Some 5 /\ h_trig (bo_h (ex6_blk 4)) = Some 4 /\
  (exists t σ ms, marked ex6_s (ex6_before 6 ++ [ex6_mark 6; ex6_mark 7]) (EvBegin t σ ms)) /\
  value (mark_store (ex6_mark 6)) 4 = Some (VB true) /\ ~ waits (mark_store (ex6_mark 6)) (ex6_leaf 3).
Proof.
  split; [apply ex6_block; lia|]. do 4 (split; [vm_compute; reflexivity|]).
  change [ex6_mark 6; ex6_mark 7] with ([ex6_mark 6] ++ [ex6_mark 7]). rewrite app_assoc, <- (ex6_before_S 6), <- (ex6_before_S 7) by lia.
  split; [eexists _, _, _; apply (ex6_marked 8 1); [vm_compute; reflexivity|lia]|].
  split; [vm_compute; reflexivity|]. apply not_waits. vm_compute. reflexivity.
Qed.
(** "Otherwise it continues" is false: the step accepted at time 2 has the trigger
    false, but the trigger was true in an evaluation inside that step. *)
Theorem C56_refuted : exists D (H : NumOps D) w b (g : cfg D) s l o T x0 so sg v tn σe mse σn msn t σ ms x,
  simulation_of w b g s /\ block_of w g l o /\ bo_cls o = CTrig T /\ bo_st o = LInteg x0 false /\
  h_out (bo_h o) = Some so /\ h_trig (bo_h o) = Some sg /\ marked s (v ++ [EvEval tn σe mse; EvStep tn σn msn]) (EvBegin t σ ms) /\
  ~ waits σe l /\ value σe sg = Some (VB false) /\ value σn sg = Some (VB false) /\ value σn so = Some x /\ value σ so ≠ Some x.
Proof.
  exists Q, num_Q, ex6_world, 0, ex6_g, ex6_s, (ex6_leaf 3), (ex6_blk 4), TyD, (VS 5%Q), 5, 4, (ex6_before 11).
  exists (mark_time (ex6_mark 11)), (mark_store (ex6_mark 11)), (mark_members (ex6_mark 11)), (mark_store (ex6_mark 12)), (mark_members (ex6_mark 12)).
  exists (mark_time (ex6_mark 13)), (mark_store (ex6_mark 13)), (mark_members (ex6_mark 13)), (VS 1%Q).
  split; [exact ex6_s_sim|]. split; [apply ex6_block; lia|]. do 4 (split; [vm_compute; reflexivity|]).
  split.
  { rewrite (ex6_two 11); [|lia|vm_compute; reflexivity|vm_compute; reflexivity|vm_compute; reflexivity].
    apply (ex6_marked 13 1); [vm_compute; reflexivity|lia]. }
  split; [apply not_waits; vm_compute; reflexivity|]. do 3 (split; [vm_compute; reflexivity|]).
  assert (value (mark_store (ex6_mark 13)) 5 = Some (VS 0%Q)) as -> by (vm_compute; reflexivity). intros E. clear -E. discriminate E.
Qed.
Print Assumptions C28_evaluations.
Print Assumptions C28_steps.
Print Assumptions C31_first.
Print Assumptions C31_quotient.
Print Assumptions C32_repeat.
Print Assumptions C32_refuted.
Print Assumptions C41_start.
Print Assumptions C56_start.
Print Assumptions C56_restart.
Print Assumptions C56_refuted.
