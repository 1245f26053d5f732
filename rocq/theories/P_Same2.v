(** A well-built model under two kinds of simulators: whole simulations agree. *)
From stdpp Require Import prelude gmap strings.
From Coq Require Import ZArith.
From Verif Require Import Num Res Store Leaf Sched Stepper Sim SpecSched P_Store P_Prog P_Sched P_Modes P_Conf P_Eval P_Fast P_Sim P_Evolve P_Log P_Trace P_Pack P_Rel P_Rel2 P_Fast2 SpecRun SpecGoes P_Goes P_Goes2 P_Goes3 P_Same.
Local Open Scope nat_scope.

Lemma tie {S1 S2 A} (R : S1 -> S2 -> Prop) (m1 : M S1 A) (m2 : M S2 A) x1 x2 a1 a2 y1 y2 :
  mrel R m1 m2 -> R x1 x2 -> m1 x1 = Ok a1 y1 -> m2 x2 = Ok a2 y2 -> a1 = a2 /\ R y1 y2.
Proof. intros Hm Hr E1 E2. specialize (Hm x1 x2 Hr). rewrite E1 in Hm. destruct Hm as (y & E & Hy). rewrite E2 in E. by simplify_eq. Qed.

Section one.
  Context {D : Type} `{NumOps D} (g : cfg D) (K : nat -> option kind) (dv : nat -> option nat) (nxt : D -> D -> Prop) (y : duty D) (ins1 ins2 : list nat).
  Context (Hs : sane g K dv nxt y ins1 ins2).
  Notation tr := (g_tree g).
  Notation G := (givens ins1 ins2 y tr).
  Notation zs := (concat (map (y_pre y) (leaves tr))).
  Notation fine := (fine g K dv y).
  Notation has := (has g y ins1 ins2).
  Lemma fine_same τ c c' : same_state c c' -> fine τ c -> fine τ c'.
  Proof. intros [S1 S2] [F1 F2]. split; [by rewrite <- S1|]. intros l Hl. rewrite <- S2. by apply F2. Qed.
  Lemma has_same c c' P : same_state c c' -> has c P -> has c' P.
  Proof. intros [S1 _] Hh s Hx. rewrite <- S1. by apply Hh. Qed.

  (** process_model up to the evaluation. *)
  Definition front (t : D) (b1 : bool) : M (simst D) unit :=
    on_core' (inputs g t) ;;; (if b1 then on_core' (pre_step (g_dbg g) tr t ;;; snap (EvBegin t)) else ret tt).
  Definition back (t : D) (b2 : bool) : M (simst D) unit :=
    on_core' (snap (EvEval t)) ;;; (if b2 then on_core' (post_step (g_dbg g) tr t ;;; snap (EvStep t)) else ret tt).
  Lemma process_split t b1 b2 s : process_model g t b1 b2 s = (front t b1 ;;; eval_model g t ;;; back t b2) s.
  Proof.
    unfold process_model, front, back, bnd. by destruct (on_core' (inputs g t) s) as [[] s1| | |].
  Qed.
  Lemma front_ok τ t s (b1 : bool) : sound g y ins1 ins2 s -> fine τ (s_core s) -> has (s_core s) (fun x => if b1 then False else x ∈ zs) ->
    exists s', front t b1 s = Ok tt s' /\ order_ok g y ins1 ins2 s' /\ fine τ (s_core s') /\ has (s_core s') (fun x => x ∈ G).
  Proof.
    intros Hso Hf Hh. pose proof (sn_dbg _ _ _ _ _ _ _ Hs) as Hdbg. pose proof (sn_wf _ _ _ _ _ _ _ Hs : wf_tree tr) as Hwf. unfold front. rewrite Hdbg.
    destruct (inputs_ok g K dv nxt y ins1 ins2 Hs τ t (s_core s) _ Hf Hh) as (c1 & E1 & Hf1 & Hh1).
    { intros x Hx Hz. destruct b1; [done|]. by eapply zs_inputs. }
    destruct (core_ok _ _ _ _ E1) as (s1 & F1 & C1). unfold bnd at 1. rewrite F1.
    assert (order_ok g y ins1 ins2 s1) as Ho1.
    { eapply (sound_both g K dv nxt y ins1 ins2 Hs s s1); [|exact Hso]. eapply pres_get; [|exact F1]. apply pres_both; [apply pres_on_core', pres_inputs|apply vecs_on_dyn]. }
    assert (forall P, (forall x, P x <-> x ∈ ins1 ++ ins2 \/ x ∈ zs) -> forall c, has c P -> has c (fun x => x ∈ G)) as Hall.
    { intros P HP c Hc x Hx. rewrite (Hc x Hx), HP. unfold givens. rewrite !elem_of_app. tauto. }
    destruct b1.
    - destruct (pre_ok g K dv nxt y ins1 ins2 Hs τ t c1 _ Hf1 Hh1) as (c2 & E2 & Hf2 & Hh2).
      { intros x Hz [[]|Hx]. by eapply zs_inputs. }
      destruct (core_ok (pre_step true tr t ;;; snap (EvBegin t)) s1 tt (Core (k_store c2) (k_lst c2) (k_done c2) (k_log c2 ++ [EvBegin t (k_store c2) (members c2)]))) as (s2 & F2 & C2).
      { unfold bnd. by rewrite C1, E2. }
      exists s2. split; [done|]. split; [|rewrite C2; split; [done|]; eapply Hall; [|exact Hh2]; cbn; tauto].
      assert (pres (evo g) (on_core' (pre_step true tr t ;;; snap (EvBegin t)))) as Hpr.
      { pose proof (pres_on_core' g (pre_step (g_dbg g) tr t ;;; snap (EvBegin t)) (pres_pre_snap _ _ _ _)) as Hp. by rewrite Hdbg in Hp. }
      pose proof (pres_get _ _ _ _ _ Hpr F2) as He. unfold order_ok in *. destruct (g_mode g) eqn:Em; [done| |].
      + destruct Ho1 as [Hb Ho1]. split; [done|]. by apply (ev_ord _ _ _ He).
      + by rewrite (ev_fast _ _ _ He).
    - exists s1. split; [done|]. split; [done|]. rewrite C1. split; [done|]. eapply Hall; [|exact Hh1]. cbn. tauto.
  Qed.
  (** An evaluation only adds activations to the log. *)
  Lemma eval_log t s s' : order_ok g y ins1 ins2 s -> eval_model g t s = Ok tt s' ->
    exists ls : list (leaf D), k_log (s_core s') = k_log (s_core s) ++ map (fun l => EvAct (l_id l) t) ls.
  Proof.
    intros Ho. pose proof (sn_wf _ _ _ _ _ _ _ Hs) as Hwf. unfold order_ok in Ho. destruct (g_mode g) eqn:Em.
    - rewrite eval_default by done. destruct (evaluate _ tr t (s_dyn s)) as [[] d| | |] eqn:E; try done. intros [= <-]. by eapply evaluate_log.
    - destruct Ho as [_ Ho]. unfold ordered in Ho. rewrite Em in Ho. destruct Ho as (po & Hp & Hc). rewrite (eval_reuse g t s po Em Hp).
      destruct (evaluate_reuse _ tr po t (s_dyn s)) as [po' d| | |] eqn:E; try done. intros [= <-]. rewrite remember_core. by eapply evaluate_reuse_log.
    - unfold eval_model. rewrite Em. unfold bnd, gets. unfold on_core', on_dyn, on_core, lift. rewrite fast_eval_acts.
      destruct (acts _ t _ _) as [[] c'| | |] eqn:E; try done. intros [= <-]. eexists. by eapply acts_log.
  Qed.
End one.

Section two.
  Context {D : Type} `{NumOps D} (g : cfg D) (m1 m2 : mode) (K : nat -> option kind) (dv : nat -> option nat) (nxt : D -> D -> Prop) (y : duty D) (ins1 ins2 : list nat).
  Notation gA := (with_mode m1 g).
  Notation gB := (with_mode m2 g).
  Context (HA : sane gA K dv nxt y ins1 ins2) (HB : sane gB K dv nxt y ins1 ins2).
  Context (Hstp : forall stp, g_stepper g = Some stp -> stepper_rel stp).
  Context (Dm : gset nat) (L1 L2 : list (event D)).
  Notation tr := (g_tree g).
  Notation L := (leaves tr).
  Notation G := (givens ins1 ins2 y tr).
  Notation zs := (concat (map (y_pre y) L)).
  Notation fine := (fine g K dv y).
  Notation has := (has g y ins1 ins2).
  Notation ag := (agree anyst anyst Dm L1 L2).
  Let Hdbg : g_dbg g = true := sn_dbg _ _ _ _ _ _ _ HA.
  Local Open Scope num_scope.

  Record twin (τ : option D) (s1 s2 : simst D) : Prop := {
    pr_ag : ag s1 s2; pr_1 : sound gA y ins1 ins2 s1; pr_2 : sound gB y ins1 ins2 s2; pr_fine : fine τ (s_core s1) }.
  Lemma pr_same τ s1 s2 : twin τ s1 s2 -> same_state (s_core s1) (s_core s2).
  Proof. intros [A _ _ _]. apply (ag_core _ _ _ _ _ _ _ A). Qed.
  Lemma pr_fine2 τ s1 s2 : twin τ s1 s2 -> fine τ (s_core s2).
  Proof. intros Hp. eapply fine_same; [by eapply pr_same|apply Hp]. Qed.
  Lemma eval_both τ t s1 s2 : ag s1 s2 -> order_ok gA y ins1 ins2 s1 -> order_ok gB y ins1 ins2 s2 -> fine τ (s_core s1) -> has (s_core s1) (fun x => x ∈ G) ->
    exists s1' s2', eval_model gA t s1 = Ok tt s1' /\ eval_model gB t s2 = Ok tt s2' /\ ag s1' s2'.
  Proof.
    intros Ha O1 O2 Hf Hh. assert (same_state (s_core s1) (s_core s2)) as Hss by apply (ag_core _ _ _ _ _ _ _ Ha).
    pose proof (fine_same g K dv y τ _ _ Hss Hf) as Hf2. pose proof (has_same g y ins1 ins2 _ _ _ Hss Hh) as Hh2.
    destruct (eval_ok gA K dv nxt y ins1 ins2 HA τ t s1 O1 Hf Hh) as (s1' & E1 & _). destruct (eval_ok gB K dv nxt y ins1 ins2 HB τ t s2 O2 Hf2 Hh2) as (s2' & E2 & _).
    exists s1', s2'. split; [done|]. split; [done|].
    destruct (eval_run gA K dv nxt y ins1 ins2 HA τ t s1 s1' O1 Hf Hh E1) as (c1 & c1' & ls1 & A1 & R1 & B1 & I1 & J1).
    destruct (eval_run gB K dv nxt y ins1 ins2 HB τ t s2 s2' O2 Hf2 Hh2 E2) as (c2 & c2' & ls2 & A2 & R2 & B2 & I2 & J2).
    assert (same_state c1' c2') as Hsame.
    { eapply (two_same gA K dv nxt y ins1 ins2 HA τ t c1 c2 c1' c2' ls1 ls2); try done.
      - eapply same_state_trans; [apply same_state_sym, A1|]. eapply same_state_trans; [exact Hss|exact A2].
      - eapply fine_same; [exact A1|exact Hf].
      - eapply has_same; [exact A1|exact Hh]. }
    destruct (eval_log gA K dv nxt y ins1 ins2 HA t s1 s1' O1 E1) as (l1 & G1). destruct (eval_log gB K dv nxt y ins1 ins2 HB t s2 s2' O2 E2) as (l2 & G2).
    pose proof (static_eval gA t s1) as T1. rewrite E1 in T1. pose proof (static_eval gB t s2) as T2. rewrite E2 in T2.
    destruct T1 as (? & ? & ? & ? & ? & ? & ? & ?), T2 as (? & ? & ? & ? & ? & ? & ? & ?).
    assert (core_evo true (s_core s1) (s_core s1')) as Hev.
    { pose proof (pres_eval_model gA t s1) as Hp. rewrite E1 in Hp. pose proof (ev_dyn _ _ _ Hp) as Hx. cbn [g_dbg with_mode] in Hx. by rewrite Hdbg in Hx. }
    destruct Ha as [Hc ? ? ? ? ? ? ? ? _ _]. split; try congruence; try exact I.
    eapply core_agree_after; [exact Hc| |exact Hev|exact G1|exact G2].
    eapply same_state_trans; [apply same_state_sym, B1|]. eapply same_state_trans; [exact Hsame|exact B2].
  Qed.

  Lemma back_rel t b2 : mrel ag (back gA t b2) (back gB t b2).
  Proof.
    unfold back. cbn [g_dbg g_tree with_mode]. rewrite Hdbg. apply mrel_bnd; [apply rel_on_core'; [done..|]; apply rel_snap|intros _]. apply mrel_if; [|apply mrel_ret].
    apply rel_on_core'; [done|done|]. apply mrel_bnd; [apply rel_post_step|intros _; apply rel_snap].
  Qed.
  Lemma front_rel t b1 : mrel ag (front gA t b1) (front gB t b1).
  Proof.
    unfold front. cbn [g_dbg g_tree with_mode]. rewrite Hdbg. apply mrel_bnd; [apply rel_on_core'; [done..|]; by apply rel_inputs|intros _]. apply mrel_if; [|apply mrel_ret].
    apply rel_on_core'; [done|done|]. apply mrel_bnd; [apply rel_pre_step|intros _; apply rel_snap].
  Qed.
  Lemma process_both τ t s1 s2 (b1 b2 : bool) : twin τ s1 s2 -> has (s_core s1) (fun x => if b1 then False else x ∈ zs) -> (b2 = true -> may_end nxt τ t) ->
    exists s1' s2', process_model gA t b1 b2 s1 = Ok tt s1' /\ process_model gB t b1 b2 s2 = Ok tt s2' /\ twin (if b2 then Some t else τ) s1' s2'.
  Proof.
    intros Hp Hh Ht. pose proof (has_same g y ins1 ins2 _ _ _ (pr_same _ _ _ Hp) Hh) as Hh2. pose proof (pr_fine2 _ _ _ Hp) as Hf2. destruct Hp as [Ha S1 S2 Hf].
    destruct (process_ok gA K dv nxt y ins1 ins2 HA τ t s1 b1 b2 S1 Hf Hh Ht) as (s1' & E1 & S1' & _ & F1 & _).
    destruct (process_ok gB K dv nxt y ins1 ins2 HB τ t s2 b1 b2 S2 Hf2 Hh2 Ht) as (s2' & E2 & S2' & _ & F2 & _).
    exists s1', s2'. split; [done|]. split; [done|]. split; [|done|done|done].
    rewrite process_split in E1, E2.
    destruct (front_ok gA K dv nxt y ins1 ins2 HA τ t s1 b1 S1 Hf Hh) as (x1 & X1 & O1 & Fx & Hx). destruct (front_ok gB K dv nxt y ins1 ins2 HB τ t s2 b1 S2 Hf2 Hh2) as (x2 & X2 & O2 & _ & _).
    destruct (tie _ _ _ _ _ _ _ _ _ (front_rel t b1) Ha X1 X2) as [_ Hax].
    unfold bnd at 1 in E1. unfold bnd at 1 in E2. rewrite X1 in E1. rewrite X2 in E2.
    destruct (eval_both τ t x1 x2 Hax O1 O2 Fx Hx) as (y1 & y2 & Y1 & Y2 & Hay). unfold bnd at 1 in E1. unfold bnd at 1 in E2. rewrite Y1 in E1. rewrite Y2 in E2.
    by destruct (tie _ _ _ _ _ _ _ _ _ (back_rel t b2) Hay E1 E2).
  Qed.
  Lemma reset_both τ x s1 s2 : twin τ s1 s2 -> length x = length (s_sv s1) ->
    exists s1' s2', reset_sv gA x s1 = Ok tt s1' /\ reset_sv gB x s2 = Ok tt s2' /\ twin τ s1' s2' /\ has (s_core s1') (fun z => z ∈ zs) /\ both gA s1 s1'.
  Proof.
    intros Hp Hl. pose proof (pr_fine2 _ _ _ Hp) as Hf2. destruct Hp as [Ha S1 S2 Hf].
    destruct (reset_ok' gA K dv nxt y ins1 ins2 HA τ x s1 S1 Hf Hl) as (s1' & E1 & S1' & B1 & F1 & H1).
    destruct (reset_ok' gB K dv nxt y ins1 ins2 HB τ x s2 S2 Hf2) as (s2' & E2 & S2' & _ & F2 & _); [by rewrite <- (ag_sv _ _ _ _ _ _ _ Ha)|].
    exists s1', s2'. split; [done|]. split; [done|]. split; [|done]. split; [|done|done|done].
    by destruct (tie _ _ _ _ _ _ _ _ _ (rel_reset_sv g m1 m2 Hdbg anyst anyst any_states any_states Dm L1 L2 x) Ha E1 E2).
  Qed.
  Lemma begin_both τ t s1 s2 : twin τ s1 s2 ->
    exists s1' s2', begin_step gA t s1 = Ok tt s1' /\ begin_step gB t s2 = Ok tt s2' /\ twin τ s1' s2' /\ has (s_core s1') (fun z => z ∈ G) /\ both gA s1 s1'.
  Proof.
    intros Hp. pose proof (pr_fine2 _ _ _ Hp) as Hf2. destruct Hp as [Ha S1 S2 Hf].
    destruct (begin_ok gA K dv nxt y ins1 ins2 HA τ t s1 S1 Hf) as (s1' & E1 & S1' & B1 & F1 & H1).
    destruct (begin_ok gB K dv nxt y ins1 ins2 HB τ t s2 S2 Hf2) as (s2' & E2 & S2' & _ & F2 & _).
    exists s1', s2'. split; [done|]. split; [done|]. split; [|done]. split; [|done|done|done].
    by destruct (tie _ _ _ _ _ _ _ _ _ (rel_begin_step g m1 m2 Hdbg anyst anyst any_states any_states Dm L1 L2 t) Ha E1 E2).
  Qed.
  Lemma get_both τ o s1 s2 : twin τ s1 s2 -> has (s_core s1) (fun z => z ∈ G) -> length o = length (s_sv s1) ->
    exists x, get_sv gA o s1 = Ok x s1 /\ get_sv gB o s2 = Ok x s2 /\ length x = length (s_sv s1).
  Proof.
    intros Hp Hh Hl. pose proof (pr_fine2 _ _ _ Hp) as Hf2. pose proof (has_same g y ins1 ins2 _ _ _ (pr_same _ _ _ Hp) Hh) as Hh2. destruct Hp as [Ha S1 S2 Hf].
    destruct (get_ok' gA K dv nxt y ins1 ins2 HA τ s1 o S1 Hf Hh Hl) as (x1 & E1 & X1).
    destruct (get_ok' gB K dv nxt y ins1 ins2 HB τ s2 o S2 Hf2 Hh2) as (x2 & E2 & X2); [by rewrite <- (ag_sv _ _ _ _ _ _ _ Ha)|].
    destruct (tie _ _ _ _ _ _ _ _ _ (rel_get_sv g m1 m2 Hdbg anyst anyst any_states any_states Dm L1 L2 o) Ha E1 E2) as [<- _]. by exists x1.
  Qed.
  Ltac put := let s1 := fresh in let s2 := fresh in let Ha := fresh in intros s1 s2 Ha; pose proof Ha as [? ? ? ? ? ? ? ? ? ? ?]; apply agree_put; [done|done|done|done|done|cbn; congruence..].

  (** minor_cb after process_model. *)
  Definition derivs (g' : cfg D) : M (simst D) (list D) :=
    ss <~ gets s_scal ;; aa <~ gets s_arr ;;
    x <~ on_store' (x1 <~ collect (deriv_of (get_scalar g')) ss ;; x2 <~ collect (deriv_of (get_array g')) aa ;; ret (x1 ++ x2)) ;;
    dv <~ gets s_dv ;; match write_prefix x dv with Some r => modify (put_dv r) ;;; ret r | None => undef UIndex end.
  Lemma derivs_rel : mrel ag (derivs gA) (derivs gB).
  Proof.
    unfold derivs. apply mrel_bnd; [apply mrel_gets; by intros s1 s2 []|intros ss]. apply mrel_bnd; [apply mrel_gets; by intros s1 s2 []|intros aa].
    apply mrel_bnd; [|intros x].
    { change (get_scalar gA) with (get_scalar gB). change (get_array gA) with (get_array gB).
      apply rel_on_store'; [done|done|]. assert (g_dbg gB = true) as Hd2 by done. rewrite <- Hd2 at 1.
      apply pres_bnd; [apply _|apply pres_collect; intros s; apply pres_deriv_of, pres_get_scalar|intros x1].
      apply pres_bnd; [apply _|apply pres_collect; intros s; apply pres_deriv_of, pres_get_array|intros ?; apply pres_ret, _]. }
    apply mrel_bnd; [apply mrel_gets; by intros s1 s2 []|intros dv']. destruct (write_prefix x dv'); [|apply mrel_undef].
    apply mrel_bnd; [|intros ?; apply mrel_ret]. apply mrel_modify. put.
  Qed.
  Lemma minor_both τ t x s1 s2 : twin τ s1 s2 -> length x = length (s_sv s1) ->
    exists r s1' s2', minor_cb gA t x s1 = Ok r s1' /\ minor_cb gB t x s2 = Ok r s2' /\ twin τ s1' s2' /\ both gA s1 s1' /\ length r = length (s_sv s1).
  Proof.
    intros Hp Hl. pose proof (pr_fine2 _ _ _ Hp) as Hf2. pose proof Hp as [Ha S1 S2 Hf].
    destruct (minor_ok gA K dv nxt y ins1 ins2 HA τ t x s1 S1 Hf Hl) as (r1 & s1' & E1 & S1' & B1 & F1 & H1).
    destruct (minor_ok gB K dv nxt y ins1 ins2 HB τ t x s2 S2 Hf2) as (r2 & s2' & E2 & S2' & _ & F2 & _); [by rewrite <- (ag_sv _ _ _ _ _ _ _ Ha)|].
    destruct (reset_both τ x s1 s2 Hp Hl) as (a1 & a2 & X1 & X2 & Hpa & Hha & _).
    destruct (process_both τ t a1 a2 false false Hpa Hha) as (b1 & b2 & Y1 & Y2 & Hpb); [done|].
    assert (derivs gA b1 = Ok r1 s1') as Z1. { rewrite <- E1. unfold minor_cb, bnd at 1. rewrite X1. unfold bnd at 1. by rewrite Y1. }
    assert (derivs gB b2 = Ok r2 s2') as Z2. { rewrite <- E2. unfold minor_cb, bnd at 1. rewrite X2. unfold bnd at 1. by rewrite Y2. }
    destruct (tie _ _ _ _ _ _ _ _ _ derivs_rel (pr_ag _ _ _ Hpb) Z1 Z2) as [<- Hag].
    exists r1, s1', s2'. split; [done|]. split; [done|]. split; [by split|]. done.
  Qed.
  Lemma step_both stp τ t1 x t2 s1 s2 : g_stepper g = Some stp -> twin τ s1 s2 -> length x = length (s_sv s1) -> length (s_sv s1) ≠ 0 ->
    exists r s1' s2', stp _ (minor_cb gA) t1 x t2 s1 = Ok r s1' /\ stp _ (minor_cb gB) t1 x t2 s2 = Ok r s2' /\ twin τ s1' s2' /\ both gA s1 s1' /\ length (fst r) = length (s_sv s1).
  Proof.
    intros Est Hp Hl Hn. pose proof Hp as [Ha S1 S2 Hf]. pose proof (sn_stepper _ _ _ _ _ _ _ HA stp Est) as Hc.
    set (n := length (s_sv s1)) in *. set (f := fun (t : D) (v : list D) (z : simst D) => if decide (length v = n) then minor_cb gA t v z else UB UIndex).
    set (R := fun z1 z2 : simst D => both gA s1 z1 /\ twin τ z1 z2).
    assert (forall z1 z2, R z1 z2 -> length (s_sv z1) = n) as HRn. { intros z1 z2 [[_ (V & _)] _]. by rewrite V. }
    destruct (Hc _ (fun z => both gA s1 z /\ sound gA y ins1 ins2 z /\ fine τ (s_core z)) f n Hn) with (t1 := t1) (x := x) (t2 := t2) (z := s1) as (r & s1' & E & (Hb & Hso' & Hf') & Hr).
    - intros t v z Hv (Hb & Hz & Hfz). assert (length (s_sv z) = n) as Hlz. { destruct Hb as [_ (V & _)]. by rewrite V. }
      destruct (minor_ok gA K dv nxt y ins1 ins2 HA τ t v z Hz Hfz) as (r & z' & E & Hz' & Hb' & Hf' & Hr); [congruence|].
      exists r, z'. unfold f. rewrite decide_True by done. split; [done|]. split; [|congruence]. split; [by transitivity z|done].
    - done.
    - split; [reflexivity|done].
    - assert (stp _ (minor_cb gA) t1 x t2 s1 = Ok r s1') as E1.
      { pose proof (Hstp stp Est _ _ eq f (minor_cb gA) t1 x t2) as Hrel. specialize (Hrel ltac:(intros t v z1 z2 ->; unfold f; destruct (decide _); [|done]; destruct (minor_cb gA t v z2); eauto) s1 s1 eq_refl).
        rewrite E in Hrel. destruct Hrel as (z & -> & <-). done. }
      pose proof (Hstp stp Est _ _ R f (minor_cb gB) t1 x t2) as Hrel.
      assert (R s1 s2) as HR by (split; [reflexivity|done]).
      specialize (Hrel ltac:(
        intros t v z1 z2 Hz; unfold f; destruct (decide (length v = n)) as [Hv|]; [|done]; destruct Hz as [Hbz Hpz];
        destruct (minor_both τ t v z1 z2 Hpz) as (q & w1 & w2 & -> & -> & Hw & Hbw & _); [rewrite (HRn z1 z2 (conj Hbz Hpz)); exact Hv|];
        exists w2; split; [reflexivity|]; split; [etrans; [exact Hbz|exact Hbw]|exact Hw]) s1 s2 HR).
      rewrite E in Hrel. destruct Hrel as (s2' & E2 & [_ Hp']). by exists r, s1', s2'.
  Qed.

  Definition ready2 (a : D) (s1 s2 : simst D) : Prop := twin (Some a) s1 s2 /\ s_init s1 = true.
  Lemma ready2_1 a s1 s2 : ready2 a s1 s2 -> ready_at gA K dv y ins1 ins2 a s1.
  Proof. intros [[Ha S1 S2 Hf] Hi]. done. Qed.
  Lemma ready2_2 a s1 s2 : ready2 a s1 s2 -> ready_at gB K dv y ins1 ins2 a s2.
  Proof. intros [Hp Hi]. pose proof (pr_fine2 _ _ _ Hp). destruct Hp as [Ha S1 S2 Hf]. split; [done|]. split; [|done]. by rewrite <- (ag_init _ _ _ _ _ _ _ Ha). Qed.
  Lemma twin_put τ s1 s2 f : twin τ s1 s2 -> ag (f s1) (f s2) -> sound gA y ins1 ins2 (f s1) -> sound gB y ins1 ins2 (f s2) -> s_dyn (f s1) = s_dyn s1 -> twin τ (f s1) (f s2).
  Proof. intros [Ha S1 S2 Hf] ? ? ? E. split; try done. unfold s_core. by rewrite E. Qed.
  Lemma sound_svo g' x s : sound g' y ins1 ins2 s -> length x = length (s_sv s) -> sound g' y ins1 ins2 (put_svo x s).
  Proof. intros [Hp Ho] Hx. split; [|exact Ho]. apply packed_svo; [|exact Hp]. by rewrite Hx, (pk_svo _ _ Hp), (pk_sv _ _ Hp). Qed.
  Lemma sound_sv g' x s : sound g' y ins1 ins2 s -> length x = length (s_sv s) -> sound g' y ins1 ins2 (put_sv x s).
  Proof. intros [Hp Ho] Hx. split; [|exact Ho]. by apply packed_sv. Qed.
  Lemma twin_len τ s1 s2 : twin τ s1 s2 -> length (s_sv s2) = length (s_sv s1) /\ s_sv s2 = s_sv s1 /\ s_svo s2 = s_svo s1.
  Proof. intros [[? ? ? ? ? E1 E2 ? ? ? ?] _ _ _]. by rewrite E1, E2. Qed.

  Lemma loop_both t lo hi : (n0 <? lo) = true -> g_stepper g ≠ None -> forall n fuel t1 t2 force a s1 s2 rb, ready2 a s1 s2 -> length (s_sv s1) = Datatypes.S n ->
    ((t1 <? t) = true -> a = t1 /\ nxt t1 t2) -> ((t1 <? t) = false -> nxt a t) -> rb = run_loop gB fuel t lo hi t1 t2 force s2 ->
    match run_loop gA fuel t lo hi t1 t2 force s1 with
    | Ok _ s1' => exists s2' a', rb = Ok tt s2' /\ ready2 a' s1' s2' /\ nxt a' t /\ length (s_sv s1') = Datatypes.S n
    | OOF => True
    | _ => False
    end.
  Proof.
    intros Hlo Hnst. pose proof (sn_clock _ _ _ _ _ _ _ HA) as Hck. assert (exists stp, g_stepper g = Some stp) as [stp Est] by (clear -Hnst; destruct (g_stepper g); by eauto). clear Hnst.
    intros n. induction fuel as [|fuel IH]; intros t1 t2 force a s1 s2 rb [Hp Hi] Hn H1 H2 EB; cbn [run_loop] in EB |- *; destruct (t1 <? t) eqn:Et.
    1: done. 1,3: by exists s2, a; split; [|split; [split|split; [apply H2|]]].
    destruct (H1 eq_refl) as [-> Hnx].
    destruct (begin_both _ t1 s1 s2 Hp) as (x1 & x2 & E1 & E1' & Hp1 & Hh1 & Hb1). unfold bnd at 1. rewrite E1. unfold bnd at 1 in EB. rewrite E1' in EB.
    destruct (both_sv _ _ _ Hb1) as [Ln1 I1]. destruct (twin_len _ _ _ Hp1) as (Ll1 & Lv1 & Lo1).
    unfold bnd at 1, gets at 1. unfold bnd at 1, gets at 1 in EB. destruct (get_both _ (s_svo x1) x1 x2 Hp1 Hh1) as (x & E2 & E2' & Hx).
    { by rewrite (pk_svo _ _ (proj1 (pr_1 _ _ _ Hp1))), (pk_sv _ _ (proj1 (pr_1 _ _ _ Hp1))). }
    unfold bnd at 1. rewrite E2. unfold bnd at 1, modify at 1. cbn [g_stepper with_mode]. rewrite Est.
    unfold bnd at 1 in EB. rewrite Lo1, E2' in EB. unfold bnd at 1, modify at 1 in EB. cbn [g_stepper with_mode] in EB. rewrite Est in EB.
    assert (twin (Some t1) (put_svo x x1) (put_svo x x2)) as Hp2.
    { apply (twin_put _ x1 x2 (put_svo x)); [done| |apply sound_svo; [apply Hp1|done]|apply sound_svo; [apply Hp1|congruence]|done].
      pose proof (pr_ag _ _ _ Hp1) as Ha. pose proof Ha as [? ? ? ? ? ? ? ? ? ? ?]. apply (agree_put _ _ any_states any_states _ _ _ x1 x2 (put_svo x) (put_svo x) Ha); [done|done|cbn; congruence..]. }
    destruct (step_both stp _ t1 x t2 _ _ Est Hp2) as (r & y1 & y2 & E3 & E3' & Hp3 & Hb3 & Hr); [done|cbn; by rewrite Ln1, Hn|].
    unfold bnd at 1. rewrite E3. unfold bnd at 1, modify at 1. unfold bnd at 1 in EB. rewrite E3' in EB. unfold bnd at 1, modify at 1 in EB.
    destruct (both_sv _ _ _ Hb3) as [Ln3 I3]. cbn [s_sv s_init put_svo] in *.
    destruct (twin_len _ _ _ Hp3) as (Ll3 & Lv3 & Lo3).
    set (z1 := put_sv (fst r) y1) in *. set (z2 := put_sv (fst r) y2) in *.
    assert (twin (Some t1) z1 z2) as Hp4.
    { apply (twin_put _ y1 y2 (put_sv (fst r))); [done| |apply sound_sv; [apply Hp3|congruence]|apply sound_sv; [apply Hp3|congruence]|done].
      pose proof (pr_ag _ _ _ Hp3) as Ha. pose proof Ha as [? ? ? ? ? ? ? ? ? ? ?]. apply (agree_put _ _ any_states any_states _ _ _ y1 y2 (put_sv (fst r)) (put_sv (fst r)) Ha); [done|done|cbn; congruence..]. }
    set (em := EvTry t1 x t2 (fst r) (snd r)) in *.
    assert (exists w1 w2, on_core' (emit em) z1 = Ok tt w1 /\ on_core' (emit em) z2 = Ok tt w2 /\ twin (Some t1) w1 w2 /\ both gA z1 w1) as (w1 & w2 & E5 & E5' & Hp5 & Hb5).
    { destruct (core_ok (emit em) z1 tt _ eq_refl) as (w1 & F1 & C1). destruct (core_ok (emit em) z2 tt _ eq_refl) as (w2 & F2 & C2). exists w1, w2. split; [done|]. split; [done|].
      assert (both gA z1 w1) as Hb. { eapply (pres_get (both gA)); [|exact F1]. apply pres_both; [apply pres_on_core', pres_emit|apply vecs_on_dyn]. }
      assert (both gB z2 w2) as Hb'. { eapply (pres_get (both gB)); [|exact F2]. apply pres_both; [apply pres_on_core', pres_emit|apply vecs_on_dyn]. }
      split; [|done]. split.
      - assert (mrel ag (on_core' (emit em)) (on_core' (emit em))) as Hm by (apply rel_on_core'; [done..|apply rel_emit]).
        by destruct (tie _ _ _ _ _ _ _ _ _ Hm (pr_ag _ _ _ Hp4) F1 F2).
      - eapply (sound_both gA K dv nxt y ins1 ins2 HA); [exact Hb|apply Hp4].
      - eapply (sound_both gB K dv nxt y ins1 ins2 HB); [exact Hb'|apply Hp4].
      - rewrite C1. exact (pr_fine _ _ _ Hp4). }
    unfold bnd at 1. rewrite E5. unfold bnd at 1 in EB. rewrite E5' in EB. destruct (both_sv _ _ _ Hb5) as [Ln5 I5]. cbn [s_sv s_init put_sv z1] in Ln5, I5.
    destruct (twin_len _ _ _ Hp5) as (Ll5 & Lv5 & Lo5).
    cbv zeta in EB |- *. destruct (force || (t2 - t1 <=? snd r) || (t2 - t1 <=? lo)) eqn:Ea.
    - destruct (t2 <? t) eqn:Et2.
      + unfold bnd at 1, bnd at 1, gets at 1. unfold bnd at 1, bnd at 1, gets at 1 in EB. rewrite Lv5 in EB.
        destruct (reset_both _ (s_sv w1) w1 w2 Hp5 eq_refl) as (v1 & v2 & E6 & E6' & Hp6 & Hh6 & Hb6).
        unfold bnd at 1. rewrite E6. unfold bnd at 1 in EB. rewrite E6' in EB.
        destruct (process_both _ t2 v1 v2 false true Hp6 Hh6) as (u1 & u2 & E7 & E7' & Hp7); [by intros _|].
        rewrite E7. rewrite E7' in EB.
        pose proof (static_process gA t2 false true v1) as T7. rewrite E7 in T7. destruct T7 as (_ & _ & _ & _ & T7 & _ & _ & I7). destruct (both_sv _ _ _ Hb6) as [L6 I6].
        eapply (IH _ _ _ t2 u1 u2); [| | | |exact EB].
        * split; [done|congruence].
        * rewrite T7, L6, Ln5, Hr, Ln1. done.
        * intros _. split; [done|]. by apply ck_accept.
        * congruence.
      + unfold bnd at 1. unfold bnd at 1 in EB. eapply (IH _ _ _ t1 w1 w2); [| | | |exact EB].
        * split; [done|congruence].
        * rewrite Ln5, Hr, Ln1. done.
        * congruence.
        * intros _. by apply ck_lt.
    - eapply (IH _ _ _ t1 w1 w2); [| | | |exact EB].
      + split; [done|congruence].
      + rewrite Ln5, Hr, Ln1. done.
      + intros _. split; [done|]. eapply ck_redo; [done|done| |exact Hnx]. unfold accepts. apply orb_false_iff in Ea as [Ea Ea2]. apply orb_false_iff in Ea as [_ Ea1]. by rewrite Ea1, Ea2.
      + congruence.
  Qed.

  Definition finish (g' : cfg D) (t : D) (n : nat) : M (simst D) unit :=
    sv <~ gets s_sv ;; reset_sv g' sv ;;; process_model g' t (match n with O => true | Datatypes.S _ => false end) true ;;; modify (put_tprev t).
  Lemma tail_both t n a s1 s2 : n = length (s_sv s1) -> ready2 a s1 s2 -> nxt a t ->
    exists s1' s2', finish gA t n s1 = Ok tt s1' /\ finish gB t n s2 = Ok tt s2' /\ ready2 t s1' s2' /\ s_tprev s1' = t.
  Proof.
    intros -> [Hp Hi] Hnx. destruct (twin_len _ _ _ Hp) as (Ll & Lv & Lo).
    assert (forall g' n s, finish g' t n s = (reset_sv g' (s_sv s) ;;; process_model g' t (match n with O => true | Datatypes.S _ => false end) true ;;; modify (put_tprev t)) s) as Hfin by done.
    rewrite !Hfin, Lv.
    destruct (reset_both _ (s_sv s1) s1 s2 Hp eq_refl) as (x1 & x2 & E1 & E1' & Hp1 & Hh1 & Hb1). destruct (both_sv _ _ _ Hb1) as [_ I1].
    destruct (process_both _ t x1 x2 (match length (s_sv s1) with O => true | Datatypes.S _ => false end) true Hp1) as (z1 & z2 & E2 & E2' & Hp2).
    { destruct (length (s_sv s1)) eqn:En; [|done]. intros x Hx. rewrite (Hh1 x Hx). split; [|done]. intros Hz.
      pose proof (some_states gA K dv nxt y ins1 ins2 HA s1 (pr_1 _ _ _ Hp) (proj1 (pr_fine _ _ _ Hp)) En) as Hnil. cbn [g_tree with_mode] in Hnil. rewrite Hnil in Hz. by apply elem_of_nil in Hz. }
    { by intros _. }
    exists (put_tprev t z1), (put_tprev t z2). unfold bnd. rewrite E1, E1', E2, E2'. unfold modify. split; [done|]. split; [done|].
    pose proof (static_process gA t (match length (s_sv s1) with O => true | Datatypes.S _ => false end) true x1) as T. rewrite E2 in T. destruct T as (_ & _ & _ & _ & _ & _ & _ & I2).
    split; [|done]. split; [|cbn; congruence].
    apply (twin_put _ z1 z2 (put_tprev t)); [done| |apply (sound_tprev gA); apply Hp2|apply (sound_tprev gB); apply Hp2|done].
    pose proof (pr_ag _ _ _ Hp2) as Ha. pose proof Ha as [? ? ? ? ? ? ? ? ? ? ?]. apply (agree_put _ _ any_states any_states _ _ _ z1 z2 (put_tprev t) (put_tprev t) Ha); [done|done|cbn; congruence..].
  Qed.

  Lemma run_both fuel t lo hi s1 s2 rb : ready2 (s_tprev s1) s1 s2 -> may_run gA nxt y (s_tprev s1) t lo hi -> rb = run gB fuel t lo hi s2 ->
    match run gA fuel t lo hi s1 with
    | Ok _ s1' => exists s2', rb = Ok tt s2' /\ ready2 t s1' s2' /\ s_tprev s1' = t
    | OOF => True
    | _ => False
    end.
  Proof.
    intros Hr [Hnx Hz] EB. pose proof Hr as [Hp Hi]. destruct (twin_len _ _ _ Hp) as (Ll & Lv & Lo). pose proof (ag_tprev _ _ _ _ _ _ _ (pr_ag _ _ _ Hp)) as Htp. pose proof (ag_init _ _ _ _ _ _ _ (pr_ag _ _ _ Hp)) as Hii.
    unfold run in EB |- *. unfold bnd at 1, gets at 1. rewrite Hi. cbn [negb]. unfold bnd at 1, gets at 1. unfold bnd at 1, gets at 1.
    unfold bnd at 1, gets at 1 in EB. rewrite <- Hii, Hi in EB. cbn [negb] in EB. unfold bnd at 1, gets at 1 in EB. unfold bnd at 1, gets at 1 in EB. rewrite Ll, <- Htp in EB.
    assert (forall a x1 x2 rc, ready2 a x1 x2 -> nxt a t -> length (s_sv x1) = length (s_sv s1) -> rc = finish gB t (length (s_sv s1)) x2 ->
      match finish gA t (length (s_sv s1)) x1 with
      | Ok _ s' => exists s2', rc = Ok tt s2' /\ ready2 t s' s2' /\ s_tprev s' = t | OOF => True | _ => False end) as Htail.
    { intros a x1 x2 rc Hr1 Hn1 Hl ->. destruct (tail_both t (length (s_sv s1)) a x1 x2 (eq_sym Hl) Hr1 Hn1) as (z1 & z2 & -> & -> & ?). by exists z2. }
    destruct (length (s_sv s1)) as [|n] eqn:En.
    { unfold bnd at 1 in EB. cbn in EB. unfold bnd at 1. cbn. by eapply (Htail _ _ _ _ Hr). }
    destruct Hz as [Hlt Hz]. { intros E. rewrite (no_states gA K dv nxt y ins1 ins2 HA s1 (pr_1 _ _ _ Hp) (proj1 (pr_fine _ _ _ Hp)) E) in En. done. }
    rewrite Hlt in EB |- *. destruct (t =? s_tprev s1) eqn:Eq.
    - destruct (begin_both _ t s1 s2 Hp) as (x1 & x2 & E1 & E1' & Hp1 & Hh1 & Hb1). destruct (both_sv _ _ _ Hb1) as [Ln1 I1]. destruct (twin_len _ _ _ Hp1) as (Ll1 & Lv1 & Lo1).
      destruct (get_both _ (s_sv x1) x1 x2 Hp1 Hh1 eq_refl) as (x & E2 & E2' & Hx).
      unfold bnd at 1. unfold bnd at 1. rewrite E1. unfold bnd at 1, gets at 1. unfold bnd at 1. rewrite E2. unfold modify at 1.
      unfold bnd at 1 in EB. unfold bnd at 1 in EB. rewrite E1' in EB. unfold bnd at 1, gets at 1 in EB. rewrite Lv1 in EB. unfold bnd at 1 in EB. rewrite E2' in EB. unfold modify at 1 in EB.
      eapply (Htail (s_tprev s1)); [|done|cbn; congruence|exact EB]. split; [|cbn; congruence].
      apply (twin_put _ x1 x2 (put_sv x)); [done| |apply sound_sv; [apply Hp1|done]|apply sound_sv; [apply Hp1|congruence]|done].
      pose proof (pr_ag _ _ _ Hp1) as Ha. pose proof Ha as [? ? ? ? ? ? ? ? ? ? ?]. apply (agree_put _ _ any_states any_states _ _ _ x1 x2 (put_sv x) (put_sv x) Ha); [done|done|cbn; congruence..].
    - destruct Hz as [Hz|(Hst & Hlo & Hhi)]; [done|]. cbn [g_dbg g_stepper with_mode] in EB, Hst |- *. rewrite Hdbg, Hlo, Hhi in EB |- *. assert (exists stp, g_stepper g = Some stp) as [stp Est] by (clear -Hst; destruct (g_stepper g); by eauto). rewrite Est in EB |- *.
      unfold bnd at 1. cbn [debug_verify]. unfold bnd at 1, verify, ret at 1. unfold bnd at 1, ret at 1. unfold bnd at 1, ret at 1.
      unfold bnd at 1 in EB. cbn [debug_verify] in EB. unfold bnd at 1, verify, ret at 1 in EB. unfold bnd at 1, ret at 1 in EB. unfold bnd at 1, ret at 1 in EB.
      pose proof (loop_both t lo hi Hlo ltac:(by rewrite Est) n fuel (s_tprev s1) t false (s_tprev s1) s1 s2 _ Hr En (fun _ => conj eq_refl Hnx) (fun _ => Hnx) eq_refl) as Hloop.
      destruct (run_loop gA fuel t lo hi (s_tprev s1) t false s1) as [[] x1| | |] eqn:El; try done.
      destruct Hloop as (x2 & a & E2 & Hr1 & Hn1 & Hl1). rewrite E2 in EB. by eapply (Htail a).
  Qed.
End two.
