(** C82: what the rows of the table of a simulation contain. *)
From stdpp Require Import prelude gmap.
From Coq Require Import ZArith NArith.
From Verif Require Import Num NumOrd NumAdd Res Store Leaf Sched Stepper Sim World Hist P_Store P_Prog P_Sched P_Lib P_Rel P_Trace P_Life SpecSched SpecHist SpecRun SpecBlock SpecRec SpecSim SpecSafe SpecGoes SpecGoes2 SpecLint SpecTable SpecRows
  P_Delay P_Table P_Goes P_Goes2 P_Goes6 P_Rows Props_Block Props_Delay Props_Table.
Local Open Scope nat_scope.

Section facts.
  Context {D : Type} `{NumOps D} {Hord : NumOrd D} {Hadd : NumAdd D}.
  Lemma tab_row w b (g : cfg D) ins1 ins2 fuel calls ss k t s : tabulated w b g ins1 ins2 fuel calls ss -> row calls ss k t s ->
    simulation_of w b g s /\ exists X, row_end w g ins1 ins2 t s X /\ (~ has_state (g_tree g) -> steps X = take k (rows calls ss)).
  Proof.
    intros (Hc & Hst & (t0 & lo0 & hi0 & cs & -> & Hp) & He) [(lo & hi & Hk) Hs].
    exact (all_rows w b g ins1 ins2 Hc Hst fuel t0 lo0 hi0 cs ss Hp He k (t, lo, hi) s Hk Hs).
  Qed.
  Lemma row_eval w b (g : cfg D) ins1 ins2 t s X l o : checked w b g ins1 ins2 -> simulation_of w b g s -> block_of w g l o -> is_builder (bo_cls o) = false -> row_end w g ins1 ins2 t s X ->
    exists σe ms, marked s X (EvEval t σe ms) /\ ~ waits σe l /\ ext σe (s_store s).
  Proof.
    intros Hc Hsim Hb Hnb (σe & ms & ms' & Hm & Hmade & _). exists σe, ms. split; [by exists [EvStep t (s_store s) ms']|]. split.
    - intros (x & Hx & Ha). rewrite (Hmade x) in Ha; [done|]. eapply required_made; [by apply (checked_sane w b g ins1 ins2)|apply Hb|left|done].
      destruct (simulation_leaf w b g s l Hsim (proj1 Hb)) as (o' & Ho' & Hcl & _). destruct Hb as [_ Hb]. congruence.
    - destruct (marked_step w b g s l o (X ++ [EvEval t σe ms]) t (s_store s) ms' Hsim Hb) as (v0 & σe' & mse & E & Hx & _).
      { exists []. rewrite Hm, <- app_assoc. done. }
      apply app_inj_tail in E as [_ [= <- _]]. done.
  Qed.
  Lemma rows_at calls (ss : list (simst D)) k t σ : rows calls ss !! k = Some (t, σ) -> exists s, row calls ss k t s /\ σ = s_store s.
  Proof.
    unfold rows. intros E. apply lookup_zip_with_Some in E as ([[t' lo] hi] & s & [= -> ->] & H1 & H2). exists s. split; [|done]. split; [by exists lo, hi|done].
  Qed.
  Lemma row_rows calls (ss : list (simst D)) k t s : row calls ss k t s -> rows calls ss !! k = Some (t, s_store s).
  Proof. intros [(lo & hi & Hk) Hs]. unfold rows. apply lookup_zip_with_Some. by exists (t, lo, hi), s. Qed.
  Lemma last_take {A} (l : list A) k x : l !! k = Some x -> last (take (S k) l) = Some x.
  Proof.
    intros E. pose proof (lookup_lt_Some _ _ _ E). rewrite last_lookup, take_length, Nat.min_l by lia. cbn. by rewrite lookup_take by lia.
  Qed.
End facts.

Theorem C82_rows : forall D `{NumOps D} `{!NumOrd D} `{!NumAdd D} w b (g : cfg D) ins1 ins2 fuel calls ss,
  tabulated w b g ins1 ins2 fuel calls ss -> length ss = length calls /\
  forall k t s, row calls ss k t s ->
    last (steps (marks (s_log s))) = Some (t, s_store s) /\ (~ has_state (g_tree g) -> steps (marks (s_log s)) = take (S k) (rows calls ss)).
Proof.
  intros D ? ? ? w b g ins1 ins2 fuel calls ss Ht. split; [eapply ends_length; apply Ht|]. intros k t s Hk.
  destruct (tab_row w b g ins1 ins2 fuel calls ss k t s Ht Hk) as (_ & X & HX & Hns). rewrite (row_steps w g ins1 ins2 t s X HX). split; [apply last_snoc|].
  intros Hn. rewrite (Hns Hn). symmetry. apply take_S_r. by apply row_rows.
Qed.

Theorem C82_inputs : forall D `{NumOps D} `{!NumOrd D} `{!NumAdd D} w b (g : cfg D) ins1 ins2 fuel calls ss k t s,
  tabulated w b g ins1 ins2 fuel calls ss -> row calls ss k t s -> supplied g t (s_store s).
Proof.
  intros D ? ? ? w b g ins1 ins2 fuel calls ss k t s Ht Hk. destruct (tab_row w b g ins1 ins2 fuel calls ss k t s Ht Hk) as (_ & X & (_ & _ & _ & _ & _ & Hsu) & _). done.
Qed.

Theorem C82_equations : forall D `{NumOps D} `{!NumOrd D} `{!NumAdd D} w b (g : cfg D) ins1 ins2 fuel calls ss k t s l,
  tabulated w b g ins1 ins2 fuel calls ss -> row calls ss k t s -> l ∈ leaves (g_tree g) -> is_builder (l_cls l) = false ->
  exists st, equation l t st (s_store s).
Proof.
  intros D ? ? ? w b g ins1 ins2 fuel calls ss k t s l Ht Hk Hl Hnb. destruct (tab_row w b g ins1 ins2 fuel calls ss k t s Ht Hk) as (Hsim & X & HX & _).
  destruct (simulation_leaf w b g s l Hsim Hl) as (o & Ho & Hclo & _). assert (block_of w g l o) as Hb by done.
  destruct (row_eval w b g ins1 ins2 t s X l o (proj1 Ht) Hsim Hb ltac:(congruence) HX) as (σe & ms & Hm & Hnw & Hx).
  destruct (marked_life w b g s l o X _ Hsim Hb Hm) as (m1 & m2 & _ & Hlv & _). cbn [live] in Hlv. destruct Hlv as [[Hs|[[Hw|Hw] _]] _]; [|done|congruence].
  pose proof (shows_ext _ _ _ _ Hs Hx) as (ws & Hce & Hws). exists m1. by eapply ceval_equation.
Qed.

(** The column of a Memory is the column of its input, moved down by one row. *)
Theorem C82_memory : forall D `{NumOps D} `{!NumOrd D} `{!NumAdd D} w b (g : cfg D) ins1 ins2 fuel calls ss l o T x0 si so,
  tabulated w b g ins1 ins2 fuel calls ss -> ~ has_state (g_tree g) ->
  block_of w g l o -> bo_cls o = CMemory T -> bo_st o = LMem x0 -> h_in (bo_h o) = Some si -> h_out (bo_h o) = Some so ->
  map (fun s => value (s_store s) so) ss = take (length calls) (Some x0 :: map (fun s => value (s_store s) si) ss).
Proof.
  intros D ? ? ? w b g ins1 ins2 fuel calls ss l o T x0 si so Ht Hns Hb Hc Hst Hi Ho.
  assert (length ss = length calls) as Hlen by (eapply ends_length; apply Ht).
  apply list_eq. intros k. destruct (decide (k < length ss)) as [Hk|Hk].
  2:{ rewrite !lookup_ge_None_2; [done| |rewrite map_length; lia]. rewrite take_length. cbn. rewrite map_length. lia. }
  destruct (lookup_lt_is_Some_2 ss k Hk) as [s Hs]. destruct (lookup_lt_is_Some_2 calls k ltac:(lia)) as [[[t lo] hi] Hcl].
  assert (row calls ss k t s) as Hrow by (split; [by exists lo, hi|done]).
  destruct (tab_row w b g ins1 ins2 fuel calls ss k t s Ht Hrow) as (Hsim & X & HX & Hst'). specialize (Hst' Hns).
  destruct (row_eval w b g ins1 ins2 t s X l o (proj1 Ht) Hsim Hb ltac:(by rewrite Hc) HX) as (σe & ms & Hm & Hnw & Hx).
  destruct (C28_evaluations D w b g s l o T x0 si so X t σe ms Hsim Hb Hc Hst Hi Ho Hm Hnw) as (x & Hv & Hl).
  pose proof (ext_value _ _ _ _ Hx Hv) as Hv'. rewrite lookup_take by lia. rewrite lookup_map, Hs. cbn [option_map fmap option_fmap]. rewrite Hv'.
  destruct k as [|k].
  - rewrite Hst' in Hl. cbn in Hl. rewrite Hl. reflexivity.
  - destruct (lookup_lt_is_Some_2 ss k ltac:(lia)) as [s1 Hs1]. destruct (lookup_lt_is_Some_2 calls k ltac:(lia)) as [[[t1 lo1] hi1] Hcl1].
    assert (row calls ss k t1 s1) as Hrow1 by (split; [by exists lo1, hi1|done]). rewrite Hst', (last_take _ _ _ (row_rows _ _ _ _ _ Hrow1)) in Hl.
    change ((Some x0 :: map (fun s => value (s_store s) si) ss) !! S k) with (map (fun s => value (s_store s) si) ss !! k). rewrite lookup_map, Hs1. cbn. by rewrite Hl.
Qed.

(** A Derivative: its initial value, then difference quotients of its input's column. *)
Theorem C82_derivative : forall D `{NumOps D} `{!NumOrd D} `{!NumAdd D} w b (g : cfg D) ins1 ins2 fuel calls ss l o y0 si so k t s,
  tabulated w b g ins1 ins2 fuel calls ss -> ~ has_state (g_tree g) ->
  block_of w g l o -> bo_cls o = CDeriv -> bo_st o = LDeriv true None None y0 -> h_in (bo_h o) = Some si -> h_out (bo_h o) = Some so ->
  row calls ss k t s ->
  match k with
  | O => value (s_store s) so = Some (VS y0)
  | S k' => forall t1 s1, row calls ss k' t1 s1 -> neqb t1 t = false ->
      exists x x1, value (s_store s) si = Some (VS x) /\ value (s_store s1) si = Some (VS x1) /\ value (s_store s) so = Some (VS (ndiv (nsub x x1) (nsub t t1)))
  end.
Proof.
  intros D ? ? ? w b g ins1 ins2 fuel calls ss l o y0 si so k t s Ht Hns Hb Hc Hst Hi Ho Hrow.
  destruct (tab_row w b g ins1 ins2 fuel calls ss k t s Ht Hrow) as (Hsim & X & HX & Hst'). specialize (Hst' Hns).
  destruct (row_eval w b g ins1 ins2 t s X l o (proj1 Ht) Hsim Hb ltac:(by rewrite Hc) HX) as (σe & ms & Hm & Hnw & Hx).
  destruct k as [|k].
  - eapply ext_value; [exact Hx|]. by eapply (C31_first D w b g s l o y0 si so X t σe ms).
  - intros t1 s1 Hrow1 Hne. pose proof (last_take _ _ _ (row_rows _ _ _ _ _ Hrow1)) as Hl. rewrite <- Hst' in Hl.
    destruct (C31_quotient D w b g s l o y0 si so X t σe ms t1 (s_store s1) Hsim Hb Hc Hst Hi Ho Hm Hnw Hl Hne) as (x & x1 & H1 & H2 & H3).
    exists x, x1. split; [by eapply ext_value|]. split; [done|]. by eapply ext_value.
Qed.

(** A Delay: the initial signal until something recorded is older than the delay, then
    the interpolation of the input's column at the delayed time. *)
Theorem C82_delay : forall D `{NumOps D} `{!NumOrd D} `{!NumAdd D} w b (g : cfg D) ins1 ins2 fuel calls ss l o T L si so sd s0 k t s,
  tabulated w b g ins1 ins2 fuel calls ss -> ~ has_state (g_tree g) ->
  block_of w g l o -> bo_cls o = CDelay T L -> bo_st o = LDelay [] [] -> nleb n0 L = true ->
  h_in (bo_h o) = Some si -> h_out (bo_h o) = Some so -> h_delay (bo_h o) = Some sd -> h_initial (bo_h o) = Some s0 ->
  row calls ss k t s ->
  match k with
  | O => exists y, value (s_store s) so = Some y /\ value (s_store s) s0 = Some y
  | S k' => forall t1 s1, row calls ss k' t1 s1 ->
      let old := take k (rows calls ss) in
      exists y d, value (s_store s) so = Some y /\ value (s_store s) sd = Some (VS d) /\
        ((exists j tj σj, old !! j = Some (tj, σj) /\ nleb (nsub t1 L) tj = true /\ nltb tj (nsub t d) = true) -> recorded old si (nsub t d) y) /\
        ((forall j tj σj, old !! j = Some (tj, σj) -> nleb (nsub t1 L) tj = true -> nltb tj (nsub t d) = false) -> value (s_store s) s0 = Some y)
  end.
Proof.
  intros D ? ? ? w b g ins1 ins2 fuel calls ss l o T L si so sd s0 k t s Ht Hns Hb Hc Hst HL Hi Ho Hd Hs0 Hrow.
  destruct (tab_row w b g ins1 ins2 fuel calls ss k t s Ht Hrow) as (Hsim & X & HX & Hst'). specialize (Hst' Hns).
  destruct (row_eval w b g ins1 ins2 t s X l o (proj1 Ht) Hsim Hb ltac:(by rewrite Hc) HX) as (σe & ms & Hm & Hnw & Hx).
  destruct k as [|k].
  - destruct (C30_first D w b g s l o T L si so sd s0 X t σe ms) as (y & H1 & H2); try done. exists y. split; by eapply ext_value.
  - intros t1 s1 Hrow1 old. pose proof (last_take _ _ _ (row_rows _ _ _ _ _ Hrow1)) as Hl. rewrite <- Hst' in Hl.
    destruct (C30_delayed D w b g s l o T L si so sd s0 X t σe ms t1 (s_store s1)) as (_ & y & d & H1 & H2 & H3 & H4); try done.
    rewrite Hst' in H3, H4. exists y, d. split; [by eapply ext_value|]. split; [by eapply ext_value|]. split; [exact H3|].
    intros Hj. eapply ext_value; [exact Hx|]. by apply H4.
Qed.
