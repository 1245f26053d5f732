(** C83: the tables of the sample programs without states. *)
From stdpp Require Import prelude gmap strings.
From Coq Require Import ZArith NArith.
From Verif Require Import Num NumOrd NumAdd Res Name Store Leaf Sched Stepper Sim World Api Hist P_Store P_Prog P_World P_Lib P_Rel P_Trace P_Life SpecSched SpecHist SpecRun SpecBlock SpecRec SpecSim SpecSafe SpecGoes SpecGoes2 SpecLint SpecTable SpecRows
  P_Delay P_Table P_Goes P_Goes2 P_Goes4 P_Goes6 Props_Goes Props_Rec Props_Block Props_Table P_Rows Props_Rows Ex_Models Samples5.
Local Open Scope nat_scope.

Section facts.
  Context {D : Type} `{NumOps D} {Hord : NumOrd D} {Hadd : NumAdd D}.
  Implicit Types (calls : list (D * D * D)) (ss : list (simst D)).
  Definition times calls : list D := map (fun c => c.1.1) calls.
  (** A checked model without a stepper is simulated and recorded. *)
  Lemma recorded_table w b (g : cfg D) ins1 ins2 fuel grow sigs t0 lo0 hi0 cs : checked w b g ins1 ins2 -> g_stepper g = None -> permitted g t0 cs ->
    (0 < grow)%N -> sigs ≠ [] -> (forall x, x ∈ sigs -> value_sig (initial_store w) x) -> (N.of_nat (S (length cs)) + grow <= two32)%N ->
    let calls := (t0, lo0, hi0) :: cs in
    exists h s ss, record_program g (S fuel) grow sigs calls (new_sim (initial_dyn w)) = Ok h s /\ tabulated w b g ins1 ins2 (S fuel) calls ss /\
      table sigs calls ss h /\ forall order, (forall x, x ∈ order -> x ∈ sigs) -> export_csv order h = Ok (lines order calls ss) h.
  Proof.
    intros Hc Hn Hp Hg Hs Hv Hl calls. destruct (C75_fixed D w b g ins1 ins2 fuel t0 cs Hc Hp) as (s & E & _); [by rewrite Hn|].
    pose proof (C81_table D w b g ins1 ins2 (S fuel) grow sigs t0 lo0 hi0 cs Hc Hp Hg Hs Hv Hl) as Ht. cbv zeta in Ht. rewrite E in Ht.
    destruct Ht as (h & ss & Er & He & _ & Ht & Hx). exists h, s, ss. split; [done|]. split; [|done]. split; [done|]. split; [by rewrite Hn|]. split; [|done]. by exists t0, lo0, hi0, cs.
  Qed.
  Lemma free_permitted (g : cfg D) tp cs : ~ has_state (g_tree g) -> ~ has_delay (g_tree g) -> permitted g tp cs.
  Proof. intros H1 H2. revert tp. induction cs as [|[[t lo] hi] cs IH]; intros tp; [done|]. split; [split; [intros Hd; by destruct H2|intros Hst; by destruct H1]|apply IH]. Qed.
  Fixpoint rising (tp : D) (ts : list D) : Prop := match ts with [] => True | t :: ts => nltb tp t = true /\ rising t ts end.
  Lemma rising_permitted (g : cfg D) tp cs : ~ has_state (g_tree g) -> rising tp (times cs) -> permitted g tp cs.
  Proof.
    intros H1. revert tp. induction cs as [|[[t lo] hi] cs IH]; intros tp; [done|]. intros [Hr Hrs]. split; [split; [by intros _|intros Hst; by destruct H1]|by apply IH].
  Qed.
  (** A column of scalars. *)
  Lemma scalar_column calls ss x (ys : list D) : map (fun s => value (s_store s) x) ss = map (fun y => Some (VS y)) ys ->
    map (fun s => numbers (s_store s) x) ss = map (fun y => [y]) ys.
  Proof.
    revert ys. induction ss as [|s ss IH]; intros [|y ys]; try done. cbn. intros [= H1 H2]. f_equal; [|by apply IH]. unfold numbers. by rewrite H1.
  Qed.
  Lemma rows_column calls ss x (F : D -> D) : length ss = length calls -> (forall k t s, row calls ss k t s -> value (s_store s) x = Some (VS (F t))) ->
    map (fun s => value (s_store s) x) ss = map (fun y => Some (VS y)) (map F (times calls)).
  Proof.
    revert calls. induction ss as [|s ss IH]; intros [|[[t lo] hi] cs]; try done. cbn. intros [= Hl] Hr. f_equal.
    - apply (Hr 0). split; [by exists lo, hi|done].
    - apply IH; [done|]. intros k t' s' [Hk Hs]. apply (Hr (S k)). done.
  Qed.
  (** The file with two columns besides the time. *)
  Lemma two_columns calls ss x y (xs ys : list D) : length ss = length calls ->
    map (fun s => value (s_store s) x) ss = map (fun a => Some (VS a)) xs -> map (fun s => value (s_store s) y) ss = map (fun a => Some (VS a)) ys ->
    lines [x; y] calls ss = zip_with (fun t p => [Some t; Some p.1; Some p.2]) (times calls) (zip xs ys).
  Proof.
    revert calls xs ys. induction ss as [|s ss IH]; intros [|[[t lo] hi] cs] [|a xs] [|b ys]; try done. cbn. intros [= Hl] [= H1 H2] [= H3 H4]. unfold lines in *. cbn.
    f_equal; [|by apply IH]. f_equal. unfold numbers. by rewrite H1, H3.
  Qed.
End facts.

(** The history [h] has the times [ts] and two signals with the numbers [xs] and [ys], and
    so has the exported file. *)
Definition two_tracked {D} `{NumOps D} (h : hist D) (x y : nat) (ts xs ys : list D) : Prop :=
  nrows h = N.of_nat (length ts) /\ hi_time h = map Some ts /\ hi_map h !! x = Some (map (fun a => [Some a]) xs) /\ hi_map h !! y = Some (map (fun a => [Some a]) ys) /\
  export_csv [x; y] h = Ok (zip_with (fun t p => [Some t; Some p.1; Some p.2]) ts (zip xs ys)) h.

Section facts2.
  Context {D : Type} `{NumOps D} {Hord : NumOrd D} {Hadd : NumAdd D}.
  Lemma numbers_column (ss : list (simst D)) x ys : map (fun s => value (s_store s) x) ss = map (fun y => Some (VS y)) ys ->
    map (fun s => map Some (numbers (s_store s) x)) ss = map (fun y => [Some y]) ys.
  Proof.
    revert ys. induction ss as [|s ss IH]; intros [|y ys]; try done. cbn. intros [= H1 H2]. f_equal; [|by apply IH]. unfold numbers. by rewrite H1.
  Qed.
  Lemma two_table x y calls (ss : list (simst D)) h (xs ys : list D) : length ss = length calls -> table [x; y] calls ss h ->
    (forall order, (forall z, z ∈ order -> z ∈ [x; y]) -> export_csv order h = Ok (lines order calls ss) h) ->
    map (fun s => value (s_store s) x) ss = map (fun a => Some (VS a)) xs -> map (fun s => value (s_store s) y) ss = map (fun a => Some (VS a)) ys ->
    two_tracked h x y (times calls) xs ys.
  Proof.
    intros Hl (T1 & T2 & T3 & _) Hx H1 H2. split; [unfold times; by rewrite map_length|]. split; [unfold times; by rewrite map_map|].
    split; [rewrite (T3 x) by (apply elem_of_list_here); f_equal; by apply numbers_column|].
    split; [rewrite (T3 y) by (apply elem_of_list_further, elem_of_list_here); f_equal; by apply numbers_column|].
    rewrite Hx by done. by rewrite (two_columns calls ss x y xs ys).
  Qed.
  Lemma set_x_shown (f : D -> D) t τ : shows τ (set_x f t) tt -> value τ 0 = Some (VS (f t)).
  Proof. intros Hs. by apply shows_set in Hs as [Hv _]. Qed.
  Lemma has_state_none (tr : tree D) : forallb (fun l => match lib_pre l with [] => true | _ => false end) (leaves tr) = true -> ~ has_state tr.
  Proof. intros E (l & Hl & Hne). rewrite forallb_forall in E. specialize (E l ltac:(by apply elem_of_list_In)). by destruct (lib_pre l). Qed.
  Lemma has_delay_none (tr : tree D) : forallb (fun l => match l_cls l with CDelay _ _ => false | _ => true end) (leaves tr) = true -> ~ has_delay tr.
  Proof. intros E (l & T & x & Hl & Hc). rewrite forallb_forall in E. specialize (E l ltac:(by apply elem_of_list_In)). by rewrite Hc in E. Qed.
  Lemma value_sigs (σ : store D) l : forallb (fun x => match σ !! x with Some c => match c_kind c with KBus => false | _ => true end | None => false end) l = true ->
    forall x, x ∈ l -> value_sig σ x.
  Proof.
    intros E x Hx. rewrite forallb_forall in E. specialize (E x ltac:(by apply elem_of_list_In)). destruct (σ !! x) as [c|] eqn:Ec; [|done]. exists c. split; [done|]. by destruct (c_kind c).
  Qed.
  Lemma mb_block x0 f m it : exists l o, block_of (mb_world x0) (mb_cfg x0 f m it) l o /\ bo_cls o = CMemory TyD /\ bo_st o = LMem (VS x0) /\ h_in (bo_h o) = Some 0 /\ h_out (bo_h o) = Some 1.
  Proof.
    assert (exists l, leaves (mb_tree x0) = [l] /\ l_id l = 0) as (l & El & Hid). { eexists. split; [vm_compute; reflexivity|reflexivity]. }
    assert (exists o, w_blks (mb_world x0) !! 0 = Some o /\ bo_cls o = CMemory TyD /\ bo_st o = LMem (VS x0) /\ h_in (bo_h o) = Some 0 /\ h_out (bo_h o) = Some 1) as (o & Eo & Ho).
    { eexists. split; [vm_compute; reflexivity|]. split_and!; reflexivity. }
    exists l, o. split; [|exact Ho]. split; [|by rewrite Hid]. change (g_tree (mb_cfg x0 f m it)) with (mb_tree x0). rewrite El. apply elem_of_list_here.
  Qed.
  Lemma gb_block k f m it : exists l, l ∈ leaves (g_tree (gb_cfg k f m it)) /\ l_cls l = CGain TyD (VS k) /\ h_in (l_h l) = Some 0 /\ h_out (l_h l) = Some 1.
  Proof.
    assert (exists l, leaves (gb_tree k) = [l] /\ l_cls l = CGain TyD (VS k) /\ h_in (l_h l) = Some 0 /\ h_out (l_h l) = Some 1) as (l & El & Hl).
    { eexists. split; [vm_compute; reflexivity|]. split_and!; reflexivity. }
    exists l. split; [|exact Hl]. change (g_tree (gb_cfg k f m it)) with (gb_tree k). rewrite El. apply elem_of_list_here.
  Qed.
End facts2.

(** samples/memory_block.cpp *)
Theorem C83_memory : forall D `{NumOps D} `{!NumOrd D} `{!NumAdd D} (x0 : D) (f : D -> D) m it fuel grow calls,
  m ≠ MReuse -> (forall l, it l ≡ₚ l) -> calls ≠ [] -> (0 < grow)%N -> (N.of_nat (length calls) + grow <= two32)%N ->
  let ts := times calls in
  exists h s, record_program (mb_cfg x0 f m it) (S fuel) grow [0; 1] calls (new_sim (initial_dyn (mb_world x0))) = Ok h s /\
    two_tracked h 0 1 ts (map f ts) (take (length ts) (x0 :: map f ts)).
Proof.
  intros D ? ? ? x0 f m it fuel grow calls Hm Hit Hne Hg Hlen ts. destruct calls as [|[[t0 lo0] hi0] cs]; [done|].
  pose proof (mb_checked x0 f m it Hm Hit) as Hc.
  assert (~ has_state (g_tree (mb_cfg x0 f m it))) as Hns by (apply has_state_none; vm_compute; reflexivity).
  assert (~ has_delay (g_tree (mb_cfg x0 f m it))) as Hnd by (apply has_delay_none; vm_compute; reflexivity).
  assert (forall x, x ∈ [0; 1] -> value_sig (initial_store (mb_world x0)) x) as Hv by (apply value_sigs; vm_compute; reflexivity).
  destruct (mb_block x0 f m it) as (l & o & Hb & Hcl & Hst & Hi & Ho).
  assert (g_stepper (mb_cfg x0 f m it) = None) as Hn by reflexivity. assert (g_inputs (mb_cfg x0 f m it) = Some (set_x f)) as Hin by reflexivity.
  revert Hc Hns Hnd Hv Hb Hn Hin. generalize (mb_cfg x0 f m it). generalize (mb_world x0). intros w g Hc Hns Hnd Hv Hb Hn Hin.
  destruct (recorded_table w 0 g [0] [] fuel grow [0; 1] t0 lo0 hi0 cs Hc Hn (free_permitted g t0 cs Hns Hnd) Hg ltac:(done) Hv Hlen) as (h & s & ss & Er & Ht & Htab & Hx).
  exists h, s. split; [done|]. destruct (C82_rows D w 0 g [0] [] (S fuel) _ ss Ht) as [Hl _].
  assert (map (fun s => value (s_store s) 0) ss = map (fun y => Some (VS y)) (map f ts)) as H0.
  { apply rows_column; [done|]. intros k t s' Hk. destruct (C82_inputs D w 0 g [0] [] (S fuel) _ ss k t s' Ht Hk) as [Hs _]. by apply set_x_shown, Hs. }
  apply (two_table 0 1 _ ss h); [done|done|done|exact H0|].
  rewrite (C82_memory D w 0 g [0] [] (S fuel) _ ss l o TyD (VS x0) 0 1 Ht Hns Hb Hcl Hst Hi Ho), H0. unfold ts, times. rewrite map_length.
  rewrite <- firstn_map. reflexivity.
Qed.

(** samples/gain_block.cpp *)
Theorem C83_gain : forall D `{NumOps D} `{!NumOrd D} `{!NumAdd D} (c : D) (f : D -> D) m it fuel grow calls,
  m ≠ MReuse -> (forall l, it l ≡ₚ l) -> calls ≠ [] -> (0 < grow)%N -> (N.of_nat (length calls) + grow <= two32)%N ->
  let ts := times calls in
  exists h s, record_program (gb_cfg c f m it) (S fuel) grow [0; 1] calls (new_sim (initial_dyn (gb_world c))) = Ok h s /\
    two_tracked h 0 1 ts (map f ts) (map (fun t => nmul c (f t)) ts).
Proof.
  intros D ? ? ? c f m it fuel grow calls Hm Hit Hne Hg Hlen ts. destruct calls as [|[[t0 lo0] hi0] cs]; [done|].
  pose proof (gb_checked c f m it Hm Hit) as Hc.
  assert (~ has_state (g_tree (gb_cfg c f m it))) as Hns by (apply has_state_none; vm_compute; reflexivity).
  assert (~ has_delay (g_tree (gb_cfg c f m it))) as Hnd by (apply has_delay_none; vm_compute; reflexivity).
  assert (forall x, x ∈ [0; 1] -> value_sig (initial_store (gb_world c)) x) as Hv by (apply value_sigs; vm_compute; reflexivity).
  destruct (gb_block c f m it) as (l & Hb & Hcl & Hi & Ho).
  assert (g_stepper (gb_cfg c f m it) = None) as Hn by reflexivity. assert (g_inputs (gb_cfg c f m it) = Some (set_x f)) as Hin by reflexivity.
  revert Hc Hns Hnd Hv Hb Hn Hin. generalize (gb_cfg c f m it). generalize (gb_world c). intros w g Hc Hns Hnd Hv Hb Hn Hin.
  destruct (recorded_table w 0 g [0] [] fuel grow [0; 1] t0 lo0 hi0 cs Hc Hn (free_permitted g t0 cs Hns Hnd) Hg ltac:(done) Hv Hlen) as (h & s & ss & Er & Ht & Htab & Hx).
  exists h, s. split; [done|]. destruct (C82_rows D w 0 g [0] [] (S fuel) _ ss Ht) as [Hl _].
  assert (forall k t s', row ((t0, lo0, hi0) :: cs) ss k t s' -> value (s_store s') 0 = Some (VS (f t))) as Hr0.
  { intros k t s' Hk. destruct (C82_inputs D w 0 g [0] [] (S fuel) _ ss k t s' Ht Hk) as [Hs _]. by apply set_x_shown, Hs. }
  apply (two_table 0 1 _ ss h); [done|done|done|by apply rows_column|]. apply (rows_column _ ss 1 (fun t => nmul c (f t))); [done|]. intros k t s' Hk.
  destruct (C82_equations D w 0 g [0] [] (S fuel) _ ss k t s' l Ht Hk Hb) as [st He]; [by rewrite Hcl|]. unfold equation in He. rewrite Hcl in He.
  destruct He as (si & so & x & y & E1 & E2 & V1 & V2 & Hsc). rewrite Hi in E1. injection E1 as <-. rewrite Ho in E2. injection E2 as <-.
  rewrite (Hr0 k t s' Hk) in V1. injection V1 as <-. inversion Hsc; subst. done.
Qed.

(** What a Delay returns at time [t] with delay [d], initial value [a] and lifespan [L] when
    its input was [f] at the times [past]: [a] as long as nothing within the lifespan is
    older than [t - d], otherwise the interpolation of the input at [t - d]. *)
Definition late {D} `{NumOps D} (f : D -> D) (L d a : D) (past : list D) (t y : D) : Prop :=
  match last past with
  | None => y = a
  | Some t1 =>
      let u := nsub t d in
      let known := exists tj, tj ∈ past /\ nleb (nsub t1 L) tj = true /\ nltb tj u = true in
      (known -> nleb t1 u = true /\ y = f t1 \/
        exists i ta tb, past !! i = Some ta /\ past !! S i = Some tb /\ nltb ta u = true /\ nleb u tb = true /\
          y = nadd (ndiv (nmul (nsub (f tb) (f ta)) (nsub u ta)) (nsub tb ta)) (f ta)) /\
      (~ known -> y = a)
  end.

Section delay.
  Context {D : Type} `{NumOps D} {Hord : NumOrd D} {Hadd : NumAdd D}.
  Lemma column_of (ss : list (simst D)) x : (forall s, s ∈ ss -> exists y, value (s_store s) x = Some (VS y)) -> exists ys, map (fun s => value (s_store s) x) ss = map (fun y => Some (VS y)) ys.
  Proof.
    induction ss as [|s ss IH]; intros Hs; [by exists []|]. destruct (Hs s) as [y Hy]; [apply elem_of_list_here|].
    destruct IH as [ys Hys]; [intros s' Hs'; apply Hs; by apply elem_of_list_further|]. exists (y :: ys). cbn. by rewrite Hy, Hys.
  Qed.
  Lemma times_rows calls (ss : list (simst D)) : length ss = length calls -> map fst (rows calls ss) = times calls.
  Proof.
    revert ss. induction calls as [|[[t lo] hi] cs IH]; intros [|s ss]; try done. cbn. intros [= Hl]. f_equal. by apply IH.
  Qed.
  Lemma db_blocks f d a L m it : let g := db_cfg f d a L m it in let w := db_world f d a L in
    (exists l, l ∈ leaves (g_tree g) /\ l_cls l = CSource TyD (fun t => PRet (VS (f t))) /\ h_out (l_h l) = Some 0) /\
    (exists l, l ∈ leaves (g_tree g) /\ l_cls l = CConst TyD (VS d) /\ h_out (l_h l) = Some 2) /\
    (exists l, l ∈ leaves (g_tree g) /\ l_cls l = CConst TyD (VS a) /\ h_out (l_h l) = Some 3) /\
    exists l o, block_of w g l o /\ bo_cls o = CDelay TyD L /\ bo_st o = LDelay [] [] /\ h_in (bo_h o) = Some 0 /\ h_out (bo_h o) = Some 1 /\ h_delay (bo_h o) = Some 2 /\ h_initial (bo_h o) = Some 3.
  Proof.
    intros g w. assert (exists l1 l2 l3 l4, leaves (db_tree f d a L) = [l1; l2; l3; l4] /\ (l_cls l1 = CSource TyD (fun t => PRet (VS (f t))) /\ h_out (l_h l1) = Some 0) /\
      (l_cls l2 = CConst TyD (VS d) /\ h_out (l_h l2) = Some 2) /\ (l_cls l3 = CConst TyD (VS a) /\ h_out (l_h l3) = Some 3) /\ l_id l4 = 4) as (l1 & l2 & l3 & l4 & El & H1 & H2 & H3 & H4).
    { eexists _, _, _, _. split; [vm_compute; reflexivity|]. split_and!; reflexivity. }
    assert (exists o, w_blks (db_world f d a L) !! 4 = Some o /\ bo_cls o = CDelay TyD L /\ bo_st o = LDelay [] [] /\ h_in (bo_h o) = Some 0 /\ h_out (bo_h o) = Some 1 /\ h_delay (bo_h o) = Some 2 /\ h_initial (bo_h o) = Some 3) as (o & Eo & Ho).
    { eexists. split; [vm_compute; reflexivity|]. split_and!; reflexivity. }
    change (g_tree g) with (db_tree f d a L). unfold block_of. change (g_tree g) with (db_tree f d a L). rewrite El. subst w. clear El g.
    split; [exists l1; split; [apply elem_of_list_here|exact H1]|].
    split; [exists l2; split; [apply elem_of_list_further, elem_of_list_here|exact H2]|].
    split; [exists l3; split; [apply elem_of_list_further, elem_of_list_further, elem_of_list_here|exact H3]|].
    exists l4, o. rewrite H4. split; [split; [|exact Eo]|exact Ho]. do 3 apply elem_of_list_further. apply elem_of_list_here.
  Qed.
  (** The rows of a table in which the Delay reads the function [f]. *)
  Lemma late_row w b (g : cfg D) ins1 ins2 fuel calls ss l o L f d a : tabulated w b g ins1 ins2 fuel calls ss -> ~ has_state (g_tree g) ->
    block_of w g l o -> bo_cls o = CDelay TyD L -> bo_st o = LDelay [] [] -> nleb n0 L = true ->
    h_in (bo_h o) = Some 0 -> h_out (bo_h o) = Some 1 -> h_delay (bo_h o) = Some 2 -> h_initial (bo_h o) = Some 3 ->
    (forall k t s, row calls ss k t s -> value (s_store s) 0 = Some (VS (f t)) /\ value (s_store s) 2 = Some (VS d) /\ value (s_store s) 3 = Some (VS a)) ->
    forall k t s, row calls ss k t s -> exists y, value (s_store s) 1 = Some (VS y) /\ late f L d a (take k (times calls)) t y.
  Proof.
    intros Ht Hns Hb Hc Hst HL Hi Ho Hd Hs0 Hv k t s Hk. destruct (Hv k t s Hk) as (_ & Vd & Va).
    pose proof (C82_delay D w b g ins1 ins2 fuel calls ss l o TyD L 0 1 2 3 k t s Ht Hns Hb Hc Hst HL Hi Ho Hd Hs0 Hk) as Hr.
    assert (length ss = length calls) as Hlen by (eapply ends_length; apply Ht).
    destruct k as [|k].
    - destruct Hr as (y & H1 & H2). rewrite Va in H2. injection H2 as <-. by exists a.
    - assert (exists t1 s1, row calls ss k t1 s1) as (t1 & s1 & Hk1).
      { destruct Hk as [(lo & hi & Hk) Hs]. apply lookup_lt_Some in Hk, Hs. destruct (lookup_lt_is_Some_2 calls k ltac:(lia)) as [[[t1 lo1] hi1] E1]. destruct (lookup_lt_is_Some_2 ss k ltac:(lia)) as [s1 E2].
        exists t1, s1. split; [by exists lo1, hi1|done]. }
      destruct (Hr t1 s1 Hk1) as (y & d' & Y & Vd' & Hrec & Hini). rewrite Vd in Vd'. injection Vd' as <-.
      pose proof (row_rows _ _ _ _ _ Hk1) as Ek1. pose proof (last_take _ _ _ Ek1) as Hlast.
      set (old := take (S k) (rows calls ss)) in *.
      assert (take (S k) (times calls) = map fst old) as Eo by (unfold old; rewrite <- firstn_map; by rewrite times_rows).
      assert (forall j tj σj, old !! j = Some (tj, σj) -> value σj 0 = Some (VS (f tj))) as Hold.
      { intros j tj σj Hj. unfold old in Hj. apply lookup_take_Some in Hj as [Hj _]. destruct (rows_at _ _ _ _ _ Hj) as (sj & Hj' & ->). by apply (Hv j tj sj Hj'). }
      assert (last (map fst old) = Some t1) as El. { rewrite last_lookup, map_length, lookup_map. rewrite last_lookup in Hlast. by rewrite Hlast. }
      unfold late. rewrite Eo, El.
      destruct (decide (Exists (fun p => nleb (nsub t1 L) p.1 = true /\ nltb p.1 (nsub t d) = true) old)) as [Hex|Hex].
      + apply Exists_exists in Hex as ([tj σj] & Hj & Q1 & Q2). apply elem_of_list_lookup in Hj as [j Hj]. cbn in Q1, Q2.
        destruct Hrec as [(tn & σn & Hn & Hle & Vn)|(i & ta & σa & tb & σb & x1 & x2 & Ea & Eb & Hab & Hau & Hub & Va1 & Vb1 & Hlin)]; [by exists j, tj, σj| |].
        * rewrite Hlast in Hn. injection Hn as <- <-. destruct (Hv k t1 s1 Hk1) as (Vf & _). rewrite Vf in Vn. injection Vn as <-.
          exists (f t1). split; [done|]. split; [intros _; left; done|]. intros Hn. destruct Hn. exists tj. split; [|done]. apply elem_of_list_lookup. exists j. by rewrite lookup_map, Hj.
        * rewrite (Hold _ _ _ Ea) in Va1. rewrite (Hold _ _ _ Eb) in Vb1. injection Va1 as <-. injection Vb1 as <-. cbn in Hlin. subst y. eexists. split; [exact Y|]. split.
          -- intros _. right. exists i, ta, tb. rewrite !lookup_map, Ea, Eb. split_and!; done.
          -- intros Hn. destruct Hn. exists tj. split; [|done]. apply elem_of_list_lookup. exists j. by rewrite lookup_map, Hj.
      + assert (y = VS a) as ->.
        { rewrite Hini in Va; [by injection Va|]. intros j tj σj Hj Q1. destruct (nltb tj (nsub t d)) eqn:Q2; [|done]. destruct Hex. apply Exists_exists. exists (tj, σj). split; [by eapply elem_of_list_lookup_2|done]. }
        exists a. split; [done|]. split; [|done]. intros (tj & Hj & Q1 & Q2). destruct Hex. apply elem_of_list_lookup in Hj as [j Hj]. rewrite lookup_map in Hj.
        destruct (old !! j) as [[tj' σj]|] eqn:Ej; [|done]. injection Hj as <-. apply Exists_exists. exists (tj', σj). split; [by eapply elem_of_list_lookup_2|done].
  Qed.
End delay.

(** samples/delay_block.cpp *)
Theorem C83_delay : forall D `{NumOps D} `{!NumOrd D} `{!NumAdd D} (f : D -> D) (d a L : D) m it fuel grow t0 lo0 hi0 cs,
  m ≠ MReuse -> (forall l, it l ≡ₚ l) -> nleb n0 L = true -> rising t0 (times cs) -> (0 < grow)%N -> (N.of_nat (S (length cs)) + grow <= two32)%N ->
  let ts := t0 :: times cs in
  exists h s ys, record_program (db_cfg f d a L m it) (S fuel) grow [0; 1] ((t0, lo0, hi0) :: cs) (new_sim (initial_dyn (db_world f d a L))) = Ok h s /\
    two_tracked h 0 1 ts (map f ts) ys /\ length ys = length ts /\
    forall k t y, ts !! k = Some t -> ys !! k = Some y -> late f L d a (take k ts) t y.
Proof.
  intros D ? ? ? f d a L m it fuel grow t0 lo0 hi0 cs Hm Hit HL Hri Hg Hlen ts.
  pose proof (db_checked f d a L m it Hm Hit) as Hc.
  assert (~ has_state (g_tree (db_cfg f d a L m it))) as Hns by (apply has_state_none; vm_compute; reflexivity).
  assert (forall x, x ∈ [0; 1] -> value_sig (initial_store (db_world f d a L)) x) as Hv by (apply value_sigs; vm_compute; reflexivity).
  destruct (db_blocks f d a L m it) as ((l1 & B1 & C1 & O1) & (l2 & B2 & C2 & O2) & (l3 & B3 & C3 & O3) & l & o & Hb & Hcl & Hst & Hi & Ho & Hdl & Hin0).
  assert (g_stepper (db_cfg f d a L m it) = None) as Hn by reflexivity.
  revert Hc Hns Hv Hb Hn B1 B2 B3. generalize (db_cfg f d a L m it). generalize (db_world f d a L). intros w g Hc Hns Hv Hb Hn B1 B2 B3.
  destruct (recorded_table w 0 g [] [] fuel grow [0; 1] t0 lo0 hi0 cs Hc Hn (rising_permitted g t0 cs Hns Hri) Hg ltac:(done) Hv Hlen) as (h & s & ss & Er & Ht & Htab & Hx).
  destruct (C82_rows D w 0 g [] [] (S fuel) _ ss Ht) as [Hl _]. set (calls := (t0, lo0, hi0) :: cs) in *.
  assert (forall k t s', row calls ss k t s' -> value (s_store s') 0 = Some (VS (f t)) /\ value (s_store s') 2 = Some (VS d) /\ value (s_store s') 3 = Some (VS a)) as Hr0.
  { intros k t s' Hk.
    destruct (C82_equations D w 0 g [] [] (S fuel) _ ss k t s' l1 Ht Hk B1) as [st1 E1]; [by rewrite C1|]. unfold equation in E1. rewrite C1, O1 in E1. destruct E1 as (so1 & v1 & [= <-] & (ws & Hce) & V1). cbn in Hce. injection Hce as <- _.
    destruct (C82_equations D w 0 g [] [] (S fuel) _ ss k t s' l2 Ht Hk B2) as [st2 E2]; [by rewrite C2|]. unfold equation in E2. rewrite C2, O2 in E2. destruct E2 as (so2 & [= <-] & V2).
    destruct (C82_equations D w 0 g [] [] (S fuel) _ ss k t s' l3 Ht Hk B3) as [st3 E3]; [by rewrite C3|]. unfold equation in E3. rewrite C3, O3 in E3. destruct E3 as (so3 & [= <-] & V3).
    done. }
  pose proof (late_row w 0 g [] [] (S fuel) calls ss l o L f d a Ht Hns Hb Hcl Hst HL Hi Ho Hdl Hin0 Hr0) as Hlate.
  destruct (column_of ss 1) as [ys Hys].
  { intros s' Hs'. apply elem_of_list_lookup in Hs' as [k Hk]. pose proof (lookup_lt_Some _ _ _ Hk). destruct (lookup_lt_is_Some_2 calls k ltac:(lia)) as [[[t lo] hi] Hcl'].
    destruct (Hlate k t s') as (y & Hy & _); [split; [by exists lo, hi|done]|]. by exists y. }
  exists h, s, ys. split; [done|].
  assert (length ys = length ss) as Hly. { pose proof (f_equal length Hys) as E. by rewrite !map_length in E. }
  split; [apply (two_table 0 1 calls ss h); [done|done|done|apply (rows_column calls); [done|intros k t s' Hk; apply (Hr0 k t s' Hk)]|exact Hys]|]. split; [unfold ts, times; rewrite Hly, Hl; cbn; by rewrite map_length|].
  intros k t y Hk Hy. change ts with (times calls) in *. unfold times in Hk. rewrite lookup_map in Hk. destruct (calls !! k) as [[[t' lo] hi]|] eqn:Ec; [|done]. injection Hk as ->.
  pose proof (lookup_lt_Some _ _ _ Hy) as Hlt. rewrite Hly in Hlt. destruct (lookup_lt_is_Some_2 ss k Hlt) as [s' Hs'].
  destruct (Hlate k t s') as (y' & Hy' & Hla); [split; [by exists lo, hi|done]|].
  assert (map (fun s => value (s_store s) 1) ss !! k = Some (Some (VS y))) as E by (rewrite Hys, lookup_map, Hy; done). rewrite lookup_map, Hs' in E. cbn in E. rewrite Hy' in E. injection E as ->. exact Hla.
Qed.

(** samples/test10_memory_with_bus.cpp *)
Definition tracked {D} (h : hist D) (x : nat) (ys : list D) : Prop := hi_map h !! x = Some (map (fun a => [Some a]) ys).
Section bus.
  Context {D : Type} `{NumOps D}.
  Definition memory_at (w : world D) (g : cfg D) (b : nat) (v : D) (i o : nat) : Prop :=
    exists l ob, block_of w g l ob /\ l_id l = b /\ bo_cls ob = CMemory TyD /\ bo_st ob = LMem (VS v) /\ h_in (bo_h ob) = Some i /\ h_out (bo_h ob) = Some o.
  Lemma bm_blocks f0 f2 f3 z it : let w := bm_world z in let g := bm_cfg f0 f2 f3 z MDefault it in
    memory_at w g 2 n0 0 6 /\ memory_at w g 3 z 2 8 /\ memory_at w g 4 n0 4 10.
  Proof.
    intros w g. assert (exists l1 l2 l3 l4, leaves (bm_tree z) = [l1; l2; l3; l4] /\ l_id l2 = 2 /\ l_id l3 = 3 /\ l_id l4 = 4) as (l1 & l2 & l3 & l4 & El & I2 & I3 & I4).
    { do 4 eexists. split; [vm_compute; reflexivity|]. split_and!; reflexivity. }
    assert (forall b v i o, (exists ob, w_blks w !! b = Some ob /\ bo_cls ob = CMemory TyD /\ bo_st ob = LMem (VS v) /\ h_in (bo_h ob) = Some i /\ h_out (bo_h ob) = Some o) ->
      (exists l, l ∈ leaves (bm_tree z) /\ l_id l = b) -> memory_at w g b v i o) as Hx.
    { intros b v i o (ob & E & Hob) (l & Hl & Hid). exists l, ob. split; [split; [exact Hl|by rewrite Hid]|]. split; [done|exact Hob]. }
    split_and!; apply Hx.
    1,3,5: eexists; split; [vm_compute; reflexivity|split_and!; reflexivity].
    - exists l2. rewrite El. split; [|done]. by right; left.
    - exists l3. rewrite El. split; [|done]. by right; right; left.
    - exists l4. rewrite El. split; [|done]. by right; right; right; left.
  Qed.
  Lemma bm_inputs_shown (f0 f2 f3 : D -> D) t τ : shows τ (bm_inputs f0 f2 f3 t) tt -> value τ 0 = Some (VS (f0 t)) /\ value τ 4 = Some (VS (f2 t)) /\ value τ 2 = Some (VS (f3 t)).
  Proof. intros Hs. apply shows_set in Hs as [H1 Hs]. apply shows_set in Hs as [H2 Hs]. by apply shows_set in Hs as [H3 _]. Qed.
End bus.
Theorem C83_bus : forall D `{NumOps D} `{!NumOrd D} `{!NumAdd D} (f0 f2 f3 : D -> D) (z : D) it fuel grow calls,
  (forall l, it l ≡ₚ l) -> calls ≠ [] -> (0 < grow)%N -> (N.of_nat (length calls) + grow <= two32)%N ->
  let ts := times calls in
  exists h s, record_program (bm_cfg f0 f2 f3 z MDefault it) (S fuel) grow [0; 1; 4; 2; 6; 7; 10; 8] calls (new_sim (initial_dyn (bm_world z))) = Ok h s /\
    nrows h = N.of_nat (length ts) /\ hi_time h = map Some ts /\
    tracked h 0 (map f0 ts) /\ tracked h 4 (map f2 ts) /\ tracked h 2 (map f3 ts) /\
    tracked h 6 (take (length ts) (n0 :: map f0 ts)) /\ tracked h 10 (take (length ts) (n0 :: map f2 ts)) /\ tracked h 8 (take (length ts) (z :: map f3 ts)).
Proof.
  intros D ? ? ? f0 f2 f3 z it fuel grow calls Hit Hne Hg Hlen ts. destruct calls as [|[[t0 lo0] hi0] cs]; [done|].
  pose proof (bm_checked f0 f2 f3 z it Hit) as Hc. destruct (bm_blocks f0 f2 f3 z it) as (M2 & M3 & M4).
  assert (~ has_state (g_tree (bm_cfg f0 f2 f3 z MDefault it))) as Hns by (apply has_state_none; vm_compute; reflexivity).
  assert (~ has_delay (g_tree (bm_cfg f0 f2 f3 z MDefault it))) as Hnd by (apply has_delay_none; vm_compute; reflexivity).
  assert (forall x, x ∈ [0; 1; 4; 2; 6; 7; 10; 8] -> value_sig (initial_store (bm_world z)) x) as Hv by (apply value_sigs; vm_compute; reflexivity).
  assert (g_stepper (bm_cfg f0 f2 f3 z MDefault it) = None) as Hn by reflexivity. assert (g_inputs (bm_cfg f0 f2 f3 z MDefault it) = Some (bm_inputs f0 f2 f3)) as Hin by reflexivity.
  revert Hc M2 M3 M4 Hns Hnd Hv Hn Hin. generalize (bm_cfg f0 f2 f3 z MDefault it). generalize (bm_world z). intros w g Hc M2 M3 M4 Hns Hnd Hv Hn Hin.
  destruct (recorded_table w 0 g [0; 4; 2] [] fuel grow [0; 1; 4; 2; 6; 7; 10; 8] t0 lo0 hi0 cs Hc Hn (free_permitted g t0 cs Hns Hnd) Hg ltac:(done) Hv Hlen) as (h & s & ss & Er & Ht & (T1 & T2 & T3 & _) & Hx).
  exists h, s. split; [done|]. destruct (C82_rows D w 0 g [0; 4; 2] [] (S fuel) _ ss Ht) as [Hl _].
  assert (forall x F, (forall t τ, shows τ (bm_inputs f0 f2 f3 t) tt -> value τ x = Some (VS (F t))) -> map (fun s => value (s_store s) x) ss = map (fun y => Some (VS y)) (map F ts)) as Hset.
  { intros x F HF. apply rows_column; [done|]. intros k t s' Hk. destruct (C82_inputs D w 0 g [0; 4; 2] [] (S fuel) _ ss k t s' Ht Hk) as [Hs _]. by apply HF, Hs. }
  pose proof (Hset 0 f0 (fun t τ Hs => proj1 (bm_inputs_shown f0 f2 f3 t τ Hs))) as H0.
  pose proof (Hset 4 f2 (fun t τ Hs => proj1 (proj2 (bm_inputs_shown f0 f2 f3 t τ Hs)))) as H4.
  pose proof (Hset 2 f3 (fun t τ Hs => proj2 (proj2 (bm_inputs_shown f0 f2 f3 t τ Hs)))) as H2.
  assert (forall b v i o F, memory_at w g b v i o -> map (fun s => value (s_store s) i) ss = map (fun y => Some (VS y)) (map F ts) ->
    map (fun s => value (s_store s) o) ss = map (fun y => Some (VS y)) (take (length ts) (v :: map F ts))) as Hmem.
  { intros b v i o F (l & ob & Hb & _ & Hcl & Hst & Hi & Ho) Hcol.
    rewrite (C82_memory D w 0 g [0; 4; 2] [] (S fuel) _ ss l ob TyD (VS v) i o Ht Hns Hb Hcl Hst Hi Ho), Hcol. unfold ts, times. rewrite map_length.
    rewrite <- firstn_map. reflexivity. }
  assert (forall x ys, x ∈ [0; 1; 4; 2; 6; 7; 10; 8] -> map (fun s => value (s_store s) x) ss = map (fun y => Some (VS y)) ys -> tracked h x ys) as Htr.
  { intros x ys Hin' Hcol. unfold tracked. rewrite (T3 x Hin'). f_equal. by apply numbers_column. }
  split; [unfold ts, times; by rewrite map_length|]. split; [unfold ts, times; by rewrite map_map|].
  split_and!; (apply Htr; [apply elem_of_list_In; cbn; tauto|]); [exact H0|exact H4|exact H2|by eapply Hmem|by eapply Hmem|by eapply Hmem].
Qed.

(** The same program with a FastSimulator throws in the first call of run, whatever the
    functions and the initial value: FastSimulator waits for all inputs of the BusMemory
    itself, which does nothing with them, and nobody assigns x1, which is excluded. *)
Definition threw {S A} (e : err) (r : res S A) : bool := match r with Exn e' _ => match e, e' with EFast, EFast => true | _, _ => false end | _ => false end.
Lemma threw_fast {S A} (r : res S A) : threw EFast r = true -> exists s, r = Exn EFast s.
Proof. destruct r as [a s|e s|u|]; try done. intros E. exists s. destruct e; try discriminate E. reflexivity. Qed.
Theorem C23_bus_refuted : forall D `{NumOps D} (f0 f2 f3 : D -> D) (z t lo hi : D) fuel,
  let w := bm_world z in let g := fun m => bm_cfg f0 f2 f3 z m (fun l => l) in
  checked w 0 (g MDefault) [0; 4; 2] [] /\ exists s, run (g MFast) fuel t lo hi (new_sim (initial_dyn w)) = Exn EFast s.
Proof.
  intros D ? f0 f2 f3 z t lo hi fuel w g. split; [by apply bm_checked|]. apply threw_fast. vm_compute. reflexivity.
Qed.

(** ** Examples *)
From Coq Require Import QArith.
From Verif Require Import NumQ.
Local Open Scope nat_scope.
Definition ex83_calls : list (Q * Q * Q) := [(0, 0, 0); (1, 0, 0); (2, 0, 0); (5, 0, 0)]%Q.
Definition ex83_f (t : Q) : Q := (t * t)%Q.
Definition ex83_lines (r : res (simst Q) (hist Q)) : option (list (list (option Q))) :=
  match r with Ok h _ => match export_csv [0; 1] h with Ok l _ => Some (map (map (option_map Qred)) l) | _ => None end | _ => None end.
(** The programs, run. *)
Example ex83_memory : ex83_lines (record_program (mb_cfg (7#1)%Q ex83_f MDefault (fun l => l)) 1 3 [0; 1] ex83_calls (new_sim (initial_dyn (mb_world (7#1)%Q)))) =
  Some [[Some 0; Some 0; Some 7]; [Some 1; Some 1; Some 0]; [Some 2; Some 4; Some 1]; [Some 5; Some 25; Some 4]]%Q.
Proof. vm_compute. reflexivity. Qed.
Example ex83_gain : ex83_lines (record_program (gb_cfg (2#1)%Q ex83_f MFast (fun l => l)) 1 3 [0; 1] ex83_calls (new_sim (initial_dyn (gb_world (2#1)%Q)))) =
  Some [[Some 0; Some 0; Some 0]; [Some 1; Some 1; Some 2]; [Some 2; Some 4; Some 8]; [Some 5; Some 25; Some 50]]%Q.
Proof. vm_compute. reflexivity. Qed.
Example ex83_delay : ex83_lines (record_program (db_cfg ex83_f (1#2)%Q (9#1)%Q (10#1)%Q MDefault (fun l => l)) 1 3 [0; 1] ex83_calls (new_sim (initial_dyn (db_world ex83_f (1#2)%Q (9#1)%Q (10#1)%Q)))) =
  Some [[Some 0; Some 0; Some 9]; [Some 1; Some 1; Some 0]; [Some 2; Some 4; Some 1]; [Some 5; Some 25; Some 4]]%Q.
Proof. vm_compute. reflexivity. Qed.
(** With a delay of 5/2 the last rows are interpolated. *)
Example ex83_delay2 : ex83_lines (record_program (db_cfg ex83_f (5#2)%Q (9#1)%Q (10#1)%Q MDefault (fun l => l)) 1 3 [0; 1] ((3, 0, 0) :: [(4, 0, 0); (5, 0, 0); (6, 0, 0)])%Q (new_sim (initial_dyn (db_world ex83_f (5#2)%Q (9#1)%Q (10#1)%Q)))) =
  Some [[Some 3; Some 9; Some 9]; [Some 4; Some 16; Some 9]; [Some 5; Some 25; Some 9]; [Some 6; Some 36; Some (25#2)]]%Q.
Proof. vm_compute. reflexivity. Qed.
(** The hypotheses of C82 hold of them. *)
Example ex82_tabulated : exists ss, tabulated (mb_world (7#1)%Q) 0 (mb_cfg (7#1)%Q ex83_f MDefault (fun l => l)) [0] [] 1 ex83_calls ss /\ ~ has_state (g_tree (mb_cfg (7#1)%Q ex83_f MDefault (fun l => l))).
Proof.
  assert (~ has_state (g_tree (mb_cfg (7#1)%Q ex83_f MDefault (fun l => l)))) as Hns by (apply has_state_none; vm_compute; reflexivity).
  assert (~ has_delay (g_tree (mb_cfg (7#1)%Q ex83_f MDefault (fun l => l)))) as Hnd by (apply has_delay_none; vm_compute; reflexivity).
  assert (forall x, x ∈ [0; 1] -> value_sig (initial_store (mb_world (7#1)%Q)) x) as Hv by (apply value_sigs; vm_compute; reflexivity).
  pose proof (mb_checked (7#1)%Q ex83_f MDefault (fun l => l) ltac:(intros E; discriminate E) ltac:(intros l; reflexivity)) as Hc.
  assert (g_stepper (mb_cfg (7#1)%Q ex83_f MDefault (fun l => l)) = None) as Hn by reflexivity.
  revert Hc Hns Hnd Hn Hv. generalize (mb_cfg (7#1)%Q ex83_f MDefault (fun l => l)). generalize (mb_world (7#1)%Q). intros w g Hc Hns Hnd Hn Hv.
  destruct (recorded_table w 0 g [0] [] 0 3%N [0; 1] 0%Q 0%Q 0%Q [(1, 0, 0); (2, 0, 0); (5, 0, 0)]%Q Hc Hn (free_permitted g _ _ Hns Hnd) ltac:(lia) ltac:(intros E; discriminate E) Hv) as (h & s & ss & _ & Ht & _); [vm_compute; intros E; discriminate E|].
  exists ss. split; [exact Ht|exact Hns].
Qed.
Print Assumptions C83_memory.
Print Assumptions C83_gain.
Print Assumptions C83_delay.
Print Assumptions C83_bus.
Print Assumptions C23_bus_refuted.
Definition ex83_lines8 (r : res (simst Q) (hist Q)) : option (list (list (option Q))) :=
  match r with Ok h _ => match export_csv [0; 1; 4; 2; 6; 7; 10; 8] h with Ok l _ => Some (map (map (option_map Qred)) l) | _ => None end | _ => None end.
(** The columns of x1 and y1, which nobody assigns, are zeros. *)
Example ex83_bus : ex83_lines8 (record_program (bm_cfg ex83_f (fun t => 2 * t)%Q (fun t => 3 * t)%Q (7#1)%Q MDefault (fun l => l)) 1 3 [0; 1; 4; 2; 6; 7; 10; 8] ex83_calls (new_sim (initial_dyn (bm_world (7#1)%Q)))) =
  Some [[Some 0; Some 0; Some 0; Some 0; Some 0; Some 0; Some 0; Some 0; Some 7]; [Some 1; Some 1; Some 0; Some 2; Some 3; Some 0; Some 0; Some 0; Some 0];
        [Some 2; Some 4; Some 0; Some 4; Some 6; Some 1; Some 0; Some 2; Some 3]; [Some 5; Some 25; Some 0; Some 10; Some 15; Some 4; Some 0; Some 4; Some 6]]%Q.
Proof. vm_compute. reflexivity. Qed.
