(** Histories: C48, C49, C50, C51. *)
From stdpp Require Import prelude gmap.
From Coq Require Import ZArith NArith QArith.
From Verif Require Import Num NumQ Res Store Hist P_Store SpecRec P_Rec.
Local Open Scope nat_scope.

(** ** C51 *)
(** Only tracked signals are untracked. *)
Fixpoint untracks_tracked (sg : list nat) (ps : list pick) : Prop :=
  match ps with
  | [] => True
  | PTrack s :: ps' => untracks_tracked (if bool_decide (s ∈ sg) then sg else sg ++ [s]) ps'
  | PUntrack s :: ps' => s ∈ sg /\ untracks_tracked (List.filter (fun x => negb (Nat.eqb x s)) sg) ps'
  end.
Definition pick_sig (p : pick) : nat := match p with PTrack s | PUntrack s => s end.
Definition value_sig {D} (σ : store D) (s : nat) : Prop := exists c, σ !! s = Some c /\ c_kind c ≠ KBus.
Lemma value_sig_true {D} `{NumOps D} (σ : store D) s : value_sig σ s -> is_value_signal σ s = true.
Proof. intros (c & Hc & Hk). unfold is_value_signal. rewrite Hc. by destruct (c_kind c). Qed.

(** A history that has recorded nothing tracks what was chosen and changes nothing else. *)
Definition tracking {D} (grow : N) (sg : list nat) : hist D := Hist grow umax (replicate (N.to_nat grow) None) sg ∅.
Lemma picks_from {D} `{NumOps D} dbg (σ : store D) grow ps sg : NoDup sg -> Forall (fun p => value_sig σ (pick_sig p)) ps -> untracks_tracked sg ps ->
  forM ps (do_pick dbg σ) (tracking grow sg) = Ok tt (tracking grow (fold_left (fun sg p => match p with
                         | PTrack s => if bool_decide (s ∈ sg) then sg else sg ++ [s]
                         | PUntrack s => List.filter (fun x => negb (Nat.eqb x s)) sg
                         end) ps sg)).
Proof.
  revert sg. induction ps as [|p ps IH]; intros sg Hn Hv Hu; [done|]. apply Forall_cons in Hv as [Hv Hvs]. apply value_sig_true in Hv.
  cbn [forM fold_left]. unfold bnd at 1.
  assert (hist_empty (tracking (D:=D) grow sg) = true) as He by (by apply bool_decide_true).
  destruct p as [s|s]; cbn [do_pick pick_sig untracks_tracked] in *.
  - unfold bnd at 1. unfold track, bnd, gets. rewrite He. assert (debug_verify dbg true EAssert (tracking grow sg) = Ok tt (tracking (D:=D) grow sg)) as -> by (by destruct dbg).
    rewrite Hv. cbn [hi_sigs tracking andb]. destruct (decide (s ∈ sg)).
    + rewrite bool_decide_true in * by done. cbn. by apply IH.
    + rewrite bool_decide_false in * by done. cbn. apply IH; [|done|done]. apply NoDup_app. split; [done|]. split; [|apply NoDup_singleton].
      intros x Hx Hs. apply elem_of_list_singleton in Hs as ->. done.
  - destruct Hu as [Hs Hu]. unfold untrack, bnd, gets. rewrite He. assert (debug_verify dbg true EAssert (tracking grow sg) = Ok tt (tracking (D:=D) grow sg)) as -> by (by destruct dbg).
    rewrite Hv. cbn [hi_sigs tracking]. rewrite remove_first_ok by done. cbn. apply IH; [|done|done]. by apply NoDup_ListNoDup, List.NoDup_filter, NoDup_ListNoDup.
Qed.
Theorem C51_picked : forall D `{NumOps D} dbg (σ : store D) grow ps, Forall (fun p => value_sig σ (pick_sig p)) ps -> untracks_tracked [] ps ->
  NoDup (picked ps) /\ forM ps (do_pick dbg σ) (new_hist grow) = Ok tt (tracking grow (picked ps)).
Proof. intros D ? dbg σ grow ps Hv Hu. split; [apply picked_nodup|]. apply (picks_from dbg σ grow ps []); [constructor|done|done]. Qed.
(** Untracking removes exactly the signal named ... *)
Theorem C51_untrack : forall D `{NumOps D} dbg (σ : store D) grow sg s, NoDup sg -> value_sig σ s -> s ∈ sg ->
  exists sg', untrack dbg σ s (tracking grow sg) = Ok tt (tracking grow sg') /\ forall x, x ∈ sg' <-> x ∈ sg /\ x ≠ s.
Proof.
  intros D ? dbg σ grow sg s Hn Hv Hs. exists (List.filter (fun x => negb (Nat.eqb x s)) sg). split.
  - pose proof (picks_from dbg σ grow [PUntrack s] sg Hn) as Hp. cbn in Hp. unfold bnd in Hp.
    specialize (Hp ltac:(by constructor; [|constructor]) ltac:(done)). destruct (untrack dbg σ s (tracking grow sg)) as [[] h| | |]; done.
  - intros x. rewrite elem_of_list_In, filter_In, <- elem_of_list_In, negb_true_iff, Nat.eqb_neq. done.
Qed.
(** ... and is undefined for a value signal that is not tracked. *)
Theorem C51_refuted : forall D `{NumOps D} dbg (σ : store D) grow sg s, value_sig σ s -> s ∉ sg -> untrack dbg σ s (tracking grow sg) = UB UErase.
Proof.
  intros D ? dbg σ grow sg s Hv%value_sig_true Hs. unfold untrack, bnd, gets.
  assert (hist_empty (tracking (D:=D) grow sg) = true) as -> by (by apply bool_decide_true).
  assert (debug_verify dbg true EAssert (tracking grow sg) = Ok tt (tracking (D:=D) grow sg)) as -> by (by destruct dbg).
  rewrite Hv. cbn [hi_sigs tracking]. by rewrite remove_first_none.
Qed.

(** ** C48 *)
Section ex.
  Definition recording {D} `{NumOps D} (dbg : bool) (σ0 : store D) (ps : list pick) (os : list (rec D)) : M (hist D) unit :=
    forM ps (do_pick dbg σ0) ;;; forM os (do_rec dbg).
End ex.
(** The signals keep their types and hold values of these types, and the row numbers
    stay below the limit of the type uint. *)
Definition recordable {D} (grow : N) (sigs : list nat) (K : nat -> kind) (os : list (rec D)) : Prop := Forall (valid_rec grow sigs K) os.

Lemma recording_holds {D} `{NumOps D} dbg σ0 grow ps os K : (0 < grow < two32)%N -> Forall (fun p => value_sig σ0 (pick_sig p)) ps -> untracks_tracked [] ps -> picked ps ≠ [] ->
  recordable grow (picked ps) K os ->
  exists h, recording dbg σ0 ps os (new_hist grow) = Ok tt h /\ holds grow (picked ps) K os h /\ (match os with RShrink :: _ => False | _ => True end -> aligned grow h).
Proof.
  intros Hg Hv Hu Hn Hr. destruct (C51_picked D dbg σ0 grow ps Hv Hu) as [Hnd Hp]. unfold recording, bnd. rewrite Hp.
  destruct (recs_hold dbg grow (picked ps) K Hg Hn Hnd os (tracking grow (picked ps)) Hr) as (h & Ho & Hh & Ha).
  - split; cbn; try done; [by left|lia|].
    intros i. unfold time_ok. cbn. intros x Hx. by apply lookup_replicate in Hx as [-> _].
  - exists h. split; [done|]. split; [done|]. apply Ha. split; cbn; [intros _; apply replicate_length|]. intros s m Hm. by rewrite lookup_empty in Hm.
Qed.

Theorem C48_recorded : forall D `{NumOps D} dbg (σ0 : store D) grow ps os K, (0 < grow < two32)%N ->
  Forall (fun p => value_sig σ0 (pick_sig p)) ps -> untracks_tracked [] ps -> picked ps ≠ [] -> recordable grow (picked ps) K os ->
  exists h, recording dbg σ0 ps os (new_hist grow) = Ok tt h /\ nrows h = rows_used os /\
    forall k σ t, last_update os k = Some (σ, t) -> hi_time h !! N.to_nat k = Some (Some t) /\
      forall s, s ∈ picked ps -> exists m, hist_get σ s h = Ok m h /\ m !! N.to_nat k = Some (map Some (numbers σ s)).
Proof.
  intros D ? dbg σ0 grow ps os K Hg Hv Hu Hn Hr. destruct (recording_holds dbg σ0 grow ps os K Hg Hv Hu Hn Hr) as (h & Ho & Hh & _).
  exists h. split; [done|]. split; [by eapply bottom_nrows|]. intros k σ t Hl. split.
  - pose proof (ho_time _ _ _ _ _ Hh (N.to_nat k)) as Ht. unfold time_ok in Ht. by rewrite N2Nat.id, Hl in Ht.
  - intros s Hs. destruct (ho_rows _ _ _ _ _ Hh) as [(Hz & _)|(_ & _ & Hd)]; [apply mk_is_Some, last_update_below in Hl; lia|].
    destruct (proj2 (Hd s) Hs) as [m Hm]. exists m. split.
    + apply last_update_in in Hl. unfold recordable in Hr. rewrite Forall_forall in Hr. destruct (Hr _ Hl) as [[_ Hf] _]. destruct (Hf s Hs) as (Hb & c & Hc & Hk).
      unfold hist_get, bnd, verify, gets. rewrite value_sig_true by (exists c; split; [done|congruence]). cbn. by rewrite Hm.
    + pose proof (ho_map _ _ _ _ _ Hh s m Hm (N.to_nat k)) as Ht. unfold row_ok in Ht. by rewrite N2Nat.id, Hl in Ht.
Qed.

(** ** C49 *)
Lemma cresize_take {A} n (f : A) l : n <= length l -> cresize n f l = take n l.
Proof. intros Hl. unfold cresize. replace (n - length l) with 0 by lia. by rewrite app_nil_r. Qed.
Theorem C49_shrunk : forall D `{NumOps D} dbg (σ0 : store D) grow ps os K, (0 < grow < two32)%N ->
  Forall (fun p => value_sig σ0 (pick_sig p)) ps -> untracks_tracked [] ps -> picked ps ≠ [] -> recordable grow (picked ps) K os ->
  match os with RShrink :: _ => False | _ => True end -> forall h, recording dbg σ0 ps os (new_hist grow) = Ok tt h ->
  let n := N.to_nat (rows_used os) in
  length (hi_time (shrink_to_fit h)) = n /\ hi_time (shrink_to_fit h) = take n (hi_time h) /\ nrows (shrink_to_fit h) = nrows h /\
  forall s m, hi_map h !! s = Some m -> exists m', hi_map (shrink_to_fit h) !! s = Some m' /\ length m' = n /\ m' = take n m.
Proof.
  intros D ? dbg σ0 grow ps os K Hg Hv Hu Hn Hr Hst h Ho n. destruct (recording_holds dbg σ0 grow ps os K Hg Hv Hu Hn Hr) as (h' & Ho' & Hh & Ha).
  rewrite Ho in Ho'. injection Ho' as <-. specialize (Ha Hst).
  destruct (shrink_ok grow (picked ps) K Hg Hn (picked_nodup ps) os h) as (Hh2 & Hl & _); [done..|]. split; [done|].
  pose proof (time_long grow (picked ps) K Hg os h) as Htl. specialize (Htl ltac:(done)).
  assert (forall s m, hi_map h !! s = Some m -> (rows_used os <= N.of_nat (length m))%N) as Hml by (intros s m; by eapply map_long).
  assert (nrows (shrink_to_fit h) = nrows h) as Enr by (unfold shrink_to_fit; by destruct (N.leb _ _)).
  split_and!; [|exact Enr|]; clear Enr; revert Hl; clear Hh2; unfold shrink_to_fit; rewrite (bottom_nrows grow (picked ps) K Hg os h) by done; destruct (N.leb_spec (N.of_nat (length (hi_time h))) (rows_used os)) as [Hle|Hlt]; intros Hl.
  - symmetry. apply take_ge. unfold n. lia.
  - cbn [hi_time]. apply cresize_take. lia.
  - intros s m Hm. exists m. split; [done|]. assert (length m = length (hi_time h)) as E by (by eapply (proj2 Ha)). split; [unfold n; lia|]. symmetry. apply take_ge. unfold n. lia.
  - cbn [hi_map]. intros s m Hm. rewrite lookup_fmap, Hm. cbn. eexists. split; [done|]. specialize (Hml s m Hm). split; [apply cresize_length|]. apply cresize_take. lia.
Qed.

(** ** C50 *)
(** A line of the table. *)
Definition line {D} `{NumOps D} (K : nat -> kind) (os : list (rec D)) (order : list nat) (k : nat) : list (option D) :=
  match last_update os (N.of_nat k) with
  | Some (σ, t) => Some t :: concat (map (fun s => map Some (numbers σ s)) order)
  | None => None :: concat (map (fun s => replicate (width_of K s) None) order)
  end.
Lemma line_width {D} `{NumOps D} grow K os (σ : store D) order k : recordable grow order K os -> fitting order K σ -> length (line K os order k) = S (length (columns σ order)).
Proof.
  intros Hr Hf. unfold line, columns.
  assert (forall f : nat -> list (option D), (forall s, s ∈ order -> length (f s) = width_of K s) ->
    length (concat (map f order)) = length (concat (map (fun s => match σ !! s with Some c => match c_kind c with KArray n => map (fun k => (s, Some k)) (seq 0 n) | _ => [(s, None)] end | None => [(s, None)] end) order))) as Hc.
  { intros f Hw. destruct Hf as [_ Hf]. clear Hr. induction order as [|s order IH]; [done|]. cbn. rewrite !app_length. f_equal.
    - rewrite Hw by (by apply elem_of_list_here). destruct (Hf s ltac:(by apply elem_of_list_here)) as (Hb & c & -> & Hk). unfold width_of. rewrite Hk.
      destruct (K s); try done. by rewrite map_length, seq_length.
    - apply IH; intros x Hx; [apply Hf|apply Hw]; by apply elem_of_list_further. }
  destruct (last_update os (N.of_nat k)) as [[σ' t]|] eqn:E; cbn [length]; f_equal; apply Hc.
  - intros s Hs. rewrite map_length. apply last_update_in in E. unfold recordable in Hr. rewrite Forall_forall in Hr. destruct (Hr _ E) as [Hf' _]. by eapply numbers_length.
  - intros s _. apply replicate_length.
Qed.
Lemma row_cells_ok {D} `{NumOps D} grow sigs K os (h h' : hist D) k order : holds grow sigs K os h -> aligned grow h -> k < length (hi_time h) -> order ⊆ sigs -> (0 < rows_used os)%N ->
  row_cells h k order h' = Ok (tail (line K os order k)) h'.
Proof.
  intros Hh [_ Ha] Hk Hs Hp. induction order as [|s order IH]; cbn [row_cells].
  - unfold line. by destruct (last_update _ _) as [[]|].
  - destruct (ho_rows _ _ _ _ _ Hh) as [(Hz & _)|(_ & _ & Hd)]; [lia|]. destruct (proj2 (Hd s) (Hs s ltac:(by apply elem_of_list_here))) as [m Hm].
    rewrite Hm. pose proof (Ha s m Hm) as El. destruct (lookup_lt_is_Some_2 m k ltac:(lia)) as [r Hr]. rewrite Hr. unfold bnd.
    rewrite IH by (intros x Hx; apply Hs; by apply elem_of_list_further). unfold ret. f_equal. pose proof (ho_map _ _ _ _ _ Hh s m Hm k) as Ho. unfold row_ok in Ho. rewrite Hr in Ho.
    unfold line. destruct (last_update _ _) as [[σ t]|]; cbn.
    + injection Ho as ->. done.
    + by rewrite (Ho _ eq_refl).
Qed.
Lemma export_ok {D} `{NumOps D} grow sigs K os (h : hist D) order : holds grow sigs K os h -> aligned grow h -> order ⊆ sigs -> sigs ≠ [] -> (0 < rows_used os)%N ->
  export_csv order h = Ok (map (line K os order) (seq 0 (length (hi_time h)))) h.
Proof.
  intros Hh Ha Hs Hn Hp. unfold export_csv, bnd, gets. cbn [id].
  assert (hist_empty h = false) as ->.
  { apply bool_decide_false. intros E. destruct (ho_rows _ _ _ _ _ Hh) as [(Hz & _)|(_ & _ & Hd)]; [lia|]. destruct sigs as [|z zs]; [done|].
    destruct (proj2 (Hd z) ltac:(by apply elem_of_list_here)) as [? Hx]. by rewrite E in Hx. }
  assert (forall ks, (forall k, k ∈ ks -> k < length (hi_time h)) -> export_rows h ks order h = Ok (map (line K os order) ks) h) as Hks.
  { induction ks as [|k ks IH]; intros Hk; [done|]. cbn [export_rows]. specialize (Hk k) as Hk0. specialize (Hk0 ltac:(by apply elem_of_list_here)).
    destruct (lookup_lt_is_Some_2 _ _ Hk0) as [x Hx]. rewrite Hx. unfold bnd. rewrite (row_cells_ok grow sigs K os) by done.
    rewrite IH by (intros k' Hk'; apply Hk; by apply elem_of_list_further). unfold ret. cbn [map]. f_equal. f_equal.
    pose proof (ho_time _ _ _ _ _ Hh k) as Ht. unfold time_ok in Ht. rewrite Hx in Ht. unfold line. destruct (last_update _ _) as [[σ t]|]; cbn; [by injection Ht as ->|]. by rewrite (Ht _ eq_refl). }
  apply Hks. intros k Hk. apply elem_of_seq in Hk. lia.
Qed.

(** After updates (at least one) and shrink_to_fit, a table with a line for every row,
    each with as many columns as the header has. *)
Theorem C50_table : forall D `{NumOps D} dbg (σ0 : store D) grow ps os K order, (0 < grow < two32)%N ->
  Forall (fun p => value_sig σ0 (pick_sig p)) ps -> untracks_tracked [] ps -> picked ps ≠ [] -> recordable grow (picked ps) K os -> order ≡ₚ picked ps ->
  match os with RUpdate _ _ _ :: _ => True | _ => False end -> forall h, recording dbg σ0 ps os (new_hist grow) = Ok tt h ->
  exists ls, export_csv order (shrink_to_fit h) = Ok ls (shrink_to_fit h) /\ length ls = N.to_nat (rows_used os) /\
    (forall k, k < N.to_nat (rows_used os) -> ls !! k = Some (line K os order k)) /\
    (forall (σ : store D) l, fitting (picked ps) K σ -> l ∈ ls -> length l = S (length (columns σ order))).
Proof.
  intros D ? dbg σ0 grow ps os K order Hg Hv Hu Hn Hr Hord Hst h Ho. destruct (recording_holds dbg σ0 grow ps os K Hg Hv Hu Hn Hr) as (h' & Ho' & Hh & Ha).
  rewrite Ho in Ho'. injection Ho' as <-. assert (aligned grow h) as Ha' by (apply Ha; by destruct os as [|[] os]).
  assert (0 < rows_used os)%N as Hp.
  { destruct os as [|[σ k t|] os]; try done. clear. unfold rows_used. cbn.
    assert (forall l n, (n <= fold_left (fun n (o : rec D) => match o with RUpdate _ k _ => N.max n (N.succ k) | RShrink => n end) l n)%N) as Hm.
    { induction l as [|[] l IH]; intros n; cbn; [lia| |apply IH]. eapply N.le_trans; [|apply IH]. lia. }
    specialize (Hm os (N.max 0 (N.succ k))). lia. }
  destruct (shrink_ok grow (picked ps) K Hg Hn (picked_nodup ps) os h) as (Hh2 & Hl & Ha2); [done..|]. specialize (Ha2 Hp Ha').
  assert (forall k, line K (os ++ [RShrink]) order k = line K os order k) as El by (intros k; unfold line; by rewrite last_update_snoc).
  exists (map (line K os order) (seq 0 (N.to_nat (rows_used os)))). split.
  - rewrite (export_ok grow (picked ps) K (os ++ [RShrink])); [|done|done|by intros x; rewrite Hord|done|by rewrite rows_used_snoc]. rewrite Hl. f_equal. apply map_ext, El.
  - split; [by rewrite map_length, seq_length|]. split.
    + intros k Hk. rewrite list_lookup_fmap, lookup_seq_lt by done. done.
    + intros σ l Hf (k & <- & _)%elem_of_list_In%in_map_iff. apply (line_width grow).
      * unfold recordable in *. eapply Forall_impl; [exact Hr|]. intros [σ' k' t|]; [|done]. intros [[H1 H2] H3]. split; [|done]. split; [done|]. intros s Hs. apply H2. by rewrite <- Hord.
      * destruct Hf as [H1 H2]. split; [done|]. intros s Hs. apply H2. by rewrite <- Hord.
Qed.
(** If no row number was left out, every number written was recorded. *)
Theorem C50_complete : forall D `{NumOps D} grow (K : nat -> kind) (os : list (rec D)) order k, recordable grow order K os -> is_Some (last_update os (N.of_nat k)) ->
  Forall is_Some (line K os order k).
Proof.
  intros D ? grow K os order k Hr [[σ t] E]. unfold line. rewrite E. constructor; [done|]. apply Forall_concat, Forall_map, Forall_true. intros s. apply Forall_map, Forall_true. done.
Qed.

(** An example: a scalar and an array; and what goes wrong in general. *)
Local Open Scope Q_scope.
Definition ex_store (x : Q) (a : bool) : store Q :=
  <[1%nat := Cell KScalar None true (Some (VS x))]> (<[2%nat := Cell (KArray 2) None a (Some (VA [x; x + 1]))]> ∅).
Definition ex_K (s : nat) : kind := if Nat.eqb s 2 then KArray 2 else KScalar.
Definition ex_os : list (rec Q) := [RUpdate (ex_store 5 true) 0 0; RUpdate (ex_store 6 true) 3 1; RUpdate (ex_store 7 false) 1 2; RShrink; RUpdate (ex_store 8 true) 3 3].
Definition ex_ps : list pick := [PTrack 1; PTrack 2; PTrack 1; PUntrack 1; PTrack 1].
Lemma ex_fits x a : fitting [2; 1]%nat ex_K (ex_store x a).
Proof.
  split.
  - intros s c. unfold ex_store. intros [[<- <-]|[_ [[<- <-]|[_ He]]%lookup_insert_Some]]%lookup_insert_Some.
    + split; [done|]. by intros v [= <-].
    + split; [done|]. by intros v [= <-].
    + by rewrite lookup_empty in He.
  - intros s Hs. apply elem_of_cons in Hs as [->|Hs]; [split; [done|]; by eexists|]. apply elem_of_cons in Hs as [->|Hs]; [split; [done|]; by eexists|]. by apply elem_of_nil in Hs.
Qed.
Example C48_ex : Forall (fun p => value_sig (ex_store 0 false) (pick_sig p)) ex_ps /\ untracks_tracked [] ex_ps /\ picked ex_ps = [2; 1]%nat /\
  recordable 2 (picked ex_ps) ex_K ex_os /\ last_update ex_os 3 = Some (ex_store 8 true, 3) /\ rows_used ex_os = 4%N /\
  match recording true (ex_store 0 false) ex_ps ex_os (new_hist 2) with
  | Ok _ h => hi_time (shrink_to_fit h) = [Some 0; Some 2; None; Some 3] /\ hi_map h !! 2%nat = Some [[Some 5; Some (5 + 1)]; [Some 0; Some 0]; [None; None]; [Some 8; Some (8 + 1)]]
  | _ => False end.
Proof.
  assert (picked ex_ps = [2; 1]%nat) as Ep by (vm_compute; reflexivity).
  split. { repeat constructor; by eexists. }
  split. { vm_compute. split; [|exact I]. apply elem_of_list_here. }
  split; [done|]. split. { rewrite Ep. unfold recordable, ex_os. repeat (constructor; [first [exact I | split; [apply ex_fits|vm_compute; reflexivity]]|]). constructor. }
  split; [vm_compute; reflexivity|]. split; [vm_compute; reflexivity|]. vm_compute. split; reflexivity.
Qed.
(** shrink_to_fit before the first update: the matrices get fewer or more rows than
    the time column, shrink_to_fit does not repair that ... *)
Lemma ex_fits1 x a : fitting [1]%nat ex_K (ex_store x a).
Proof. destruct (ex_fits x a) as [H1 H2]. split; [done|]. intros s Hs. apply H2. by apply elem_of_list_further. Qed.
Lemma ex_valid1 x a k t : (k + 2 < two32)%N -> valid_rec 2 [1]%nat ex_K (RUpdate (ex_store x a) k t).
Proof. intros Hk. split; [apply ex_fits1|done]. Qed.
Theorem C49_refuted : exists (os : list (rec Q)) h m, recordable 2 [1]%nat ex_K os /\ recording true (ex_store 0 false) [PTrack 1] os (new_hist 2) = Ok tt h /\
  hi_map (shrink_to_fit h) !! 1%nat = Some m /\ nrows h = 3%N /\ length (hi_time (shrink_to_fit h)) = 3%nat /\ length m = 4%nat.
Proof.
  exists [RShrink; RUpdate (ex_store 5 true) 1 0; RUpdate (ex_store 6 true) 2 1]. eexists _, _.
  split; [unfold recordable; repeat (constructor; [first [exact I | apply ex_valid1; vm_compute; reflexivity]|]); constructor|].
  split; [vm_compute; reflexivity|]. split; [vm_compute; reflexivity|]. vm_compute. repeat split; reflexivity.
Qed.
(** ... and export_csv reads outside the matrices. *)
Theorem C50_refuted : exists (os1 os2 : list (rec Q)), recordable 2 [1]%nat ex_K os1 /\ recordable 2 [1]%nat ex_K os2 /\
  (recording true (ex_store 0 false) [PTrack 1] os1 ;;; export_csv [1]%nat) (new_hist 2) = UB UIndex /\
  match (recording true (ex_store 0 false) [PTrack 1] os2 ;;; export_csv [1]%nat) (new_hist 2) with Ok ls _ => ls = [[Some 0; Some 5]; [None; None]] | _ => False end.
Proof.
  exists [RShrink; RUpdate (ex_store 5 true) 1 0], [RUpdate (ex_store 5 true) 0 0].
  split; [|split; [|split; vm_compute; reflexivity]].
  all: unfold recordable; repeat (constructor; [first [exact I | apply ex_valid1; vm_compute; reflexivity]|]); constructor.
Qed.
Print Assumptions C48_recorded. Print Assumptions C49_shrunk. Print Assumptions C49_refuted. Print Assumptions C50_table. Print Assumptions C50_complete. Print Assumptions C50_refuted.
Print Assumptions C51_picked. Print Assumptions C51_untrack. Print Assumptions C51_refuted.
