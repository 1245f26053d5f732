(** Histories contain what SpecRec.v says. *)
From stdpp Require Import prelude gmap.
From Coq Require Import ZArith NArith.
From Verif Require Import Num Res Store Hist P_Store SpecRec.

Section spec.
  Context {D : Type}.
  Implicit Types os : list (rec D).
  Lemma last_update_snoc os o k : last_update (os ++ [o]) k = match o with RUpdate σ k' t => if N.eqb k' k then Some (σ, t) else last_update os k | RShrink => last_update os k end.
  Proof. unfold last_update. by rewrite fold_left_app. Qed.
  Lemma rows_used_snoc os o : rows_used (os ++ [o]) = match o with RUpdate _ k _ => N.max (rows_used os) (N.succ k) | RShrink => rows_used os end.
  Proof. unfold rows_used. by rewrite fold_left_app. Qed.
  Lemma last_update_below os k : is_Some (last_update os k) -> (k < rows_used os)%N.
  Proof.
    induction os as [|o os IH] using rev_ind; [by intros [? ?]|]. rewrite last_update_snoc, rows_used_snoc. destruct o as [σ k' t|]; [|done].
    destruct (N.eqb_spec k' k) as [->|]; [lia|]. intros Hi. apply IH in Hi. lia.
  Qed.
  Lemma last_update_top os : (0 < rows_used os)%N -> is_Some (last_update os (N.pred (rows_used os))).
  Proof.
    induction os as [|o os IH] using rev_ind; [cbn; lia|]. rewrite last_update_snoc, rows_used_snoc. destruct o as [σ k' t|]; [|done].
    intros _. destruct (N.eqb_spec k' (N.pred (N.max (rows_used os) (N.succ k')))); [done|]. assert (rows_used os > N.succ k')%N by lia.
    rewrite N.max_l by lia. apply IH. lia.
  Qed.
  Lemma last_update_in os k σ t : last_update os k = Some (σ, t) -> RUpdate σ k t ∈ os.
  Proof.
    induction os as [|o os IH] using rev_ind; [done|]. rewrite last_update_snoc, elem_of_app, elem_of_list_singleton. destruct o as [σ' k' t'|]; [|auto].
    destruct (N.eqb_spec k' k) as [->|]; [intros [= <- <-]; by right|auto].
  Qed.
End spec.

Lemma lookup_cresize {A} n (f : A) l i : cresize n f l !! i = if Nat.ltb i n then (if Nat.ltb i (length l) then l !! i else Some f) else None.
Proof.
  unfold cresize. destruct (Nat.ltb_spec i n) as [Hn|Hn].
  - destruct (Nat.ltb_spec i (length l)).
    + rewrite lookup_app_l by (rewrite take_length; lia). by rewrite lookup_take.
    + rewrite lookup_app_r by (rewrite take_length; lia). rewrite take_length. apply lookup_replicate_2. lia.
  - apply lookup_ge_None_2. rewrite app_length, take_length, replicate_length. lia.
Qed.
Lemma cresize_length {A} n (f : A) l : length (cresize n f l) = n.
Proof. unfold cresize. rewrite app_length, take_length, replicate_length. lia. Qed.

Section rec.
  Context {D : Type} `{NumOps D}.
  Context (dbg : bool) (grow : N) (sigs : list nat) (K : nat -> kind).
  Context (Hgrow : (0 < grow < two32)%N) (Hsigs : sigs ≠ []) (Hnd : NoDup sigs).
  Implicit Types h : hist D.
  Implicit Types os : list (rec D).

  Definition width_of (s : nat) : nat := match K s with KArray n => n | _ => 1 end.
  Definition fitting (σ : store D) : Prop := store_ok σ /\ forall s, s ∈ sigs -> K s ≠ KBus /\ exists c, σ !! s = Some c /\ c_kind c = K s.
  Definition valid_rec (o : rec D) : Prop := match o with RUpdate σ k _ => fitting σ /\ (k + grow < two32)%N | RShrink => True end.

  Lemma fitting_cols σ s : fitting σ -> s ∈ sigs -> ncols σ s = width_of s.
  Proof. intros [_ Hf] Hs. destruct (Hf s Hs) as (_ & c & Hc & Hk). unfold ncols, width_of. by rewrite Hc, Hk. Qed.
  Lemma numbers_length σ s : fitting σ -> s ∈ sigs -> length (numbers σ s) = width_of s.
  Proof.
    intros [Hok Hf] Hs. destruct (Hf s Hs) as (Hb & c & Hc & Hk). unfold numbers, value, width_of. rewrite Hc, <- Hk.
    destruct (Hok s c Hc) as [_ Hv]. destruct c as [k d a v]. cbn in *. subst k. destruct a, v as [v|].
    - destruct (Hv v eq_refl) as [H1 H2]. destruct (K s), v; try done. cbn in *. by apply Nat.eqb_eq in H2.
    - destruct (K s); try done. apply replicate_length.
    - destruct (K s); try done. apply replicate_length.
    - destruct (K s); try done. apply replicate_length.
  Qed.
  Lemma sample_numbers σ s h : fitting σ -> s ∈ sigs -> sample dbg σ s h = Ok (numbers σ s) h.
  Proof.
    intros Hf Hs. pose proof (numbers_length σ s Hf Hs) as Hn. pose proof (fitting_cols σ s Hf Hs) as Hcol. destruct Hf as [Hok Hf]. destruct (Hf s Hs) as (Hb & c & Hc & Hk).
    destruct (Hok s c Hc) as [Ha Hv]. unfold sample, numbers, value, get_value in *. rewrite Hc in *. destruct (c_asg c) eqn:Ea.
    - destruct (Ha eq_refl) as [v Ev]. rewrite Ev in *. destruct (Hv v eq_refl) as [H1 H2].
      assert (payload_size_ok c = true) as -> by (unfold payload_size_ok; by rewrite Ev). cbn [negb]. rewrite !andb_false_r.
      destruct v; [done|done|by destruct b|]. rewrite Hcol, Hn, Nat.eqb_refl. done.
    - rewrite Hcol. unfold width_of. rewrite <- Hk. destruct c as [k d a v]. cbn in *. by destruct k.
  Qed.

  (** A row written in a matrix, extended if necessary. *)
  Definition written (σ : store D) (k : N) (s : nat) (m : list (list (option D))) : list (list (option D)) :=
    <[N.to_nat k := map Some (numbers σ s)]> (if N.leb (N.of_nat (length m)) k then cresize (N.to_nat (k + grow)) (replicate (width_of s) None) m else m).
  Lemma uadd_small a b : (a + b < two32)%N -> uadd a b = (a + b)%N.
  Proof. intros Hl. unfold uadd. by apply N.mod_small. Qed.
  Lemma update_sig_ok σ k s h m : fitting σ -> s ∈ sigs -> (k + grow < two32)%N -> hi_grow h = grow -> hi_map h !! s = Some m ->
    update_sig dbg σ k s h = Ok tt (Hist (hi_grow h) (hi_bottom h) (hi_time h) (hi_sigs h) (<[s := written σ k s m]> (hi_map h))).
  Proof.
    intros Hf Hs Hk Hg Hm. unfold update_sig, bnd, gets. cbn [id]. rewrite Hm, Hg, (uadd_small _ _ Hk), (fitting_cols _ _ Hf Hs).
    rewrite (sample_numbers _ _ _ Hf Hs). unfold written.
    destruct (Nat.ltb_spec (N.to_nat k) (length (if N.leb (N.of_nat (length m)) k then cresize (N.to_nat (k + grow)) (replicate (width_of s) None) m else m))) as [_|Hlt]; [unfold modify; by rewrite Hg|].
    exfalso. revert Hlt. destruct (N.leb_spec (N.of_nat (length m)) k); [rewrite cresize_length|]; lia.
  Qed.
  Lemma update_sigs_ok σ k ss h : fitting σ -> ss ⊆ sigs -> NoDup ss -> (k + grow < two32)%N -> hi_grow h = grow -> (forall s, s ∈ ss -> is_Some (hi_map h !! s)) ->
    exists h', forM ss (update_sig dbg σ k) h = Ok tt h' /\ hi_grow h' = hi_grow h /\ hi_bottom h' = hi_bottom h /\ hi_time h' = hi_time h /\ hi_sigs h' = hi_sigs h /\
      forall s, hi_map h' !! s = if bool_decide (s ∈ ss) then written σ k s <$> hi_map h !! s else hi_map h !! s.
  Proof.
    intros Hf Hsub Hn Hk. revert h. induction ss as [|s ss IH]; intros h Hg Hm; cbn [forM].
    - exists h. split; [done|]. do 4 (split; [done|]). intros s. by rewrite bool_decide_false by (apply not_elem_of_nil).
    - apply NoDup_cons in Hn as [Hns Hn]. destruct (Hm s ltac:(by apply elem_of_list_here)) as [m Em].
      unfold bnd. rewrite (update_sig_ok _ _ _ _ m Hf (Hsub s ltac:(by apply elem_of_list_here)) Hk Hg Em).
      destruct (IH ltac:(intros x Hx; apply Hsub; by apply elem_of_list_further) Hn (Hist (hi_grow h) (hi_bottom h) (hi_time h) (hi_sigs h) (<[s:=written σ k s m]> (hi_map h)))) as (h' & Hr & Hg' & Hb' & Ht' & Hs' & Hm').
      { done. }
      { intros x Hx. cbn. destruct (decide (s = x)) as [->|Hne]; [by rewrite lookup_insert|]. rewrite lookup_insert_ne by done. apply Hm. by apply elem_of_list_further. }
      exists h'. split; [done|]. do 4 (split; [done|]). intros x. rewrite Hm'. cbn. destruct (decide (s = x)) as [->|Hne].
      + rewrite (bool_decide_false (x ∈ ss)) by done. rewrite lookup_insert. rewrite bool_decide_true by (by apply elem_of_list_here). by rewrite Em.
      + rewrite lookup_insert_ne by done. destruct (decide (x ∈ ss)).
        * rewrite !bool_decide_true; [done|by apply elem_of_list_further|done].
        * rewrite !bool_decide_false; [done| |done]. by intros [->|?]%elem_of_cons.
  Qed.

  Definition row_ok os (s i : nat) (r : option (list (option D))) : Prop :=
    match last_update os (N.of_nat i) with
    | Some (σ, _) => r = Some (map Some (numbers σ s))
    | None => forall x, r = Some x -> x = replicate (width_of s) None
    end.
  Definition time_ok os (i : nat) (r : option (option D)) : Prop :=
    match last_update os (N.of_nat i) with
    | Some (_, t) => r = Some (Some t)
    | None => forall x, r = Some x -> x = None
    end.
  Record holds os h : Prop := {
    ho_grow : hi_grow h = grow;
    ho_sigs : hi_sigs h = sigs;
    ho_rows : (rows_used os = 0%N /\ hi_bottom h = umax /\ hi_map h = ∅) \/
      ((0 < rows_used os)%N /\ hi_bottom h = N.pred (rows_used os) /\ forall s, is_Some (hi_map h !! s) <-> s ∈ sigs);
    ho_small : (rows_used os + grow <= two32)%N;
    ho_time : forall i, time_ok os i (hi_time h !! i);
    ho_map : forall s m, hi_map h !! s = Some m -> forall i, row_ok os s i (m !! i)
  }.
  (** The matrices have as many rows as the time column. *)
  Definition aligned h : Prop :=
    (hi_map h = ∅ -> length (hi_time h) = N.to_nat grow) /\ forall s m, hi_map h !! s = Some m -> length m = length (hi_time h).

  Lemma row_ok_snoc σ k t os s i (m : list (list (option D))) : row_ok os s i (m !! i) -> row_ok (os ++ [RUpdate σ k t]) s i (written σ k s m !! i).
  Proof.
    intros Hr. unfold row_ok in *. rewrite last_update_snoc. unfold written.
    assert (N.to_nat k < length (if N.leb (N.of_nat (length m)) k then cresize (N.to_nat (k + grow)) (replicate (width_of s) None) m else m)) as Hlt.
    { destruct (N.leb_spec (N.of_nat (length m)) k); [rewrite cresize_length|]; lia. }
    destruct (N.eqb_spec k (N.of_nat i)) as [->|Hne].
    - rewrite Nat2N.id in *. by rewrite list_lookup_insert.
    - rewrite list_lookup_insert_ne by lia. destruct (N.leb_spec (N.of_nat (length m)) k) as [Hle|]; [|done]. rewrite lookup_cresize.
      destruct (last_update os (N.of_nat i)) as [[σ' t']|].
      + pose proof (lookup_lt_Some _ _ _ Hr). destruct (Nat.ltb_spec i (N.to_nat (k + grow))); [|lia]. destruct (Nat.ltb_spec i (length m)); [done|lia].
      + intros x. destruct (Nat.ltb _ _); [|done]. destruct (Nat.ltb _ _); [apply Hr|by intros [= <-]].
  Qed.
  Lemma time_ok_snoc σ k t os i (tm : list (option D)) : time_ok os i (tm !! i) ->
    time_ok (os ++ [RUpdate σ k t]) i (<[N.to_nat k := Some t]> (if N.leb (N.of_nat (length tm)) k then cresize (N.to_nat (k + grow)) None tm else tm) !! i).
  Proof.
    intros Hr. unfold time_ok in *. rewrite last_update_snoc.
    assert (N.to_nat k < length (if N.leb (N.of_nat (length tm)) k then cresize (N.to_nat (k + grow)) None tm else tm)) as Hlt.
    { destruct (N.leb_spec (N.of_nat (length tm)) k); [rewrite cresize_length|]; lia. }
    destruct (N.eqb_spec k (N.of_nat i)) as [->|Hne].
    - rewrite Nat2N.id in *. by rewrite list_lookup_insert.
    - rewrite list_lookup_insert_ne by lia. destruct (N.leb_spec (N.of_nat (length tm)) k) as [Hle|]; [|done]. rewrite lookup_cresize.
      destruct (last_update os (N.of_nat i)) as [[σ' t']|].
      + pose proof (lookup_lt_Some _ _ _ Hr). destruct (Nat.ltb_spec i (N.to_nat (k + grow))); [|lia]. destruct (Nat.ltb_spec i (length tm)); [done|lia].
      + intros x. destruct (Nat.ltb _ _); [|done]. destruct (Nat.ltb _ _); [apply Hr|by intros [= <-]].
  Qed.
  Lemma fresh_map (f : nat -> list (list (option D))) ss (m0 : gmap nat (list (list (option D)))) s :
    fold_left (fun m s => <[s := f s]> m) ss m0 !! s = if bool_decide (s ∈ ss) then Some (f s) else m0 !! s.
  Proof.
    revert m0. induction ss as [|x ss IH]; intros m0; cbn [fold_left]; [by rewrite bool_decide_false by (apply not_elem_of_nil)|].
    rewrite IH. destruct (decide (s ∈ ss)).
    - rewrite !bool_decide_true; [done|by apply elem_of_list_further|done].
    - rewrite (bool_decide_false (s ∈ ss)) by done. destruct (decide (x = s)) as [->|Hne].
      + rewrite lookup_insert, bool_decide_true; [done|by apply elem_of_list_here].
      + rewrite lookup_insert_ne by done. rewrite bool_decide_false; [done|]. by intros [->|?]%elem_of_cons.
  Qed.
  (** What update does after making the matrices. *)
  Definition update_from (σ : store D) (k : N) (t : D) : M (hist D) unit :=
    modify (fun h =>
      if N.leb (N.of_nat (length (hi_time h))) k
      then Hist (hi_grow h) (hi_bottom h) (cresize (N.to_nat (uadd k (hi_grow h))) None (hi_time h))
             (hi_sigs h) (hi_map h)
      else h) ;;;
    tm <~ gets hi_time ;;
    (if Nat.ltb (N.to_nat k) (length tm) then
       modify (fun h => Hist (hi_grow h) (hi_bottom h) (<[N.to_nat k := Some t]> (hi_time h))
                          (hi_sigs h) (hi_map h))
     else undef UIndex) ;;;
    sg <~ gets hi_sigs ;;
    forM sg (update_sig dbg σ k) ;;;
    modify (fun h =>
      if N.eqb (hi_bottom h) umax || N.ltb (hi_bottom h) k
      then Hist (hi_grow h) k (hi_time h) (hi_sigs h) (hi_map h)
      else h).
  Lemma update_prep σ k t h : hi_sigs h ≠ [] -> update dbg σ k t h = update_from σ k t (Hist (hi_grow h) (hi_bottom h) (hi_time h) (hi_sigs h)
    (if hist_empty h then fold_left (fun m s => <[s := fresh_matrix (hi_grow h) (ncols σ s)]> m) (hi_sigs h) (hi_map h) else hi_map h)).
  Proof.
    intros Hn. unfold update, update_from, bnd, gets, modify. destruct (hi_sigs h) as [|z zs] eqn:Ez; [done|]. rewrite andb_false_r. rewrite <- Ez. clear Ez.
    destruct (hist_empty h).
    - cbn [hi_time hi_grow hi_bottom hi_sigs hi_map]. destruct (N.leb _ _); cbn [hi_time hi_grow hi_bottom hi_sigs hi_map]; by destruct (Nat.ltb _ _).
    - destruct h as [g0 b0 t0 s0 m0]. cbn [ret hi_time hi_grow hi_bottom hi_sigs hi_map]. destruct (N.leb _ _); cbn [hi_time hi_grow hi_bottom hi_sigs hi_map]; by destruct (Nat.ltb _ _).
  Qed.
  Lemma update_ok σ k t os h : holds os h -> valid_rec (RUpdate σ k t) ->
    exists h', update dbg σ k t h = Ok tt h' /\ holds (os ++ [RUpdate σ k t]) h' /\ (aligned h -> aligned h').
  Proof.
    intros [Hg Hs Hr Hsm Ht Hm] [Hf Hk].
    set (m1 := if hist_empty h then fold_left (fun m s => <[s := fresh_matrix (hi_grow h) (ncols σ s)]> m) (hi_sigs h) (hi_map h) else hi_map h).
    assert (forall s, is_Some (m1 !! s) <-> s ∈ sigs) as Hdom.
    { intros s. unfold m1, hist_empty. destruct (decide (hi_map h = ∅)) as [E|E].
      - rewrite bool_decide_true by done. rewrite fresh_map, E, Hs, lookup_empty by done. destruct (decide (s ∈ sigs)).
        + by rewrite bool_decide_true by done.
        + rewrite bool_decide_false by done. split; [intros Hi; by apply is_Some_None in Hi|done].
      - rewrite bool_decide_false by done. destruct Hr as [(_ & _ & Hr)|(_ & _ & Hr)]; [done|apply Hr]. }
    assert (forall s m, m1 !! s = Some m -> forall i, row_ok os s i (m !! i)) as Hm1.
    { intros s m. pose proof (proj1 (Hdom s)) as Hin. unfold m1, hist_empty in *. destruct (decide (hi_map h = ∅)) as [E|E].
      - rewrite bool_decide_true in * by done. intros Hl i. pose proof (Hin (mk_is_Some _ _ Hl)) as Hss. rewrite fresh_map, E, Hs, lookup_empty in Hl by done.
        rewrite bool_decide_true in Hl by done. injection Hl as <-. unfold row_ok.
        destruct Hr as [(Hr0 & _)|(Hr0 & _ & Hr)].
        + destruct (last_update os (N.of_nat i)) as [[]|] eqn:El; [exfalso; apply mk_is_Some, last_update_below in El; lia|].
          intros x Hx. unfold fresh_matrix in Hx. apply lookup_replicate in Hx as [-> _]. by rewrite (fitting_cols σ s Hf Hss).
        + exfalso. destruct sigs as [|z zs]; [done|]. destruct (proj2 (Hr z) ltac:(by apply elem_of_list_here)) as [? Hz]. by rewrite E in Hz.
      - rewrite bool_decide_false by done. apply Hm. }
    set (tm := <[N.to_nat k := Some t]> (if N.leb (N.of_nat (length (hi_time h))) k then cresize (N.to_nat (k + grow)) None (hi_time h) else hi_time h)).
    destruct (update_sigs_ok σ k sigs (Hist (hi_grow h) (hi_bottom h) tm (hi_sigs h) m1)) as (h1 & Hr1 & Hg1 & Hb1 & Ht1 & Hs1 & Hmap1); try done.
    { intros s Hin. by apply Hdom. }
    cbn [hi_time hi_grow hi_bottom hi_sigs hi_map] in Hg1, Hb1, Ht1, Hs1, Hmap1.
    set (h' := if N.eqb (hi_bottom h1) umax || N.ltb (hi_bottom h1) k then Hist (hi_grow h1) k (hi_time h1) (hi_sigs h1) (hi_map h1) else h1).
    assert (update dbg σ k t h = Ok tt h') as Hup.
    { assert (update dbg σ k t h = update_from σ k t (Hist (hi_grow h) (hi_bottom h) (hi_time h) (hi_sigs h) m1)) as ->.
      { apply update_prep. by rewrite Hs. }
      unfold update_from, bnd, gets, modify. cbn [hi_time hi_grow hi_bottom hi_sigs hi_map].
      assert ((if N.leb (N.of_nat (length (hi_time h))) k then Hist (hi_grow h) (hi_bottom h) (cresize (N.to_nat (uadd k (hi_grow h))) None (hi_time h)) (hi_sigs h) m1 else Hist (hi_grow h) (hi_bottom h) (hi_time h) (hi_sigs h) m1)
         = Hist (hi_grow h) (hi_bottom h) (if N.leb (N.of_nat (length (hi_time h))) k then cresize (N.to_nat (k + grow)) None (hi_time h) else hi_time h) (hi_sigs h) m1) as ->.
      { rewrite Hg, (uadd_small _ _ Hk). by destruct (N.leb _ _). }
      cbn [hi_time hi_grow hi_bottom hi_sigs hi_map].
      destruct (Nat.ltb_spec (N.to_nat k) (length (if N.leb (N.of_nat (length (hi_time h))) k then cresize (N.to_nat (k + grow)) None (hi_time h) else hi_time h))) as [_|Hlt].
      2:{ exfalso. revert Hlt. destruct (N.leb_spec (N.of_nat (length (hi_time h))) k); [rewrite cresize_length|]; lia. }
      cbn [hi_time hi_grow hi_bottom hi_sigs hi_map]. fold tm. rewrite <- Hs in Hr1. rewrite Hr1. done. }
    exists h'. split; [done|].
    assert (hi_grow h' = grow /\ hi_sigs h' = sigs /\ hi_time h' = tm /\ hi_map h' = hi_map h1 /\ hi_bottom h' = N.pred (N.max (rows_used os) (N.succ k))) as (Eg & Es & Et & Em & Eb).
    { unfold h'. rewrite Hb1. destruct Hr as [(H1 & H2 & _)|(H1 & H2 & _)]; rewrite H2.
      - rewrite N.eqb_refl. cbn. split_and!; try congruence. lia.
      - destruct (N.eqb_spec (N.pred (rows_used os)) umax) as [E|_]; [exfalso; unfold umax, two32 in *; lia|]. cbn [orb].
        destruct (N.ltb_spec (N.pred (rows_used os)) k); cbn; split_and!; try congruence; lia. }
    split.
    - split; [done|done| |rewrite rows_used_snoc; lia| |].
      + right. rewrite rows_used_snoc. split; [lia|]. split; [done|]. intros s. rewrite Em, Hmap1. destruct (decide (s ∈ sigs)) as [Hi|Hi].
        * rewrite bool_decide_true by done. destruct (proj2 (Hdom s) Hi) as [m ->]. done.
        * rewrite bool_decide_false by done. apply Hdom.
      + intros i. rewrite Et. apply time_ok_snoc, Ht.
      + intros s m. rewrite Em, Hmap1. destruct (decide (s ∈ sigs)) as [Hi|Hi].
        * rewrite bool_decide_true by done. intros (m' & Hm' & ->)%fmap_Some i. apply row_ok_snoc, (Hm1 s m' Hm').
        * rewrite bool_decide_false by done. intros Hx. exfalso. apply Hi, Hdom. by rewrite Hx.
    - intros [Ha1 Ha2]. split.
      + intros E. exfalso. destruct sigs as [|z zs]; [done|]. assert (is_Some (hi_map h' !! z)) as [? Hz].
        { rewrite Em, Hmap1, bool_decide_true by (by apply elem_of_list_here). destruct (proj2 (Hdom z) ltac:(by apply elem_of_list_here)) as [m ->]. done. }
        by rewrite E in Hz.
      + intros s m. rewrite Em, Hmap1, Et. destruct (decide (s ∈ sigs)) as [Hi|Hi].
        * rewrite bool_decide_true by done. intros (m' & Hm' & ->)%fmap_Some. unfold written, tm. rewrite !insert_length.
          assert (length m' = length (hi_time h)) as El.
          { unfold m1, hist_empty in Hm'. destruct (decide (hi_map h = ∅)) as [E|E].
            - rewrite bool_decide_true, fresh_map, Hs, bool_decide_true in Hm' by done. injection Hm' as <-. unfold fresh_matrix. rewrite replicate_length, Hg. symmetry. by apply Ha1.
            - rewrite bool_decide_false in Hm' by done. by eapply Ha2. }
          rewrite El. destruct (N.leb _ _); [by rewrite !cresize_length|done].
        * rewrite bool_decide_false by done. intros Hx. exfalso. apply Hi, Hdom. by rewrite Hx.
  Qed.

  Lemma bottom_nrows os h : holds os h -> nrows h = rows_used os.
  Proof.
    intros [_ _ Hr Hsm _ _]. unfold nrows. destruct Hr as [(-> & -> & _)|(H1 & -> & _)]; [done|].
    rewrite uadd_small by (unfold two32 in *; lia). lia.
  Qed.
  Lemma time_long os h : holds os h -> (rows_used os <= N.of_nat (length (hi_time h)))%N.
  Proof.
    intros Hh. destruct (N.eq_dec (rows_used os) 0) as [->|Hn]; [lia|]. destruct (last_update_top os) as [[σ t] E]; [lia|].
    pose proof (ho_time _ _ Hh (N.to_nat (N.pred (rows_used os)))) as Ht. unfold time_ok in Ht. rewrite N2Nat.id, E in Ht. apply lookup_lt_Some in Ht. lia.
  Qed.
  Lemma map_long os h s m : holds os h -> hi_map h !! s = Some m -> (rows_used os <= N.of_nat (length m))%N.
  Proof.
    intros Hh Hm. destruct (N.eq_dec (rows_used os) 0) as [->|Hn]; [lia|]. destruct (last_update_top os) as [[σ t] E]; [lia|].
    pose proof (ho_map _ _ Hh s m Hm (N.to_nat (N.pred (rows_used os)))) as Ht. unfold row_ok in Ht. rewrite N2Nat.id, E in Ht. apply lookup_lt_Some in Ht. lia.
  Qed.
  (** shrink_to_fit *)
  Lemma shrink_ok os h : holds os h -> holds (os ++ [RShrink]) (shrink_to_fit h) /\ length (hi_time (shrink_to_fit h)) = N.to_nat (rows_used os) /\
    ((0 < rows_used os)%N -> aligned h -> aligned (shrink_to_fit h)).
  Proof.
    intros Hh. pose proof (time_long _ _ Hh) as Htl. pose proof (fun s m => map_long os h s m Hh) as Hml.
    unfold shrink_to_fit. rewrite (bottom_nrows _ _ Hh). destruct Hh as [Hg Hs Hr Hsm Ht Hm].
    assert (forall k, last_update (os ++ [RShrink]) k = last_update os k) as El by (intros k; by rewrite last_update_snoc).
    assert (rows_used (os ++ [RShrink]) = rows_used os) as Er by (by rewrite rows_used_snoc).
    destruct (N.leb_spec (N.of_nat (length (hi_time h))) (rows_used os)) as [Hle|Hlt].
    - split; [|split; [lia|done]]. split; rewrite ?Er; try done.
      + intros i. specialize (Ht i). unfold time_ok in *. by rewrite El.
      + intros s m Hsm' i. specialize (Hm s m Hsm' i). unfold row_ok in *. by rewrite El.
    - split; [|split; [cbn; apply cresize_length|]].
      + split; rewrite ?Er; cbn; try done.
        * destruct Hr as [(H1 & H2 & H3)|(H1 & H2 & H3)]; [left|right]; split_and!; try done; [by rewrite H3, fmap_empty|].
          intros s. rewrite lookup_fmap, fmap_is_Some. apply H3.
        * intros i. specialize (Ht i). unfold time_ok in *. rewrite El, lookup_cresize. destruct (last_update os (N.of_nat i)) as [[σ t]|] eqn:E.
          -- apply mk_is_Some, last_update_below in E. destruct (Nat.ltb_spec i (N.to_nat (rows_used os))); [|lia]. destruct (Nat.ltb_spec i (length (hi_time h))); [done|lia].
          -- intros x. destruct (Nat.ltb _ _); [|done]. destruct (Nat.ltb _ _); [apply Ht|by intros [= <-]].
        * intros s m. rewrite lookup_fmap. intros (m' & Hm' & ->)%fmap_Some i. specialize (Hm s m' Hm' i). specialize (Hml s m' Hm'). unfold row_ok in *. rewrite El, lookup_cresize.
          destruct (last_update os (N.of_nat i)) as [[σ t]|] eqn:E.
          -- apply mk_is_Some, last_update_below in E. destruct (Nat.ltb_spec i (N.to_nat (rows_used os))); [|lia]. destruct (Nat.ltb_spec i (length m')); [done|lia].
          -- intros x. destruct (Nat.ltb_spec i (N.to_nat (rows_used os))); [|done]. destruct (Nat.ltb_spec i (length m')); [apply Hm|lia].
      + intros Hpos [Ha1 Ha2]. split; cbn.
        * intros E. exfalso. destruct Hr as [(H1 & _)|(_ & _ & H3)]; [lia|]. destruct sigs as [|z zs]; [done|].
          destruct (proj2 (H3 z) ltac:(by apply elem_of_list_here)) as [m Hz]. apply (f_equal (lookup z)) in E. by rewrite lookup_fmap, Hz in E.
        * intros s m. rewrite lookup_fmap. intros (m' & Hm' & ->)%fmap_Some. by rewrite !cresize_length.
  Qed.

  Definition do_rec (o : rec D) : M (hist D) unit := match o with RUpdate σ k t => update dbg σ k t | RShrink => modify shrink_to_fit end.
  Lemma recs_hold os h : Forall valid_rec os -> holds [] h -> exists h', forM os do_rec h = Ok tt h' /\ holds os h' /\
    (aligned h -> match os with RShrink :: _ => False | _ => True end -> aligned h').
  Proof.
    intros Hv Hh. induction os as [|o os IH] using rev_ind; [exists h; split; [done|]; done|].
    apply Forall_app in Hv as [Hv Ho]. apply Forall_cons in Ho as [Ho _]. destruct (IH Hv) as (h1 & Hr1 & Hh1 & Ha1).
    assert (forall r h2, do_rec o h1 = Ok r h2 -> forM (os ++ [o]) do_rec h = Ok r h2) as Happ.
    { intros r h2 Hd. clear -Hr1 Hd. revert h Hr1. induction os as [|x os IH]; intros h; cbn.
      - intros [= <-]. unfold bnd. rewrite Hd. destruct r. done.
      - unfold bnd. destruct (do_rec x h) as [[] h3| | |]; try done. apply IH. }
    destruct o as [σ k t|].
    - destruct (update_ok σ k t os h1 Hh1 Ho) as (h2 & Hu & Hh2 & Ha2). exists h2. split; [by apply Happ|]. split; [done|].
      intros Ha Hst. apply Ha2, Ha1; [done|]. destruct os as [|[] os]; done.
    - destruct (shrink_ok os h1 Hh1) as (Hh2 & _ & Ha2). exists (shrink_to_fit h1). split; [by apply Happ|]. split; [done|].
      intros Ha Hst. destruct os as [|o os]; [done|]. apply Ha2; [|apply Ha1; [done|by destruct o]].
      assert (forall x : rec D, x ∈ o :: os -> match x with RUpdate _ k _ => (k < rows_used (o :: os))%N | RShrink => True end) as Hall.
      { clear. intros x Hx. revert Hx. induction (o :: os) as [|y l IH] using rev_ind; [by intros ?%elem_of_nil|]. rewrite elem_of_app, elem_of_list_singleton, rows_used_snoc.
        intros [Hx|<-]; [specialize (IH Hx); destruct x, y; try done; lia|destruct x; [lia|done]]. }
      specialize (Hall o ltac:(by apply elem_of_list_here)). destruct o; [lia|done].
  Qed.
End rec.

(** Choosing the signals. *)
Section pick.
  Context {D : Type} `{NumOps D} (dbg : bool) (σ : store D).
  Definition do_pick (p : pick) : M (hist D) unit := match p with PTrack s => bnd (track dbg σ s) (fun _ => ret tt) | PUntrack s => untrack dbg σ s end.
  Lemma picked_snoc ps p : picked (ps ++ [p]) = match p with
    | PTrack s => if bool_decide (s ∈ picked ps) then picked ps else picked ps ++ [s]
    | PUntrack s => List.filter (fun x => negb (Nat.eqb x s)) (picked ps) end.
  Proof. unfold picked at 1. by rewrite fold_left_app. Qed.
  Lemma picked_nodup ps : NoDup (picked ps).
  Proof.
    induction ps as [|p ps IH] using rev_ind; [constructor|]. rewrite picked_snoc. destruct p as [s|s].
    - destruct (decide (s ∈ picked ps)); [by rewrite bool_decide_true|]. rewrite bool_decide_false by done. apply NoDup_app. split; [done|]. split; [|apply NoDup_singleton].
      intros x Hx Hs. apply elem_of_list_singleton in Hs as ->. done.
    - by apply NoDup_ListNoDup, List.NoDup_filter, NoDup_ListNoDup.
  Qed.
  Lemma remove_first_ok s l : NoDup l -> s ∈ l -> remove_first s l = Some (List.filter (fun x => negb (Nat.eqb x s)) l).
  Proof.
    induction l as [|x l IH]; intros Hn Hs; [by apply elem_of_nil in Hs|]. apply NoDup_cons in Hn as [Hx Hn]. cbn. destruct (Nat.eqb_spec x s) as [->|Hne]; cbn.
    - f_equal. clear -Hx. induction l as [|y l IH]; [done|]. cbn. destruct (Nat.eqb_spec y s) as [->|]; cbn; [exfalso; apply Hx; by apply elem_of_list_here|].
      f_equal. apply IH. intros Hs. apply Hx. by apply elem_of_list_further.
    - apply elem_of_cons in Hs as [->|Hs]; [done|]. by rewrite IH.
  Qed.
  Lemma remove_first_none s l : s ∉ l -> remove_first s l = None.
  Proof.
    induction l as [|x l IH]; intros Hs; [done|]. cbn. apply not_elem_of_cons in Hs as [Hx Hs]. destruct (Nat.eqb_spec x s); [done|]. by rewrite IH.
  Qed.
End pick.
