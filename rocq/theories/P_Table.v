(** Simulating and recording. *)
From stdpp Require Import prelude gmap.
From Coq Require Import ZArith NArith.
From Verif Require Import Num NumOrd NumAdd Res Store Leaf Sched Stepper Sim World Api Hist P_Store SpecRec P_Rec Props_Rec P_Compile SpecSched SpecSafe SpecGoes SpecGoes2 SpecLint P_Goes P_Goes3 P_Goes4 P_Goes6 SpecTable.
Local Open Scope nat_scope.

Lemma picked_tracks sigs x : x ∈ picked (map PTrack sigs) <-> x ∈ sigs.
Proof.
  induction sigs as [|s sigs IH] using rev_ind; [done|]. rewrite map_app. cbn [map]. rewrite picked_snoc, elem_of_app, elem_of_list_singleton, <- IH.
  destruct (decide (s ∈ picked (map PTrack sigs))); [rewrite bool_decide_true by done|rewrite bool_decide_false by done; by rewrite elem_of_app, elem_of_list_singleton].
  split; [auto|]. intros [Hx| ->]; done.
Qed.
Lemma untracks_tracks sg sigs : untracks_tracked sg (map PTrack sigs).
Proof. revert sg. induction sigs as [|s sigs IH]; intros sg; [done|]. cbn. apply IH. Qed.
Lemma lookup_map {A B} (f : A -> B) l i : map f l !! i = f <$> l !! i.
Proof. exact (list_lookup_fmap f l i). Qed.
Lemma forM_map {S A B} (f : A -> B) (k : B -> M S unit) l (z : S) : forM (map f l) k z = forM l (fun x => k (f x)) z.
Proof. revert z. induction l as [|x l IH]; intros z; [done|]. cbn. unfold bnd. destruct (k (f x) z); [apply IH|done..]. Qed.
Lemma tracks {D} `{NumOps D} dbg (σ : store D) grow sigs : (forall x, x ∈ sigs -> value_sig σ x) ->
  forM sigs (fun s => bnd (track dbg σ s) (fun _ => ret tt)) (new_hist grow) = Ok tt (tracking grow (picked (map PTrack sigs))).
Proof.
  intros Hv. destruct (C51_picked D dbg σ grow (map PTrack sigs)) as [_ E]; [|apply untracks_tracks|].
  - apply Forall_forall. intros p (x & -> & Hx)%elem_of_list_fmap. by apply Hv.
  - rewrite <- E. symmetry. exact (forM_map PTrack (do_pick dbg σ) sigs (new_hist grow)).
Qed.

(** Rows with numbers 0, 1, 2, ... *)
Section counted.
  Context {D : Type} `{NumOps D}.
  (** [rs]: the rows so far, times and signals. *)
  Definition counted (os : list (rec D)) (rs : list (D * store D)) : Prop :=
    rows_used os = N.of_nat (length rs) /\ forall i, last_update os (N.of_nat i) = (fun r => (r.2, r.1)) <$> rs !! i.
  Lemma counted_snoc os rs t σ : counted os rs -> counted (os ++ [RUpdate σ (N.of_nat (length rs)) t]) (rs ++ [(t, σ)]).
  Proof.
    intros [H1 H2]. split; [rewrite rows_used_snoc, H1, app_length; cbn; lia|]. intros i. rewrite last_update_snoc.
    destruct (N.eqb_spec (N.of_nat (length rs)) (N.of_nat i)) as [E|E].
    - apply Nat2N.inj in E. subst i. by rewrite list_lookup_middle.
    - rewrite H2. destruct (decide (i < length rs)); [by rewrite lookup_app_l|]. rewrite !lookup_ge_None_2; [done|rewrite app_length; cbn; lia|lia].
  Qed.
  Lemma counted_nil : counted [] [].
  Proof. split; [done|]. intros i. by rewrite lookup_nil. Qed.
End counted.
Section rows.
  Context {D : Type} `{NumOps D} (grow : N) (sigs : list nat) (K : nat -> kind).
  Context (Hgrow : (0 < grow < two32)%N) (Hsigs : sigs ≠ []) (Hnd : NoDup sigs).
  Lemma counted_table os rs h : rs ≠ [] -> counted os rs -> holds grow sigs K os h -> aligned grow h ->
    nrows (shrink_to_fit h) = N.of_nat (length rs) /\ hi_time (shrink_to_fit h) = map (fun r => Some (r.1)) rs /\
    (forall x, x ∈ sigs -> hi_map (shrink_to_fit h) !! x = Some (map (fun r => map Some (numbers (r.2) x)) rs)) /\
    forall x, x ∉ sigs -> hi_map (shrink_to_fit h) !! x = None.
  Proof.
    intros Hne [C1 C2] Hh Ha. assert (length rs ≠ 0) as Hlr by by destruct rs.
    destruct (shrink_ok grow sigs K Hgrow Hsigs Hnd os h Hh) as (Hh2 & Hl & Ha2). assert (0 < rows_used os)%N as Hpos by lia. specialize (Ha2 Hpos Ha).
    rewrite C1, Nat2N.id in Hl.
    assert (forall i, last_update (os ++ [RShrink]) (N.of_nat i) = (fun r => (r.2, r.1)) <$> rs !! i) as C3 by (intros i; by rewrite last_update_snoc).
    split; [rewrite (bottom_nrows grow sigs K Hgrow (os ++ [RShrink]) _ Hh2), rows_used_snoc; exact C1|]. split; [|split].
    - apply list_eq. intros i. pose proof (ho_time _ _ _ _ _ Hh2 i) as Ht. unfold time_ok in Ht. rewrite C3 in Ht. 
      rewrite lookup_map. destruct (rs !! i) as [[t σ]|] eqn:E; cbn in *; [done|]. apply lookup_ge_None_2. apply lookup_ge_None_1 in E. lia.
    - intros x Hx. destruct (ho_rows _ _ _ _ _ Hh2) as [(Hz & _)|(_ & _ & Hd)]; [rewrite rows_used_snoc in Hz; lia|]. destruct (proj2 (Hd x) Hx) as [m Hm]. rewrite Hm. f_equal.
      pose proof (proj2 Ha2 x m Hm) as Hml. apply list_eq. intros i. pose proof (ho_map _ _ _ _ _ Hh2 x m Hm i) as Ht. unfold row_ok in Ht. rewrite C3 in Ht.
      rewrite lookup_map. destruct (rs !! i) as [[t σ]|] eqn:E; cbn in *; [done|]. apply lookup_ge_None_2. apply lookup_ge_None_1 in E. lia.
    - intros x Hx. destruct (ho_rows _ _ _ _ _ Hh2) as [(_ & _ & ->)|(_ & _ & Hd)]; [apply lookup_empty|]. apply eq_None_not_Some. intros Hs. by apply Hx, Hd.
  Qed.
End rows.

Section loop.
  Context {D : Type} `{NumOps D} {Hord : NumOrd D} {Hadd : NumAdd D} (w : world D) (b : bid) (g : cfg D) (ins1 ins2 : list nat).
  Context (Hc : checked w b g ins1 ins2) (grow : N) (sigs : list nat) (Hgrow : (0 < grow < two32)%N) (Hsigs : sigs ≠ []) (Hnd : NoDup sigs).
  Context (Hval : forall x, x ∈ sigs -> exists k, sig_kinds w x = Some k /\ k ≠ KBus).
  Definition kinds_def (x : nat) : kind := default KBus (sig_kinds w x).
  Notation KK := kinds_def.
  Lemma prepared_fitting t s : prepared w g ins1 ins2 t s -> fitting sigs KK (s_store s).
  Proof.
    intros [(_ & _ & (Hok & Hk & _) & _) _]. split; [done|]. intros x Hx. destruct (Hval x Hx) as (k & E & Hb). unfold KK. rewrite E. split; [done|].
    specialize (Hk x). unfold kind_in in Hk. rewrite E in Hk. apply fmap_Some in Hk as (c & Hcx & ->). by exists c.
  Qed.
  Definition row_of (t : D) (s : simst D) : D * store D := (t, s_store s).

  Lemma record_one t s os rs h : prepared w g ins1 ins2 t s -> (N.of_nat (length rs) + grow < two32)%N -> counted os rs -> holds grow sigs KK os h -> aligned grow h ->
    exists h', in_hist (update (g_dbg g) (s_store s) (N.of_nat (length rs)) t) h s = Ok h' s /\
      counted (os ++ [RUpdate (s_store s) (N.of_nat (length rs)) t]) (rs ++ [(t, s_store s)]) /\ holds grow sigs KK (os ++ [RUpdate (s_store s) (N.of_nat (length rs)) t]) h' /\ aligned grow h'.
  Proof.
    intros Hp Hlt Hco Hh Ha. destruct (update_ok (g_dbg g) grow sigs KK Hgrow Hsigs Hnd (s_store s) (N.of_nat (length rs)) t os h Hh) as (h' & E & Hh' & Ha').
    - split; [by eapply prepared_fitting|done].
    - exists h'. unfold in_hist. rewrite E. split; [done|]. split; [by apply counted_snoc|]. auto.
  Qed.
  Lemma record_ok fuel cs s os rs h : prepared w g ins1 ins2 (s_tprev s) s -> permitted g (s_tprev s) cs -> (N.of_nat (length rs + length cs) + grow <= two32)%N ->
    counted os rs -> holds grow sigs KK os h -> aligned grow h ->
    match drive g fuel cs s with
    | Ok _ s' => exists h' ss os', record_loop g fuel (N.of_nat (length rs)) cs h s = Ok h' s' /\ ends g fuel cs s ss /\ Forall (settled w g ins1 ins2) ss /\
        counted os' (rs ++ zip_with (fun c s => (c.1.1, s_store s)) cs ss) /\ holds grow sigs KK os' h' /\ aligned grow h'
    | OOF => record_loop g fuel (N.of_nat (length rs)) cs h s = OOF
    | _ => False
    end.
  Proof.
    revert s os rs h. induction cs as [|[[t lo] hi] cs IH]; intros s os rs h Hp Hpe Hlt Hco Hh Ha.
    { exists h, [], os. cbn. rewrite app_nil_r. done. }
    cbn [permitted] in Hpe. destruct Hpe as [Hal Hpe]. cbn [drive record_loop length] in *. unfold bnd at 1.
    pose proof (checked_run w b g ins1 ins2 Hc fuel t lo hi s Hp Hal) as H1. destruct (run g fuel t lo hi s) as [[] s1| | |] eqn:E1; try done.
    2:{ unfold bnd. by rewrite E1. }
    destruct H1 as [Hp1 Et1].
    destruct (record_one t s1 os rs h Hp1 ltac:(lia) Hco Hh Ha) as (h1 & E2 & Hco1 & Hh1 & Ha1).
    assert (forall X, X = record_loop g fuel (N.of_nat (length (rs ++ [(t, s_store s1)]))) cs h1 s1 -> (run g fuel t lo hi ;;; σ <~ gets s_store ;; h' <~ in_hist (update (g_dbg g) σ (N.of_nat (length rs)) t) h ;; record_loop g fuel (uadd (N.of_nat (length rs)) 1) cs h') s = X) as EX.
    { intros X ->. unfold bnd, gets. rewrite E1, E2. f_equal. rewrite uadd_small by (unfold two32 in *; lia). rewrite app_length. cbn. lia. }
    specialize (IH s1 (os ++ [RUpdate (s_store s1) (N.of_nat (length rs)) t]) (rs ++ [(t, s_store s1)]) h1). rewrite Et1 in IH.
    assert (N.of_nat (length (rs ++ [(t, s_store s1)]) + length cs) + grow <= two32)%N as Hlt1 by (rewrite app_length; cbn; lia).
    specialize (IH Hp1 Hpe Hlt1 Hco1 Hh1 Ha1).
    destruct (drive g fuel cs s1) as [[] s2| | |]; try done.
    - destruct IH as (h' & ss & os' & E3 & He & Hse & Hco' & Hh' & Ha'). exists h', (s1 :: ss), os'. split; [by apply EX|]. split; [done|]. split; [constructor; [by eapply ready_settled|done]|].
      split; [|done]. cbn [zip_with fst]. by rewrite <- app_assoc in Hco'.
    - by apply EX.
  Qed.
End loop.
