(** The state vector and the state signals. *)
From stdpp Require Import prelude gmap.
From Coq Require Import ZArith.
From Verif Require Import Num Res Store Leaf Sched Stepper Sim SpecSched P_Store P_Prog P_Modes P_Eval P_Sim P_Evolve P_Rel SpecHist P_Trace P_Log.

(** The elements of a value. *)
Definition flat {D} (v : val D) : list D := match v with VS x => [x] | VA xs => xs | _ => [] end.
(** The contents of signals, one after the other. *)
Definition pack {D} (σ : store D) (zs : list nat) : list D := concat (map (fun z => match value σ z with Some v => flat v | None => [] end) zs).

Section pack.
  Context {D : Type} `{NumOps D} (g : cfg D).
  Implicit Types σ : store D.
  Definition width σ (zs : list nat) : nat := sum_list (map (sig_size σ) zs).

  Definition scalar_at σ z : Prop := exists c, σ !! z = Some c /\ c_kind c = KScalar.
  Definition array_at σ z : Prop := exists c n, σ !! z = Some c /\ c_kind c = KArray n.
  (** Ready to be written: cleared, in a debug build. *)
  Definition blank σ z : Prop := forall c, σ !! z = Some c -> g_dbg g = true -> c_asg c = false /\ payload_size_ok c = true.

  Lemma value_insert σ z c : value (<[z := c]> σ) z = if c_asg c then c_val c else None.
  Proof. unfold value. by rewrite lookup_insert. Qed.
  Lemma value_insert_ne σ z z' c : z ≠ z' -> value (<[z := c]> σ) z' = value σ z'.
  Proof. intros Hn. unfold value. by rewrite lookup_insert_ne. Qed.
  Lemma sig_size_insert σ z c c' z' : σ !! z = Some c -> c_kind c' = c_kind c -> sig_size (<[z := c']> σ) z' = sig_size σ z'.
  Proof.
    intros Hc Hk. unfold sig_size. destruct (decide (z = z')) as [<-|Hn]; [by rewrite lookup_insert, Hc, Hk|by rewrite lookup_insert_ne].
  Qed.
  Lemma pack_insert_ne σ z c zs : z ∉ zs -> pack (<[z := c]> σ) zs = pack σ zs.
  Proof.
    intros Hn. unfold pack. f_equal. apply map_ext_in. intros z' Hz. rewrite value_insert_ne; [done|]. intros <-. by apply Hn, elem_of_list_In.
  Qed.
  Lemma pack_cons σ z zs : pack σ (z :: zs) = match value σ z with Some v => flat v | None => [] end ++ pack σ zs.
  Proof. done. Qed.
  Lemma pack_app σ zs zs' : pack σ (zs ++ zs') = pack σ zs ++ pack σ zs'.
  Proof. unfold pack. by rewrite map_app, concat_app. Qed.

  Lemma set_blank σ z v c : σ !! z = Some c -> kind_fits (c_kind c) v = true -> size_fits (c_kind c) v = true -> blank σ z ->
    set_value (g_dbg g) z v σ = Ok tt (<[z := Cell (c_kind c) (c_deriv c) true (Some v)]> σ).
  Proof.
    intros Hc Hk Hs Hb. unfold set_value. rewrite Hc, Hk. cbn [negb]. specialize (Hb c Hc). destruct (g_dbg g); cbn [andb].
    - destruct (Hb eq_refl) as [-> ->]. cbn. by rewrite Hs.
    - done.
  Qed.
  Lemma blank_insert σ z c z' : z ≠ z' -> blank σ z' -> blank (<[z := c]> σ) z'.
  Proof. intros Hn Hb c' Hc. rewrite lookup_insert_ne in Hc by done. by apply Hb. Qed.

  (** Writing scalars. *)
  Lemma set_scalars_ok ss sv σ : NoDup ss -> (forall z, z ∈ ss -> scalar_at σ z /\ blank σ z) -> length ss <= length sv ->
    exists σ', set_scalars g ss sv σ = Ok (drop (length ss) sv) σ' /\ pack σ' ss = take (length ss) sv /\
      (forall z, z ∈ ss -> exists x, value σ' z = Some (VS x)) /\
      (forall z, z ∉ ss -> σ' !! z = σ !! z) /\ (forall z, sig_size σ' z = sig_size σ z).
  Proof.
    revert sv σ. induction ss as [|z ss IH]; intros sv σ Hn Hz Hl.
    - exists σ. cbn. split_and!; try done. by intros z Hx%elem_of_nil.
    - destruct sv as [|x sv]; [cbn in Hl; lia|]. apply NoDup_cons in Hn as [Hni Hn].
      destruct (Hz z) as [(c & Hc & Hk) Hb]; [by apply elem_of_list_here|].
      cbn [set_scalars]. unfold bnd. rewrite (set_blank σ z (VS x) c Hc) by (done || by rewrite Hk).
      set (σ1 := <[z := _]> σ).
      destruct (IH sv σ1 Hn) as (σ' & E & Hp & Hv & Hfr & Hsz).
      { intros z' Hz'. assert (z ≠ z') as Hne by (by intros <-). destruct (Hz z') as [(c' & Hc' & Hk') Hb']; [by apply elem_of_list_further|].
        split; [|by apply blank_insert]. exists c'. unfold σ1. by rewrite lookup_insert_ne. }
      { cbn in Hl. lia. }
      assert (value σ' z = Some (VS x)) as Ev.
      { unfold value. rewrite Hfr by done. unfold σ1. by rewrite lookup_insert. }
      exists σ'. split_and!.
      + exact E.
      + rewrite pack_cons, Ev, Hp. done.
      + intros z' [->|Hz']%elem_of_cons; [by exists x|by apply Hv].
      + intros z' Hz'. apply not_elem_of_cons in Hz' as [Hne Hz']. rewrite Hfr by done. unfold σ1. by rewrite lookup_insert_ne.
      + intros z'. rewrite Hsz. apply (sig_size_insert _ _ c); done.
  Qed.
  Lemma set_arrays_ok ss sv σ : NoDup ss -> (forall z, z ∈ ss -> array_at σ z /\ blank σ z) -> width σ ss <= length sv ->
    exists σ', set_arrays g ss sv σ = Ok (drop (width σ ss) sv) σ' /\ pack σ' ss = take (width σ ss) sv /\
      (forall z, z ∈ ss -> exists xs, value σ' z = Some (VA xs) /\ length xs = sig_size σ z) /\
      (forall z, z ∉ ss -> σ' !! z = σ !! z) /\ (forall z, sig_size σ' z = sig_size σ z).
  Proof.
    revert sv σ. induction ss as [|z ss IH]; intros sv σ Hn Hz Hl.
    - exists σ. cbn. split_and!; try done. by intros z Hx%elem_of_nil.
    - apply NoDup_cons in Hn as [Hni Hn]. unfold width in Hl. cbn in Hl.
      destruct (Hz z) as [(c & n & Hc & Hk) Hb]; [by apply elem_of_list_here|].
      assert (sig_size σ z = n) as Esz by (unfold sig_size; by rewrite Hc, Hk).
      cbn [set_arrays]. unfold bnd, gets. rewrite Esz. destruct (Nat.leb_spec n (length sv)) as [Hle|]; [|lia].
      assert (length (take n sv) = n) as Eln by (rewrite take_length; lia).
      assert (size_fits (c_kind c) (VA (take n sv)) = true) as Hfit. { rewrite Hk. unfold size_fits. rewrite Eln. apply Nat.eqb_refl. }
      rewrite (set_blank σ z (VA (take n sv)) c Hc); [|by rewrite Hk|exact Hfit|done].
      set (σ1 := <[z := _]> σ).
      assert (forall z', sig_size σ1 z' = sig_size σ z') as Es1. { intros z'. apply (sig_size_insert _ _ c); done. }
      assert (width σ1 ss = width σ ss) as Ew. { unfold width. f_equal. apply map_ext. done. }
      destruct (IH (drop n sv) σ1 Hn) as (σ' & E & Hp & Hv & Hfr & Hsz).
      { intros z' Hz'. assert (z ≠ z') as Hne by (by intros <-). destruct (Hz z') as [(c' & n' & Hc' & Hk') Hb']; [by apply elem_of_list_further|].
        split; [|by apply blank_insert]. exists c', n'. unfold σ1. by rewrite lookup_insert_ne. }
      { rewrite Ew, drop_length. unfold width. lia. }
      assert (value σ' z = Some (VA (take n sv))) as Ev.
      { unfold value. rewrite Hfr by done. unfold σ1. by rewrite lookup_insert. }
      assert (width σ (z :: ss) = (n + width σ ss)%nat) as Ewc by (unfold width; cbn; by rewrite Esz).
      exists σ'. split_and!.
      + rewrite E, Ew, drop_drop, Ewc. done.
      + rewrite pack_cons, Ev, Hp, Ew, Ewc. cbn [flat]. by rewrite <- take_take_drop.
      + intros z' [->|Hz']%elem_of_cons; [exists (take n sv); by rewrite Eln, Esz|]. destruct (Hv z' Hz') as (xs & ? & ?). exists xs. by rewrite <- Es1.
      + intros z' Hz'. apply not_elem_of_cons in Hz' as [Hne Hz']. rewrite Hfr by done. unfold σ1. by rewrite lookup_insert_ne.
      + intros z'. by rewrite Hsz.
  Qed.
  (** Reading. *)
  Lemma get_ok σ z v : value σ z = Some v -> (g_dbg g = true -> forall c, σ !! z = Some c -> payload_size_ok c = true) -> get_value (g_dbg g) z σ = Ok v σ.
  Proof.
    unfold value, get_value. destruct (σ !! z) as [c|]; [|done]. destruct (c_asg c); [|done]. intros Ev Hs. rewrite Ev.
    destruct (g_dbg g); cbn [andb]; [|done]. by rewrite (Hs eq_refl c eq_refl).
  Qed.
  Definition sized σ z : Prop := g_dbg g = true -> forall c, σ !! z = Some c -> payload_size_ok c = true.
  Lemma collect_scalars ss σ : (forall z, z ∈ ss -> sized σ z /\ exists x, value σ z = Some (VS x)) -> collect (get_scalar g) ss σ = Ok (pack σ ss) σ.
  Proof.
    induction ss as [|z ss IH]; intros Hz; [done|]. cbn [collect]. unfold bnd at 1. unfold get_scalar at 1. unfold bnd at 1.
    destruct (Hz z) as (Hs & x & Ev); [by apply elem_of_list_here|]. rewrite (get_ok _ _ _ Ev Hs). unfold ret at 1.
    unfold bnd at 1. rewrite IH; [|intros z' Hz'; apply Hz; by apply elem_of_list_further].
    rewrite pack_cons, Ev. done.
  Qed.
  Lemma collect_arrays ss σ : (forall z, z ∈ ss -> sized σ z /\ exists xs, value σ z = Some (VA xs) /\ length xs = sig_size σ z) ->
    collect (get_array g) ss σ = Ok (pack σ ss) σ.
  Proof.
    induction ss as [|z ss IH]; intros Hz; [done|]. cbn [collect]. unfold bnd at 1. unfold get_array at 1. unfold bnd at 1, gets at 1. unfold bnd at 1.
    destruct (Hz z) as (Hs & xs & Ev & El); [by apply elem_of_list_here|]. rewrite (get_ok _ _ _ Ev Hs). rewrite El, Nat.eqb_refl. unfold ret at 1.
    unfold bnd at 1. rewrite IH; [|intros z' Hz'; apply Hz; by apply elem_of_list_further].
    rewrite pack_cons, Ev. done.
  Qed.
  (** What a successful read returned. *)
  Lemma get_inv σ z v σ' : get_value (g_dbg g) z σ = Ok v σ' -> σ' = σ /\ exists c, σ !! z = Some c /\ c_val c = Some v /\ (g_dbg g = true -> c_asg c = true).
  Proof.
    unfold get_value. destruct (σ !! z) as [c|]; [|done]. destruct (g_dbg g); cbn [andb].
    - destruct (payload_size_ok c); [|done]. cbn. destruct (c_asg c) eqn:Ea; [|done]. cbn. destruct (c_val c) eqn:Ev; [|done]. intros [= -> <-].
      split; [done|]. by exists c.
    - destruct (c_val c) eqn:Ev; [|done]. intros [= -> <-]. split; [done|]. by exists c.
  Qed.
End pack.

(** ** The invariant of a simulator that was initialised once. *)
Inductive session {D} `{NumOps D} (g : cfg D) (d0 : dyn D) : simst D -> Prop :=
| se_init t s : init g t (new_sim d0) = Ok tt s -> session g d0 s
| se_run s fuel t lo hi s' : session g d0 s -> run g fuel t lo hi s = Ok tt s' -> session g d0 s'.

Section inv.
  Context {D : Type} `{NumOps D} (g : cfg D).
  Implicit Types (σ : store D) (s : simst D).
  Definition is_state_of σ z : Prop := z ∈ linked_signals (g_tree g) /\ exists c ds, σ !! z = Some c /\ (c_kind c = KScalar \/ exists n, c_kind c = KArray n) /\ c_deriv c = Some ds.
  Record packed s : Prop := {
    pk_nodup : NoDup (s_scal s ++ s_arr s);
    pk_scal z : z ∈ s_scal s -> scalar_at (s_store s) z;
    pk_arr z : z ∈ s_arr s -> array_at (s_store s) z;
    pk_all z : z ∈ s_scal s ++ s_arr s <-> is_state_of (s_store s) z;
    pk_vsigs z : z ∈ s_vsigs s <-> z ∈ linked_signals (g_tree g);
    pk_dom z : z ∈ s_vsigs s -> z ∈ dom (s_store s);
    pk_ok : g_dbg g = true -> store_ok (s_store s);
    pk_sv : length (s_sv s) = width (s_store s) (s_scal s ++ s_arr s);
    pk_svo : length (s_svo s) = width (s_store s) (s_scal s ++ s_arr s);
    pk_dv : length (s_dv s) = width (s_store s) (s_scal s ++ s_arr s)
  }.
  Lemma shape_inv dbg σ σ' z c' : shape dbg σ σ' -> σ' !! z = Some c' -> exists c, σ !! z = Some c /\ same_cell c c'.
  Proof.
    intros Hs Hc. destruct (σ !! z) as [c|] eqn:E.
    - destruct (sh_cell _ _ _ Hs z c E) as (c2 & Hc2 & Hsc). rewrite Hc in Hc2. injection Hc2 as <-. by exists c.
    - rewrite (sh_none _ _ _ Hs z E) in Hc. done.
  Qed.
  Lemma sig_size_shape dbg σ σ' z : shape dbg σ σ' -> sig_size σ' z = sig_size σ z.
  Proof.
    intros Hs. unfold sig_size. destruct (σ !! z) as [c|] eqn:E.
    - destruct (sh_cell _ _ _ Hs z c E) as (c' & -> & Hk & _). by rewrite Hk.
    - by rewrite (sh_none _ _ _ Hs z E).
  Qed.
  Lemma width_shape dbg σ σ' zs : shape dbg σ σ' -> width σ' zs = width σ zs.
  Proof. intros Hs. unfold width. f_equal. apply map_ext. intros z. by eapply sig_size_shape. Qed.
  Lemma packed_evo s s' : evo g s s' -> length (s_sv s') = length (s_sv s) -> length (s_svo s') = length (s_svo s) ->
    length (s_dv s') = length (s_dv s) -> packed s -> packed s'.
  Proof.
    intros He L1 L2 L3 Hp. pose proof (ev_dyn _ _ _ He) as [Hs _]. change (shape (g_dbg g) (s_store s) (s_store s')) in Hs.
    pose proof (ev_scal _ _ _ He) as E1. pose proof (ev_arr _ _ _ He) as E2. pose proof (ev_vsigs _ _ _ He) as E3.
    split; rewrite ?E1, ?E2, ?E3, ?L1, ?L2, ?L3; rewrite ?(width_shape _ _ _ _ Hs).
    - apply Hp.
    - intros z Hz. destruct (pk_scal s Hp z Hz) as (c & Hc & Hk). destruct (sh_cell _ _ _ Hs z c Hc) as (c' & Hc' & Hk' & _).
      exists c'. by rewrite Hk'.
    - intros z Hz. destruct (pk_arr s Hp z Hz) as (c & n & Hc & Hk). destruct (sh_cell _ _ _ Hs z c Hc) as (c' & Hc' & Hk' & _).
      exists c', n. by rewrite Hk'.
    - intros z. rewrite (pk_all s Hp). unfold is_state_of. split.
      + intros (Hl & c & ds & Hc & Hb & Hd). split; [done|]. destruct (sh_cell _ _ _ Hs z c Hc) as (c' & Hc' & Hk' & Hd').
        exists c', ds. rewrite Hk', Hd'. done.
      + intros (Hl & c & ds & Hc & Hb & Hd). split; [done|]. destruct (shape_inv _ _ _ z c Hs Hc) as (c' & Hc' & Hk' & Hd').
        exists c', ds. rewrite <- Hk', <- Hd'. done.
    - apply Hp.
    - intros z Hz. rewrite (shape_dom _ _ _ Hs). by apply Hp.
    - intros Hd. apply (sh_ok _ _ _ Hs Hd). by apply Hp.
    - apply Hp.
    - apply Hp.
    - apply Hp.
  Qed.
  Definition both s s' : Prop := evo g s s' /\ vecs s s'.
  Global Instance both_pre : PreOrder both.
  Proof. split; [intros s; split; reflexivity|]. intros s1 s2 s3 [? ?] [? ?]. split; by etrans. Qed.
  Lemma pres_both {A} (m : M (simst D) A) : pres (evo g) m -> pres vecs m -> pres both m.
  Proof. intros H1 H2 s. specialize (H1 s). specialize (H2 s). by destruct (m s). Qed.
  Lemma both_packed {A} (m : M (simst D) A) : pres both m -> keep packed m.
  Proof.
    intros Hm s a s' Hp Hr. specialize (Hm s). rewrite Hr in Hm. destruct Hm as [He (E1 & E2 & E3)].
    by apply (packed_evo s s'); rewrite ?E1, ?E2.
  Qed.
  Lemma packed_process t b1 b2 : keep packed (process_model g t b1 b2).
  Proof. apply both_packed, pres_both; [apply pres_process_model|apply vecs_process_model]. Qed.
  Lemma packed_clear : keep packed clear_all.
  Proof. apply both_packed, pres_both; [apply pres_clear_all|apply vecs_clear_all]. Qed.
  Lemma packed_reset x : keep packed (reset_sv g x).
  Proof. apply both_packed, pres_both; [apply pres_reset_sv|apply vecs_reset_sv]. Qed.
  Lemma packed_get x : keep packed (get_sv g x).
  Proof. apply both_packed, pres_both; [apply pres_get_sv|apply vecs_get_sv]. Qed.
  Lemma packed_begin t : keep packed (begin_step g t).
  Proof. apply both_packed, pres_both; [apply pres_begin_step|apply vecs_begin_step]. Qed.
  Lemma packed_core {A} (m : M (core D) A) : pres (core_evo (g_dbg g)) m -> keep packed (on_core' m).
  Proof. intros Hm. apply both_packed, pres_both; [by apply pres_on_core'|apply vecs_on_dyn]. Qed.
  Lemma packed_sv x s : length x = length (s_sv s) -> packed s -> packed (put_sv x s).
  Proof. intros Hl Hp. apply (packed_evo s); done. Qed.
  Lemma packed_svo x s : length x = length (s_svo s) -> packed s -> packed (put_svo x s).
  Proof. intros Hl Hp. apply (packed_evo s); done. Qed.

  Context (Hstp : forall stp, g_stepper g = Some stp -> stepper_ok stp) (Hiter : forall l, g_iter g l ≡ₚ l).
  Lemma packed_loop fuel t lo hi t1 t2 force : keep packed (run_loop g fuel t lo hi t1 t2 force).
  Proof.
    revert t1 t2 force. induction fuel as [|fuel IH]; intros t1 t2 force; cbn [run_loop].
    { apply keep_if; [by intros s a s'|apply keep_ret]. }
    apply keep_if; [|apply keep_ret]. apply keep_bnd; [apply packed_begin|intros _].
    intros s a s' Hp. unfold bnd at 1, gets at 1. unfold bnd at 1. destruct (get_sv g (s_svo s) s) as [x s1| | |] eqn:Eg; try done.
    pose proof (get_sv_len g _ _ _ _ Eg) as Hlx. pose proof (packed_get _ _ _ _ Hp Eg) as Hp1.
    assert (length x = length (s_svo s1)) as Hlx1. { rewrite Hlx, (pk_svo _ Hp), (pk_svo _ Hp1).
      pose proof (pres_get_sv g (s_svo s) s) as He. rewrite Eg in He. pose proof (ev_dyn _ _ _ He) as [Hs _].
      rewrite (ev_scal _ _ _ He), (ev_arr _ _ _ He). symmetry. by eapply width_shape. }
    unfold bnd at 1, modify at 1. pose proof (packed_svo _ _ Hlx1 Hp1) as Hp2.
    assert (length (s_sv (put_svo x s1)) = length x) as Hlx2 by (rewrite (pk_sv _ Hp2), Hlx1, (pk_svo _ Hp1); done).
    revert Hp2 Hlx2. generalize (put_svo x s1). clear dependent s. clear Hp1 Hlx1. intros s Hp Hl.
    destruct (g_stepper g) as [stp|] eqn:Es; [|done]. unfold bnd at 1.
    pose proof (so_pres stp (Hstp _ eq_refl) _ both (minor_cb g) t1 x t2 _ (fun τ v => pres_both _ (pres_minor_cb g τ v) (vecs_minor_cb g τ v)) s) as Hb.
    destruct (stp _ (minor_cb g) t1 x t2 s) as [r s3| | |] eqn:Er; try done.
    pose proof (so_len stp (Hstp _ eq_refl) _ _ _ _ _ _ _ _ Er) as Hlr. destruct Hb as [He Hv].
    assert (packed s3) as Hp3. { destruct Hv as (E1 & E2 & E3). by apply (packed_evo s s3); rewrite ?E1, ?E2. }
    unfold bnd at 1, modify at 1.
    assert (packed (put_sv (fst r) s3)) as Hp4. { apply packed_sv; [|done]. destruct Hv as (E1 & _). by rewrite E1, Hl. }
    revert Hp4. generalize (put_sv (fst r) s3). clear dependent s. clear dependent s3. intros s Hp.
    revert s a s' Hp. change (keep packed (on_core' (emit (EvTry t1 x t2 (fst r) (snd r))) ;;;
      (let new_h := snd r in let h := (t2 - t1)%num in
       if (force || (h <=? new_h) || (h <=? lo))%num then
         let new_h' := clip lo hi new_h in let t1' := t2 in let t2' := nmin (t1' + new_h')%num t in
         (if (t1' <? t)%num then sv <~ gets s_sv ;; reset_sv g sv ;;; process_model g t1' false true else ret tt) ;;;
         run_loop g fuel t lo hi t1' t2' false
       else let force' := (new_h <=? lo)%num in let new_h' := clip lo hi new_h in run_loop g fuel t lo hi t1 (t1 + new_h')%num force'))).
    cbv zeta. apply keep_bnd; [apply packed_core, pres_emit|intros _]. apply keep_if; [|apply IH].
    apply keep_bnd; [|intros _; apply IH]. apply keep_if; [|apply keep_ret].
    apply keep_bnd; [apply keep_gets|intros sv]. apply keep_bnd; [apply packed_reset|intros _]. apply packed_process.
  Qed.
  Lemma packed_run fuel t lo hi s s' : packed s -> s_init s = true -> run g fuel t lo hi s = Ok tt s' -> packed s' /\ s_init s' = true.
  Proof.
    intros Hp Hi Hr. split.
    2:{ clear Hp. revert Hr. unfold run. unfold bnd at 1, gets at 1. rewrite Hi. cbn [negb]. unfold bnd at 1, gets at 1. unfold bnd at 1, gets at 1.
      assert (forall A (m : M (simst D) A), pres (evo g) m -> forall s a s', m s = Ok a s' -> s_init s = true -> s_init s' = true) as Hk.
      { intros A m Hm x a x' E Hx. specialize (Hm x). rewrite E in Hm. by rewrite (ev_init _ _ _ Hm). }
      unfold bnd at 1. lazymatch goal with |- match ?m with _ => _ end = _ -> _ => destruct m as [[] s1| | |] eqn:E1 end; try done.
      assert (s_init s1 = true) as Hi1.
      { revert E1. destruct (length (s_sv s)); [by intros [= <-]|]. destruct (_ <? _)%num; [done|]. destruct (_ =? _)%num.
        - intros E1. refine (Hk _ _ _ _ _ _ E1 Hi). apply pres_bnd; [apply _|apply pres_begin_step|intros _]. apply pres_bnd; [apply _|apply pres_gets, _|intros ?].
          apply pres_bnd; [apply _|apply pres_get_sv|intros ?]. apply pres_modify. intros ?. by split.
        - intros E1. refine (Hk _ _ _ _ _ _ E1 Hi). apply pres_bnd; [apply _|apply pres_debug, _|intros _]. apply pres_bnd; [apply _|apply pres_debug, _|intros _].
          apply pres_bnd; [apply _|apply pres_debug, _|intros _]. by apply pres_run_loop. }
      unfold bnd at 1, gets at 1. unfold bnd at 1. destruct (reset_sv _ _ _) as [[] s2| | |] eqn:E2; try done.
      unfold bnd at 1. destruct (process_model _ _ _ _ _) as [[] s3| | |] eqn:E3; try done. intros [= <-]. cbn.
      apply (Hk _ _ (pres_process_model g _ _ _) _ _ _ E3), (Hk _ _ (pres_reset_sv g _) _ _ _ E2), Hi1. }
    revert s s' Hp Hi Hr. intros s s' Hp Hi. unfold run. unfold bnd at 1, gets at 1. rewrite Hi. cbn [negb].
    unfold bnd at 1, gets at 1. unfold bnd at 1, gets at 1. revert Hp. generalize (s_tprev s) as tp. intros tp Hp.
    assert (keep packed (sv <~ gets s_sv ;; reset_sv g sv ;;; process_model g t (match length (s_sv s) with O => true | S _ => false end) true ;;; modify (put_tprev t))) as Hend.
    { apply keep_bnd; [apply keep_gets|intros sv]. apply keep_bnd; [apply packed_reset|intros _]. apply keep_bnd; [apply packed_process|intros _].
      apply keep_modify. intros x Hx. by destruct Hx; split. }
    unfold bnd at 1. lazymatch goal with |- match ?m with _ => _ end = _ -> _ => destruct m as [[] s1| | |] eqn:E1 end; try done.
    apply Hend. revert E1. destruct (length (s_sv s)); [by intros [= <-]|]. destruct (_ <? _)%num; [done|]. destruct (_ =? _)%num.
    - unfold bnd at 1. destruct (begin_step g t s) as [[] s2| | |] eqn:E2; try done. pose proof (packed_begin _ _ _ _ Hp E2) as Hp2.
      unfold bnd at 1, gets at 1. unfold bnd at 1. destruct (get_sv g (s_sv s2) s2) as [x s3| | |] eqn:E3; try done.
      intros E4. injection E4 as <-. apply packed_sv; [|by eapply packed_get].
      rewrite (get_sv_len _ _ _ _ _ E3). pose proof (vecs_get_sv g (s_sv s2) s2) as Hv. rewrite E3 in Hv. by destruct Hv as (-> & _).
    - revert s s1 Hp Hi. intros s s1 Hp Hi. unfold debug_verify, verify.
      intros E. revert E. assert (keep packed ((if g_dbg g then (if (match g_stepper g with Some _ => true | None => false end) then ret tt else throw EAssert) else ret tt) ;;;
        (if g_dbg g then (if (n0 <? lo)%num then ret tt else throw EAssert) else ret tt) ;;;
        (if g_dbg g then (if (lo <? hi)%num then ret tt else throw EAssert) else ret tt) ;;;
        run_loop g fuel t lo hi tp t false)) as Hk.
      { repeat (apply keep_bnd; [repeat apply keep_if; try apply keep_ret; apply keep_throw|intros _]). apply packed_loop. }
      apply (Hk s tt s1 Hp).
  Qed.

  Lemma cleared_dom vs σ σ' : forM vs clear_sig σ = Ok tt σ' -> forall z, z ∈ vs -> z ∈ dom σ.
  Proof.
    revert σ. induction vs as [|v vs IH]; intros σ; cbn [forM].
    { by intros _ z Hz%elem_of_nil. }
    unfold bnd. destruct (clear_sig v σ) as [[] σ1| | |] eqn:E; try done. intros Hr z [->|Hz]%elem_of_cons.
    - unfold clear_sig in E. apply elem_of_dom. destruct (σ !! v); [done|done].
    - pose proof (pres_clear true v σ) as Hp. rewrite E in Hp. rewrite <- (shape_dom _ _ _ Hp). by apply (IH σ1).
  Qed.
  Lemma width_perm σ zs zs' : zs ≡ₚ zs' -> width σ zs = width σ zs'.
  Proof. intros Hp. unfold width. by rewrite Hp. Qed.
  Lemma width_app σ zs zs' : width σ (zs ++ zs') = (width σ zs + width σ zs')%nat.
  Proof. unfold width. rewrite map_app. induction (map (sig_size σ) zs) as [|n l IH]; cbn; [done|]. rewrite IH. lia. Qed.
  Lemma filter_states σ (l : list nat) : NoDup l ->
    NoDup (List.filter (is_scalar_state σ) l ++ List.filter (is_array_state σ) l) /\
    (forall z, z ∈ List.filter (is_scalar_state σ) l <-> z ∈ l /\ is_scalar_state σ z = true) /\
    (forall z, z ∈ List.filter (is_array_state σ) l <-> z ∈ l /\ is_array_state σ z = true).
  Proof.
    intros Hn. split; [|split; intros z; by rewrite elem_of_list_In, filter_In, elem_of_list_In].
    apply NoDup_app. split; [|split].
    - by apply NoDup_ListNoDup, List.NoDup_filter, NoDup_ListNoDup.
    - intros z Hz Hz'. apply elem_of_list_In, filter_In in Hz as [_ Hz]. apply elem_of_list_In, filter_In in Hz' as [_ Hz'].
      unfold is_scalar_state, is_array_state in *. destruct (σ !! z) as [c|]; [|done]. by destruct (c_kind c), (c_deriv c).
    - by apply NoDup_ListNoDup, List.NoDup_filter, NoDup_ListNoDup.
  Qed.
  Lemma packed_base t d0 s : (g_dbg g = true -> store_ok (k_store (d_core d0))) -> base_init g t (new_sim d0) = Ok tt s -> packed s.
  Proof.
    intros Hok. unfold base_init. unfold bnd at 1, modify at 1. cbv zeta. unfold bnd at 1.
    cbn [s_dyn s_po1 s_po2 s_cur s_fast s_vsigs s_scal s_arr s_sv s_svo s_dv s_init new_sim app].
    change (s_store (new_sim d0)) with (k_store (d_core d0)). set (σ := k_store (d_core d0)). set (all := linked_signals (g_tree g)).
    set (scal := List.filter (is_scalar_state σ) all). set (arr := List.filter (is_array_state σ) all).
    set (n := (length scal + sum_list (map (sig_size σ) arr))%nat).
    match goal with |- match clear_all ?x with _ => _ end = _ -> _ => set (s0 := x) end.
    destruct (clear_all s0) as [[] s1| | |] eqn:Ec; try done. intros [= <-].
    assert (length (resize g n []) = n) as Hn. { unfold resize. destruct (Nat.eqb_spec (length (@nil D)) n); [done|by rewrite replicate_length]. }
    destruct (filter_states σ all) as (Hnd & Hs1 & Ha1); [apply NoDup_remove_dups|].
    assert (forall z, z ∈ g_iter g all -> z ∈ dom σ) as Hdom.
    { clear -Ec. unfold clear_all, bnd, gets in Ec. cbn [s_vsigs s0] in Ec. unfold on_store', on_core', on_dyn, on_core, on_store, lift in Ec. cbn in Ec.
      destruct (forM _ _ (k_store (d_core d0))) as [[] σ'| | |] eqn:E; try done. exact (cleared_dom _ _ _ E). }
    assert (width σ (scal ++ arr) = n) as Hw.
    { rewrite width_app. unfold n. f_equal. unfold width. assert (forall z, z ∈ scal -> sig_size σ z = 1) as H1.
      { intros z Hz. apply Hs1 in Hz as [_ Hz]. unfold is_scalar_state, sig_size in *. destruct (σ !! z) as [c|]; [|done]. by destruct (c_kind c). }
      clear -H1. induction scal as [|z l IH]; [done|]. cbn. rewrite H1 by apply elem_of_list_here. rewrite IH; [done|].
      intros z' Hz'. apply H1. by apply elem_of_list_further. }
    assert (packed s0) as H0.
    { split; cbn [s_scal s_arr s_vsigs s_sv s_svo s_dv s0]; change (s_store s0) with σ.
      - by rewrite (Hiter scal), (Hiter arr).
      - intros z Hz. rewrite (Hiter scal) in Hz. apply Hs1 in Hz as [_ Hz]. unfold is_scalar_state in Hz. unfold scalar_at.
        destruct (σ !! z) as [c|]; [|done]. exists c. split; [done|]. by destruct (c_kind c).
      - intros z Hz. rewrite (Hiter arr) in Hz. apply Ha1 in Hz as [_ Hz]. unfold is_array_state in Hz. unfold array_at.
        destruct (σ !! z) as [c|]; [|done]. destruct (c_kind c) as [| | |m|] eqn:Ek; try done. by exists c, m.
      - intros z. rewrite (Hiter scal), (Hiter arr), elem_of_app. unfold scal, arr. rewrite Hs1, Ha1. unfold is_state_of, is_scalar_state, is_array_state. fold all.
        destruct (σ !! z) as [c|] eqn:Ez.
        + split.
          * intros [[Hz Hk]|[Hz Hk]]; (split; [done|]); destruct (c_kind c) eqn:Ek, (c_deriv c) as [ds|] eqn:Ed; try done; exists c, ds; rewrite Ek; eauto.
          * intros (Hz & c' & ds & [= <-] & [->|[m ->]] & Hd); rewrite Hd; [by left|by right].
        + split; [by intros [[? ?]|[? ?]]|]. by intros (_ & c' & ds & ? & _).
      - intros z. by rewrite (Hiter all).
      - done.
      - done.
      - rewrite (width_perm σ _ (scal ++ arr)); [by rewrite Hw|by rewrite (Hiter scal), (Hiter arr)].
      - rewrite (width_perm σ _ (scal ++ arr)); [by rewrite Hw|by rewrite (Hiter scal), (Hiter arr)].
      - rewrite (width_perm σ _ (scal ++ arr)); [by rewrite Hw|by rewrite (Hiter scal), (Hiter arr)]. }
    pose proof (packed_clear _ _ _ H0 Ec) as Hp. by destruct Hp; split.
  Qed.
  Lemma packed_po p1 p2 c s : packed s -> packed (put_po p1 p2 c s).
  Proof. intros Hp. by destruct Hp; split. Qed.
  Lemma packed_fast f s : packed s -> packed (put_fast f s).
  Proof. intros Hp. by destruct Hp; split. Qed.
  Lemma packed_init t d0 s : (g_dbg g = true -> store_ok (k_store (d_core d0))) -> init g t (new_sim d0) = Ok tt s -> packed s.
  Proof.
    intros Hok Hr.
    assert (exists s1 (k : M (simst D) unit), base_init g t (new_sim d0) = Ok tt s1 /\ k s1 = Ok tt s /\ keep packed k) as (s1 & k & E1 & E2 & Hk).
    { revert Hr. unfold init. destruct (g_mode g) eqn:Em; (unfold simulator_init || unfold fast_init); unfold bnd at 1;
        destruct (base_init g t (new_sim d0)) as [[] s1| | |] eqn:E1; try done; intros Hr;
        (exists s1; eexists; split; [done|]; split; [exact Hr|]).
      - apply keep_bnd; [apply keep_gets|intros n]. rewrite Em. apply keep_bnd; [apply keep_ret|intros _; apply packed_process].
      - apply keep_bnd; [apply keep_gets|intros n]. rewrite Em. apply keep_bnd; [|intros _; apply packed_process].
        destruct n; [apply keep_ret|]. apply keep_bnd; [apply keep_gets|intros p1]. apply keep_bnd; [apply keep_gets|intros p2].
        apply keep_bnd; [apply keep_debug|intros _]. apply keep_bnd; [apply keep_debug|intros _]. apply keep_modify. intros. by apply packed_po.
      - apply keep_bnd; [apply keep_gets|intros n]. apply keep_bnd; [apply keep_debug|intros _].
        apply keep_bnd; [apply packed_core, pres_inputs|intros _]. apply keep_bnd; [apply packed_core, pres_pre_snap|intros _].
        apply keep_bnd; [apply packed_core, pres_fast_loop|intros r]. apply keep_bnd; [apply keep_modify; intros; by apply packed_fast|intros _].
        apply keep_bnd; [apply keep_verify|intros _]. apply keep_bnd; [apply packed_core, pres_snap|intros _].
        apply keep_bnd; [apply packed_clear|intros _]. apply packed_process. }
    eapply Hk; [|exact E2]. by eapply packed_base.
  Qed.
  Lemma session_packed d0 s : (g_dbg g = true -> store_ok (k_store (d_core d0))) -> session g d0 s -> packed s /\ s_init s = true.
  Proof.
    intros Hok. induction 1 as [t s Hi|s fuel t lo hi s' Hs [IH1 IH2] Hr].
    - split; [by eapply packed_init|]. by destruct (init_flags g t _ _ Hi).
    - by eapply packed_run.
  Qed.

  (** ** Loading and reading the state vector *)
  Lemma clear_sigs vs σ : (forall z, z ∈ vs -> z ∈ dom σ) -> exists σ', forM vs clear_sig σ = Ok tt σ' /\
    (forall z, z ∉ vs -> σ' !! z = σ !! z) /\ (forall z c, z ∈ vs -> σ !! z = Some c -> σ' !! z = Some (clear_cell c)).
  Proof.
    revert σ. induction vs as [|v vs IH]; intros σ Hd.
    { exists σ. split; [done|]. split; [done|]. by intros z c Hz%elem_of_nil. }
    cbn [forM]. unfold bnd. destruct (σ !! v) as [c|] eqn:Ev.
    2:{ assert (v ∈ dom σ) as Hv by (by apply Hd, elem_of_list_here). apply elem_of_dom in Hv as [c Hc]. congruence. }
    unfold clear_sig at 1. rewrite Ev. destruct (IH (<[v := clear_cell c]> σ)) as (σ' & E & Hfr & Hcl).
    { intros z Hz. rewrite dom_insert_L. apply elem_of_union_r, Hd. by apply elem_of_list_further. }
    exists σ'. split; [done|]. split.
    - intros z Hz. apply not_elem_of_cons in Hz as [Hne Hz]. rewrite Hfr by done. by rewrite lookup_insert_ne.
    - intros z c' Hz Hc'. destruct (decide (v = z)) as [<-|Hne].
      + rewrite Ev in Hc'. injection Hc' as <-. destruct (decide (v ∈ vs)) as [Hin|Hin].
        * rewrite (Hcl v (clear_cell c)); [done|done|by rewrite lookup_insert].
        * rewrite Hfr by done. by rewrite lookup_insert.
      + apply Hcl; [|by rewrite lookup_insert_ne]. apply elem_of_cons in Hz as [->|Hz]; [done|done].
  Qed.
  Lemma on_store_ok {A} (m : M (store D) A) s a σ' : m (s_store s) = Ok a σ' ->
    on_store' m s = Ok a (put_dyn (Dyn (Core σ' (k_lst (s_core s)) (k_done (s_core s)) (k_log (s_core s))) (d_sdone (s_dyn s))) s).
  Proof. intros E. unfold on_store', on_core', on_dyn, on_core, on_store, lift. unfold s_store, s_core in E. cbn. rewrite E. done. Qed.

  Lemma width_scal σ zs : (forall z, z ∈ zs -> scalar_at σ z) -> width σ zs = length zs.
  Proof.
    unfold width. induction zs as [|z zs IH]; intros Hz; [done|]. cbn. destruct (Hz z) as (c & Hc & Hk); [apply elem_of_list_here|].
    rewrite IH by (intros z' Hz'; apply Hz; by apply elem_of_list_further). unfold sig_size. by rewrite Hc, Hk.
  Qed.
  Lemma state_linked s z : packed s -> z ∈ s_scal s ++ s_arr s -> z ∈ s_vsigs s.
  Proof. intros Hp Hz. apply (pk_vsigs _ Hp). by apply (pk_all _ Hp) in Hz as [? _]. Qed.

  (** The contents of the state signals have the declared types and sizes. *)
  Definition states_set s : Prop :=
    (forall z, z ∈ s_scal s -> exists y, value (s_store s) z = Some (VS y)) /\
    (forall z, z ∈ s_arr s -> exists ys, value (s_store s) z = Some (VA ys) /\ length ys = sig_size (s_store s) z).

  Lemma reset_ok x s : packed s -> length x = length (s_sv s) -> exists s1, reset_sv g x s = Ok tt s1 /\
    pack (s_store s1) (s_scal s ++ s_arr s) = x /\ states_set s1 /\
    (forall z, z ∈ s_vsigs s -> z ∉ s_scal s ++ s_arr s -> value (s_store s1) z = None) /\
    (forall z, z ∉ s_vsigs s -> s_store s1 !! z = s_store s !! z) /\
    k_lst (s_core s1) = k_lst (s_core s) /\ s_log s1 = s_log s.
  Proof.
    intros Hp Hl. rewrite (pk_sv _ Hp), width_app, (width_scal _ _ (pk_scal _ Hp)) in Hl.
    destruct (clear_sigs (s_vsigs s) (s_store s) (pk_dom _ Hp)) as (σ1 & E1 & Hfr1 & Hcl1).
    assert (clear_all s = Ok tt (put_dyn (Dyn (Core σ1 (k_lst (s_core s)) (k_done (s_core s)) (k_log (s_core s))) (d_sdone (s_dyn s))) s)) as Ec.
    { unfold clear_all, bnd, gets. by apply on_store_ok. }
    pose proof (pres_clear_all g s) as He. rewrite Ec in He. pose proof (ev_dyn _ _ _ He) as [Hs1 _]. cbn in Hs1. change (k_store (d_core (s_dyn s))) with (s_store s) in Hs1.
    assert (forall z, z ∈ s_scal s ++ s_arr s -> blank g σ1 z) as Hblank.
    { intros z Hz c Hc Hd. pose proof (state_linked s z Hp Hz) as Hv. destruct (s_store s !! z) as [c0|] eqn:E0.
      - rewrite (Hcl1 z c0 Hv E0) in Hc. injection Hc as <-. split; [done|]. apply payload_ok.
        pose proof (sh_ok _ _ _ Hs1 Hd (pk_ok _ Hp Hd)) as Hok. apply (Hok z). by apply Hcl1.
      - rewrite (sh_none _ _ _ Hs1 z E0) in Hc. done. }
    pose proof (pk_nodup _ Hp) as Hnd. apply NoDup_app in Hnd as (Hn1 & Hn2 & Hn3).
    destruct (set_scalars_ok g (s_scal s) x σ1 Hn1) as (σ2 & E2 & Hp2 & Hv2 & Hfr2 & Hsz2).
    { intros z Hz. split; [|apply Hblank; apply elem_of_app; by left]. destruct (pk_scal _ Hp z Hz) as (c & Hc & Hk).
      destruct (sh_cell _ _ _ Hs1 z c Hc) as (c' & Hc' & Hk' & _). exists c'. by rewrite Hk'. }
    { lia. }
    assert (width σ2 (s_arr s) = width (s_store s) (s_arr s)) as Hw2.
    { rewrite <- (width_shape _ _ _ _ Hs1). unfold width. f_equal. apply map_ext. done. }
    destruct (set_arrays_ok g (s_arr s) (drop (length (s_scal s)) x) σ2 Hn3) as (σ3 & E3 & Hp3 & Hv3 & Hfr3 & Hsz3).
    { intros z Hz. assert (z ∉ s_scal s) as Hnz by (intros Hz'; by eapply Hn2). split.
      - destruct (pk_arr _ Hp z Hz) as (c & n & Hc & Hk). destruct (sh_cell _ _ _ Hs1 z c Hc) as (c' & Hc' & Hk' & _).
        exists c', n. rewrite Hfr2 by done. by rewrite Hk'.
      - intros c Hc. rewrite Hfr2 in Hc by done. apply (Hblank z); [apply elem_of_app; by right|done]. }
    { rewrite drop_length. lia. }
    eexists. split.
    { unfold reset_sv. unfold bnd at 1. rewrite Ec. unfold bnd at 1, gets at 1. unfold bnd at 1, gets at 1.
      apply on_store_ok. cbn. unfold bnd at 1. change (s_store _) with σ1. rewrite E2. unfold bnd. rewrite E3. done. }
    cbn [s_scal s_arr put_dyn]. unfold states_set.
    match goal with |- context [s_store ?s1] => change (s_store s1) with σ3 end.
    assert (forall z, z ∈ s_scal s -> value σ3 z = value σ2 z) as Hsame.
    { intros z Hz. unfold value. rewrite Hfr3; [done|]. intros Hz'. by eapply Hn2. }
    split_and!.
    - rewrite pack_app, Hp3, Hw2.
      assert (pack σ3 (s_scal s) = pack σ2 (s_scal s)) as ->.
      { unfold pack. f_equal. apply map_ext_in. intros z Hz. rewrite Hsame; [done|]. by apply elem_of_list_In. }
      rewrite Hp2. rewrite (take_ge (drop _ _)) by (rewrite drop_length; lia). apply take_drop.
    - cbn [s_scal put_dyn]. intros z Hz. change (s_store _) with σ3. rewrite Hsame by done. by apply Hv2.
    - cbn [s_arr put_dyn]. intros z Hz. change (s_store _) with σ3. destruct (Hv3 z Hz) as (ys & Ey & Ly). exists ys. rewrite Hsz3, Ey. done.
    - intros z Hz Hnz. apply not_elem_of_app in Hnz as [Hnz1 Hnz2]. unfold value. rewrite Hfr3, Hfr2 by done.
      destruct (s_store s !! z) as [c0|] eqn:E0; [by rewrite (Hcl1 z c0 Hz E0)|]. by rewrite (sh_none _ _ _ Hs1 z E0).
    - intros z Hz. assert (z ∉ s_scal s ++ s_arr s) as Hnz by (intros Hz'; by apply Hz, state_linked). apply not_elem_of_app in Hnz as [Hnz1 Hnz2].
      rewrite Hfr3, Hfr2, Hfr1 by done. done.
    - done.
    - done.
  Qed.
  Lemma write_all (xs arr : list D) : length xs = length arr -> write_prefix xs arr = Some xs.
  Proof. intros Hl. unfold write_prefix. rewrite Hl, Nat.leb_refl, drop_all, app_nil_r. done. Qed.
  Lemma pack_len s : packed s -> states_set s -> length (pack (s_store s) (s_scal s ++ s_arr s)) = length (s_sv s).
  Proof.
    intros Hp [Hs Ha]. rewrite (pk_sv _ Hp), pack_app, app_length, width_app. f_equal.
    - rewrite (width_scal _ _ (pk_scal _ Hp)). unfold pack. clear -Hs. induction (s_scal s) as [|z l IH]; [done|]. cbn.
      destruct (Hs z) as [y Ey]; [apply elem_of_list_here|]. rewrite Ey. cbn. rewrite IH; [done|]. intros z' Hz'. apply Hs. by apply elem_of_list_further.
    - unfold pack, width. clear -Ha. induction (s_arr s) as [|z l IH]; [done|]. cbn.
      destruct (Ha z) as (ys & Ey & Ly); [apply elem_of_list_here|]. rewrite Ey, app_length. cbn. rewrite Ly. f_equal. apply IH. intros z' Hz'. apply Ha. by apply elem_of_list_further.
  Qed.
  Lemma get_sv_ok arr s : packed s -> states_set s -> length arr = length (s_sv s) ->
    get_sv g arr s = Ok (pack (s_store s) (s_scal s ++ s_arr s)) s.
  Proof.
    intros Hp Hset Hl. pose proof (pack_len s Hp Hset) as Hpl. destruct Hset as [Hs Ha].
    assert (forall z, sized g (s_store s) z) as Hz. { intros z Hd c Hc. apply payload_ok. by eapply (pk_ok _ Hp Hd). }
    unfold get_sv. unfold bnd at 1, gets at 1. unfold bnd at 1. rewrite Hl, Nat.eqb_refl.
    assert (debug_verify (g_dbg g) true EAssert s = Ok tt s) as -> by (by destruct (g_dbg g)).
    unfold bnd at 1, gets at 1. unfold bnd at 1, gets at 1. unfold bnd at 1.
    rewrite (on_store_ok _ s (pack (s_store s) (s_scal s ++ s_arr s)) (s_store s)).
    - rewrite write_all by lia. unfold ret. f_equal. destruct s as [[[] ?]]. done.
    - unfold bnd at 1. rewrite (collect_scalars g (s_scal s) (s_store s)); [|intros z Hx; split; [apply Hz|by apply Hs]].
      unfold bnd. rewrite (collect_arrays g (s_arr s) (s_store s)); [|intros z Hx; split; [apply Hz|by apply Ha]].
      unfold ret. by rewrite pack_app.
  Qed.
  (** What a read returned, in any build: the raw contents. *)
  Lemma collect_inv (f : nat -> M (store D) (list D)) zs σ x σ' : (forall z y σ1 σ2, f z σ1 = Ok y σ2 -> σ2 = σ1) -> collect f zs σ = Ok x σ' ->
    σ' = σ /\ exists ys, x = concat ys /\ Forall2 (fun z y => f z σ = Ok y σ) zs ys.
  Proof.
    intros Hf. revert x σ'. induction zs as [|z zs IH]; intros x σ'; cbn [collect].
    { intros [= <- <-]. split; [done|]. by exists []. }
    unfold bnd at 1. destruct (f z σ) as [y σ1| | |] eqn:E1; try done. pose proof (Hf _ _ _ _ E1) as ->.
    unfold bnd. destruct (collect f zs σ) as [r σ2| | |] eqn:E2; try done. destruct (IH _ _ eq_refl) as (-> & ys & -> & Hys).
    intros [= <- <-]. split; [done|]. exists (y :: ys). split; [done|]. by constructor.
  Qed.
  Lemma get_scalar_inv z y σ1 σ2 : get_scalar g z σ1 = Ok y σ2 -> σ2 = σ1 /\ exists d, y = [d] /\ get_value (g_dbg g) z σ1 = Ok (VS d) σ1.
  Proof.
    unfold get_scalar, bnd. destruct (get_value (g_dbg g) z σ1) as [v σ3| | |] eqn:E; try done. pose proof (get_inv _ _ _ _ _ E) as [-> _].
    destruct v; try done. intros [= <- <-]. eauto.
  Qed.
  Lemma get_array_inv z y σ1 σ2 : get_array g z σ1 = Ok y σ2 -> σ2 = σ1 /\ length y = sig_size σ1 z /\ get_value (g_dbg g) z σ1 = Ok (VA y) σ1.
  Proof.
    unfold get_array, bnd, gets. destruct (get_value (g_dbg g) z σ1) as [v σ3| | |] eqn:E; try done. pose proof (get_inv _ _ _ _ _ E) as [-> _].
    destruct v; try done. destruct (Nat.eqb_spec (length l) (sig_size σ1 z)); [|done]. intros [= <- <-]. eauto.
  Qed.
  Lemma pieces σ1 zs ys : Forall2 (fun z y => exists v, value σ1 z = Some v /\ length (flat v) = length y) zs ys ->
    concat ys = pack σ1 zs -> Forall2 (fun z y => exists v, value σ1 z = Some v /\ flat v = y) zs ys.
  Proof.
    induction 1 as [|z y zs ys (v & Ev & El) Hr IH]; [constructor|]. rewrite pack_cons, Ev. cbn [concat]. intros He.
    apply app_inj_1 in He as [-> He]; [|done]. constructor; [by exists v|by apply IH].
  Qed.
  (** Reading the state variables and loading them again gives every state signal
      the contents it had. *)
  Lemma get_reset arr s x s' : packed s -> length arr = length (s_sv s) -> get_sv g arr s = Ok x s' ->
    s' = s /\ exists s1, reset_sv g x s = Ok tt s1 /\ forall z, z ∈ s_scal s ++ s_arr s ->
      exists v, get_value (g_dbg g) z (s_store s) = Ok v (s_store s) /\ value (s_store s1) z = Some v.
  Proof.
    intros Hp Hl Hr. pose proof (get_sv_len g _ _ _ _ Hr) as Hlx. revert Hr.
    unfold get_sv. unfold bnd at 1, gets at 1. unfold bnd at 1. rewrite Hl, Nat.eqb_refl.
    assert (debug_verify (g_dbg g) true EAssert s = Ok tt s) as -> by (by destruct (g_dbg g)).
    unfold bnd at 1, gets at 1. unfold bnd at 1, gets at 1. unfold bnd at 1.
    set (m := bnd (collect (get_scalar g) (s_scal s)) _).
    destruct (m (s_store s)) as [y σ'| | |] eqn:Em; [|unfold on_store', on_core', on_dyn, on_core, on_store, lift; unfold s_store, s_core in Em; cbn; rewrite Em; done..].
    rewrite (on_store_ok m s y σ' Em). unfold m, bnd in Em.
    destruct (collect (get_scalar g) (s_scal s) (s_store s)) as [x1 σ1| | |] eqn:E1; try done.
    destruct (collect_inv _ _ _ _ _ (fun z y a b E => proj1 (get_scalar_inv z y a b E)) E1) as (-> & ys1 & -> & Hy1).
    destruct (collect (get_array g) (s_arr s) (s_store s)) as [x2 σ2| | |] eqn:E2; try done.
    destruct (collect_inv _ _ _ _ _ (fun z y a b E => proj1 (get_array_inv z y a b E)) E2) as (-> & ys2 & -> & Hy2).
    injection Em as <- <-. rewrite <- concat_app.
    set (ys := ys1 ++ ys2).
    assert (Forall2 (fun z y => exists v, get_value (g_dbg g) z (s_store s) = Ok v (s_store s) /\ flat v = y /\ length y = sig_size (s_store s) z /\
        kind_fits (default KBus (c_kind <$> s_store s !! z)) v = true) (s_scal s ++ s_arr s) ys) as Hys.
    { apply Forall2_app.
      - pose proof (pk_scal _ Hp) as Hk. revert Hk. clear -Hy1. induction Hy1 as [|z y zs ys E _ IH]; intros Hk; [constructor|]. constructor.
        + destruct (get_scalar_inv _ _ _ _ E) as (_ & d & -> & Ev). exists (VS d). destruct (Hk z) as (c & Hc & Hkc); [apply elem_of_list_here|].
          split; [done|]. split; [done|]. unfold sig_size. rewrite Hc. cbn. by rewrite Hkc.
        + apply IH. intros z' Hz'. apply Hk. by apply elem_of_list_further.
      - pose proof (pk_arr _ Hp) as Hk. revert Hk. clear -Hy2. induction Hy2 as [|z y zs ys E _ IH]; intros Hk; [constructor|]. constructor.
        + destruct (get_array_inv _ _ _ _ E) as (_ & El & Ev). exists (VA y). destruct (Hk z) as (c & n & Hc & Hkc); [apply elem_of_list_here|].
          split; [done|]. split; [done|]. split; [done|]. rewrite Hc. cbn. by rewrite Hkc.
        + apply IH. intros z' Hz'. apply Hk. by apply elem_of_list_further. }
    assert (length (concat ys) = length arr) as Hly.
    { rewrite Hl, (pk_sv _ Hp). clear -Hys. unfold width. induction Hys as [|z y zs ys (v & _ & _ & El & _) _ IH]; [done|]. cbn. rewrite app_length, IH. lia. }
    rewrite (write_all _ _ Hly). intros E. injection E as <- <-.
    assert (forall q : simst D, s = q -> put_dyn (Dyn (Core (s_store s) (k_lst (s_core s)) (k_done (s_core s)) (k_log (s_core s))) (d_sdone (s_dyn s))) s = s) as Hid.
    { intros _ _. destruct s as [[[] ?]]. done. }
    rewrite (Hid s eq_refl). split; [done|].
    destruct (reset_ok (concat ys) s Hp ltac:(by rewrite Hly, Hl)) as (s1 & Er & Hpk & Hset & _). exists s1. split; [done|].
    pose proof (pres_reset_sv g (concat ys) s) as He. rewrite Er in He. pose proof (ev_dyn _ _ _ He) as [Hsh _].
    change (shape (g_dbg g) (s_store s) (s_store s1)) in Hsh. unfold states_set in Hset. rewrite (ev_scal _ _ _ He), (ev_arr _ _ _ He) in Hset.
    assert (Forall2 (fun z y => exists v, value (s_store s1) z = Some v /\ length (flat v) = length y) (s_scal s ++ s_arr s) ys) as Hval.
    { assert (forall z, z ∈ s_scal s ++ s_arr s -> exists v, value (s_store s1) z = Some v /\ length (flat v) = sig_size (s_store s) z) as Hv.
      { intros z [Hz|Hz]%elem_of_app.
        - destruct Hset as [Hset _]. destruct (Hset z Hz) as [d Ed]. exists (VS d). split; [done|]. cbn. destruct (pk_scal _ Hp z Hz) as (c & Hc & Hk). unfold sig_size. by rewrite Hc, Hk.
        - destruct Hset as [_ Hset]. destruct (Hset z Hz) as (d & Ed & Ld). exists (VA d). split; [done|]. cbn. by rewrite Ld, (sig_size_shape _ _ _ _ Hsh). }
      revert Hv. clear -Hys. induction Hys as [|z y zs ys (v & _ & _ & El & _) _ IH]; intros Hv; [constructor|]. constructor.
      - destruct (Hv z) as (v' & ? & ?); [apply elem_of_list_here|]. exists v'. split; [done|]. lia.
      - apply IH. intros z' Hz'. apply Hv. by apply elem_of_list_further. }
    pose proof (pieces _ _ _ Hval (eq_sym Hpk)) as Hpc.
    assert (forall z v, value (s_store s1) z = Some v -> z ∈ s_scal s ++ s_arr s -> kind_fits (default KBus (c_kind <$> s_store s !! z)) v = true) as Hkf.
    { intros z v Ev [Hz|Hz]%elem_of_app.
      - destruct Hset as [Hset _]. destruct (Hset z Hz) as [d Ed]. rewrite Ed in Ev. injection Ev as <-. destruct (pk_scal _ Hp z Hz) as (c & Hc & Hk). rewrite Hc. cbn. by rewrite Hk.
      - destruct Hset as [_ Hset]. destruct (Hset z Hz) as (d & Ed & _). rewrite Ed in Ev. injection Ev as <-. destruct (pk_arr _ Hp z Hz) as (c & n & Hc & Hk). rewrite Hc. cbn. by rewrite Hk. }
    assert (forall k (v v' : val D), (k = KScalar \/ exists n, k = KArray n) -> kind_fits k v = true -> kind_fits k v' = true -> flat v = flat v' -> v = v') as Hinj.
    { intros k v v' [->|[n ->]]; destruct v, v'; try done; cbn; intros _ _ E; by simplify_eq. }
    intros z Hz. pose proof (proj1 (pk_all _ Hp z) Hz) as (_ & c & ds & Hc & Hk & _).
    apply elem_of_list_lookup in Hz as Hi. destruct Hi as [i Hi].
    destruct (Forall2_lookup_l _ _ _ _ _ Hys Hi) as (y & Hy & v & Ev & Ef & _ & Hkv).
    destruct (Forall2_lookup_l _ _ _ _ _ Hpc Hi) as (y' & Hy' & v' & Ev' & Ef'). rewrite Hy in Hy'. injection Hy' as <-.
    exists v. split; [done|]. rewrite Ev'. f_equal. pose proof (Hkf z v' Ev' Hz) as Hkv'. rewrite Hc in Hkv, Hkv'. cbn in Hkv, Hkv'.
    apply (Hinj (c_kind c)); congruence || done.
  Qed.
End inv.

(** ** Sessions on models built by a client *)
Section reach.
  Context {D : Type} `{NumOps D}.
  Context (dbg : bool) (d0 : dyn D).
  Definition comes (s : simst D) : Prop := dyn_evo dbg d0 (s_dyn s).
  Section one.
    Context (g : cfg D) (Hg : g_dbg g = dbg) (Hs : forall stp, g_stepper g = Some stp -> stepper_rel stp).
    Lemma comes_pres {A} (m : M (simst D) A) : pres (sim_evo g) m -> keep comes m.
    Proof. intros Hm s a s' Hc Hr. specialize (Hm s). rewrite Hr in Hm. unfold comes, sim_evo in *. rewrite Hg in Hm. by etrans. Qed.
    Lemma comes_evo {A} (m : M (simst D) A) : pres (evo g) m -> keep comes m.
    Proof. intros Hm. by apply comes_pres, evo_sim. Qed.
    Lemma comes_modify f : (forall s, s_dyn (f s) = s_dyn s) -> keep comes (modify f).
    Proof. intros Hf. apply keep_modify. intros s Hc. unfold comes. by rewrite Hf. Qed.
    Lemma comes_loop fuel t lo hi t1 t2 force : keep comes (run_loop g fuel t lo hi t1 t2 force).
    Proof.
      revert t1 t2 force. induction fuel as [|fuel IH]; intros t1 t2 force; cbn [run_loop]; (apply keep_if; [|apply keep_ret]); [done|].
      apply keep_bnd; [apply comes_evo, pres_begin_step|intros _]. apply keep_bnd; [apply keep_gets|intros o].
      apply keep_bnd; [apply comes_evo, pres_get_sv|intros x]. apply keep_bnd; [by apply comes_modify|intros _].
      destruct (g_stepper g) as [stp|] eqn:E; [|apply keep_undef].
      apply keep_bnd; [apply stepper_keep; [by apply Hs|intros; apply comes_evo, pres_minor_cb]|intros r].
      apply keep_bnd; [by apply comes_modify|intros _]. apply keep_bnd; [apply comes_evo, pres_on_core', pres_emit|intros _]. cbv zeta.
      apply keep_if; [|apply IH]. apply keep_bnd; [|intros _; apply IH]. apply keep_if; [|apply keep_ret].
      apply keep_bnd; [apply keep_gets|intros sv]. apply keep_bnd; [apply comes_evo, pres_reset_sv|intros _]. apply comes_evo, pres_process_model.
    Qed.
    Lemma comes_run fuel t lo hi : keep comes (run g fuel t lo hi).
    Proof.
      unfold run. apply keep_bnd; [apply keep_gets|intros ini]. apply keep_if; [apply comes_pres, pres_init|].
      apply keep_bnd; [apply keep_gets|intros n]. apply keep_bnd; [apply keep_gets|intros tp].
      apply keep_bnd.
      { destruct n; [apply keep_ret|]. apply keep_if; [apply keep_throw|]. apply keep_if.
        - apply keep_bnd; [apply comes_evo, pres_begin_step|intros _]. apply keep_bnd; [apply keep_gets|intros o].
          apply keep_bnd; [apply comes_evo, pres_get_sv|intros x]. by apply comes_modify.
        - apply keep_bnd; [apply keep_debug|intros _]. apply keep_bnd; [apply keep_debug|intros _].
          apply keep_bnd; [apply keep_debug|intros _]. apply comes_loop. }
      intros _. apply keep_bnd; [apply keep_gets|intros sv]. apply keep_bnd; [apply comes_evo, pres_reset_sv|intros _].
      apply keep_bnd; [apply comes_evo, pres_process_model|intros _]. by apply comes_modify.
    Qed.
  End one.
  Lemma simulated_comes tr g s : simulated_ok dbg tr d0 g s ->
    (g_dbg g = dbg /\ g_tree g = tr /\ forall stp, g_stepper g = Some stp -> stepper_rel stp) /\ comes s.
  Proof.
    induction 1 as [g Hg Ht Hs|g0 s0 g _ [_ IH] Hg Ht Hs|g s t s' _ [(Hg & Ht & Hs) IH] Hr|g s fuel t lo hi s' _ [(Hg & Ht & Hs) IH] Hr].
    - split; [done|]. unfold comes. cbn. reflexivity.
    - split; [done|]. done.
    - split; [done|]. eapply (comes_pres g Hg); [apply (pres_init g t)|exact IH|exact Hr].
    - split; [done|]. by eapply (comes_run g Hg Hs).
  Qed.
End reach.
