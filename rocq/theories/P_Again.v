(** A simulator that was initialised twice. *)
From stdpp Require Import prelude gmap.
From Coq Require Import ZArith.
From Verif Require Import Num Res Store Leaf Sched Stepper Sim SpecSched P_Store P_Prog P_Modes P_Eval P_Sim P_Evolve P_Rel SpecHist P_Trace P_Log P_Pack.

Section again.
  Context {D : Type} `{NumOps D} (g : cfg D).
  Implicit Types (σ : store D) (s : simst D).
  (** More state signals are listed than the state vectors have room for. *)
  Record overfull s : Prop := {
    of_scal z : z ∈ s_scal s -> scalar_at (s_store s) z;
    of_sv : length (s_sv s) < width (s_store s) (s_scal s ++ s_arr s);
    of_svo : length (s_svo s) = length (s_sv s);
    of_n : s_sv s ≠ []
  }.
  Lemma overfull_both s s' : both g s s' -> overfull s -> overfull s'.
  Proof.
    intros [He (E1 & E2 & E3)] [Hs Hl Ho Hn]. pose proof (ev_dyn _ _ _ He) as [Hsh _]. change (shape (g_dbg g) (s_store s) (s_store s')) in Hsh.
    split; rewrite ?(ev_scal _ _ _ He), ?(ev_arr _ _ _ He), ?E1, ?E2; try done.
    - intros z Hz. destruct (Hs z Hz) as (c & Hc & Hk). destruct (sh_cell _ _ _ Hsh z c Hc) as (c' & Hc' & Hk' & _). exists c'. by rewrite Hk'.
    - by rewrite (width_shape _ _ _ _ Hsh).
  Qed.
  Lemma overfull_keep {A} (m : M (simst D) A) : pres (both g) m -> keep overfull m.
  Proof. intros Hm s a s' Hp Hr. specialize (Hm s). rewrite Hr in Hm. by eapply overfull_both. Qed.
  Lemma concat_len {A} (f : A -> nat) (zs : list A) (ys : list (list D)) : Forall2 (fun z y => length y = f z) zs ys -> length (concat ys) = sum_list (map f zs).
  Proof. induction 1 as [|z y zs ys E _ IH]; [done|]. cbn. rewrite app_length. lia. Qed.
  (** Reading the state variables never returns. *)
  Lemma overfull_get o s x s' : overfull s -> length o = length (s_sv s) -> get_sv g o s ≠ Ok x s'.
  Proof.
    intros Hf Hl. unfold get_sv. unfold bnd at 1, gets at 1. unfold bnd at 1. rewrite Hl, Nat.eqb_refl.
    assert (debug_verify (g_dbg g) true EAssert s = Ok tt s) as -> by (by destruct (g_dbg g)).
    unfold bnd at 1, gets at 1. unfold bnd at 1, gets at 1. unfold bnd at 1.
    set (m := bnd (collect (get_scalar g) (s_scal s)) _).
    destruct (m (s_store s)) as [y σ'| | |] eqn:Em; [|unfold on_store', on_core', on_dyn, on_core, on_store, lift; unfold s_store, s_core in Em; cbn; rewrite Em; done..].
    rewrite (on_store_ok m s y σ' Em). unfold m, bnd in Em.
    destruct (collect (get_scalar g) (s_scal s) (s_store s)) as [x1 σ1| | |] eqn:E1; try done.
    destruct (collect_inv _ _ _ _ _ (fun z y a b E => proj1 (get_scalar_inv g z y a b E)) E1) as (-> & ys1 & -> & Hy1).
    destruct (collect (get_array g) (s_arr s) (s_store s)) as [x2 σ2| | |] eqn:E2; try done.
    destruct (collect_inv _ _ _ _ _ (fun z y a b E => proj1 (get_array_inv g z y a b E)) E2) as (-> & ys2 & -> & Hy2).
    injection Em as <- <-.
    assert (length (concat ys1) = width (s_store s) (s_scal s)) as L1.
    { apply concat_len. pose proof (of_scal _ Hf) as Hk. revert Hk. clear -Hy1. induction Hy1 as [|z y zs ys E _ IH]; intros Hk; constructor.
      - destruct (get_scalar_inv g _ _ _ _ E) as (_ & d & -> & _). destruct (Hk z) as (c & Hc & Hkc); [apply elem_of_list_here|]. unfold sig_size. by rewrite Hc, Hkc.
      - apply IH. intros z' Hz'. apply Hk. by apply elem_of_list_further. }
    assert (length (concat ys2) = width (s_store s) (s_arr s)) as L2.
    { apply concat_len. clear -Hy2. induction Hy2 as [|z y zs ys E _ IH]; constructor; [|done]. by destruct (get_array_inv g _ _ _ _ E) as (_ & ? & _). }
    pose proof (of_sv _ Hf) as Hlt. rewrite width_app in Hlt. unfold write_prefix. rewrite app_length, L1, L2.
    destruct (Nat.leb_spec (width (s_store s) (s_scal s) + width (s_store s) (s_arr s)) (length o)); [lia|done].
  Qed.
  Lemma set_scalars_len ss sv σ r σ' : set_scalars g ss sv σ = Ok r σ' -> length sv = (length ss + length r)%nat.
  Proof.
    revert sv σ. induction ss as [|z ss IH]; intros sv σ; cbn [set_scalars].
    - intros [= -> _]. done.
    - destruct sv as [|x sv]; [done|]. unfold bnd. destruct (set_value _ _ _ _) as [[] σ1| | |]; try done. intros Hr. apply IH in Hr. cbn. lia.
  Qed.
  Lemma set_arrays_len ss sv σ r σ' : set_arrays g ss sv σ = Ok r σ' -> length sv = (width σ ss + length r)%nat.
  Proof.
    revert sv σ. induction ss as [|z ss IH]; intros sv σ; cbn [set_arrays].
    - intros [= -> _]. done.
    - unfold bnd at 1, gets at 1. destruct (Nat.leb_spec (sig_size σ z) (length sv)) as [Hle|]; [|done].
      unfold bnd. destruct (set_value _ _ _ _) as [[] σ1| | |] eqn:E; try done. intros Hr. apply IH in Hr. rewrite drop_length in Hr.
      pose proof (pres_set (g_dbg g) z (VA (take (sig_size σ z) sv)) σ) as Hp. rewrite E in Hp. rewrite (width_shape _ _ _ _ Hp) in Hr.
      change (width σ (z :: ss)) with (sig_size σ z + width σ ss)%nat. lia.
  Qed.
  Lemma overfull_reset sv s s' : overfull s -> length sv = length (s_sv s) -> reset_sv g sv s ≠ Ok tt s'.
  Proof.
    intros Hf Hl. unfold reset_sv. unfold bnd at 1. destruct (clear_all s) as [[] s1| | |] eqn:Ec; try done.
    assert (overfull s1) as Hf1. { eapply overfull_keep; [|exact Hf|exact Ec]. apply pres_both; [apply pres_clear_all|apply vecs_clear_all]. }
    assert (length sv = length (s_sv s1)) as Hl1. { pose proof (vecs_clear_all s) as Hv. rewrite Ec in Hv. by destruct Hv as (-> & _). }
    clear Hf Hl Ec. unfold bnd at 1, gets at 1. unfold bnd at 1, gets at 1. set (m := bnd (set_scalars g (s_scal s1) sv) _).
    destruct (m (s_store s1)) as [[] σ'| | |] eqn:Em; [exfalso|unfold on_store', on_core', on_dyn, on_core, on_store, lift; unfold s_store, s_core in Em; cbn; rewrite Em; done..].
    unfold m, bnd in Em. destruct (set_scalars g (s_scal s1) sv (s_store s1)) as [r1 σ1| | |] eqn:E1; try done.
    destruct (set_arrays g (s_arr s1) r1 σ1) as [r2 σ2| | |] eqn:E2; try done.
    pose proof (set_scalars_len _ _ _ _ _ E1) as L1. pose proof (set_arrays_len _ _ _ _ _ E2) as L2.
    pose proof (pres_set_scalars g (s_scal s1) sv (s_store s1)) as Hp. rewrite E1 in Hp. rewrite (width_shape _ _ _ _ Hp) in L2.
    pose proof (of_sv _ Hf1) as Hlt. rewrite width_app, (width_scal _ _ (of_scal _ Hf1)) in Hlt. lia.
  Qed.
  Lemma overfull_begin t : keep overfull (begin_step g t).
  Proof. apply overfull_keep, pres_both; [apply pres_begin_step|apply vecs_begin_step]. Qed.
  Lemma overfull_loop fuel t lo hi t1 t2 force s s' : overfull s -> run_loop g fuel t lo hi t1 t2 force s = Ok tt s' -> s' = s.
  Proof.
    intros Hf. destruct fuel as [|fuel]; cbn [run_loop]; destruct (t1 <? t)%num; [done|by intros [= <-]| |by intros [= <-]].
    unfold bnd at 1. destruct (begin_step g t1 s) as [[] s1| | |] eqn:E1; try done. pose proof (overfull_begin _ _ _ _ Hf E1) as Hf1.
    unfold bnd at 1, gets at 1. unfold bnd at 1. destruct (get_sv g (s_svo s1) s1) as [x s2| | |] eqn:E2; try done.
    by apply overfull_get in E2; [|done|apply Hf1].
  Qed.
  (** No run returns. *)
  Lemma overfull_run fuel t lo hi s s' : overfull s -> s_init s = true -> run g fuel t lo hi s ≠ Ok tt s'.
  Proof.
    intros Hf Hi. unfold run. unfold bnd at 1, gets at 1. rewrite Hi. cbn [negb]. unfold bnd at 1, gets at 1. unfold bnd at 1, gets at 1.
    destruct (length (s_sv s)) as [|n] eqn:En; [exfalso; pose proof (of_n _ Hf) as Hn0; by destruct (s_sv s)|].
    unfold bnd at 1. destruct (t <? s_tprev s)%num; [done|]. destruct (t =? s_tprev s)%num.
    - unfold bnd at 1. destruct (begin_step g t s) as [[] s1| | |] eqn:E1; try done. pose proof (overfull_begin _ _ _ _ Hf E1) as Hf1.
      unfold bnd at 1, gets at 1. unfold bnd at 1. destruct (get_sv g (s_sv s1) s1) as [x s2| | |] eqn:E2; try done. by apply overfull_get in E2.
    - unfold bnd at 1. destruct (debug_verify _ _ EAssert s) as [[] s1| | |] eqn:E1; try done.
      assert (s1 = s) as ->. { revert E1. unfold debug_verify, verify. destruct (g_dbg g), (g_stepper g); cbn; by intros [= <-]. }
      unfold bnd at 1. destruct (debug_verify _ (n0 <? lo)%num EAssert s) as [[] s1| | |] eqn:E2; try done.
      assert (s1 = s) as ->. { revert E2. unfold debug_verify, verify. destruct (g_dbg g), (n0 <? lo)%num; cbn; by intros [= <-]. }
      unfold bnd at 1. destruct (debug_verify _ (lo <? hi)%num EAssert s) as [[] s1| | |] eqn:E3; try done.
      assert (s1 = s) as ->. { revert E3. unfold debug_verify, verify. destruct (g_dbg g), (lo <? hi)%num; cbn; by intros [= <-]. }
      destruct (run_loop _ _ _ _ _ _ _ _ s) as [[] s1| | |] eqn:El; try done. pose proof (overfull_loop _ _ _ _ _ _ _ _ _ Hf El) as ->.
      unfold bnd at 1, gets at 1. unfold bnd at 1. destruct (reset_sv g (s_sv s) s) as [[] s1| | |] eqn:Er; try done. by apply overfull_reset in Er.
  Qed.
  Context (Hiter : forall l, g_iter g l ≡ₚ l).
  Lemma again_base t s s' : packed g s -> s_sv s ≠ [] -> base_init g t s = Ok tt s' -> overfull s' /\ s_init s' = true.
  Proof.
    intros Hp Hn. unfold base_init. unfold bnd at 1, modify at 1. cbv zeta. unfold bnd at 1.
    set (σ := s_store s). set (all := linked_signals (g_tree g)).
    set (scal := List.filter (is_scalar_state σ) all). set (arr := List.filter (is_array_state σ) all).
    set (n := (length scal + sum_list (map (sig_size σ) arr))%nat).
    match goal with |- match clear_all ?x with _ => _ end = _ -> _ => set (s0 := x) end.
    destruct (clear_all s0) as [[] s1| | |] eqn:Ec; try done. intros [= <-].
    assert (forall x : list D, length (resize g n x) = n) as Hrs. { intros x. unfold resize. destruct (Nat.eqb_spec (length x) n); [done|by rewrite replicate_length]. }
    destruct (filter_states σ all) as (Hnd & Hs1 & Ha1); [apply NoDup_remove_dups|].
    assert (s_scal s ++ s_arr s ≡ₚ scal ++ arr) as Hperm.
    { apply NoDup_Permutation; [apply Hp|done|]. intros z. rewrite (pk_all _ _ Hp), elem_of_app. unfold scal, arr. rewrite Hs1, Ha1.
      unfold is_state_of, is_scalar_state, is_array_state. fold all. fold σ. destruct (σ !! z) as [c|] eqn:Ez.
      - split.
        + intros (Hz & c' & ds & [= <-] & [->|[m ->]] & Hd); rewrite Hd; [by left|by right].
        + intros [[Hz Hk]|[Hz Hk]]; (split; [done|]); destruct (c_kind c) eqn:Ek, (c_deriv c) as [ds|] eqn:Ed; try done; exists c, ds; rewrite Ek; eauto.
      - split; [by intros (_ & c' & ds & ? & _)|]. by intros [[? ?]|[? ?]]. }
    assert (width σ (scal ++ arr) = n) as Hw.
    { rewrite width_app. unfold n. f_equal. unfold width. assert (forall z, z ∈ scal -> sig_size σ z = 1) as H1.
      { intros z Hz. apply Hs1 in Hz as [_ Hz]. unfold is_scalar_state, sig_size in *. destruct (σ !! z) as [c|]; [|done]. by destruct (c_kind c). }
      clear -H1. induction scal as [|z l IH]; [done|]. cbn. rewrite H1 by apply elem_of_list_here. rewrite IH; [done|].
      intros z' Hz'. apply H1. by apply elem_of_list_further. }
    assert (length (s_sv s) = n) as Hln. { rewrite (pk_sv _ _ Hp). fold σ. by rewrite (width_perm σ _ _ Hperm). }
    assert (n ≠ 0) as Hn0 by (rewrite <- Hln; by destruct (s_sv s)).
    assert (overfull s0) as H0.
    { split; cbn [s_scal s_arr s_sv s_svo s0]; change (s_store s0) with σ.
      - intros z [Hz|Hz]%elem_of_app; [by apply (pk_scal _ _ Hp)|]. rewrite (Hiter scal) in Hz. apply Hs1 in Hz as [_ Hz].
        unfold is_scalar_state in Hz. unfold scalar_at. destruct (σ !! z) as [c|]; [|done]. exists c. split; [done|]. by destruct (c_kind c).
      - rewrite Hrs. rewrite (width_perm σ _ ((s_scal s ++ s_arr s) ++ (scal ++ arr))).
        + rewrite width_app, Hw, (width_perm σ _ _ Hperm), Hw. lia.
        + rewrite (Hiter scal), (Hiter arr). rewrite <- !app_assoc. apply Permutation_app_head. rewrite !app_assoc. apply Permutation_app_tail, Permutation_app_comm.
      - by rewrite !Hrs.
      - intros E. apply (f_equal length) in E. rewrite Hrs in E. done. }
    assert (overfull s1) as H1. { eapply overfull_keep; [|exact H0|exact Ec]. apply pres_both; [apply pres_clear_all|apply vecs_clear_all]. }
    split; [|done]. by destruct H1; split.
  Qed.
  Lemma overfull_core {A} (m : M (core D) A) : pres (core_evo (g_dbg g)) m -> keep overfull (on_core' m).
  Proof. intros Hm. apply overfull_keep, pres_both; [by apply pres_on_core'|apply vecs_on_dyn]. Qed.
  Lemma again_init t s s' : packed g s -> s_sv s ≠ [] -> init g t s = Ok tt s' -> overfull s' /\ s_init s' = true.
  Proof.
    intros Hp Hn Hr. split; [|by destruct (init_flags g t _ _ Hr)].
    assert (exists s1 (k : M (simst D) unit), base_init g t s = Ok tt s1 /\ k s1 = Ok tt s' /\ keep overfull k) as (s1 & k & E1 & E2 & Hk).
    { assert (forall b1 b2, keep overfull (process_model g t b1 b2)) as Hpr. { intros b1 b2. apply overfull_keep, pres_both; [apply pres_process_model|apply vecs_process_model]. }
      revert Hr. unfold init. destruct (g_mode g) eqn:Em; (unfold simulator_init || unfold fast_init); unfold bnd at 1;
        destruct (base_init g t s) as [[] s1| | |] eqn:E1; try done; intros Hr;
        (exists s1; eexists; split; [done|]; split; [exact Hr|]).
      - apply keep_bnd; [apply keep_gets|intros n]. rewrite Em. apply keep_bnd; [apply keep_ret|intros _; apply Hpr].
      - apply keep_bnd; [apply keep_gets|intros n]. rewrite Em. apply keep_bnd; [|intros _; apply Hpr].
        destruct n; [apply keep_ret|]. apply keep_bnd; [apply keep_gets|intros p1]. apply keep_bnd; [apply keep_gets|intros p2].
        apply keep_bnd; [apply keep_debug|intros _]. apply keep_bnd; [apply keep_debug|intros _]. apply keep_modify. intros x Hx. by destruct Hx; split.
      - apply keep_bnd; [apply keep_gets|intros n]. apply keep_bnd; [apply keep_debug|intros _].
        apply keep_bnd; [apply overfull_core, pres_inputs|intros _]. apply keep_bnd; [apply overfull_core, pres_pre_snap|intros _].
        apply keep_bnd; [apply overfull_core, pres_fast_loop|intros r]. apply keep_bnd; [apply keep_modify; intros x Hx; by destruct Hx; split|intros _].
        apply keep_bnd; [apply keep_verify|intros _]. apply keep_bnd; [apply overfull_core, pres_snap|intros _].
        apply keep_bnd; [|intros _; apply Hpr]. apply overfull_keep, pres_both; [apply pres_clear_all|apply vecs_clear_all]. }
    eapply Hk; [|exact E2]. by eapply again_base.
  Qed.
End again.
