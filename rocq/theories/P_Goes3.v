(** A well-built model: init and run. *)
From stdpp Require Import prelude gmap strings.
From Coq Require Import ZArith.
From Verif Require Import Num Res Store Leaf Sched Stepper Sim SpecSched P_Store P_Prog P_Sched P_Modes P_Conf P_Eval P_Fast P_Sim P_Evolve P_Log P_Trace P_Pack SpecRun SpecGoes P_Goes P_Goes2.
Local Open Scope nat_scope.

Section run.
  Context {D : Type} `{NumOps D} (g : cfg D) (K : nat -> option kind) (dv : nat -> option nat) (nxt : D -> D -> Prop) (y : duty D) (ins1 ins2 : list nat).
  Context (Hs : sane g K dv nxt y ins1 ins2).
  Notation tr := (g_tree g).
  Notation L := (leaves tr).
  Notation X := (made ins1 ins2 y tr).
  Notation G := (givens ins1 ins2 y tr).
  Notation zs := (concat (map (y_pre y) L)).
  Notation fine := (fine g K dv y).
  Notation has := (has g y ins1 ins2).
  Notation sound := (sound g y ins1 ins2).
  Let Hdbg : g_dbg g = true := sn_dbg _ _ _ _ _ _ _ Hs.
  Let Hwf : wf_tree tr := sn_wf _ _ _ _ _ _ _ Hs.
  Local Open Scope num_scope.

  Definition ready_at (a : D) (s : simst D) : Prop := sound s /\ s_init s = true /\ fine (Some a) (s_core s).

  Lemma step_ok stp τ t1 x t2 s : g_stepper g = Some stp -> sound s -> fine τ (s_core s) -> length x = length (s_sv s) -> length (s_sv s) ≠ 0 ->
    exists r s', stp _ (minor_cb g) t1 x t2 s = Ok r s' /\ sound s' /\ both g s s' /\ fine τ (s_core s') /\ length (fst r) = length (s_sv s).
  Proof.
    intros Hst Hso Hf Hl Hn. pose proof (sn_stepper _ _ _ _ _ _ _ Hs stp Hst) as Hc.
    destruct (Hc _ (fun s' => both g s s' /\ sound s' /\ fine τ (s_core s')) (minor_cb g) (length (s_sv s)) Hn) with (t1 := t1) (x := x) (t2 := t2) (z := s) as (r & s' & E & (Hb & Hso' & Hf') & Hr).
    - intros t v z Hv (Hb & Hz & Hfz). assert (length (s_sv z) = length (s_sv s)) as Hlz. { destruct Hb as [_ (V & _)]. by rewrite V. }
      destruct (minor_ok g K dv nxt y ins1 ins2 Hs τ t v z Hz Hfz) as (r & z' & E & Hz' & Hb' & Hf' & Hr); [congruence|].
      exists r, z'. split; [done|]. split; [|congruence]. split; [by transitivity z|done].
    - done.
    - split; [reflexivity|done].
    - exists r, s'. done.
  Qed.

  Lemma both_sv s s' : both g s s' -> length (s_sv s') = length (s_sv s) /\ s_init s' = s_init s.
  Proof. intros [He (V & _)]. rewrite V. split; [done|]. apply (ev_init _ _ _ He). Qed.

  Lemma loop_ok t lo hi : (n0 <? lo) = true -> g_stepper g ≠ None -> forall n fuel t1 t2 force a s, ready_at a s -> length (s_sv s) = Datatypes.S n ->
    ((t1 <? t) = true -> a = t1 /\ nxt t1 t2) -> ((t1 <? t) = false -> nxt a t) ->
    match run_loop g fuel t lo hi t1 t2 force s with
    | Ok _ s' => exists a', ready_at a' s' /\ nxt a' t /\ length (s_sv s') = Datatypes.S n
    | OOF => True
    | _ => False
    end.
  Proof.
    intros Hlo Hstp. pose proof (sn_clock _ _ _ _ _ _ _ Hs) as Hck. destruct (g_stepper g) as [stp|] eqn:Est; [|done]. clear Hstp.
    intros n. induction fuel as [|fuel IH]; intros t1 t2 force a s (Hso & Hi & Hf) Hn H1 H2; cbn [run_loop]; destruct (t1 <? t) eqn:Et.
    1: done. 1,3: by exists a; split; [|split; [by apply H2|done]].
    destruct (H1 eq_refl) as [-> Hnx].
    destruct (begin_ok g K dv nxt y ins1 ins2 Hs _ t1 s Hso Hf) as (s1 & E1 & Hso1 & Hb1 & Hf1 & Hh1). unfold bnd at 1. rewrite E1.
    unfold bnd at 1, gets at 1. destruct (get_ok' g K dv nxt y ins1 ins2 Hs _ s1 (s_svo s1) Hso1 Hf1 Hh1) as (x & E2 & Hx).
    { by rewrite (pk_svo _ _ (proj1 Hso1)), (pk_sv _ _ (proj1 Hso1)). }
    unfold bnd at 1. rewrite E2. unfold bnd at 1, modify at 1. rewrite Est.
    destruct (both_sv _ _ Hb1) as [L1 I1].
    assert (sound (put_svo x s1)) as Hso2. { split; [|exact (proj2 Hso1)]. apply packed_svo; [|exact (proj1 Hso1)]. by rewrite Hx, (pk_svo _ _ (proj1 Hso1)), (pk_sv _ _ (proj1 Hso1)). }
    destruct (step_ok stp _ t1 x t2 (put_svo x s1) Est Hso2 Hf1) as (r & s3 & E3 & Hso3 & Hb3 & Hf3 & Hr); [done|cbn; by rewrite L1, Hn|].
    unfold bnd at 1. rewrite E3. unfold bnd at 1, modify at 1. destruct (both_sv _ _ Hb3) as [L3 I3]. cbn [s_sv s_init put_svo] in *.
    set (s4 := put_sv (fst r) s3).
    assert (sound s4) as Hso4. { split; [|exact (proj2 Hso3)]. apply packed_sv; [|exact (proj1 Hso3)]. congruence. }
    unfold bnd at 1. set (em := on_core' (emit (EvTry t1 x t2 (fst r) (snd r))) s4).
    assert (exists s5, em = Ok tt s5 /\ sound s5 /\ both g s4 s5 /\ fine (Some t1) (s_core s5)) as (s5 & -> & Hso5 & Hb5 & Hf5).
    { destruct (core_ok (emit (EvTry t1 x t2 (fst r) (snd r))) s4 tt _ eq_refl) as (s5 & E5 & C5). exists s5. split; [exact E5|].
      assert (both g s4 s5) as Hb. { eapply (pres_get (both g)); [|exact E5]. apply pres_both; [apply pres_on_core', pres_emit|apply vecs_on_dyn]. }
      split; [by eapply sound_both|]. split; [done|]. rewrite C5. exact Hf3. }
    destruct (both_sv _ _ Hb5) as [L5 I5]. cbn [s_sv s_init put_sv s4] in L5, I5.
    cbv zeta. destruct (force || (t2 - t1 <=? snd r) || (t2 - t1 <=? lo)) eqn:Ea.
    - destruct (t2 <? t) eqn:Et2.
      + unfold bnd at 1, bnd at 1, gets at 1. destruct (reset_ok' g K dv nxt y ins1 ins2 Hs _ (s_sv s5) s5 Hso5 Hf5 eq_refl) as (s6 & E6 & Hso6 & Hb6 & Hf6 & Hh6).
        unfold bnd at 1. rewrite E6.
        destruct (process_ok g K dv nxt y ins1 ins2 Hs _ t2 s6 false true Hso6 Hf6 Hh6) as (s7 & E7 & Hso7 & Hb7 & Hf7 & _); [by intros _|].
        rewrite E7. destruct (both_sv _ _ Hb6) as [L6 I6], (both_sv _ _ Hb7) as [L7 I7]. apply (IH _ _ _ t2).
        * split; [done|]. split; [congruence|done].
        * rewrite L7, L6, L5, Hr, L1. done.
        * intros _. split; [done|]. by apply ck_accept.
        * congruence.
      + unfold bnd at 1. apply (IH _ _ _ t1).
        * split; [done|]. split; [congruence|done].
        * rewrite L5, Hr, L1. done.
        * congruence.
        * intros _. by apply ck_lt.
    - apply (IH _ _ _ t1).
      + split; [done|]. split; [congruence|done].
      + rewrite L5, Hr, L1. done.
      + intros _. split; [done|]. eapply ck_redo; [done|done| |exact Hnx]. unfold accepts. apply orb_false_iff in Ea as [Ea Ea2]. apply orb_false_iff in Ea as [_ Ea1]. by rewrite Ea1, Ea2.
      + congruence.
  Qed.

  (** With a fixed step one round suffices. *)
  Lemma loop_const t lo hi fuel t1 s stp : (n0 <? lo) = true -> g_stepper g = Some stp -> constant stp -> ready_at t1 s -> length (s_sv s) ≠ 0 -> nxt t1 t ->
    (t <? t) = false -> (t - t1 <=? t - t1) = true -> run_loop g (S fuel) t lo hi t1 t false s ≠ OOF.
  Proof.
    intros Hlo Est Hcn (Hso & Hi & Hf) Hn Hnx Htt Hle. cbn [run_loop]. destruct (t1 <? t) eqn:Et; [|done].
    destruct (begin_ok g K dv nxt y ins1 ins2 Hs _ t1 s Hso Hf) as (s1 & E1 & Hso1 & Hb1 & Hf1 & Hh1). unfold bnd at 1. rewrite E1.
    unfold bnd at 1, gets at 1. destruct (get_ok' g K dv nxt y ins1 ins2 Hs _ s1 (s_svo s1) Hso1 Hf1 Hh1) as (x & E2 & Hx).
    { by rewrite (pk_svo _ _ (proj1 Hso1)), (pk_sv _ _ (proj1 Hso1)). }
    unfold bnd at 1. rewrite E2. unfold bnd at 1, modify at 1. rewrite Est.
    destruct (both_sv _ _ Hb1) as [L1 I1].
    assert (sound (put_svo x s1)) as Hso2. { split; [|exact (proj2 Hso1)]. apply packed_svo; [|exact (proj1 Hso1)]. by rewrite Hx, (pk_svo _ _ (proj1 Hso1)), (pk_sv _ _ (proj1 Hso1)). }
    destruct (step_ok stp _ t1 x t (put_svo x s1) Est Hso2 Hf1) as (r & s3 & E3 & _); [done|by cbn; rewrite L1|].
    unfold bnd at 1. rewrite E3. unfold bnd at 1, modify at 1. unfold bnd at 1.
    destruct (core_ok (emit (EvTry t1 x t (fst r) (snd r))) (put_sv (fst r) s3) tt _ eq_refl) as (s5 & E5 & C5). rewrite E5. cbv zeta.
    rewrite (Hcn _ _ _ _ _ _ _ _ E3), Hle, Htt. cbn [orb]. unfold bnd, ret. destruct fuel; cbn [run_loop]; by rewrite Htt.
  Qed.

  (** What a call of run is given. *)
  Definition may_run (tp t lo hi : D) : Prop :=
    nxt tp t /\ (zs ≠ [] -> (t <? tp) = false /\ ((t =? tp) = true \/ g_stepper g ≠ None /\ (n0 <? lo) = true /\ (lo <? hi) = true)).
  Lemma no_states s : sound s -> good K dv (s_store s) -> zs = [] -> length (s_sv s) = 0.
  Proof.
    intros Hso Hg Hz. rewrite (pk_sv _ _ (proj1 Hso)). destruct (s_scal s ++ s_arr s) as [|z l] eqn:E; [done|].
    assert (z ∈ zs) as Hx. { apply (state_is g K dv nxt y ins1 ins2 Hs z s Hso Hg). rewrite E. apply elem_of_list_here. } rewrite Hz in Hx. by apply elem_of_nil in Hx.
  Qed.

  Lemma width_sum (σ : store D) l z : z ∈ l -> sig_size σ z <= width σ l.
  Proof.
    unfold width. induction l as [|w l IH]; intros Hz; [by apply elem_of_nil in Hz|]. cbn. apply elem_of_cons in Hz as [->|Hz]; [lia|]. specialize (IH Hz). lia.
  Qed.
  Lemma some_zs s : packed g s -> good K dv (s_store s) -> length (s_sv s) = 0 -> zs = [].
  Proof.
    intros Hp Hg Hn. destruct zs as [|z l] eqn:E; [done|]. exfalso. assert (z ∈ zs) as Hz by (rewrite E; apply elem_of_list_here).
    pose proof (proj2 (state_pk g K dv nxt y ins1 ins2 Hs z s Hp Hg) Hz) as Hx. pose proof (width_sum (s_store s) _ z Hx) as Hw. rewrite <- (pk_sv _ _ Hp), Hn in Hw.
    pose proof (proj1 (proj2 Hg) z) as HK. unfold kind_in in HK. unfold sig_size in Hw.
    destruct (proj1 (sn_states _ _ _ _ _ _ _ Hs z) Hz) as (_ & _ & [Hk|[n Hk]]); rewrite Hk in HK; destruct (s_store s !! z) as [c|]; try done; cbn in HK; injection HK as HK; rewrite HK in Hw; [lia|].
    apply (sn_sizes _ _ _ _ _ _ _ Hs z n Hz Hk). lia.
  Qed.

  Lemma some_states s : sound s -> good K dv (s_store s) -> length (s_sv s) = 0 -> zs = [].
  Proof. intros [Hp _]. by apply some_zs. Qed.

  Lemma sound_tprev t s : sound s -> sound (put_tprev t s).
  Proof. intros [Hp Ho]. split; [by destruct Hp; split|exact Ho]. Qed.

  (** Every signal that something assigns has a value, and Simulator has processed every block. *)
  Definition full (s : simst D) : Prop := (forall x, x ∈ made ins1 ins2 y tr -> assigned (s_store s) x = true) /\ (g_mode g ≠ MFast -> forall l, l ∈ L -> l_id l ∈ k_done (s_core s)).
  Lemma run_tail t n a s : n = length (s_sv s) -> ready_at a s -> nxt a t ->
    exists s', (sv <~ gets s_sv ;; reset_sv g sv ;;; process_model g t (match n with O => true | Datatypes.S _ => false end) true ;;; modify (put_tprev t)) s = Ok tt s' /\ ready_at t s' /\ s_tprev s' = t /\ full s'.
  Proof.
    intros -> (Hso & Hi & Hf) Hnx. unfold bnd at 1, gets at 1.
    destruct (reset_ok' g K dv nxt y ins1 ins2 Hs _ (s_sv s) s Hso Hf eq_refl) as (s1 & E1 & Hso1 & Hb1 & Hf1 & Hh1). unfold bnd at 1. rewrite E1.
    destruct (process_ok g K dv nxt y ins1 ins2 Hs _ t s1 (match length (s_sv s) with O => true | Datatypes.S _ => false end) true Hso1 Hf1) as (s2 & E2 & Hso2 & Hb2 & Hf2 & Hh2 & Hd2).
    { destruct (length (s_sv s)) eqn:En; [|done]. intros x Hx. rewrite (Hh1 x Hx). split; [|done]. intros Hz.
      rewrite (some_states s Hso (proj1 Hf) En) in Hz. by apply elem_of_nil in Hz. }
    { by intros _. }
    unfold bnd at 1. rewrite E2. eexists. split; [done|]. destruct (both_sv _ _ Hb1) as [_ I1], (both_sv _ _ Hb2) as [_ I2]. split; [|split; [done|]].
    - split; [by apply sound_tprev|]. split; [cbn; congruence|done].
    - split; [|exact Hd2]. intros x Hx. by apply (Hh2 x Hx).
  Qed.

  (** A call of run ends with an evaluation of the model from a well-formed state. *)
  Lemma run_split fuel t lo hi s : ready_at (s_tprev s) s -> may_run (s_tprev s) t lo hi ->
    match run g fuel t lo hi s with
    | Ok _ s' => exists a s1, ready_at a s1 /\ nxt a t /\ length (s_sv s1) = length (s_sv s) /\ (sv <~ gets s_sv ;; reset_sv g sv ;;; process_model g t (match length (s_sv s) with O => true | Datatypes.S _ => false end) true ;;; modify (put_tprev t)) s1 = Ok tt s'
    | OOF => True
    | _ => False
    end.
  Proof.
    intros Hr [Hnx Hz]. pose proof Hr as (Hso & Hi & Hf). unfold run. unfold bnd at 1, gets at 1. rewrite Hi. cbn [negb]. unfold bnd at 1, gets at 1. unfold bnd at 1, gets at 1.
    assert (forall a s1, ready_at a s1 -> nxt a t -> length (s_sv s1) = length (s_sv s) ->
      match (sv <~ gets s_sv ;; reset_sv g sv ;;; process_model g t (match length (s_sv s) with O => true | Datatypes.S _ => false end) true ;;; modify (put_tprev t)) s1 with
      | Ok _ s' => exists a s1, ready_at a s1 /\ nxt a t /\ length (s_sv s1) = length (s_sv s) /\ (sv <~ gets s_sv ;; reset_sv g sv ;;; process_model g t (match length (s_sv s) with O => true | Datatypes.S _ => false end) true ;;; modify (put_tprev t)) s1 = Ok tt s' | OOF => True | _ => False end) as Htail.
    { intros a s1 Hr1 Hn1 Hl. destruct (run_tail t (length (s_sv s)) a s1 (eq_sym Hl) Hr1 Hn1) as (s' & E & ?). rewrite E. by exists a, s1. }
    destruct (length (s_sv s)) as [|n] eqn:En.
    { unfold bnd at 1. cbn. by apply (Htail _ _ Hr). }
    destruct Hz as [Hlt Hz]. { intros E. rewrite (no_states s Hso (proj1 Hf) E) in En. done. }
    rewrite Hlt. destruct (t =? s_tprev s) eqn:Eq.
    - destruct (begin_ok g K dv nxt y ins1 ins2 Hs _ t s Hso Hf) as (s1 & E1 & Hso1 & Hb1 & Hf1 & Hh1). destruct (both_sv _ _ Hb1) as [L1 I1].
      destruct (get_ok' g K dv nxt y ins1 ins2 Hs _ s1 (s_sv s1) Hso1 Hf1 Hh1 eq_refl) as (x & E2 & Hx).
      unfold bnd at 1. unfold bnd at 1. rewrite E1. unfold bnd at 1, gets at 1. unfold bnd at 1. rewrite E2. unfold modify at 1.
      apply (Htail (s_tprev s)); [|done|cbn; congruence]. split; [|split; [cbn; congruence|done]]. split; [by apply packed_sv, (proj1 Hso1)|exact (proj2 Hso1)].
    - destruct Hz as [Hz|(Hst & Hlo & Hhi)]; [done|]. rewrite Hdbg, Hlo, Hhi. destruct (g_stepper g) as [stp|] eqn:Est; [|done].
      unfold bnd at 1. cbn [debug_verify]. unfold bnd at 1, verify, ret at 1. unfold bnd at 1, ret at 1. unfold bnd at 1, ret at 1.
      pose proof (loop_ok t lo hi Hlo) as Hloop. rewrite Est in Hloop.
      specialize (Hloop Hst n fuel (s_tprev s) t false (s_tprev s) s Hr En).
      specialize (Hloop (fun _ => conj eq_refl Hnx) (fun _ => Hnx)).
      destruct (run_loop g fuel t lo hi (s_tprev s) t false s) as [[] s1| | |] eqn:El; try done.
      destruct Hloop as (a & Hr1 & Hn1 & Hl1). by apply (Htail a).
  Qed.

  Lemma run_ok fuel t lo hi s : ready_at (s_tprev s) s -> may_run (s_tprev s) t lo hi ->
    match run g fuel t lo hi s with
    | Ok _ s' => ready_at t s' /\ s_tprev s' = t /\ full s'
    | OOF => True
    | _ => False
    end.
  Proof.
    intros Hr Hm. pose proof (run_split fuel t lo hi s Hr Hm) as Hsp. destruct (run g fuel t lo hi s) as [[] s'| | |]; try done.
    destruct Hsp as (a & s1 & Hr1 & Hn1 & Hl & E). destruct (run_tail t (length (s_sv s)) a s1 (eq_sym Hl) Hr1 Hn1) as (s2 & E2 & Hx). congruence.
  Qed.

  Lemma run_const fuel t lo hi s stp : ready_at (s_tprev s) s -> may_run (s_tprev s) t lo hi -> g_stepper g = Some stp -> constant stp ->
    (t <? t) = false -> (t - s_tprev s <=? t - s_tprev s) = true -> run g (S fuel) t lo hi s ≠ OOF.
  Proof.
    intros Hr Hm Est Hcn Htt Hle E. pose proof (run_ok (S fuel) t lo hi s Hr Hm) as Hok. rewrite E in Hok. clear Hok. revert E. destruct Hm as [Hnx Hz].
    pose proof Hr as (Hso & Hi & Hf). unfold run. unfold bnd at 1, gets at 1. rewrite Hi. cbn [negb]. unfold bnd at 1, gets at 1. unfold bnd at 1, gets at 1.
    assert (forall a s1, ready_at a s1 -> nxt a t -> length (s_sv s1) = length (s_sv s) ->
      (sv <~ gets s_sv ;; reset_sv g sv ;;; process_model g t (match length (s_sv s) with O => true | Datatypes.S _ => false end) true ;;; modify (put_tprev t)) s1 ≠ OOF) as Htail.
    { intros a s1 Hr1 Hn1 Hl. destruct (run_tail t (length (s_sv s)) a s1 (eq_sym Hl) Hr1 Hn1) as (s' & -> & ?). done. }
    destruct (length (s_sv s)) as [|n] eqn:En.
    { unfold bnd at 1. cbn. by apply (Htail _ _ Hr). }
    destruct Hz as [Hlt Hz]. { intros E. rewrite (no_states s Hso (proj1 Hf) E) in En. done. }
    rewrite Hlt. destruct (t =? s_tprev s) eqn:Eq.
    - destruct (begin_ok g K dv nxt y ins1 ins2 Hs _ t s Hso Hf) as (s1 & E1 & Hso1 & Hb1 & Hf1 & Hh1). destruct (both_sv _ _ Hb1) as [L1 I1].
      destruct (get_ok' g K dv nxt y ins1 ins2 Hs _ s1 (s_sv s1) Hso1 Hf1 Hh1 eq_refl) as (x & E2 & Hx).
      unfold bnd at 1. unfold bnd at 1. rewrite E1. unfold bnd at 1, gets at 1. unfold bnd at 1. rewrite E2. unfold modify at 1.
      apply (Htail (s_tprev s)); [|done|cbn; congruence]. split; [|split; [cbn; congruence|done]]. split; [by apply packed_sv, (proj1 Hso1)|exact (proj2 Hso1)].
    - destruct Hz as [Hz|(Hst & Hlo & Hhi)]; [done|]. rewrite Hdbg, Hlo, Hhi. rewrite Est.
      unfold bnd at 1. cbn [debug_verify]. unfold bnd at 1, verify, ret at 1. unfold bnd at 1, ret at 1. unfold bnd at 1, ret at 1.
      pose proof (loop_ok t lo hi Hlo Hst n (S fuel) (s_tprev s) t false (s_tprev s) s Hr En (fun _ => conj eq_refl Hnx) (fun _ => Hnx)) as Hloop.
      pose proof (loop_const t lo hi fuel (s_tprev s) s stp Hlo Est Hcn Hr) as Hne. rewrite En in Hne. specialize (Hne (Nat.neq_succ_0 n) Hnx Htt Hle).
      destruct (run_loop g (S fuel) t lo hi (s_tprev s) t false s) as [[] s1| | |] eqn:El; try done.
      destruct Hloop as (a & Hr1 & Hn1 & Hl1). by apply (Htail a).
  Qed.

  Lemma run_plain fuel t lo hi s : ready_at (s_tprev s) s -> may_run (s_tprev s) t lo hi -> (zs ≠ [] -> (t =? s_tprev s) = true) -> run g fuel t lo hi s ≠ OOF.
  Proof.
    intros Hr Hm Hpl E. pose proof (run_ok fuel t lo hi s Hr Hm) as Hok. rewrite E in Hok. clear Hok. revert E. destruct Hm as [Hnx Hz].
    pose proof Hr as (Hso & Hi & Hf). unfold run. unfold bnd at 1, gets at 1. rewrite Hi. cbn [negb]. unfold bnd at 1, gets at 1. unfold bnd at 1, gets at 1.
    assert (forall a s1, ready_at a s1 -> nxt a t -> length (s_sv s1) = length (s_sv s) ->
      (sv <~ gets s_sv ;; reset_sv g sv ;;; process_model g t (match length (s_sv s) with O => true | Datatypes.S _ => false end) true ;;; modify (put_tprev t)) s1 ≠ OOF) as Htail.
    { intros a s1 Hr1 Hn1 Hl. destruct (run_tail t (length (s_sv s)) a s1 (eq_sym Hl) Hr1 Hn1) as (s' & -> & ?). done. }
    destruct (length (s_sv s)) as [|n] eqn:En.
    { unfold bnd at 1. cbn. by apply (Htail _ _ Hr). }
    specialize (Hpl ltac:(intros E; rewrite (no_states s Hso (proj1 Hf) E) in En; done)). destruct Hz as [Hlt Hz]. { intros E. rewrite (no_states s Hso (proj1 Hf) E) in En. done. }
    rewrite Hlt, Hpl.
    destruct (begin_ok g K dv nxt y ins1 ins2 Hs _ t s Hso Hf) as (s1 & E1 & Hso1 & Hb1 & Hf1 & Hh1). destruct (both_sv _ _ Hb1) as [L1 I1].
      destruct (get_ok' g K dv nxt y ins1 ins2 Hs _ s1 (s_sv s1) Hso1 Hf1 Hh1 eq_refl) as (x & E2 & Hx).
      unfold bnd at 1. unfold bnd at 1. rewrite E1. unfold bnd at 1, gets at 1. unfold bnd at 1. rewrite E2. unfold modify at 1.
      apply (Htail (s_tprev s)); [|done|cbn; congruence]. split; [|split; [cbn; congruence|done]]. split; [by apply packed_sv, (proj1 Hso1)|exact (proj2 Hso1)].
  Qed.

  (** ** init *)
  Definition same_done (c c' : core D) : Prop := k_done c' = k_done c.
  #[local] Instance same_done_pre : PreOrder same_done.
  Proof. unfold same_done. split; [done|]. intros a b c E1 E2. congruence. Qed.
  Lemma done_store {A} (m : M (store D) A) : pres same_done (on_store m).
  Proof. intros c. unfold on_store, lift. by destruct (m (k_store c)). Qed.
  Lemma done_inputs t : pres same_done (inputs g t).
  Proof.
    unfold inputs. apply pres_bnd; [apply _|by intros c|intros _]. apply pres_bnd; [apply _| |intros _; apply done_store].
    destruct (g_inputs g); [apply done_store|by intros c].
  Qed.
  Lemma done_pre t : pres same_done (pre_step true tr t).
  Proof.
    intros c. rewrite pre_as_forM. revert c.
    change (pres same_done (forM L (fun l => run_leaf true (EvPre (l_id l) t) l (pre l t)))). apply pres_forM; [apply _|]. intros l c. unfold run_leaf. by destruct (run_prog _ _ _).
  Qed.
  (** What the constructor of the simulator finds. *)
  Record fresh (τ0 : option D) (t0 : D) (d : dyn D) : Prop := {
    fr_good : good K dv (k_store (d_core d));
    fr_inv l : l ∈ L -> y_inv y l τ0 (lst_of (d_core d) (l_id l));
    fr_end : may_end nxt τ0 t0;
    fr_reuse : g_mode g = MReuse -> zs ≠ [] /\ forall l, l ∈ L -> is_builder (l_cls l) = false;
    fr_fast l : g_mode g = MFast -> l ∈ L -> l_id l ∉ k_done (d_core d)
  }.
  Lemma base_ok τ0 t0 d : good K dv (k_store (d_core d)) -> (forall l, l ∈ L -> y_inv y l τ0 (lst_of (d_core d) (l_id l))) -> exists s, base_init g t0 (new_sim d) = Ok tt s /\ packed g s /\ fine τ0 (s_core s) /\ has (s_core s) (fun _ => False) /\
    s_fast s = [] /\ s_po1 s = [] /\ s_po2 s = [] /\ s_cur s = None /\ k_done (s_core s) = k_done (d_core d).
  Proof.
    intros Hg Hiv.
    assert (exists s, base_init g t0 (new_sim d) = Ok tt s /\ fine τ0 (s_core s) /\ has (s_core s) (fun _ => False) /\
      s_fast s = [] /\ s_po1 s = [] /\ s_po2 s = [] /\ s_cur s = None /\ k_done (s_core s) = k_done (d_core d)) as (s & E & Hrest).
    2:{ exists s. split; [done|]. split; [|done]. eapply packed_base; [apply (sn_iter _ _ _ _ _ _ _ Hs)| |exact E]. intros _. apply Hg. }
    unfold base_init. unfold bnd at 1, modify at 1. cbv zeta. unfold bnd at 1.
    cbn [s_dyn s_po1 s_po2 s_cur s_fast s_vsigs s_scal s_arr s_sv s_svo s_dv s_init new_sim app]. unfold clear_all at 1. unfold bnd at 1, gets at 1. cbn [s_vsigs].
    assert (forall z, z ∈ g_iter g (linked_signals tr) -> z ∈ dom (k_store (d_core d))) as Hdom.
    { intros z Hz. rewrite (sn_iter _ _ _ _ _ _ _ Hs) in Hz. destruct (sn_there _ _ _ _ _ _ _ Hs z Hz) as [k Hk]. rewrite <- (proj1 (proj2 Hg) z) in Hk. unfold kind_in in Hk.
      apply elem_of_dom. destruct (_ !! z); [by eexists|done]. }
    destruct (clear_sigs _ (k_store (d_core d)) Hdom) as (σ1 & E1 & Hfr1 & Hcl1).
    erewrite on_store_ok; [|exact E1]. eexists. split; [reflexivity|]. cbn.
    split; [|split]; [| |done].
    - split; [|exact Hiv]. cbn. destruct Hg as (Hok & HK & Hd). split; [|split].
      + intros z c Hc. destruct (decide (z ∈ g_iter g (linked_signals tr))) as [Hi|Hi]; [|rewrite (Hfr1 z Hi) in Hc; by apply (Hok z)].
        destruct (k_store (d_core d) !! z) as [c0|] eqn:E0; [|apply Hdom, elem_of_dom in Hi as [? ?]; congruence].
        rewrite (Hcl1 z c0 Hi E0) in Hc. injection Hc as <-. destruct (Hok z c0 E0) as [_ Hv]. by split.
      + intros z. rewrite <- (HK z). unfold kind_in. destruct (decide (z ∈ g_iter g (linked_signals tr))) as [Hi|Hi]; [|by rewrite (Hfr1 z Hi)].
        destruct (k_store (d_core d) !! z) as [c0|] eqn:E0; [|apply Hdom, elem_of_dom in Hi as [? ?]; congruence]. by rewrite (Hcl1 z c0 Hi E0).
      + intros z. rewrite <- (Hd z). unfold deriv_in. destruct (decide (z ∈ g_iter g (linked_signals tr))) as [Hi|Hi]; [|by rewrite (Hfr1 z Hi)].
        destruct (k_store (d_core d) !! z) as [c0|] eqn:E0; [|apply Hdom, elem_of_dom in Hi as [? ?]; congruence]. by rewrite (Hcl1 z c0 Hi E0).
    - intros x Hx. split; [|done]. cbn. intros Ha. assert (x ∈ g_iter g (linked_signals tr)) as Hv. { rewrite (sn_iter _ _ _ _ _ _ _ Hs). by apply (sn_linked _ _ _ _ _ _ _ Hs). }
      unfold assigned in Ha. pose proof (Hdom x Hv) as Hd. apply elem_of_dom in Hd as [c Hc]. rewrite (Hcl1 x c Hv Hc) in Ha. done.
  Qed.

  (** So does init. *)
  Lemma init_split τ0 t0 d : fresh τ0 t0 d -> exists s, init g t0 (new_sim d) = process_model g t0 true true s /\ sound s /\ fine τ0 (s_core s) /\ has (s_core s) (fun _ => False).
  Proof.
    intros Hfr.
    destruct (base_ok τ0 t0 d (fr_good _ _ _ Hfr) (fr_inv _ _ _ Hfr)) as (s1 & E1 & Hp1 & Hf1 & Hh1 & Hfa & Hpo1 & Hpo2 & Hcu & Hdo).
    assert (forall s, sound s -> fine τ0 (s_core s) -> has (s_core s) (fun _ => False) -> exists s', process_model g t0 true true s = process_model g t0 true true s' /\ sound s' /\ fine τ0 (s_core s') /\ has (s_core s') (fun _ => False)) as Hpr by eauto 10.
    unfold init. destruct (g_mode g) eqn:Em.
    - unfold simulator_init. unfold bnd at 1. rewrite E1. rewrite Em. unfold bnd at 1, gets at 1. unfold bnd at 1, ret at 1.
      apply Hpr; [|done|done]. split; [done|]. unfold order_ok. by rewrite Em.
    - unfold simulator_init. unfold bnd at 1. rewrite E1. rewrite Em. unfold bnd at 1, gets at 1. destruct (fr_reuse _ _ _ Hfr Em) as [Hz Hnb].
      destruct (length (s_sv s1)) as [|n] eqn:En.
      { exfalso. apply Hz. apply (some_zs s1); [done|apply Hf1|done]. }
      rewrite Hdbg. unfold bnd at 1. unfold bnd at 1, gets at 1. unfold bnd at 1, gets at 1. rewrite Hpo1, Hpo2. unfold bnd at 1, debug_verify, verify, ret at 1. unfold bnd at 1, ret at 1. unfold modify at 1.
      apply Hpr; [|done|done]. split; [by apply packed_po|]. unfold order_ok. rewrite Em. split; [done|]. unfold ordered. rewrite Em. exists (nodes tr). split; [unfold remembered; cbn; by rewrite ?Hpo1|]. by apply covers_perm.
    - unfold fast_init. unfold bnd at 1. rewrite E1. rewrite Hdbg. unfold bnd at 1, gets at 1. rewrite Hfa. unfold bnd at 1, debug_verify, verify at 1, ret at 1.
      destruct (inputs_ok g K dv nxt y ins1 ins2 Hs τ0 t0 (s_core s1) _ Hf1 Hh1) as (c2 & E2 & Hf2 & Hh2); [by intros ? ? []|].
      destruct (core_ok _ _ _ _ E2) as (s2 & F2 & C2). unfold bnd at 1. rewrite F2.
      destruct (pre_ok g K dv nxt y ins1 ins2 Hs τ0 t0 c2 _ Hf2 Hh2) as (c3 & E3 & Hf3 & Hh3).
      { intros x Hz [[]|Hx]. by eapply zs_inputs. }
      destruct (core_ok (pre_step true tr t0 ;;; snap (EvBegin t0)) s2 tt (Core (k_store c3) (k_lst c3) (k_done c3) (k_log c3 ++ [EvBegin t0 (k_store c3) (members c3)]))) as (s3 & F3 & C3).
      { unfold bnd. by rewrite C2, E3. }
      unfold bnd at 1. rewrite F3.
      assert (fine τ0 (s_core s3) /\ has (s_core s3) (fun x => x ∈ G)) as [Hf3' Hh3'].
      { rewrite C3. split; [done|]. intros x Hx. cbn. rewrite (Hh3 x Hx). unfold givens. rewrite !elem_of_app. tauto. }
      assert (packed g s3) as Hp3.
      { eapply (packed_core g (pre_step true tr t0 ;;; snap (EvBegin t0))); [rewrite <- Hdbg; apply pres_pre_snap| |exact F3]. eapply (packed_core g (inputs g t0)); [apply pres_inputs|exact Hp1|exact F2]. }
      assert (k_done (s_core s3) = k_done (d_core d)) as Hd3.
      { pose proof (done_pre t0 c2) as Hd2. rewrite E3 in Hd2. pose proof (done_inputs t0 (s_core s1)) as Hd1. rewrite E2 in Hd1.
        rewrite C3. cbn. rewrite Hd2, Hd1. done. }
      pose proof (fast_schedule_spec true t0 L (s_core s3)) as Hsp. specialize (Hsp (wf_leaves tr Hwf)).
      destruct (fast_schedule true L t0 (s_core s3)) as [[order n] c4|e c4|u|] eqn:E4.
      2,3: by destruct (never_failed g K dv nxt y ins1 ins2 Hs τ0 t0 _ _ Hf3' Hh3' Hsp). 2: done.
      destruct Hsp as (Hr & Hin & -> & Hex). destruct (core_ok _ _ _ _ E4) as (s4 & F4 & C4). unfold bnd at 1. rewrite F4. unfold bnd at 1, modify at 1.
      assert (forall l, l ∈ L -> l_id l ∉ k_done (s_core s3)) as Hnd. { intros l Hl. rewrite Hd3. by apply (fr_fast _ _ _ Hfr). }
      assert (forall l, l ∈ L -> l ∈ concat order) as Hall.
      { intros l Hl. destruct (all_run g K dv nxt y ins1 ins2 Hs τ0 t0 _ _ _ Hr Hin Hf3' Hh3' Hex) with (l := l) as [Hi|Hi]; [|by left; right|done|done|].
        - intros l' Hl' Hx. by destruct (Hnd l' Hl').
        - by destruct (Hnd l Hl). }
      assert (concat order ≡ₚ L) as Hperm.
      { apply NoDup_Permutation.
        - apply legal_run_basic in Hr as (Hn & _). by eapply NoDup_fmap_1.
        - eapply NoDup_fmap_1. apply (wf_leaves tr Hwf).
        - intros l. split; [apply Hin|apply Hall]. }
      cbn [fst snd]. rewrite (Permutation_length Hperm), Nat.eqb_refl. unfold bnd at 1, verify, ret at 1.
      destruct (core_ok (snap (EvEval t0)) (put_fast (s_fast s4 ++ order) s4) tt _ eq_refl) as (s5 & F5 & C5). unfold bnd at 1. rewrite F5.
      destruct (legal_fine g K dv nxt y ins1 ins2 Hs τ0 t0 _ _ _ Hr Hin Hf3' Hh3') as [Hf4 Hh4].
      assert (s_fast s4 = []) as Hfa4.
      { pose proof (pres_get _ _ _ _ _ (pres_on_core' g (inputs g t0) (pres_inputs g t0)) F2) as V2.
        assert (pres (evo g) (on_core' (pre_step true tr t0 ;;; snap (EvBegin t0)))) as Hq. { apply pres_on_core'. rewrite Hdbg. apply pres_pre_snap. }
        pose proof (pres_get _ _ _ _ _ Hq F3) as V3.
        assert (pres (evo g) (on_core' (fast_schedule true L t0))) as Hq'. { apply pres_on_core'. rewrite Hdbg. apply pres_fast_loop. }
        pose proof (pres_get _ _ _ _ _ Hq' F4) as V4.
        rewrite (ev_fast _ _ _ V4), (ev_fast _ _ _ V3), (ev_fast _ _ _ V2). done. }
      assert (sound s5) as Hso5.
      { assert (both g (put_fast (s_fast s4 ++ order) s4) s5) as Hb. { eapply (pres_get (both g)); [|exact F5]. apply pres_both; [apply pres_on_core', pres_snap|apply vecs_on_dyn]. }
        eapply (sound_both g K dv nxt y ins1 ins2 Hs); [exact Hb|]. split.
        - apply packed_fast. eapply (packed_core g (fast_schedule true L t0)); [rewrite Hdbg; apply pres_fast_loop|exact Hp3|exact F4].
        - unfold order_ok. rewrite Em. rewrite Hfa4. cbn [s_fast put_fast app]. split; [|exact Hall]. by eapply (legal_sorted g K dv nxt y ins1 ins2 Hs _ _ _ _ _ Em). }
      assert (fine τ0 (s_core s5)) as Hf5. { rewrite C5. rewrite <- C4 in Hf4. exact Hf4. }
      destruct (clear_ok g K dv nxt y ins1 ins2 Hs τ0 s5 Hso5 Hf5) as (s6 & E6 & Hso6 & _ & Hf6 & Hh6). unfold bnd at 1. rewrite E6. by apply Hpr.
  Qed.

  Lemma init_ok τ0 t0 d : fresh τ0 t0 d -> exists s, init g t0 (new_sim d) = Ok tt s /\ ready_at t0 s /\ s_tprev s = t0 /\ full s.
  Proof.
    intros Hfr. destruct (init_split τ0 t0 d Hfr) as (s1 & E1 & Hso & Hf & Hh).
    destruct (process_ok g K dv nxt y ins1 ins2 Hs τ0 t0 s1 true true Hso Hf Hh) as (s & E & Hso' & _ & Hf' & Hh' & Hd'); [intros _; apply (fr_end _ _ _ Hfr)|].
    exists s. rewrite E1. split; [done|]. rewrite E in E1. destruct (init_flags g t0 _ _ E1) as [Hi Ht]. split; [done|]. split; [done|]. split; [|exact Hd']. intros x Hx. by apply (Hh' x Hx).
  Qed.

  (** A FastSimulator for a model with a block that is marked processed: init throws, after
      it has activated what was not marked. *)
  Lemma init_refused τ0 t0 d : g_mode g = MFast -> good K dv (k_store (d_core d)) -> (forall l, l ∈ L -> y_inv y l τ0 (lst_of (d_core d) (l_id l))) -> (exists l, l ∈ L /\ l_id l ∈ k_done (d_core d)) ->
    exists s, init g t0 (new_sim d) = Exn EFast s /\ fine τ0 (s_core s) /\ k_done (d_core d) ⊆ k_done (s_core s).
  Proof.
    intros Em Hg Hiv (l0 & Hl0 & Hd0). destruct (base_ok τ0 t0 d Hg Hiv) as (s1 & E1 & Hp1 & Hf1 & Hh1 & Hfa & Hpo1 & Hpo2 & Hcu & Hdo).
    unfold init. rewrite Em.
    unfold fast_init. unfold bnd at 1. rewrite E1. rewrite Hdbg. unfold bnd at 1, gets at 1. rewrite Hfa. unfold bnd at 1, debug_verify, verify at 1, ret at 1.
    destruct (inputs_ok g K dv nxt y ins1 ins2 Hs τ0 t0 (s_core s1) _ Hf1 Hh1) as (c2 & E2 & Hf2 & Hh2); [by intros ? ? []|].
    destruct (core_ok _ _ _ _ E2) as (s2 & F2 & C2). unfold bnd at 1. rewrite F2.
    destruct (pre_ok g K dv nxt y ins1 ins2 Hs τ0 t0 c2 _ Hf2 Hh2) as (c3 & E3 & Hf3 & Hh3).
    { intros x Hz [[]|Hx]. by eapply zs_inputs. }
    destruct (core_ok (pre_step true tr t0 ;;; snap (EvBegin t0)) s2 tt (Core (k_store c3) (k_lst c3) (k_done c3) (k_log c3 ++ [EvBegin t0 (k_store c3) (members c3)]))) as (s3 & F3 & C3).
    { unfold bnd. by rewrite C2, E3. }
    unfold bnd at 1. rewrite F3.
    assert (fine τ0 (s_core s3) /\ has (s_core s3) (fun x => x ∈ G)) as [Hf3' Hh3'].
    { rewrite C3. split; [done|]. intros x Hx. cbn. rewrite (Hh3 x Hx). unfold givens. rewrite !elem_of_app. tauto. }
    assert (packed g s3) as Hp3.
    { eapply (packed_core g (pre_step true tr t0 ;;; snap (EvBegin t0))); [rewrite <- Hdbg; apply pres_pre_snap| |exact F3]. eapply (packed_core g (inputs g t0)); [apply pres_inputs|exact Hp1|exact F2]. }
    assert (k_done (s_core s3) = k_done (d_core d)) as Hd3.
    { pose proof (done_pre t0 c2) as Hd2. rewrite E3 in Hd2. pose proof (done_inputs t0 (s_core s1)) as Hd1. rewrite E2 in Hd1.
      rewrite C3. cbn. rewrite Hd2, Hd1. done. }
    pose proof (fast_schedule_spec true t0 L (s_core s3)) as Hsp. specialize (Hsp (wf_leaves tr Hwf)).
    destruct (fast_schedule true L t0 (s_core s3)) as [[order n] c4|e c4|u|] eqn:E4.
    2,3: by destruct (never_failed g K dv nxt y ins1 ins2 Hs τ0 t0 _ _ Hf3' Hh3' Hsp). 2: done.
    destruct Hsp as (Hr & Hin & -> & Hex). destruct (core_ok _ _ _ _ E4) as (s4 & F4 & C4). unfold bnd at 1. rewrite F4. unfold bnd at 1, modify at 1.
    assert (l0 ∉ concat order) as Hn0.
    { intros Hx. apply legal_run_basic in Hr as (_ & Hnd & _). apply (Hnd l0 Hx). by rewrite Hd3. }
    assert (length (concat order) ≠ length L) as Hlen.
    { intros El. apply Hn0. apply legal_run_basic in Hr as (Hn & _). apply NoDup_fmap_1 in Hn. assert (concat order ≡ₚ L) as ->; [|done].
      apply submseteq_Permutation_length_eq; [done|]. by apply NoDup_submseteq. }
    cbn [fst snd]. destruct (Nat.eqb_spec (length (concat order)) (length L)) as [E|_]; [done|]. eexists. split; [reflexivity|].
    destruct (legal_fine g K dv nxt y ins1 ins2 Hs τ0 t0 _ _ _ Hr Hin Hf3' Hh3') as [Hf4 Hh4]. change (s_core (put_fast (s_fast s4 ++ order) s4)) with (s_core s4). rewrite C4. split; [done|].
    apply legal_run_basic in Hr as (_ & _ & -> & _). rewrite Hd3. set_solver.
  Qed.
End run.
