(** Property C76: five of six sample programs return and what they return is close to the solution
    of their differential equations. *)
From stdpp Require Import prelude gmap strings.
From Coq Require Import ZArith QArith Reals Lra Qreals Psatz.
From Verif Require Import Num NumQ NumR NumOrd NumAdd Res Name Store Leaf Sched Stepper Sim World Api SpecSched P_Store P_Prog P_Lib P_World P_Compile P_Simulated P_Evolve P_Rel P_Rel2 SpecHist P_Trace SpecBlock Ex_Models
  SpecRun P_Log P_Run Props_Run P_Pack P_Grow P_Again P_Repeat Props_Pack SpecRK P_RK SpecAgain P_Over P_Redo Props_Again SpecField P_Field P_FieldRun P_Posed P_Path Props_Field SpecConv P_Conv Props_Conv SpecLin P_Lin Props_Lin
  SpecOrd P_Ord P_Ord2 P_Ord3 Props_Ord SpecSmooth P_Tame P_Tame2 P_Tame3 P_Smooth Props_Smooth SpecDiag P_Diag P_Diag2 Props_Diag Samples Samples2 Samples3 Samples4 Props_Samples P_Picard SpecExist P_Exist Props_Exist
  SpecSafe SpecGoes SpecGoes2 SpecLint P_Goes P_Goes4 P_Goes6 Props_Goes P_Total.
Local Open Scope nat_scope.
Local Open Scope R_scope.

Lemma stp_carries m : carries (stp_of m).
Proof. destruct m; [apply euler_carries|apply rk4_carries|apply rkf45_carries]. Qed.
Lemma checked_intro w b m (tr : tree R) inp stp it tol ins1 : wreach true w -> compile_model w b = Some tr -> (forall l, it l ≡ₚ l) -> carries stp ->
  lint m w ins1 [] tr = true -> (forall l, l ∈ leaves tr -> user_ok (sig_kinds w) (fun a b => nltb a b = true) l) ->
  (forall l o, l ∈ leaves tr -> w_blks w !! l_id l = Some o -> user_begins (sig_kinds w) l (bo_st o)) ->
  (forall f t, inp = Some f -> goes (sig_kinds w) (fun _ => False) ins1 (fun _ => True) (f t)) -> (inp = None -> ins1 = []) ->
  (m = MReuse -> reuseb tr = true) ->
  checked w b (Cfg true m tr inp (fun _ => PRet tt) (Some stp) it tol) ins1 [].
Proof.
  intros Hw Hm Hi Hst Hl Hu Hb Hin Hin0 Hr. split; cbn; try done.
  - intros stp' [= <-]. done.
  - intros E. by apply reuseb_ok, Hr.
Qed.
Lemma fits_scalar (a : R) : fits KScalar (VS a).
Proof. done. Qed.
Lemma fits_scalar_inv (v : val R) : fits KScalar v -> exists a, v = VS a.
Proof. intros [Hk _]. destruct v; try done. eauto. Qed.
Lemma user_siso K nxt (l : leaf R) T i o : l_cls l = CSISO T sin_of -> h_in (l_h l) = Some i -> h_out (l_h l) = Some o -> K i = Some KScalar -> K o = Some KScalar -> user_ok K nxt l.
Proof.
  intros Hc Hi Ho Ki Ko. unfold user_ok. rewrite Hc. intros i' k t x Hi' Hk Hx. rewrite Hi in Hi'. injection Hi' as <-. rewrite Ki in Hk. injection Hk as <-.
  destruct (fits_scalar_inv x Hx) as [a ->]. cbn. split; [done|]. exists o, KScalar. done.
Qed.
Lemma user_sin_fun K nxt (l : leaf R) n1 i n2 o : l_cls l = CFunction sin_fun -> l_ibus l = [(n1, i)] -> l_obus l = [(n2, o)] -> i ∈ required l -> K i = Some KScalar -> K o = Some KScalar -> user_ok K nxt l.
Proof.
  intros Hc Hi Ho Hr Ki Ko. unfold user_ok. rewrite Hc. intros t. rewrite Hi, Ho. cbn. split; [done|]. exists KScalar. split; [done|]. intros v Hv.
  destruct (fits_scalar_inv v Hv) as [a ->]. cbn. exists [], KScalar. done.
Qed.
Ltac each_leaf := repeat (apply Forall_cons_2; [try exact I|]); [..|apply Forall_nil_2].


Section pendulum.
  Context (θ0 ω0 ga le : R) (meth : solver).
  Lemma pd_user K : K 0%nat = Some KScalar -> K 5%nat = Some KScalar -> Forall (user_ok K (fun a b : R => nltb a b = true)) (leaves (pd_tree θ0 ω0)).
  Proof.
    intros K0 K5. assert (exists ls, leaves (pd_tree θ0 ω0) = ls /\ Forall (user_ok K (fun a b : R => nltb a b = true)) ls) as (ls & -> & Hls); [|exact Hls].
    eexists. split; [vm_compute; reflexivity|]. each_leaf. by eapply user_siso.
  Qed.
  Lemma pd_sets K t : K 3%nat = Some KScalar -> K 4%nat = Some KScalar -> goes K (fun _ => False) [4; 3]%nat (fun _ => True) (pd_inputs ga le t).
  Proof. intros K3 K4. cbn. exists [3%nat], KScalar. split_and!; try done. exists [], KScalar. done. Qed.
  Lemma pd_checked : checked (pd_world θ0 ω0) 0 (pd_cfg θ0 ω0 ga le meth) [4; 3]%nat [].
  Proof.
    apply checked_intro; [apply pd_reach|apply pd_model|intros l; apply reverse_Permutation|apply stp_carries|vm_compute; reflexivity| | | |intros E; discriminate E|intros E; discriminate E].
    - apply Forall_forall. apply pd_user; vm_compute; reflexivity.
    - intros l o Hl _. eapply no_user_ok; [|exact Hl]. vm_compute. reflexivity.
    - intros f t [= <-]. apply pd_sets; vm_compute; reflexivity.
  Qed.
End pendulum.

Section spring.
  Context (x0 v0 k : R) (meth : solver).
  Lemma sp_user K : Forall (user_ok K (fun a b : R => nltb a b = true)) (leaves (sp_tree x0 v0 k)).
  Proof.
    assert (exists ls, leaves (sp_tree x0 v0 k) = ls /\ Forall (user_ok K (fun a b : R => nltb a b = true)) ls) as (ls & -> & Hls); [|exact Hls].
    eexists. split; [vm_compute; reflexivity|]. each_leaf.
  Qed.
  Lemma sp_checked : checked (sp_world x0 v0 k) 0 (sp_cfg x0 v0 k meth) [] [].
  Proof.
    apply checked_intro; [apply sp_reach|apply sp_model|intros l; apply reverse_Permutation|apply stp_carries|vm_compute; reflexivity| | | |done|intros E; discriminate E].
    - apply Forall_forall. apply sp_user.
    - intros l o Hl _. eapply no_user_ok; [|exact Hl]. vm_compute. reflexivity.
    - intros f t E. discriminate E.
  Qed.
End spring.
Section torque.
  Context (θ0 ω0 ma le ga ta : R) (meth : solver).
  Lemma tq_user K : K 4%nat = Some KScalar -> K 7%nat = Some KScalar -> Forall (user_ok K (fun a b : R => nltb a b = true)) (leaves (tq_tree θ0 ω0)).
  Proof.
    intros K4 K7. assert (exists ls, leaves (tq_tree θ0 ω0) = ls /\ Forall (user_ok K (fun a b : R => nltb a b = true)) ls) as (ls & -> & Hls); [|exact Hls].
    eexists. split; [vm_compute; reflexivity|]. each_leaf. eapply user_sin_fun; [reflexivity|reflexivity|reflexivity|vm_compute; apply elem_of_list_here|exact K4|exact K7].
  Qed.
  Lemma tq_sets K : K 0%nat = Some KScalar -> K 1%nat = Some KScalar -> K 2%nat = Some KScalar -> K 3%nat = Some KScalar ->
    goes K (fun _ => False) [1; 3; 2; 0]%nat (fun _ => True) (PSet 1%nat (VS ma) (PSet 3%nat (VS le) (PSet 2%nat (VS ga) (PSet 0%nat (VS ta) (PRet tt))))).
  Proof. intros K0 K1 K2 K3. cbn. do 4 (do 2 eexists; split; [reflexivity|]; split; [eassumption|]; split; [done|]). done. Qed.
  Lemma tq_checked : checked (tq_world θ0 ω0) 0 (tq_cfg θ0 ω0 ma le ga ta meth) [1; 3; 2; 0]%nat [].
  Proof.
    apply checked_intro; [apply tq_reach|apply tq_model|intros l; apply reverse_Permutation|apply stp_carries|vm_compute; reflexivity| | | |intros E; discriminate E|intros _; vm_compute; reflexivity].
    - apply Forall_forall. apply tq_user; vm_compute; reflexivity.
    - intros l o Hl _. eapply no_user_ok; [|exact Hl]. vm_compute. reflexivity.
    - intros f t [= <-]. apply tq_sets; vm_compute; reflexivity.
  Qed.
End torque.
Section pi.
  Context (θ0 ω0 i0 kp ki ma le ga de : R) (meth : solver).
  Lemma pi_user K : K 4%nat = Some KScalar -> K 30%nat = Some KScalar -> Forall (user_ok K (fun a b : R => nltb a b = true)) (leaves (pi_tree θ0 ω0 i0 kp ki)).
  Proof.
    intros K4 K30. assert (exists ls, leaves (pi_tree θ0 ω0 i0 kp ki) = ls /\ Forall (user_ok K (fun a b : R => nltb a b = true)) ls) as (ls & -> & Hls); [|exact Hls].
    eexists. split; [vm_compute; reflexivity|]. each_leaf. by eapply user_siso.
  Qed.
  Lemma pi_sets K : K 0%nat = Some KScalar -> K 1%nat = Some KScalar -> K 2%nat = Some KScalar -> K 3%nat = Some KScalar ->
    goes K (fun _ => False) [0; 2; 1; 3]%nat (fun _ => True) (PSet 0%nat (VS ma) (PSet 2%nat (VS le) (PSet 1%nat (VS ga) (PSet 3%nat (VS de) (PRet tt))))).
  Proof. intros K0 K1 K2 K3. cbn. do 4 (do 2 eexists; split; [reflexivity|]; split; [eassumption|]; split; [done|]). done. Qed.
  Lemma pi_checked : checked (pi_world θ0 ω0 i0 kp ki) 0 (pi_cfg θ0 ω0 i0 kp ki ma le ga de meth) [0; 2; 1; 3]%nat [].
  Proof.
    apply checked_intro; [apply pi_reach|apply pi_model|intros l; apply reverse_Permutation|apply stp_carries|vm_compute; reflexivity| | | |intros E; discriminate E|intros E; discriminate E].
    - apply Forall_forall. apply pi_user; vm_compute; reflexivity.
    - intros l o Hl _. eapply no_user_ok; [|exact Hl]. vm_compute. reflexivity.
    - intros f t [= <-]. apply pi_sets; vm_compute; reflexivity.
  Qed.
End pi.

(** The members of the damper: position and speed. *)
Section damper.
  Context (ma k c x0 v0 : R) (u : R -> R) (meth : solver).
  Definition dm_inv (vs : list (val R)) : Prop := exists x v, vs = [VS x; VS v].
  Lemma dm_duty K (l : leaf R) : l_cls l = dm_cls ma k c -> required l = [0; 1; 2]%nat -> own_links false l = [3%nat] -> own_links true l = [1; 2]%nat ->
    map fst (l_linked l) = [0; 1; 2; 3]%nat -> K 0%nat = Some KScalar -> K 1%nat = Some KScalar -> K 2%nat = Some KScalar -> K 3%nat = Some KScalar -> user_inv K l (dm_act ma k c) dm_pre dm_post dm_inv.
  Proof.
    intros Hc Hr Ho Hp Hl K0 K1 K2 K3 t vs (x & v & ->). rewrite Hr, Ho, Hp, Hl. split_and!.
    - unfold dm_act. cbn. split; [apply elem_of_list_here|]. exists KScalar. split; [done|]. intros a Ha. split; [do 2 apply elem_of_list_further; apply elem_of_list_here|]. exists KScalar. split; [done|]. intros a' Ha'.
      split; [apply elem_of_list_further, elem_of_list_here|]. exists KScalar. split; [done|]. intros a'' Ha''. apply fits_scalar_inv in Ha as [? ->]. apply fits_scalar_inv in Ha' as [? ->]. apply fits_scalar_inv in Ha'' as [? ->]. cbn.
      exists [], KScalar. split_and!; try done. by exists x, v.
    - cbn. exists [2%nat], KScalar. split_and!; try done. exists [], KScalar. split_and!; try done. by exists x, v.
    - cbn. split; [apply elem_of_list_further, elem_of_list_here|]. exists KScalar. split; [done|]. intros a Ha. split; [do 2 apply elem_of_list_further; apply elem_of_list_here|]. exists KScalar. split; [done|]. intros a' Ha'.
      apply fits_scalar_inv in Ha as [? ->]. apply fits_scalar_inv in Ha' as [? ->]. split; [done|]. by eexists _, _.
  Qed.
  Lemma dm_one : exists l, leaves (dm_tree ma k c x0 v0) = [l] /\ l_id l = 0%nat /\ l_cls l = dm_cls ma k c /\ required l = [0; 1; 2]%nat /\ own_links false l = [3%nat] /\ own_links true l = [1; 2]%nat /\ map fst (l_linked l) = [0; 1; 2; 3]%nat.
  Proof. eexists. split; [vm_compute; reflexivity|]. split; [reflexivity|]. split; [reflexivity|]. split; [vm_compute; reflexivity|]. split; [vm_compute; reflexivity|]. split; vm_compute; reflexivity. Qed.
  Lemma dm_start : bo_st <$> (w_blks (dm_world ma k c x0 v0) !! 0%nat) = Some (LUser [VS x0; VS v0]).
  Proof. vm_compute. reflexivity. Qed.
  Lemma dm_user K : Forall (user_ok K (fun a b : R => nltb a b = true)) (leaves (dm_tree ma k c x0 v0)).
  Proof. destruct dm_one as (l & -> & _ & Hc & _). constructor; [|constructor]. unfold user_ok. by rewrite Hc. Qed.
  Lemma dm_begins K : K 0%nat = Some KScalar -> K 1%nat = Some KScalar -> K 2%nat = Some KScalar -> K 3%nat = Some KScalar ->
    forall l o, l ∈ leaves (dm_tree ma k c x0 v0) -> w_blks (dm_world ma k c x0 v0) !! l_id l = Some o -> user_begins K l (bo_st o).
  Proof.
    intros K0 K1 K2 K3 l o Hl Ho. pose proof dm_start as Hs. destruct dm_one as (l' & E & Hid & Hc & Hr & H1 & H2 & H3). rewrite E in Hl. apply elem_of_list_singleton in Hl as ->.
    rewrite Hid in Ho. rewrite Ho in Hs. cbn in Hs. injection Hs as Hs. unfold user_begins, lib_inv. rewrite Hc. unfold dm_cls. exists [VS x0; VS v0], dm_inv. split; [done|]. split; [by eexists _, _|]. by apply dm_duty.
  Qed.
  Lemma dm_sets K t : K 0%nat = Some KScalar -> goes K (fun _ => False) [0%nat] (fun _ => True) (dm_inputs u t).
  Proof. intros K0. cbn. exists [], KScalar. done. Qed.
  Lemma dm_checked : checked (dm_world ma k c x0 v0) 0 (dm_cfg ma k c x0 v0 u meth) [0%nat] [].
  Proof.
    apply checked_intro; [apply dm_reach|apply dm_model|intros l; apply reverse_Permutation|apply stp_carries|vm_compute; reflexivity| | | |intros E; discriminate E|intros E; discriminate E].
    - apply Forall_forall. apply dm_user.
    - apply dm_begins; vm_compute; reflexivity.
    - intros f t [= <-]. apply dm_sets; vm_compute; reflexivity.
  Qed.
End damper.

(** What follows from a bound for advancing. *)
Lemma total_bound meth w b (g : cfg R) ins1 ins2 s0 T lo hi H0 (P : simst R -> R -> Prop) : 0 < T -> 0 < lo -> lo < hi -> 0 < H0 -> checked w b g ins1 ins2 -> g_stepper g = Some (stp_of meth) ->
  init g 0 (new_sim (initial_dyn w)) = Ok tt s0 -> (forall s' H, 0 <= H <= H0 -> advance g H s0 s' -> s_tprev s' = T -> P s' H) ->
  exists N0 : nat, forall N, (N0 <= N)%nat -> exists F : nat, forall fuel, (F <= fuel)%nat -> exists s', program g fuel 0 (grid N T lo hi) (new_sim (initial_dyn w)) = Ok tt s' /\ s_tprev s' = T /\ P s' (T / INR N).
Proof.
  intros HT Hlo Hhi HH Hc Es E0 HP. assert (exists N0 : nat, T / H0 < INR N0) as [N0 HN0]. { exists (Z.to_nat (up (T / H0))). rewrite INR_IZR_INZ, Z2Nat.id; [apply archimed|]. apply le_IZR. destruct (archimed (T / H0)) as [Hu _]. assert (0 < T / H0) by (by apply Rdiv_lt_0_compat). lra. } exists (S N0). intros N HN.
  destruct (total_grid meth T lo hi N HT Hlo Hhi) as [F HF]; [lia|]. exists F. intros fuel Hf. destruct (HF w b g ins1 ins2 s0 Hc Es E0 fuel Hf) as (s' & E & Et & Ha & _).
  exists s'. split; [done|]. split; [done|]. apply HP; [|done|done].
  assert (INR N0 <= INR N) as Hle by (apply le_INR; lia). assert (0 < INR N) as Hpos by (apply lt_0_INR; lia).
  split; [apply Rlt_le; by apply Rdiv_lt_0_compat|]. apply (Rmult_le_reg_r (INR N)); [done|]. unfold Rdiv at 1. rewrite Rmult_assoc, Rinv_l, Rmult_1_r by lra.
  apply (Rmult_lt_compat_r H0) in HN0; [|done]. unfold Rdiv in HN0. rewrite Rmult_assoc, Rinv_l, Rmult_1_r in HN0 by lra. nra.
Qed.

(** The pendulum of samples/test05_pendulum.cpp, any pendulum from any position, any of the
    three methods: there is a motion with that start (the only
    one: C74_pendulum), and a bound such that the program
    that goes to [T] in [N] steps returns, with the angle and the speed at time [T] as
    close as the order of the method says, for all sufficiently large [N]. *)
Theorem C76_pendulum : forall meth θ0 ω0 ga le T lo hi, le <> 0 -> 0 < T -> 0 < lo -> lo < hi ->
  exists θ ω K (N0 : nat), pendulum θ0 ω0 ga le θ ω T /\ 0 <= K /\ forall N, (N0 <= N)%nat -> exists F : nat, forall fuel, (F <= fuel)%nat ->
    exists s, program (pd_cfg θ0 ω0 ga le meth) fuel 0 (grid N T lo hi) (pd_new θ0 ω0) = Ok tt s /\ s_tprev s = T /\
    exists a b, value (s_store s) 0%nat = Some (VS a) /\ value (s_store s) 1%nat = Some (VS b) /\
      Rabs (a - θ T) <= K * (T / INR N) ^ order_of meth /\ Rabs (b - ω T) <= K * (T / INR N) ^ order_of meth.
Proof.
  intros meth θ0 ω0 ga le T lo hi Hle HT Hlo Hhi. destruct (C74_pendulum θ0 ω0 ga le T Hle) as (θ & ω & Hp & _); [lra|].
  destruct (C73_pendulum meth θ0 ω0 ga le θ ω T Hle) as (K & H0 & HK & HH & Hb); [lra|done|].
  pose proof (pd_checked θ0 ω0 ga le meth) as Hc.
  assert (init (pd_cfg θ0 ω0 ga le meth) 0 (pd_new θ0 ω0) = Ok tt (pd_0 θ0 ω0 ga le meth)) as E0 by (apply ok_init; vm_compute; reflexivity).
  assert (g_stepper (pd_cfg θ0 ω0 ga le meth) = Some (stp_of meth)) as Es by reflexivity.
  destruct (total_bound meth _ 0 _ _ _ _ T lo hi H0 (fun s H => exists a b, value (s_store s) 0%nat = Some (VS a) /\ value (s_store s) 1%nat = Some (VS b) /\
      Rabs (a - θ T) <= K * H ^ order_of meth /\ Rabs (b - ω T) <= K * H ^ order_of meth) HT Hlo Hhi HH Hc Es E0) as [N0 HN].
  { intros s' H HH' Ha Et. rewrite <- Et. apply Hb; [done|done|rewrite Et; apply Rle_refl]. }
  exists θ, ω, K, N0. split; [exact Hp|]. split; [exact HK|]. exact HN.
Qed.
Print Assumptions C76_pendulum.

(** The mass on a spring of samples/test04_mass_spring.cpp. *)
Theorem C76_spring : forall meth x0 v0 k T lo hi, 0 < T -> 0 < lo -> lo < hi ->
  exists x v K (N0 : nat), spring_solution x0 v0 k x v T /\ 0 <= K /\ forall N, (N0 <= N)%nat -> exists F : nat, forall fuel, (F <= fuel)%nat ->
    exists s, program (sp_cfg x0 v0 k meth) fuel 0 (grid N T lo hi) (sp_new x0 v0 k) = Ok tt s /\ s_tprev s = T /\
    exists a0 a1, value (s_store s) 0%nat = Some (VS a0) /\ value (s_store s) 1%nat = Some (VS a1) /\
      Rabs (a0 - x T) <= K * (T / INR N) ^ order_of meth /\
      Rabs (a1 - v T) <= K * (T / INR N) ^ order_of meth.
Proof.
  intros meth x0 v0 k T lo hi  HT Hlo Hhi. destruct (C74_spring x0 v0 k T ) as (x & v & Hp & _); [lra|].
  destruct (C73_spring meth x0 v0 k x v T ) as (K & H0 & HK & HH & Hb); [lra|done|].
  pose proof (sp_checked x0 v0 k meth) as Hc.
  assert (init (sp_cfg x0 v0 k meth) 0 (sp_new x0 v0 k) = Ok tt (sp_0 x0 v0 k meth)) as E0 by (apply ok_init; vm_compute; reflexivity).
  assert (g_stepper (sp_cfg x0 v0 k meth) = Some (stp_of meth)) as Es by reflexivity.
  destruct (total_bound meth _ 0 _ _ _ _ T lo hi H0 (fun s H => exists a0 a1, value (s_store s) 0%nat = Some (VS a0) /\ value (s_store s) 1%nat = Some (VS a1) /\
      Rabs (a0 - x T) <= K * H ^ order_of meth /\
      Rabs (a1 - v T) <= K * H ^ order_of meth) HT Hlo Hhi HH Hc Es E0) as [N0 HN].
  { intros s' H HH' Ha Et. rewrite <- Et. apply Hb; [done|done|rewrite Et; apply Rle_refl]. }
  exists x, v, K, N0. split; [exact Hp|]. split; [exact HK|]. exact HN.
Qed.
Print Assumptions C76_spring.

(** The pendulum with a torque of samples/test06_pendulum_with_torque.cpp (Simulator with
    reuse_order). *)
Theorem C76_torque : forall meth θ0 ω0 ma le ga ta T lo hi, ma <> 0 -> le <> 0 -> 0 < T -> 0 < lo -> lo < hi ->
  exists θ ω K (N0 : nat), torque_solution θ0 ω0 ma le ga ta θ ω T /\ 0 <= K /\ forall N, (N0 <= N)%nat -> exists F : nat, forall fuel, (F <= fuel)%nat ->
    exists s, program (tq_cfg θ0 ω0 ma le ga ta meth) fuel 0 (grid N T lo hi) (tq_new θ0 ω0) = Ok tt s /\ s_tprev s = T /\
    exists a0 a1, value (s_store s) 4%nat = Some (VS a0) /\ value (s_store s) 5%nat = Some (VS a1) /\
      Rabs (a0 - θ T) <= K * (T / INR N) ^ order_of meth /\
      Rabs (a1 - ω T) <= K * (T / INR N) ^ order_of meth.
Proof.
  intros meth θ0 ω0 ma le ga ta T lo hi Hma Hle HT Hlo Hhi. destruct (C74_torque θ0 ω0 ma le ga ta T Hma Hle) as (θ & ω & Hp & _); [lra|].
  destruct (C73_torque meth θ0 ω0 ma le ga ta θ ω T Hma Hle) as (K & H0 & HK & HH & Hb); [lra|done|].
  pose proof (tq_checked θ0 ω0 ma le ga ta meth) as Hc.
  assert (init (tq_cfg θ0 ω0 ma le ga ta meth) 0 (tq_new θ0 ω0) = Ok tt (tq_0 θ0 ω0 ma le ga ta meth)) as E0 by (apply ok_init; vm_compute; reflexivity).
  assert (g_stepper (tq_cfg θ0 ω0 ma le ga ta meth) = Some (stp_of meth)) as Es by reflexivity.
  destruct (total_bound meth _ 0 _ _ _ _ T lo hi H0 (fun s H => exists a0 a1, value (s_store s) 4%nat = Some (VS a0) /\ value (s_store s) 5%nat = Some (VS a1) /\
      Rabs (a0 - θ T) <= K * H ^ order_of meth /\
      Rabs (a1 - ω T) <= K * H ^ order_of meth) HT Hlo Hhi HH Hc Es E0) as [N0 HN].
  { intros s' H HH' Ha Et. rewrite <- Et. apply Hb; [done|done|rewrite Et; apply Rle_refl]. }
  exists θ, ω, K, N0. split; [exact Hp|]. split; [exact HK|]. exact HN.
Qed.
Print Assumptions C76_torque.

(** The pendulum with a PI controller of samples/test07_pendulum_with_pi.cpp. *)
Theorem C76_pi : forall meth θ0 ω0 i0 kp ki ma le ga de T lo hi, ma <> 0 -> le <> 0 -> 0 < T -> 0 < lo -> lo < hi ->
  exists θ ω y K (N0 : nat), pi_solution θ0 ω0 i0 kp ki ma le ga de θ ω y T /\ 0 <= K /\ forall N, (N0 <= N)%nat -> exists F : nat, forall fuel, (F <= fuel)%nat ->
    exists s, program (pi_cfg θ0 ω0 i0 kp ki ma le ga de meth) fuel 0 (grid N T lo hi) (pi_new θ0 ω0 i0 kp ki) = Ok tt s /\ s_tprev s = T /\
    exists a0 a1 a2, value (s_store s) 4%nat = Some (VS a0) /\ value (s_store s) 24%nat = Some (VS a1) /\ value (s_store s) 12%nat = Some (VS a2) /\
      Rabs (a0 - θ T) <= K * (T / INR N) ^ order_of meth /\
      Rabs (a1 - ω T) <= K * (T / INR N) ^ order_of meth /\
      Rabs (a2 - y T) <= K * (T / INR N) ^ order_of meth.
Proof.
  intros meth θ0 ω0 i0 kp ki ma le ga de T lo hi Hma Hle HT Hlo Hhi. destruct (C74_pi θ0 ω0 i0 kp ki ma le ga de T Hma Hle) as (θ & ω & y & Hp & _); [lra|].
  destruct (C73_pi meth θ0 ω0 i0 kp ki ma le ga de θ ω y T Hma Hle) as (K & H0 & HK & HH & Hb); [lra|done|].
  pose proof (pi_checked θ0 ω0 i0 kp ki ma le ga de meth) as Hc.
  assert (init (pi_cfg θ0 ω0 i0 kp ki ma le ga de meth) 0 (pi_new θ0 ω0 i0 kp ki) = Ok tt (pi_0 θ0 ω0 i0 kp ki ma le ga de meth)) as E0 by (apply ok_init; vm_compute; reflexivity).
  assert (g_stepper (pi_cfg θ0 ω0 i0 kp ki ma le ga de meth) = Some (stp_of meth)) as Es by reflexivity.
  destruct (total_bound meth _ 0 _ _ _ _ T lo hi H0 (fun s H => exists a0 a1 a2, value (s_store s) 4%nat = Some (VS a0) /\ value (s_store s) 24%nat = Some (VS a1) /\ value (s_store s) 12%nat = Some (VS a2) /\
      Rabs (a0 - θ T) <= K * H ^ order_of meth /\
      Rabs (a1 - ω T) <= K * H ^ order_of meth /\
      Rabs (a2 - y T) <= K * H ^ order_of meth) HT Hlo Hhi HH Hc Es E0) as [N0 HN].
  { intros s' H HH' Ha Et. rewrite <- Et. apply Hb; [done|done|rewrite Et; apply Rle_refl]. }
  exists θ, ω, y, K, N0. split; [exact Hp|]. split; [exact HK|]. exact HN.
Qed.
Print Assumptions C76_pi.

(** The mass with spring and damper of samples/test09_mass_spring_damper.cpp, whose block is
    a class of the user, with any smooth force. *)
Theorem C76_damper : forall meth ma k c x0 v0 u T lo hi, ma <> 0 -> (exists U, open_set U /\ smooth_on U u /\ forall t, 0 <= t <= T -> U t) -> 0 < T -> 0 < lo -> lo < hi ->
  exists x v K (N0 : nat), damper_solution ma k c x0 v0 u x v T /\ 0 <= K /\ forall N, (N0 <= N)%nat -> exists F : nat, forall fuel, (F <= fuel)%nat ->
    exists s, program (dm_cfg ma k c x0 v0 u meth) fuel 0 (grid N T lo hi) (dm_new ma k c x0 v0) = Ok tt s /\ s_tprev s = T /\
    exists a0 a1, value (s_store s) 2%nat = Some (VS a0) /\ value (s_store s) 1%nat = Some (VS a1) /\
      Rabs (a0 - v T) <= K * (T / INR N) ^ order_of meth /\
      Rabs (a1 - x T) <= K * (T / INR N) ^ order_of meth.
Proof.
  intros meth ma k c x0 v0 u T lo hi Hma Hu HT Hlo Hhi. destruct (C74_damper ma k c x0 v0 u T Hma) as (x & v & Hp & _); [|lra|].
  { intros t Ht. destruct Hu as (U & _ & (f1 & f2 & f3 & f4 & Hd) & Hin). destruct (Hd t (Hin t Ht)) as [Hd1 _]. apply derivable_continuous_pt. by exists (f1 t). }
  destruct (C73_damper meth ma k c x0 v0 u x v T Hma Hu) as (K & H0 & HK & HH & Hb); [lra|done|].
  pose proof (dm_checked ma k c x0 v0 u meth) as Hc.
  assert (init (dm_cfg ma k c x0 v0 u meth) 0 (dm_new ma k c x0 v0) = Ok tt (dm_0 ma k c x0 v0 u meth)) as E0 by (apply ok_init; vm_compute; reflexivity).
  assert (g_stepper (dm_cfg ma k c x0 v0 u meth) = Some (stp_of meth)) as Es by reflexivity.
  destruct (total_bound meth _ 0 _ _ _ _ T lo hi H0 (fun s H => exists a0 a1, value (s_store s) 2%nat = Some (VS a0) /\ value (s_store s) 1%nat = Some (VS a1) /\
      Rabs (a0 - v T) <= K * H ^ order_of meth /\
      Rabs (a1 - x T) <= K * H ^ order_of meth) HT Hlo Hhi HH Hc Es E0) as [N0 HN].
  { intros s' H HH' Ha Et. rewrite <- Et. apply Hb; [done|done|rewrite Et; apply Rle_refl]. }
  exists x, v, K, N0. split; [exact Hp|]. split; [exact HK|]. exact HN.
Qed.
Print Assumptions C76_damper.

(** The force of the sample, 0.01 sin t, is smooth. *)
Example C76_ex_force T : exists U, open_set U /\ smooth_on U (fun t => 1/100 * sin t) /\ forall t, 0 <= t <= T -> U t.
Proof.
  exists (fun _ => True). split; [intros x _; exists (mkposreal 1 Rlt_0_1); intros y _; exact I|]. split; [|done].
  exists (fun t => 1/100 * cos t), (fun t => 1/100 * - sin t), (fun t => 1/100 * - cos t), (fun t => 1/100 * sin t). intros t _. split_and!.
  - apply (derivable_pt_lim_scal sin). apply derivable_pt_lim_sin.
  - apply (derivable_pt_lim_scal cos). apply derivable_pt_lim_cos.
  - apply (derivable_pt_lim_scal (fun t => - sin t)). apply (derivable_pt_lim_opp sin). apply derivable_pt_lim_sin.
  - replace (1/100 * sin t) with (1/100 * - - sin t) by ring. apply (derivable_pt_lim_scal (fun t => - cos t)). apply (derivable_pt_lim_opp cos). apply derivable_pt_lim_cos.
  - apply derivable_continuous_pt. exists (1/100 * cos t). apply (derivable_pt_lim_scal sin). apply derivable_pt_lim_sin.
Qed.
(** The conditions of C76_pendulum with the numbers of the sample: 45 degrees, 9.81, length
    0.1, run for five seconds. *)
Example C76_ex : (1/10 <> 0 /\ 0 < 5 /\ 0 < 1/1000 /\ 1/1000 < 1/10)%R.
Proof. lra. Qed.
