(** Property C84: the programs of samples test03 and test08. *)
From stdpp Require Import prelude gmap strings.
From Coq Require Import ZArith QArith Reals Lra Qreals Psatz.
From Verif Require Import Num NumQ NumR NumOrd NumAdd Res Name Store Leaf Sched Stepper Sim World Api SpecSched P_Store P_Prog P_Lib P_World P_Compile P_Simulated P_Evolve P_Rel P_Rel2 SpecHist P_Trace SpecBlock Ex_Models
  SpecRun P_Log P_Run Props_Run P_Pack P_Grow P_Again P_Repeat Props_Pack SpecRK P_RK SpecAgain P_Over P_Redo Props_Again SpecField P_Field P_FieldRun P_Posed P_Path Props_Field SpecConv P_Conv Props_Conv SpecLin P_Lin Props_Lin
  SpecOrd P_Ord P_Ord2 P_Ord3 Props_Ord SpecSmooth P_Tame P_Tame2 P_Tame3 P_Smooth Props_Smooth SpecDiag P_Diag P_Diag2 Props_Diag Samples Samples2 Samples3 Samples4 Props_Samples P_Picard SpecExist P_Exist Props_Exist
  SpecSafe SpecGoes SpecGoes2 SpecLint P_Goes P_Goes4 P_Goes6 Props_Goes P_Total Props_Total Samples6 Hist SpecRec SpecTable SpecRows P_Table Props_Rec Props_Table Props_Rows Props_Files Samples7 P_Life.
Local Open Scope nat_scope.
Local Open Scope R_scope.


(** samples/test03_integrator.cpp, with Euler: the table. Line [S k] is line [k], or zero if
    the trigger was true in one of the two lines before it, plus the Euler step. *)
Theorem C84_integrator : forall (a : R) (f : R -> R) (p : R -> bool) fuel grow t0 lo0 hi0 cs,
  spaced t0 cs -> (0 < grow)%N -> (N.of_nat (S (length cs)) + grow <= two32)%N ->
  let calls := (t0, lo0, hi0) :: cs in let ts := times calls in
  exists h s xs, record_program (ti_cfg a f p) (S fuel) grow [0; 1]%nat calls (ti_new a) = Ok h s /\ two_tracked h 0 1 ts xs (map f ts) /\ length xs = length ts /\ xs !! 0%nat = Some a /\
    forall k t1 t2 x, ts !! k = Some t1 -> ts !! S k = Some t2 -> xs !! k = Some x ->
      xs !! S k = Some ((if p t1 || match k with O => false | S j => match ts !! j with Some t => p t | None => false end end then 0 else x) + (t2 - t1) * f t1).
Proof.
  intros a f p fuel grow t0 lo0 hi0 cs Hsp Hg Hlen calls ts. pose proof (ti_checked a f p) as Hc. pose proof (spaced_permitted a f p t0 cs Hsp) as Hp.
  assert (forall x, x ∈ [0; 1]%nat -> value_sig (initial_store (ti_world a)) x) as Hv by (apply value_sigs; vm_compute; reflexivity).
  assert (g_stepper (ti_cfg a f p) = Some euler) as Es by reflexivity.
  pose proof (ti_ends0 a f p fuel t0 lo0 hi0 cs) as He. unfold ti_new in *.
  assert (exists h s ss, record_program (ti_cfg a f p) (S fuel) grow [0; 1]%nat calls (new_sim (initial_dyn (ti_world a))) = Ok h s /\ ends (ti_cfg a f p) (S fuel) calls (new_sim (initial_dyn (ti_world a))) ss /\
      table [0; 1]%nat calls ss h /\ forall order, (forall x, x ∈ order -> x ∈ [0; 1]%nat) -> export_csv order h = Ok (lines order calls ss) h) as (h & s & ss & Er & Hss & Ht & Hx).
  { clear He. revert Hc Hp Hv Es. generalize (ti_cfg a f p) (ti_world a). intros g w Hc Hp Hv Es.
    destruct (C75_fixed R w 0%nat g [1; 2]%nat [] fuel t0 cs Hc Hp) as (s & E & _). { intros stp E. rewrite Es in E. injection E as <-. apply euler_constant. }
    pose proof (C81_table R w 0%nat g [1; 2]%nat [] (S fuel) grow [0; 1]%nat t0 lo0 hi0 cs Hc Hp Hg ltac:(done) Hv Hlen) as Ht. cbv zeta in Ht. rewrite E in Ht.
    destruct Ht as (h & ss & Er & He & _ & Ht & Hx). exists h, s, ss. done. }
  destruct (He ss Hsp Hss) as [H0 H1]. exists h, s, (a :: ti_column f p t0 a (p t0) (times cs)). split; [exact Er|].
  assert (length ss = length calls) as Hl.
  { apply (f_equal (@length _)) in H1. rewrite !map_length in H1. unfold times in H1. rewrite map_length in H1. exact H1. }
  split. { apply (two_table 0 1 calls ss h); [exact Hl|exact Ht|exact Hx|exact H0|exact H1]. }
  split. { apply (f_equal (@length _)) in H0. rewrite !map_length in H0. rewrite <- H0. unfold ts, times. by rewrite map_length. }
  split; [done|]. intros k t1 t2 x H2 H3 H4. change (ts !! S k) with (times cs !! k) in H3. change ts with (t0 :: times cs) in H2 |- *.
  change (ti_column f p t0 a (p t0) (times cs) !! k = Some ((if p t1 || ti_before p (t0 :: times cs) k then 0 else x) + (t2 - t1) * f t1)).
  rewrite (ti_column_spec f p (times cs) t0 a (p t0) k t1 t2 x H2 H3 H4). destruct k as [|k]; [|done]. cbn in H2. injection H2 as ->. cbn [ti_before]. by rewrite orb_false_r.
Qed.
Print Assumptions C84_integrator.

(** samples/test08_pendulum_with_pid.cpp: the program returns with a table of the angle, the
    speed and the torque, and in each line the torque is that of the controller. *)
Lemma spaced_any (g : cfg R) tp cs : g_stepper g ≠ None -> spaced tp cs -> permitted g tp cs.
Proof.
  intros Hn. revert tp. induction cs as [|[[t lo] hi] cs IH]; intros tp; [done|].
  intros (H1 & H2 & H3 & H4). split; [|by apply IH]. split.
  - intros _. by apply Rltb_true.
  - intros _. split; [apply Rltb_false; lra|]. right. split; [done|]. split; by apply Rltb_true.
Qed.
Lemma returns_any meth t0 cs : exists N : nat, forall w b (g : cfg R) ins1 ins2 fuel, checked w b g ins1 ins2 -> permitted g t0 cs -> g_stepper g = Some (stp_of meth) -> (N <= fuel)%nat ->
  exists s, program g fuel t0 cs (new_sim (initial_dyn w)) = Ok tt s.
Proof.
  assert (constant (stp_of meth) -> exists N : nat, forall w b (g : cfg R) ins1 ins2 fuel, checked w b g ins1 ins2 -> permitted g t0 cs -> g_stepper g = Some (stp_of meth) -> (N <= fuel)%nat ->
    exists s, program g fuel t0 cs (new_sim (initial_dyn w)) = Ok tt s) as Hf.
  { intros Hk. exists 1%nat. intros w b g ins1 ins2 [|fuel] Hc Hp Es Hle; [lia|]. destruct (C75_fixed R w b g ins1 ins2 fuel t0 cs Hc Hp) as (s & E & _); [|by exists s].
    intros stp E. rewrite Es in E. by injection E as <-. }
  destruct meth; [apply Hf, euler_constant|apply Hf, rk4_constant|]. clear Hf.
  destruct C75_steppers as (_ & S1 & S2 & S3). destruct (C75_adaptive (1/2) t0 cs ltac:(lra)) as [N HN]. exists N. intros w b g ins1 ins2 fuel Hc Hp Es Hle.
  destruct (HN w b g ins1 ins2 rkf45 fuel Hc Hp Es S1 S2 S3 Hle) as (s & E & _). by exists s.
Qed.
Section pid.
  Context (θ0 ω0 i0 d0 kp ki kd ma le ga de : R).
  Lemma pp_blocks : exists l1 l2 l3 l4 l5, (forall l, l ∈ [l1; l2; l3; l4; l5] -> l ∈ leaves (pp_tree θ0 ω0 i0 d0 kp ki kd)) /\
    (l_cls l1 = CSub /\ h_x1 (l_h l1) = Some 4%nat /\ h_x2 (l_h l1) = Some 5%nat /\ h_out (l_h l1) = Some 7%nat) /\
    (l_cls l2 = CGain TyD (VS kp) /\ h_in (l_h l2) = Some 7%nat /\ h_out (l_h l2) = Some 12%nat) /\
    (l_cls l3 = CGain TyD (VS ki) /\ h_in (l_h l3) = Some 13%nat /\ h_out (l_h l3) = Some 14%nat) /\
    (l_cls l4 = CGain TyD (VS kd) /\ h_in (l_h l4) = Some 15%nat /\ h_out (l_h l4) = Some 16%nat) /\
    (l_cls l5 = CAdd TyD (VS 0) /\ map snd (l_ibus l5) = [12; 14; 16]%nat /\ h_out (l_h l5) = Some 6%nat).
  Proof.
    assert (exists ls, leaves (pp_tree θ0 ω0 i0 d0 kp ki kd) = ls /\ exists l1 l2 l3 l4 l5, (forall l, l ∈ [l1; l2; l3; l4; l5] -> l ∈ ls) /\
    (l_cls l1 = CSub /\ h_x1 (l_h l1) = Some 4%nat /\ h_x2 (l_h l1) = Some 5%nat /\ h_out (l_h l1) = Some 7%nat) /\
    (l_cls l2 = CGain TyD (VS kp) /\ h_in (l_h l2) = Some 7%nat /\ h_out (l_h l2) = Some 12%nat) /\
    (l_cls l3 = CGain TyD (VS ki) /\ h_in (l_h l3) = Some 13%nat /\ h_out (l_h l3) = Some 14%nat) /\
    (l_cls l4 = CGain TyD (VS kd) /\ h_in (l_h l4) = Some 15%nat /\ h_out (l_h l4) = Some 16%nat) /\
    (l_cls l5 = CAdd TyD (VS 0) /\ map snd (l_ibus l5) = [12; 14; 16]%nat /\ h_out (l_h l5) = Some 6%nat)) as (ls & -> & Hls); [|exact Hls].
    eexists. split; [vm_compute; reflexivity|].
    match goal with |- context [_ ∈ [?a1; ?a2; ?a3; ?a4; ?a5; ?a6; ?a7; ?a8; ?a9; ?a10; ?a11; ?a12; ?a13; ?a14; ?a15]] => exists a1, a2, a4, a7, a5 end.
    split. { intros l Hl. repeat (apply elem_of_cons in Hl as [-> |Hl]; [by repeat constructor|]). by apply elem_of_nil in Hl. }
    split_and!; reflexivity.
  Qed.
End pid.
(** The torque in a line, from the equations of the blocks. *)
Lemma pid_torque (kp ki kd : R) (l1 l2 l3 l4 l5 : leaf R) t st1 st2 st3 st4 st5 σ de :
  (l_cls l1 = CSub /\ h_x1 (l_h l1) = Some 4%nat /\ h_x2 (l_h l1) = Some 5%nat /\ h_out (l_h l1) = Some 7%nat) ->
  (l_cls l2 = CGain TyD (VS kp) /\ h_in (l_h l2) = Some 7%nat /\ h_out (l_h l2) = Some 12%nat) ->
  (l_cls l3 = CGain TyD (VS ki) /\ h_in (l_h l3) = Some 13%nat /\ h_out (l_h l3) = Some 14%nat) ->
  (l_cls l4 = CGain TyD (VS kd) /\ h_in (l_h l4) = Some 15%nat /\ h_out (l_h l4) = Some 16%nat) ->
  (l_cls l5 = CAdd TyD (VS 0) /\ map snd (l_ibus l5) = [12; 14; 16]%nat /\ h_out (l_h l5) = Some 6%nat) ->
  equation l1 t st1 σ -> equation l2 t st2 σ -> equation l3 t st3 σ -> equation l4 t st4 σ -> equation l5 t st5 σ -> value σ 4%nat = Some (VS de) ->
  exists φ i d, value σ 5%nat = Some (VS φ) /\ value σ 13%nat = Some (VS i) /\ value σ 15%nat = Some (VS d) /\ value σ 6%nat = Some (VS (kp * (de - φ) + ki * i + kd * d)).
Proof.
  intros (C1 & A1 & A2 & A3) (C2 & B1 & B2) (C3 & D1 & D2) (C4 & E1 & E2) (C5 & F1 & F2) Q1 Q2 Q3 Q4 Q5 Hde. unfold equation in *. rewrite C1 in Q1. rewrite C2 in Q2. rewrite C3 in Q3. rewrite C4 in Q4. rewrite C5 in Q5.
  destruct Q1 as (s1 & s2 & so & x1 & x2 & y & G1 & G2 & G3 & V1 & V2 & V3 & Hp). rewrite A1 in G1. rewrite A2 in G2. rewrite A3 in G3. injection G1 as <-. injection G2 as <-. injection G3 as <-.
  rewrite Hde in V1. injection V1 as <-. inversion Hp; subst; clear Hp.
  destruct Q2 as (si & so & x & y & G1 & G2 & V4 & V5 & Hs). rewrite B1 in G1. rewrite B2 in G2. injection G1 as <-. injection G2 as <-. rewrite V3 in V4. injection V4 as <-. inversion Hs; subst; clear Hs.
  destruct Q5 as (so & xs & y & G1 & Hxs & V6 & Hac). rewrite F2 in G1. injection G1 as <-.
  destruct (l_ibus l5) as [|[n1 e1] [|[n2 e2] [|[n3 e3] [|]]]]; try discriminate F1. injection F1 as -> -> ->.
  inversion Hxs as [|? z1 ? ? W1 Hx1]; subst. inversion Hx1 as [|? z2 ? ? W2 Hx2]; subst. inversion Hx2 as [|? z3 ? ? W3 Hx3]; subst. inversion Hx3; subst. cbn [snd] in *.
  destruct Q3 as (si & so & x & y3 & G1 & G2 & V7 & V8 & Hs). rewrite D1 in G1. rewrite D2 in G2. injection G1 as <-. injection G2 as <-. rewrite W2 in V8. injection V8 as ->.
  destruct Q4 as (si & so & x' & y4 & G1 & G2 & V9 & V10 & Hs'). rewrite E1 in G1. rewrite E2 in G2. injection G1 as <-. injection G2 as <-. rewrite W3 in V10. injection V10 as ->.
  rewrite W1 in V5. injection V5 as ->.
  inversion Hac as [|? ? ? ? ? P1 Hac1]; subst. inversion Hac1 as [|? ? ? ? ? P2 Hac2]; subst. inversion Hac2 as [|? ? ? ? ? P3 Hac3]; subst. inversion Hac3; subst.
  inversion P1; subst. inversion P2; subst. inversion P3; subst. inversion Hs; subst. inversion Hs'; subst. eexists _, _, _. split_and!; [exact V2|exact V7|exact V9|]. rewrite V6. do 2 f_equal. cbn. ring.
Qed.
Theorem C84_pid : forall meth (θ0 ω0 i0 d0 kp ki kd ma le ga de : R) m it t0 lo0 hi0 cs, m ≠ MReuse -> (forall l, it l ≡ₚ l) -> spaced t0 cs ->
  exists N : nat, forall fuel grow, (N <= fuel)%nat -> (0 < grow)%N -> (N.of_nat (S (length cs)) + grow <= two32)%N ->
    let calls := (t0, lo0, hi0) :: cs in let g := pp_cfg θ0 ω0 i0 d0 kp ki kd ma le ga de m meth it in let s0 := new_sim (initial_dyn (pp_world θ0 ω0 i0 d0 kp ki kd)) in
    exists h s ss, record_program g fuel grow [5; 3; 6]%nat calls s0 = Ok h s /\ ends g fuel calls s0 ss /\ table [5; 3; 6]%nat calls ss h /\
      forall k t s, row calls ss k t s -> exists φ i d, value (s_store s) 5%nat = Some (VS φ) /\ value (s_store s) 13%nat = Some (VS i) /\ value (s_store s) 15%nat = Some (VS d) /\
        value (s_store s) 6%nat = Some (VS (kp * (de - φ) + ki * i + kd * d)).
Proof.
  intros meth θ0 ω0 i0 d0 kp ki kd ma le ga de m it t0 lo0 hi0 cs Hm Hit Hsp. destruct (returns_any meth t0 cs) as [N HN]. exists N. intros fuel grow Hf Hg Hlen. cbv zeta.
  pose proof (pp_checked θ0 ω0 i0 d0 kp ki kd ma le ga de m meth it Hm Hit) as Hc.
  assert (forall x, x ∈ [5; 3; 6]%nat -> value_sig (initial_store (pp_world θ0 ω0 i0 d0 kp ki kd)) x) as Hv by (apply value_sigs; vm_compute; reflexivity).
  assert (g_stepper (pp_cfg θ0 ω0 i0 d0 kp ki kd ma le ga de m meth it) = Some (stp_of meth)) as Es by reflexivity.
  assert (g_inputs (pp_cfg θ0 ω0 i0 d0 kp ki kd ma le ga de m meth it) = Some (pp_inputs ma le ga de)) as Ei by reflexivity.
  destruct (pp_blocks θ0 ω0 i0 d0 kp ki kd) as (l1 & l2 & l3 & l4 & l5 & Hin & B1 & B2 & B3 & B4 & B5).
  assert (g_tree (pp_cfg θ0 ω0 i0 d0 kp ki kd ma le ga de m meth it) = pp_tree θ0 ω0 i0 d0 kp ki kd) as Et by reflexivity. rewrite <- Et in Hin. clear Et.
  revert Hc Hv Es Ei Hin. generalize (pp_cfg θ0 ω0 i0 d0 kp ki kd ma le ga de m meth it) (pp_world θ0 ω0 i0 d0 kp ki kd). intros g w Hc Hv Es Ei Hin.
  assert (permitted g t0 cs) as Hp by (apply spaced_any; [by rewrite Es|done]).
  destruct (HN w 0%nat g _ _ fuel Hc Hp Es Hf) as [s E].
  pose proof (C81_table R w 0%nat g _ _ fuel grow [5; 3; 6]%nat t0 lo0 hi0 cs Hc Hp Hg ltac:(done) Hv Hlen) as Ht. cbv zeta in Ht. rewrite E in Ht.
  destruct Ht as (h & ss & Er & He & _ & Ht & _). exists h, s, ss. split; [exact Er|]. split; [exact He|]. split; [exact Ht|]. intros k t s' Hk.
  assert (tabulated w 0%nat g [0; 2; 1; 4]%nat [] fuel ((t0, lo0, hi0) :: cs) ss) as Htab.
  { split; [done|]. split; [intros stp E'; rewrite Es in E'; injection E' as <-; apply stp_rel|]. split; [by exists t0, lo0, hi0, cs|done]. }
  assert (forall l, l ∈ [l1; l2; l3; l4; l5] -> is_builder (l_cls l) = false -> exists st, equation l t st (s_store s')) as Heq.
  { intros l Hl Hb. eapply (C82_equations R w 0%nat g); [exact Htab|exact Hk|by apply Hin|done]. }
  destruct (C82_inputs R w 0%nat g _ _ fuel _ ss k t s' Htab Hk) as [Hin' _]. specialize (Hin' _ Ei). unfold pp_inputs in Hin'.
  do 3 apply shows_set in Hin' as [_ Hin']. apply shows_set in Hin' as [Hde _].
  destruct (Heq l1) as [st1 Q1]; [set_solver|by rewrite (proj1 B1)|]. destruct (Heq l2) as [st2 Q2]; [set_solver|by rewrite (proj1 B2)|]. destruct (Heq l3) as [st3 Q3]; [set_solver|by rewrite (proj1 B3)|].
  destruct (Heq l4) as [st4 Q4]; [set_solver|by rewrite (proj1 B4)|]. destruct (Heq l5) as [st5 Q5]; [set_solver|by rewrite (proj1 B5)|].
  by eapply (pid_torque kp ki kd l1 l2 l3 l4 l5 t).
Qed.
Print Assumptions C84_pid.

(** A trigger that is true in one line only: not one but two restarts. *)
Definition at_one (t : R) : bool := if Req_EM_T t 1 then true else false.
Definition four_lines : list (R * R * R) := [(1, 1, 2); (2, 1, 2); (3, 1, 2)].
Lemma four_lines_spaced : spaced 0 four_lines.
Proof. unfold four_lines. cbn. repeat split; try lra; try done. Qed.
Lemma at_one_1 : at_one 1 = true. Proof. unfold at_one. by destruct (Req_EM_T 1 1). Qed.
Lemma at_one_ne t : t ≠ 1 -> at_one t = false. Proof. intros Hn. unfold at_one. by destruct (Req_EM_T t 1). Qed.
Theorem C84_once_refuted : exists (a : R) (f : R -> R) (p : R -> bool) t0 cs, spaced t0 cs /\
  exists h s xs ts, record_program (ti_cfg a f p) 1 1 [0; 1]%nat ((t0, 1, 2) :: cs) (ti_new a) = Ok h s /\ two_tracked h 0 1 ts xs (map f ts) /\
    exists x2 x3, map p ts = [false; true; false; false] /\ xs !! 2%nat = Some x2 /\ xs !! 3%nat = Some x3 /\ x3 ≠ x2 + (3 - 2) * f 2 /\ x3 = (3 - 2) * f 2.
Proof.
  exists 0, (fun _ => 1), at_one, 0, four_lines. split; [exact four_lines_spaced|].
  destruct (C84_integrator 0 (fun _ => 1) at_one 0 1%N 0 1 2 four_lines four_lines_spaced ltac:(done) ltac:(vm_compute; discriminate)) as (h & s & xs & Er & Ht & Hl & H0 & Hs).
  exists h, s, xs, (times ((0, 1, 2) :: four_lines)). split; [exact Er|]. split; [exact Ht|].
  pose proof (Hs 0%nat 0 1 0 eq_refl eq_refl H0) as H1. pose proof (Hs 1%nat 1 2 _ eq_refl eq_refl H1) as H2. pose proof (Hs 2%nat 2 3 _ eq_refl eq_refl H2) as H3.
  assert (xs !! 2%nat = Some ((if at_one 1 || at_one 0 then 0 else _) + (2 - 1) * 1)) as H2' by exact H2. assert (xs !! 3%nat = Some ((if at_one 2 || at_one 1 then 0 else _) + (3 - 2) * 1)) as H3' by exact H3.
  rewrite at_one_1 in H2', H3'. rewrite (at_one_ne 2) in H3' by lra. cbn [orb] in H2', H3'.
  exists (0 + (2 - 1) * 1), (0 + (3 - 2) * 1). split.
  { change (map at_one (times ((0, 1, 2) :: four_lines))) with [at_one 0; at_one 1; at_one 2; at_one 3]. rewrite at_one_1, !at_one_ne by lra. done. }
  split; [exact H2'|]. split; [exact H3'|]. split; lra.
Qed.
Print Assumptions C84_once_refuted.

(** The hypotheses hold for the times of [C84_once_refuted] and any parameters. *)
Example C84_pid_ex : exists N : nat, forall fuel, (N <= fuel)%nat ->
  exists h s ss, record_program (pp_cfg 1 0 0 0 40 20 10 1 1 10 (1/2) MDefault SRk4 (fun l => l)) fuel 1 [5; 3; 6]%nat ((0, 1, 2) :: four_lines) (new_sim (initial_dyn (pp_world 1 0 0 0 40 20 10))) = Ok h s /\
    exists t s', row ((0, 1, 2) :: four_lines) ss 3%nat t s' /\ exists φ i d, value (s_store s') 5%nat = Some (VS φ) /\ value (s_store s') 6%nat = Some (VS (40 * (1/2 - φ) + 20 * i + 10 * d)).
Proof.
  destruct (C84_pid SRk4 1 0 0 0 40 20 10 1 1 10 (1/2) MDefault (fun l => l) 0 1 2 four_lines ltac:(done) ltac:(done) four_lines_spaced) as [N HN].
  exists N. intros fuel Hf. specialize (HN fuel 1%N Hf eq_refl ltac:(vm_compute; discriminate)). cbv zeta in HN. revert HN.
  generalize (pp_cfg 1 0 0 0 40 20 10 1 1 10 (1/2) MDefault SRk4 (fun l => l)) (new_sim (initial_dyn (pp_world 1 0 0 0 40 20 10))). intros g s0 (h & s & ss & Er & He & Ht & Hr). exists h, s, ss. split; [exact Er|].
  pose proof (ends_length _ _ _ _ _ He) as Hl. destruct ss as [|s1 [|s2 [|s4 [|s3 [|]]]]]; try discriminate Hl.
  assert (row ((0, 1, 2) :: four_lines) [s1; s2; s4; s3] 3%nat 3 s3) as Hk by (split; [exists 1, 2; reflexivity|reflexivity]).
  exists 3, s3. split; [exact Hk|]. destruct (Hr _ _ _ Hk) as (φ & i & d & V1 & _ & _ & V2). exists φ, i, d. split; [exact V1|exact V2].
Qed.
