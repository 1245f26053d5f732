(** Property C80: several simulators for one model, one after the other. *)
From stdpp Require Import prelude gmap strings.
From Coq Require Import ZArith QArith.
From Verif Require Import Num NumQ NumOrd NumAdd Res Store Leaf Sched Stepper Sim World Api P_Store P_World P_Compile P_Evolve P_Refine SpecSched SpecSim SpecSafe SpecGoes SpecGoes2 SpecLint P_Goes4 P_Goes6 SpecSess P_Sess Props_Goes Props_Same Ex_Models Props_Again.
Local Open Scope nat_scope.

Lemma same_tree {D} `{NumOps D} w b (ps : list (sitting D)) : (forall p, p ∈ ps -> checked w b (st_cfg p) (st_ins1 p) (st_ins2 p)) ->
  forall p q, p ∈ ps -> q ∈ ps -> g_tree (st_cfg q) = g_tree (st_cfg p).
Proof. intros Hps p q Hp Hq. pose proof (cd_tree _ _ _ _ _ (Hps p Hp)) as E1. pose proof (cd_tree _ _ _ _ _ (Hps q Hq)) as E2. congruence. Qed.

(** Every sequence of sittings of a checked model: no call throws, none is undefined, but
    that a FastSimulator refuses a model that was simulated before (with its exception, and
    nothing is lost). *)
Theorem C80_sittings : forall D `{NumOps D} `{!NumOrd D} `{!NumAdd D} w b (ps : list (sitting D)) fuel,
  (forall p, p ∈ ps -> checked w b (st_cfg p) (st_ins1 p) (st_ins2 p) /\ forall stp, g_stepper (st_cfg p) = Some stp -> stepper_ok stp) -> admissible false None ps ->
  match sittings fuel ps (initial_dyn w) with
  | Ok rs _ => expected w false ps rs
  | OOF => True
  | Exn _ _ | UB _ => False
  end.
Proof.
  intros D ? ? ? w b ps fuel Hps Ha. destruct ps as [|p ps]; [done|].
  apply (sittings_ok w b (g_tree (st_cfg p)) fuel (p :: ps)) with (τ := None); [|eapply new_left; apply (Hps p), elem_of_list_here|done].
  intros q Hq. destruct (Hps q Hq) as [Hc Hst]. split; [done|]. split; [|done]. eapply (same_tree w b (p :: ps)); [by intros; apply Hps|apply elem_of_list_here|done].
Qed.
Print Assumptions C80_sittings.

(** With steppers of fixed step all of them return. *)
Theorem C80_fixed : forall D `{NumOps D} `{!NumOrd D} `{!NumAdd D} w b (ps : list (sitting D)) fuel,
  (forall p, p ∈ ps -> checked w b (st_cfg p) (st_ins1 p) (st_ins2 p) /\ forall stp, g_stepper (st_cfg p) = Some stp -> stepper_ok stp /\ constant stp) -> admissible false None ps ->
  exists rs d, sittings (S fuel) ps (initial_dyn w) = Ok rs d /\ expected w false ps rs.
Proof.
  intros D ? ? ? w b ps fuel Hps Ha.
  assert (sittings (S fuel) ps (initial_dyn w) ≠ OOF) as Hn.
  { destruct ps as [|p ps]; [done|]. apply (sittings_total w b (g_tree (st_cfg p)) fuel (p :: ps)) with (used := false) (τ := None); [|eapply new_left; apply (Hps p), elem_of_list_here|done].
    intros q Hq. destruct (Hps q Hq) as [Hc Hst]. split; [done|]. split; [|done]. eapply (same_tree w b (p :: ps)); [by intros; apply Hps|apply elem_of_list_here|done]. }
  pose proof (C80_sittings D w b ps (S fuel)) as H1. destruct (sittings (S fuel) ps (initial_dyn w)) as [rs d| | |].
  - exists rs, d. split; [done|]. apply H1; [|done]. intros p Hp. destruct (Hps p Hp) as [Hc Hst]. split; [done|]. intros stp E. by apply Hst.
  - exfalso. apply H1; [|done]. intros p Hp. destruct (Hps p Hp) as [Hc Hst]. split; [done|]. intros stp E. by apply Hst.
  - exfalso. apply H1; [|done]. intros p Hp. destruct (Hps p Hp) as [Hc Hst]. split; [done|]. intros stp E. by apply Hst.
  - done.
Qed.
Print Assumptions C80_fixed.

(** A release build does the same, as long as no FastSimulator is refused. *)
Definition release {D} (p : sitting D) : sitting D := Sitting (with_dbg false (st_cfg p)) (st_ins1 p) (st_ins2 p) (st_start p) (st_calls p).
Theorem C80_release : forall D `{NumOps D} w b (ps : list (sitting D)) fuel d rs d',
  (forall p, p ∈ ps -> checked w b (st_cfg p) (st_ins1 p) (st_ins2 p) /\ forall stp, g_stepper (st_cfg p) = Some stp -> stepper_mono stp) ->
  sittings fuel ps d = Ok rs d' -> None ∉ rs -> sittings fuel (map release ps) d = Ok rs d'.
Proof.
  intros D ? w b ps fuel. induction ps as [|p ps IH]; intros d rs d' Hps E Hn; [done|]. destruct (Hps p (elem_of_list_here _ _)) as [Hc Hm]. cbn [sittings map release st_cfg st_start st_calls] in *.
  assert (with_dbg true (st_cfg p) = st_cfg p) as Ed. { pose proof (cd_dbg _ _ _ _ _ Hc) as Hd. destruct (st_cfg p). cbn in *. by rewrite Hd. }
  destruct (program (st_cfg p) fuel (st_start p) (st_calls p) (new_sim d)) as [[] s|e s| |] eqn:Ep; try done.
  - rewrite <- Ed in Ep. rewrite (program_release (st_cfg p) fuel (st_start p) (st_calls p) (new_sim d) tt s Hm Ep).
    destruct (sittings fuel ps (s_dyn s)) as [rs1 d1| | |] eqn:E1; try done. injection E as <- <-.
    rewrite (IH (s_dyn s) rs1 d1); [done|intros q Hq; by apply Hps, elem_of_list_further|done|]. intros Hx. by apply Hn, elem_of_list_further.
  - destruct e; try done. destruct (sittings fuel ps (s_dyn s)) as [rs1 d1| | |] eqn:E1; try done. injection E as <- <-. exfalso. apply Hn, elem_of_list_here.
Qed.
Print Assumptions C80_release.

(** The steppers of the library qualify. *)
Theorem C80_steppers : forall D `{NumOps D}, stepper_ok (D:=D) euler /\ stepper_ok (D:=D) rk4 /\ stepper_ok (D:=D) rkf45 /\ stepper_mono (D:=D) euler /\ stepper_mono (D:=D) rk4 /\ stepper_mono (D:=D) rkf45.
Proof. intros D ?. split_and!; [apply euler_ok|apply rk4_ok|apply rkf45_ok|apply euler_mono|apply rk4_mono|apply rkf45_mono]. Qed.
Print Assumptions C80_steppers.

(** ** Examples *)
(** The model of C75 (an integrator, a Memory, a Derivative and a Delay): a FastSimulator
    from 0 to 1, a second FastSimulator, which is refused, a Simulator from 2 to 3 and one
    that reuses the order from 4 to 9/2. *)
Definition ex80 : list (sitting Q) :=
  [ Sitting (ex75_cfg MFast) [] [] 0%Q ex75_calls; Sitting (ex75_cfg MFast) [] [] 1%Q []; Sitting (ex75_cfg MDefault) [] [] 2%Q [(3, 1#10, 1)]%Q; Sitting (ex75_cfg MReuse) [] [] 4%Q [(9#2, 1#10, 1)]%Q ].
Lemma some_leaf {D} `{NumOps D} (tr : tree D) : has_state tr -> leaves tr ≠ [].
Proof. intros (l & Hl & _) E. rewrite E in Hl. by apply elem_of_nil in Hl. Qed.
Lemma permitted_one {D} `{NumOps D} (g : cfg D) t0 t lo hi : g_stepper g ≠ None -> nltb t0 t = true -> nltb t t0 = false -> nltb n0 lo = true -> nltb lo hi = true -> permitted g t0 [(t, lo, hi)].
Proof. intros Hn H1 H2 H3 H4. split; [|exact I]. split; [done|]. intros _. split; [done|]. right. done. Qed.
Lemma ex80_plan (f : mode -> cfg Q) : (forall m, g_mode (f m) = m /\ g_stepper (f m) ≠ None /\ leaves (g_tree (f m)) ≠ []) -> permitted (f MFast) 0%Q ex75_calls ->
  admissible false None [ Sitting (f MFast) [] [] 0%Q ex75_calls; Sitting (f MFast) [] [] 1%Q []; Sitting (f MDefault) [] [] 2%Q [(3, 1#10, 1)]%Q; Sitting (f MReuse) [] [] 4%Q [(9#2, 1#10, 1)]%Q ].
Proof.
  intros Hf Hp. destruct (Hf MFast) as (F1 & F2 & F3). destruct (Hf MDefault) as (G1 & G2 & G3). destruct (Hf MReuse) as (R1 & R2 & R3).
  cbn [admissible st_cfg st_start st_calls]. split; [by intros [E _]|]. intros _. split; [by intros _ a [=]|]. split; [exact Hp|].
  split; [|intros Hn; exfalso; apply Hn; by split]. intros _.
  split; [intros (_ & E & _); cbn [st_cfg] in E; rewrite G1 in E; discriminate E|]. intros _. split; [intros _ a [= <-]; vm_compute; reflexivity|]. split; [apply permitted_one; [done|vm_compute; reflexivity..]|].
  split; [intros (_ & E & _); cbn [st_cfg] in E; rewrite R1 in E; discriminate E|]. intros _. split; [intros _ a [= <-]; vm_compute; reflexivity|]. split; [apply permitted_one; [done|vm_compute; reflexivity..]|]. exact I.
Qed.
Example C80_ex : (forall p, p ∈ ex80 -> checked ex13_world 0 (st_cfg p) (st_ins1 p) (st_ins2 p) /\ forall stp, g_stepper (st_cfg p) = Some stp -> stepper_ok stp /\ constant stp) /\ admissible false None ex80.
Proof.
  split.
  - assert (forall m, checked ex13_world 0 (ex75_cfg m) [] [] /\ forall stp, g_stepper (ex75_cfg m) = Some stp -> stepper_ok stp /\ constant stp) as Hm.
    { intros m. split; [apply C75_ex|]. intros stp E. assert (Some rk4 = Some stp) as E' by exact E. injection E' as <-. split; [apply rk4_ok|apply rk4_constant]. }
    unfold ex80. revert Hm. generalize ex75_cfg. intros f Hm p Hp. repeat (apply elem_of_cons in Hp as [->|Hp]; [apply Hm|]). by apply elem_of_nil in Hp.
  - apply ex80_plan; [|apply C75_ex]. intros m. split; [reflexivity|]. split; [done|]. apply some_leaf. apply C75_ex.
Qed.
(** Which sittings return, when they end, and the value of the state there. *)
Definition seen80 (ps : list (sitting Q)) : option (list (option (Q * option (val Q)))) :=
  match sittings 50 ps (initial_dyn ex13_world) with Ok rs _ => Some (map (fun r => match r with Some s => Some (s_tprev s, value (s_store s) 0) | None => None end) rs) | _ => None end.
Example C80_ex_runs : match seen80 ex80 with Some [Some (a, _); None; Some (b, _); Some (c, _)] => (a, b, c) = (1, 3, 9#2)%Q | _ => False end.
Proof. vm_compute. reflexivity. Qed.
(** With a Delay the start has to be later: a Simulator that starts at the time the last one
    ended throws. *)
Example C80_needed : match sittings 50 [Sitting (ex75_cfg MDefault) [] [] 0%Q ex75_calls; Sitting (ex75_cfg MDefault) [] [] 1%Q []] (initial_dyn ex13_world) with Exn e _ => Some e | _ => None end = Some EAssert.
Proof. vm_compute. reflexivity. Qed.
