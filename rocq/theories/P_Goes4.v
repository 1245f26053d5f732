(** A well-built model: steppers, clocks, and the blocks of the library. *)
From stdpp Require Import prelude gmap strings.
From Coq Require Import ZArith.
From Verif Require Import Num NumOrd NumAdd Res Store Leaf Sched Stepper Sim SpecSched P_Store P_Prog P_Sched P_Log SpecRun P_Run SpecGoes P_Goes.
Local Open Scope nat_scope.

(** ** Steppers *)
Section steppers.
  Context {D : Type} `{NumOps D}.
  Lemma va_len (x z : list D) n : length x = n -> length z = n -> length (va x z) = n.
  Proof. intros E1 E2. unfold va. rewrite zip_with_length. lia. Qed.
  Lemma vs_len (x z : list D) n : length x = n -> length z = n -> length (vs x z) = n.
  Proof. intros E1 E2. unfold vs. rewrite zip_with_length. lia. Qed.
  Lemma vk_len k (x : list D) n : length x = n -> length (vk k x) = n.
  Proof. unfold vk. by rewrite map_length. Qed.
  Lemma call_goes {S} (I : S -> Prop) (cb : D -> list D -> M S (list D)) n t x z :
    (forall (t : D) (x : list D) (z : S), length x = n -> I z -> exists r z', cb t x z = Ok r z' /\ I z' /\ length r = n) ->
    length x = n -> I z -> exists r z', Stepper.call cb n t x z = Ok r z' /\ I z' /\ length r = n.
  Proof.
    intros Hcb Hx Hz. destruct (Hcb t x z Hx Hz) as (r & z' & E & Hz' & Hr). exists r, z'. split; [|done]. unfold Stepper.call, bnd. rewrite E, Hr, Nat.eqb_refl. done.
  Qed.
  Ltac len := repeat first [assumption | apply va_len | apply vs_len | apply vk_len].
  Ltac one Hcb := match goal with HI : ?I ?z |- context [bnd (Stepper.call ?cb ?n ?t ?x) ?k ?z] =>
      let r := fresh "r" in let z' := fresh "z" in let E := fresh "E" in let HI' := fresh "HI" in let Hl := fresh "Hl" in
      destruct (call_goes I cb n t x z Hcb) as (r & z' & E & HI' & Hl); [len|exact HI|]; unfold bnd at 1; rewrite E; clear HI end.
  Lemma euler_carries : carries (D:=D) euler.
  Proof.
    intros S I cb n Hn Hcb t1 x t2 z Hx Hz. unfold euler. cbv zeta. rewrite Hx. one Hcb. eexists _, _. split; [reflexivity|]. split; [done|]. cbn [fst]. len.
  Qed.
  Lemma rk4_carries : carries (D:=D) rk4.
  Proof.
    intros S I cb n Hn Hcb t1 x t2 z Hx Hz. unfold rk4. cbv zeta. rewrite Hx. do 4 one Hcb. eexists _, _. split; [reflexivity|]. split; [done|]. cbn [fst]. len.
  Qed.
  Lemma rkf45_carries : carries (D:=D) rkf45.
  Proof.
    intros S I cb n Hn Hcb t1 x t2 z Hx Hz. unfold rkf45. cbv zeta. rewrite Hx. do 6 one Hcb.
    match goal with |- context [max_coeff (map nabs ?v)] => assert (length v = n) as Hv by len; destruct v as [|a v'] eqn:Ev; [by destruct Hn|] end.
    cbn [map max_coeff]. eexists _, _. split; [reflexivity|]. split; [done|]. cbn [fst]. len.
  Qed.
  Lemma euler_constant : constant (D:=D) euler.
  Proof.
    intros S cb t1 x t2 z r z'. unfold euler, bnd. destruct (Stepper.call cb (length x) t1 x z) as [k z1| | |]; try done. by intros [= <- <-].
  Qed.
  Lemma rk4_constant : constant (D:=D) rk4.
  Proof.
    intros S cb t1 x t2 z r z'. unfold rk4. cbv zeta.
    do 4 (unfold bnd at 1; match goal with |- context [Stepper.call ?f ?n ?t ?x ?z] => destruct (Stepper.call f n t x z) as [? ?| | |]; try done end). by intros [= <- <-].
  Qed.

  (** ** Clocks *)
  Lemma any_clock : clockwork (D:=D) (fun _ _ => True).
  Proof. by split. Qed.
End steppers.
Lemma lt_clock {D} `{NumAdd D} : clockwork (fun a b : D => nltb a b = true).
Proof.
  split.
  - done.
  - intros t lo hi a x Hlo Ha. destruct (min_cases (nadd a (clip lo hi x)) t) as [-> | ->]; [|done].
    apply add_pos. eapply ltb_trans_l; [done|apply clip_ge].
  - intros lo hi a b x Hlo _ _. apply add_pos. eapply ltb_trans_l; [done|apply clip_ge].
Qed.
