(** What a run that throws leaves behind. *)
From stdpp Require Import prelude gmap.
From Verif Require Import Num Res Store Leaf Sched Stepper Sim SpecHist SpecRun SpecAgain.

(** No block's post_step is among the events. *)
Definition is_post {D} (e : event D) : bool := match e with EvPost _ _ => true | _ => false end.
Definition no_post {D} (v : list (event D)) : Prop := forall e, e ∈ v -> is_post e = false.

(** The members recorded when the last step of [v] was completed, if post_step of no
    block was called after it; the members before [v] if it was called in [v] at all. *)
Definition last_members {D} (before : nat -> lstate D) (v : list (event D)) (m : nat -> lstate D) : Prop :=
  (no_post v /\ m = before) \/
  exists v1 t σ ms v2, v = v1 ++ EvStep t σ ms :: v2 /\ no_post v2 /\ m = member ms.
