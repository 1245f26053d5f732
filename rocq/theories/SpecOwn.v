(** Which signals a signal keeps alive. *)
From stdpp Require Import prelude strings.
From Verif Require Import Num Res Store Leaf Sched World.

(** [s'] is the derivative signal of [s]. *)
Definition has_deriv {D} (w : world D) (s s' : sid) : Prop :=
  exists o, w_sigs w !! s = Some o /\ so_deriv o = Some s'.
(** [s'] is a member of the bus [s], or its derivative signal. *)
Definition refers {D} (w : world D) (s s' : sid) : Prop :=
  (exists o lb, w_sigs w !! s = Some o /\ (lb, s') ∈ so_mem o) \/ has_deriv w s s'.
(** Signals from which one comes back to the start going from a signal to its
    derivative. *)
Definition own_ancestor {D} (w : world D) (s : sid) : Prop := tc (has_deriv w) s s.
