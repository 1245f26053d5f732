(** What one call of run records, from outside: attempts of the stepper, rounds of
    pre_step, evaluations and rounds of post_step. *)
From stdpp Require Import prelude gmap.
From Verif Require Import Num Res Store Leaf Sched Stepper Sim SpecHist.
Local Open Scope num_scope.

(** The inputs are set and pre_step is called once for each block of [bs], in order. *)
Definition began {D} (bs : list nat) (t : D) (v : list (event D)) : Prop :=
  exists σ ms, v = EvInputs t :: map (fun b => EvPre b t) bs ++ [EvBegin t σ ms].
(** The inputs are set and some blocks are evaluated. *)
Definition evaluated_at {D} (t : D) (v : list (event D)) : Prop :=
  exists acts σ ms, v = EvInputs t :: map (fun b => EvAct b t) acts ++ [EvEval t σ ms].
(** post_step is called once for each block of [bs], in order. *)
Definition ended {D} (bs : list nat) (t : D) (v : list (event D)) : Prop :=
  exists σ ms, v = map (fun b => EvPost b t) bs ++ [EvStep t σ ms].

(** Parts of a log. *)
Definition is_post {D} (e : event D) : bool := match e with EvPost _ _ => true | _ => false end.
Definition is_pre {D} (e : event D) : bool := match e with EvPre _ _ => true | _ => false end.
Definition posts {D} (log : list (event D)) : list (event D) := List.filter is_post log.
Definition pres_of {D} (log : list (event D)) : list (event D) := List.filter is_pre log.

(** The attempts of the stepper: start, end, suggested step and whether it was
    accepted.  After a rejected attempt the simulator begins the step again. *)
Record attempt (D : Type) : Type := Attempt { at_from : D; at_to : D; at_new : D; at_ok : bool }.
Arguments Attempt {D}. Arguments at_from {D}. Arguments at_to {D}. Arguments at_new {D}. Arguments at_ok {D}.
Definition is_begin {D} (e : event D) : bool := match e with EvBegin _ _ _ => true | _ => false end.
Fixpoint attempts_in {D} (ms : list (event D)) : list (attempt D) :=
  match ms with
  | [] => []
  | EvTry t1 _ t2 _ h :: ms' =>
      Attempt t1 t2 h (match ms' with e :: _ => negb (is_begin e) | [] => true end) :: attempts_in ms'
  | _ :: ms' => attempts_in ms'
  end.
Definition attempts {D} (log : list (event D)) : list (attempt D) := attempts_in (marks log).
(** The ends of the accepted sub-steps. *)
Definition accepted_ends {D} (log : list (event D)) : list D :=
  map at_to (List.filter at_ok (attempts log)).
