(** What the blocks and the user's inputs callback see of a run: the sequence of
    calls. *)
From stdpp Require Import prelude.
From Verif Require Import Num Res Store Leaf Sched Stepper Sim SpecHist SpecRun.

Inductive call (D : Type) : Type :=
| CInputs (t : D)                   (** the inputs callback *)
| CPre (b : nat) (t : D)            (** pre_step of block [b] *)
| CAct (b : nat) (t : D)            (** activation_function of block [b] *)
| CPost (b : nat) (t : D)           (** post_step of block [b] *)
| CTry (t1 t2 new_h : D).           (** the stepper returns from its step from t1 to t2 *)
Arguments CInputs {D}. Arguments CPre {D}. Arguments CAct {D}. Arguments CPost {D}. Arguments CTry {D}.
Definition call_of {D} (e : event D) : list (call D) :=
  match e with
  | EvInputs t => [CInputs t]
  | EvPre b t => [CPre b t]
  | EvAct b t => [CAct b t]
  | EvPost b t => [CPost b t]
  | EvTry t1 _ t2 _ h => [CTry t1 t2 h]
  | _ => []
  end.
Definition calls {D} (log : list (event D)) : list (call D) := concat (map call_of log).

(** One evaluation of the model at a time, in which some blocks are activated. *)
Definition eval_calls {D} (e : D * list nat) : list (call D) := CInputs e.1 :: map (fun b => CAct b e.1) e.2.
(** One attempt: at the start the inputs are set and pre_step is called for every
    block; the stepper evaluates the model some times; if the attempt is accepted the
    model is evaluated at the end and post_step is called for every block. *)
Definition attempt_calls {D} (bs : list nat) (a : attempt D) (p : list (D * list nat) * option (D * list nat)) : list (call D) :=
  (CInputs (at_from a) :: map (fun b => CPre b (at_from a)) bs) ++ concat (map eval_calls p.1) ++ [CTry (at_from a) (at_to a) (at_new a)] ++
  match p.2 with None => [] | Some e => eval_calls e ++ map (fun b => CPost b e.1) bs end.
