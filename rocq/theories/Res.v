(** Outcomes of C++ calls and the state monad over them. *)
From stdpp Require Import prelude.

(** Exceptions the code throws (the texts of the messages are not modelled). *)
Inductive err :=
| EUnassigned      (* "attempting to access an unassigned value!" *)
| EReassign        (* "re-assignment is prohibited!" *)
| ESize            (* "size mismatch" *)
| EType            (* "invalid signal type!" *)
| EReconnect       (* "illegal attempt to reconnect a block!" *)
| EPorts           (* wrong number of input or output signals *)
| ELabel           (* "Label not found in the bus" *)
| EIndex           (* std::out_of_range *)
| EVariant         (* std::bad_variant_access *)
| EUnusedInit      (* "initial values of bus memory block were not used" *)
| ENonValue        (* "cannot create a memory/pipe block for a non-value signal" *)
| EBackInTime      (* "Simulation cannot go back in time" *)
| EFast            (* "The FastSimulator does not seem the right choice" *)
| EAssert          (* any other pooya_debug_verify *)
| EUser (n : nat). (* thrown by user code *)

(** Undefined behaviour, by cause. *)
Inductive ub :=
| UNull            (* null pointer dereference *)
| UDead            (* access to a destroyed object *)
| UIndex           (* access outside an array *)
| UUninit          (* use of an indeterminate value *)
| UType            (* static_cast to a type the object does not have *)
| UArith           (* Eigen size mismatch, int overflow *)
| UErase           (* vector::erase of the end iterator *)
| UUnconnected.    (* activation of a block that was never connected; not modelled further *)

(** [Ok a s]: normal return of [a] in state [s]; [Exn e s]: exception, [s] is the
    state left behind; [UB u]: undefined behaviour; [OOF]: the fuel given to a
    loop of the model ran out (the C++ loop is still running). *)
Inductive res (S A : Type) : Type :=
| Ok (a : A) (s : S)
| Exn (e : err) (s : S)
| UB (u : ub)
| OOF.
Arguments Ok {S A} a s.
Arguments Exn {S A} e s.
Arguments UB {S A} u.
Arguments OOF {S A}.

Definition M (S A : Type) : Type := S -> res S A.

Definition ret {S A} (a : A) : M S A := fun s => Ok a s.
Definition bnd {S A B} (m : M S A) (k : A -> M S B) : M S B :=
  fun s => match m s with
           | Ok a s' => k a s'
           | Exn e s' => Exn e s'
           | UB u => UB u
           | OOF => OOF
           end.
Definition throw {S A} (e : err) : M S A := fun s => Exn e s.
Definition undef {S A} (u : ub) : M S A := fun _ => UB u.
Definition gets {S A} (f : S -> A) : M S A := fun s => Ok (f s) s.
Definition modify {S} (f : S -> S) : M S unit := fun s => Ok tt (f s).

Notation "x <~ m ;; k" := (bnd m (fun x => k))
  (at level 100, m at next level, right associativity).
Notation "m ;;; k" := (bnd m (fun _ => k))
  (at level 100, right associativity).

(** pooya_verify (helper/verify.hpp:23-27) *)
Definition verify {S} (c : bool) (e : err) : M S unit := if c then ret tt else throw e.
(** pooya_debug_verify (helper/verify.hpp:29-39): nothing in a release build *)
Definition debug_verify {S} (dbg c : bool) (e : err) : M S unit :=
  if dbg then verify c e else ret tt.

(** [for (auto& x : l) f(x);] *)
Fixpoint forM {S A} (l : list A) (f : A -> M S unit) : M S unit :=
  match l with
  | [] => ret tt
  | x :: l' => f x ;;; forM l' f
  end.

(** Run a computation on a component of a larger state. *)
Definition lift {S T A} (get : T -> S) (put : S -> T -> T) (m : M S A) : M T A :=
  fun t => match m (get t) with
           | Ok a s => Ok a (put s t)
           | Exn e s => Exn e (put s t)
           | UB u => UB u
           | OOF => OOF
           end.
