(** Ownership of signal objects: every reference to a SignalImpl is a shared_ptr
    (signal.hpp:59 and 99, bus.hpp:46, float_signal.hpp:49, block.hpp:58, history.hpp:41,
    simulator_base.hpp:52-56).  Blocks are not owned by anything in the library
    (submodel.hpp:64 holds plain pointers), signals do not refer to blocks. *)
From stdpp Require Import prelude gmap strings.
From Verif Require Import Num Res Store Leaf Sched World.

(** The shared_ptrs inside a signal object, in the order in which the destructor
    releases them: BusImpl::_signals (bus.hpp:141), FloatSignalImplT::_deriv_sig
    (float_signal.hpp:49). *)
Definition owned {D} (w : world D) (s : sid) : list sid :=
  match w_sigs w !! s with
  | Some o => map snd (so_mem o) ++ match so_deriv o with Some ds => [ds] | None => [] end
  | None => []
  end.

(** The use counts of the objects that exist. *)
Notation heap := (gmap sid nat).

Definition occ (s : sid) (l : list sid) : nat := length (filter (eq s) l).
(** Use counts when all objects of the world exist and [refs] are the references
    from outside: handles, blocks, simulators, histories. *)
Definition heap_of {D} (w : world D) (refs : list sid) : heap :=
  let all := seq 0 (length (w_sigs w)) in
  list_to_map (map (fun s => (s, occ s (refs ++ concat (map (owned w) all)))) all).

(** Releasing references one after the other: ~shared_ptr decrements the use count;
    the object whose count becomes zero is destroyed, which releases the references
    inside it (before the remaining ones).  Releasing a reference to an object that
    does not exist any more would be undefined behaviour. *)
Fixpoint release {D} (fuel : nat) (w : world D) (todo : list sid) (h : heap) : res heap unit :=
  match todo with
  | [] => Ok tt h
  | s :: todo' =>
      match fuel with
      | O => OOF
      | S fuel' =>
          match h !! s with
          | None | Some O => UB UNull
          | Some (S O) => release fuel' w (owned w s ++ todo') (delete s h)
          | Some (S (S n)) => release fuel' w todo' (<[s := S n]> h)
          end
      end
  end.
