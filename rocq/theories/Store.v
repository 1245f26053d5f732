(** Value signals (signal/value_signal.hpp, scalar_signal.hpp, int_signal.hpp,
    bool_signal.hpp, array_signal.hpp, float_signal.hpp) and programs over them. *)
From stdpp Require Import prelude gmap.
From Coq Require Import ZArith.
From Verif Require Import Num Res.

Notation sid := nat (only parsing).   (* identity of a SignalImpl object *)
Notation bid := nat (only parsing).   (* identity of a Block object *)

(** Dynamic type of a SignalImpl; an ArraySignalImpl has a fixed [_size]
    (float_signal.hpp:51). *)
Inductive kind := KScalar | KInt | KBool | KArray (n : nat) | KBus.

(** Contents of a value signal. *)
Inductive val (D : Type) : Type :=
| VS (d : D)          (* double *)
| VI (z : Z)          (* int *)
| VB (b : bool)       (* bool *)
| VA (l : list D).    (* Array *)
Arguments VS {D} d.
Arguments VI {D} z.
Arguments VB {D} b.
Arguments VA {D} l.

(** A ValueSignalImpl object: its type, [_deriv_sig] (float_signal.hpp:49, only
    for scalar and array signals), [_assigned] (value_signal.hpp:36) and the
    stored value ([None]: never written, indeterminate). *)
Record cell (D : Type) : Type := Cell {
  c_kind : kind;
  c_deriv : option sid;
  c_asg : bool;
  c_val : option (val D)
}.
Arguments Cell {D}.
Arguments c_kind {D}.
Arguments c_deriv {D}.
Arguments c_asg {D}.
Arguments c_val {D}.

Notation store D := (gmap nat (cell D)).

(** The static C++ types make it impossible to pass a value of another type. *)
Definition kind_fits {D} (k : kind) (v : val D) : bool :=
  match k, v with
  | KScalar, VS _ | KInt, VI _ | KBool, VB _ | KArray _, VA _ => true
  | _, _ => false
  end.
(** [value.rows() == int(_size)] (array_signal.hpp:48,58,61); true for the others. *)
Definition size_fits {D} (k : kind) (v : val D) : bool :=
  match k, v with
  | KArray n, VA l => Nat.eqb (length l) n
  | _, _ => true
  end.
(** The array constructed with [_size] rows has the right size until written. *)
Definition payload_size_ok {D} (c : cell D) : bool :=
  match c_val c with Some v => size_fits (c_kind c) v | None => true end.

(** get_value (scalar_signal.hpp:41-46, int_signal.hpp,
    bool_signal.hpp:41-46, array_signal.hpp:45-52).  A release build returns
    whatever is stored. *)
Definition get_value {D} (dbg : bool) (s : sid) : M (store D) (val D) :=
  fun σ =>
    match σ !! s with
    | None => UB UNull
    | Some c =>
        if dbg && negb (payload_size_ok c) then Exn ESize σ
        else if dbg && negb (c_asg c) then Exn EUnassigned σ
        else match c_val c with
             | Some v => Ok v σ
             | None => UB UUninit
             end
    end.

(** set_value (scalar_signal.hpp:48-54, int_signal.hpp:51-57,
    bool_signal.hpp:48-54, array_signal.hpp:56-66).  In a release build an array
    value of another size is stored as it is (Eigen resizes the target). *)
Definition set_value {D} (dbg : bool) (s : sid) (v : val D) : M (store D) unit :=
  fun σ =>
    match σ !! s with
    | None => UB UNull
    | Some c =>
        if negb (kind_fits (c_kind c) v) then UB UType
        else if dbg && negb (payload_size_ok c) then Exn ESize σ
        else if dbg && c_asg c then Exn EReassign σ
        else if dbg && negb (size_fits (c_kind c) v) then Exn ESize σ
        else Ok tt (<[s := Cell (c_kind c) (c_deriv c) true (Some v)]> σ)
    end.

(** ValueSignalImpl::clear (value_signal.hpp:32) *)
Definition clear_cell {D} (c : cell D) : cell D :=
  Cell (c_kind c) (c_deriv c) false (c_val c).
Definition clear_sig {D} (s : sid) : M (store D) unit :=
  fun σ => match σ !! s with
           | None => UB UNull
           | Some c => Ok tt (<[s := clear_cell c]> σ)
           end.

(** ValueSignalImpl::assigned (value_signal.hpp:33) *)
Definition assigned {D} (σ : store D) (s : sid) : bool :=
  match σ !! s with Some c => c_asg c | None => false end.

(** The value of a signal as an observer sees it: [Some v] if assigned. *)
Definition value {D} (σ : store D) (s : sid) : option (val D) :=
  match σ !! s with
  | Some c => if c_asg c then c_val c else None
  | None => None
  end.

(** Programs over signals.  Activation functions, pre_step and post_step of the
    library blocks, and user callbacks, are such programs: finite sequences of
    reads, writes and debug checks, that may throw. *)
Inductive prog (D A : Type) : Type :=
| PRet (a : A)
| PGet (s : sid) (k : val D -> prog D A)
| PSet (s : sid) (v : val D) (p : prog D A)
| PDebug (c : bool) (e : err) (p : prog D A)
| PThrow (e : err)
| PUB (u : ub).
Arguments PRet {D A} a.
Arguments PGet {D A} s k.
Arguments PSet {D A} s v p.
Arguments PDebug {D A} c e p.
Arguments PThrow {D A} e.
Arguments PUB {D A} u.

Fixpoint pbind {D A B} (p : prog D A) (k : A -> prog D B) : prog D B :=
  match p with
  | PRet a => k a
  | PGet s k' => PGet s (fun v => pbind (k' v) k)
  | PSet s v p' => PSet s v (pbind p' k)
  | PDebug c e p' => PDebug c e (pbind p' k)
  | PThrow e => PThrow e
  | PUB u => PUB u
  end.

(** Meaning of a program: the calls it makes, in order. *)
Fixpoint run_prog {D A} (dbg : bool) (p : prog D A) : M (store D) A :=
  match p with
  | PRet a => ret a
  | PGet s k => v <~ get_value dbg s ;; run_prog dbg (k v)
  | PSet s v p' => set_value dbg s v ;;; run_prog dbg p'
  | PDebug c e p' => debug_verify dbg c e ;;; run_prog dbg p'
  | PThrow e => throw e
  | PUB u => undef u
  end.
