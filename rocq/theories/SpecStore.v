(** Specification of value signals as write-once registers, independent of the
    model's store. *)
From stdpp Require Import prelude.
From Coq Require Import ZArith.
From Verif Require Import Store.

(** Client operations on signals and what the client observes. *)
Inductive sop (D : Type) := Assign (s : nat) (v : val D) | Clear (s : nat) | Read (s : nat).
Inductive obs (D : Type) := Done | Got (v : val D) | Threw.
Arguments Assign {D}. Arguments Clear {D}. Arguments Read {D}.
Arguments Done {D}. Arguments Got {D}. Arguments Threw {D}.

(** A register file: the value assigned since the last clear, if any. *)
Definition regs (D : Type) : Type := nat -> option (val D).
Definition reg_set {D} (r : regs D) (s : nat) (o : option (val D)) : regs D :=
  fun x => if Nat.eqb x s then o else r x.

(** [right_size k v]: v has the declared number of elements. *)
Definition right_size {D} (k : kind) (v : val D) : bool :=
  match k, v with KArray n, VA l => Nat.eqb (length l) n | _, _ => true end.

Definition spec_op {D} (kinds : nat -> kind) (r : regs D) (o : sop D) : regs D * obs D :=
  match o with
  | Assign s v => match r s with
                  | Some _ => (r, Threw)
                  | None => if right_size (kinds s) v then (reg_set r s (Some v), Done) else (r, Threw)
                  end
  | Clear s => (reg_set r s None, Done)
  | Read s => match r s with Some v => (r, Got v) | None => (r, Threw) end
  end.
Fixpoint spec_ops {D} (kinds : nat -> kind) (r : regs D) (os : list (sop D)) : regs D * list (obs D) :=
  match os with
  | [] => (r, [])
  | o :: os' => let '(r1, b) := spec_op kinds r o in
                let '(r2, bs) := spec_ops kinds r1 os' in (r2, b :: bs)
  end.

(** An operation the C++ type checker accepts: the signal exists and the value
    has its type. *)
Definition well_typed {D} (kinds : nat -> kind) (dom : nat -> Prop) (o : sop D) : Prop :=
  match o with
  | Assign s v => dom s /\
      match kinds s, v with
      | KScalar, VS _ | KInt, VI _ | KBool, VB _ | KArray _, VA _ => True
      | _, _ => False
      end
  | Clear s | Read s => dom s
  end.
