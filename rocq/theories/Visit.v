(** Block::visit and Submodel::visit (block.hpp:101-112, submodel.cpp:58-110) with
    an arbitrary callback. *)
From stdpp Require Import prelude.
From Verif Require Import Res Store Leaf Sched.

Section visit.
  Context {D S : Type}.
  (** the visitor: may change a state of its own, e.g. record what it saw *)
  Context (cb : node D -> nat -> M S bool).
  Context (max_level : nat).

  (** Block::visit (block.hpp:101-105) *)
  Definition visit1 (n : node D) (level : nat) : M S bool :=
    if Nat.ltb max_level level then ret true else cb n level.

  (** Leaves use Block::visit; Submodel::visit is submodel.cpp:58-83. *)
  Fixpoint visit (tr : tree D) (level : nat) : M S bool :=
    match tr with
    | TLeaf l => visit1 (NLeaf l) level
    | TSub b k ch =>
        if Nat.ltb max_level level then ret true
        else
          r <~ visit1 (NSub b k) level ;;
          if negb r then ret false
          else if Nat.ltb level max_level then
            (fix go (ch : list (tree D)) : M S bool :=
               match ch with
               | [] => ret true
               | c :: ch' => q <~ visit c (level + 1) ;; if q : bool then go ch' else ret false
               end) ch
          else ret true
    end.
End visit.
