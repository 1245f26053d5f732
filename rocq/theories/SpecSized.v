(** Worlds built without an exception. *)
From stdpp Require Import prelude gmap strings.
From Coq Require Import ZArith.
From Verif Require Import Num Res Name Store Leaf Sched World Api.

Section spec.
  Context {D : Type} `{NumOps D}.

  (** [built dbg w]: the client has performed operations each of which returned. *)
  Inductive built (dbg : bool) : world D -> Prop :=
  | bu_empty : built dbg empty_world
  | bu_ok w o u w' : built dbg w -> wop_ok o -> exec dbg o w = Ok u w' -> built dbg w'.

  (** Every derivative is a signal of the kind of the signal it belongs to: scalar and
      scalar, or arrays of one size. *)
  Definition derivs_alike (w : world D) : Prop :=
    forall z o d, w_sigs w !! z = Some o -> so_deriv o = Some d ->
      exists od, w_sigs w !! d = Some od /\ so_kind od = so_kind o.
End spec.
