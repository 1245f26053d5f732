(** The C++ type [double], abstractly: a type with the operations that the
    modelled code applies to doubles.  No law is assumed here; theorems that
    need laws use the instance for [R] (NumR.v), executable witnesses use exact
    rationals (NumQ.v) or IEEE binary64 (NumF.v). *)
From Coq Require Import ZArith.

Class NumOps (D : Type) := {
  nadd : D -> D -> D;            (* operator+ *)
  nsub : D -> D -> D;            (* operator- *)
  nmul : D -> D -> D;            (* operator* *)
  ndiv : D -> D -> D;            (* operator/ *)
  nabs : D -> D;                 (* std::abs, Eigen cwiseAbs *)
  nofZ : Z -> D;                 (* an integer valued literal such as 2375. *)
  nleb : D -> D -> bool;         (* operator<=, false if unordered *)
  nltb : D -> D -> bool;         (* operator<,  false if unordered *)
  neqb : D -> D -> bool          (* operator==, false if unordered *)
}.

Declare Scope num_scope.
Delimit Scope num_scope with num.
Notation "x + y" := (nadd x y) : num_scope.
Notation "x - y" := (nsub x y) : num_scope.
Notation "x * y" := (nmul x y) : num_scope.
Notation "x / y" := (ndiv x y) : num_scope.
Notation "x <=? y" := (nleb x y) : num_scope.
Notation "x <? y" := (nltb x y) : num_scope.
Notation "x =? y" := (neqb x y) : num_scope.

Section num.
  Context {D : Type} `{NumOps D}.
  Local Open Scope num_scope.

  (** std::min(a, b) is [(b < a) ? b : a], std::max(a, b) is [(a < b) ? b : a]
      (C++ standard, [alg.min.max]); the order of arguments matters for NaN. *)
  Definition nmin (a b : D) : D := if b <? a then b else a.
  Definition nmax (a b : D) : D := if a <? b then b else a.

  Definition n0 : D := nofZ 0.
  Definition n1 : D := nofZ 1.
End num.
