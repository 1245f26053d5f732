(** Models whose differential equation is linear with constant coefficients, and the
    order of the methods. *)
From stdpp Require Import prelude.
From Coq Require Import Reals.
From Verif Require Import Num NumR Res SpecRK P_RK.
Local Open Scope R_scope.

(** f 0 + ... + f (n - 1) *)
Fixpoint rsum (n : nat) (f : nat -> R) : R := match n with O => 0 | S n' => rsum n' f + f n' end.
(** x' = A x + c in [n] dimensions. *)
Definition affine (n : nat) (A : nat -> nat -> R) (c : nat -> R) (t : R) (x : list R) : list R :=
  map (fun i => rsum n (fun j => A i j * nth j x 0) + c i) (seq 0 n).

(** The order of the methods, as one finds it in textbooks. *)
Definition order_of (m : solver) : nat := match m with SEuler => 1 | SRk4 => 4 | SRkf45 => 4 end.
