(** Models whose differential equation is smooth: Taylor expansions and Lipschitz
    conditions along a solution. *)
From stdpp Require Import prelude.
From Coq Require Import Reals.
From Verif Require Import Num NumR SpecConv SpecLin.
Local Open Scope R_scope.

(** Up to the distance [r] from [φ] the values of [F] at two states differ by at most
    [L] times the distance of the states. *)
Definition lipschitz (F : R -> list R -> list R) (φ : R -> list R) (t0 T r L : R) : Prop :=
  forall t t' x y e, t0 <= t <= T -> t0 <= t' <= T -> Rabs (t' - t) <= r -> within r x (φ t) -> within r y (φ t) -> within e x y ->
    within (L * e) (F t' x) (F t' y).

(** The difference of two points in time and space: component 0 is time. *)
Definition offset (t : R) (x : list R) (t' : R) (x' : list R) (j : nat) : R :=
  match j with O => t' - t | S j => nth j x' 0 - nth j x 0 end.
(** At every point (t, φ t) the function [F] has a Taylor expansion up to terms of third
    order, with coefficients and remainder bounded uniformly: [d1], [d2] and [d3] are the
    partial derivatives with respect to time (0) and the components of the state
    (1 to [n]), divided by 1, 2 and 6.  All functions with continuous fourth
    derivatives have such an expansion. *)
Definition expands (n : nat) (F : R -> list R -> list R) (φ : R -> list R) (t0 T r M : R) : Prop :=
  exists (d1 : R -> nat -> nat -> R) (d2 : R -> nat -> nat -> nat -> R) (d3 : R -> nat -> nat -> nat -> nat -> R),
    (forall t i j k l, t0 <= t <= T -> Rabs (d1 t i j) <= M /\ Rabs (d2 t i j k) <= M /\ Rabs (d3 t i j k l) <= M) /\
    (forall t t' x e i, t0 <= t <= T -> t0 <= t' <= T -> e <= r -> Rabs (t' - t) <= e -> within e x (φ t) -> (i < n)%nat ->
       let u := offset t (φ t) t' x in
       Rabs (nth i (F t' x) 0 -
         (nth i (F t (φ t)) 0 + rsum (S n) (fun j => d1 t i j * u j) +
          rsum (S n) (fun j => rsum (S n) (fun k => d2 t i j k * (u j * u k))) +
          rsum (S n) (fun j => rsum (S n) (fun k => rsum (S n) (fun l => d3 t i j k l * (u j * u k * u l)))))) <= M * e ^ 4).
