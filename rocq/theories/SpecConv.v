(** Convergence: solutions of differential equations and sequences of runs. *)
From stdpp Require Import prelude.
From Coq Require Import Reals.
From Verif Require Import Num NumR Res Sim.
Local Open Scope R_scope.

(** Vectors of the same length whose components differ by at most [e]. *)
Definition within (e : R) (x y : list R) : Prop := Forall2 (fun a b => Rabs (a - b) <= e) x y.

(** [φ] solves x' = F(t, x) between [t0] and [T]. *)
Definition solves (F : R -> list R -> list R) (φ : R -> list R) (t0 T : R) : Prop :=
  forall t, t0 <= t <= T -> length (φ t) = length (φ t0) /\ length (F t (φ t)) = length (φ t) /\
    forall i, (i < length (φ t0))%nat -> derivable_pt_lim (fun τ => nth i (φ τ) 0) t (nth i (F t (φ t)) 0).
(** Up to the distance [r] from [φ] the function [F] changes by at most [L] times the
    distance (all continuously differentiable functions do so for some [L]), and on
    [φ] it is at most [B]. *)
Definition regular (F : R -> list R -> list R) (φ : R -> list R) (t0 T r L B : R) : Prop :=
  (forall t t' x e, t0 <= t <= T -> t0 <= t' <= T -> e <= r -> Rabs (t' - t) <= r -> within e x (φ t) ->
     within (L * (e + Rabs (t' - t))) (F t' x) (F t (φ t))) /\
  (forall t, t0 <= t <= T -> Forall (fun a => Rabs a <= B) (F t (φ t))).

(** [s'] is reached from [s] by calls of run each of which goes forward by at most
    [H]. *)
Inductive advance (g : cfg R) (H : R) : simst R -> simst R -> Prop :=
| adv_here s : advance g H s s
| adv_run s fuel t lo hi s1 s' : s_tprev s < t -> t <= s_tprev s + H -> run g fuel t lo hi s = Ok tt s1 ->
    advance g H s1 s' -> advance g H s s'.
