(** The steppers (solver/euler.cpp, rk4.cpp, rkf45.cpp, stepper_base.hpp). *)
From stdpp Require Import prelude.
From Coq Require Import ZArith.
From Verif Require Import Num Res.

(** StepperBase::step (stepper_base.hpp:51): takes the callback that evaluates the
    derivatives, t0, v0 and t1; returns v1 and new_h.  [S] is the state the
    callback works on; a stepper itself keeps no state between calls that its
    results depend on (the [_K] buffers are written before they are read). *)
Definition stepper (D : Type) : Type :=
  forall S : Type, (D -> list D -> M S (list D)) -> D -> list D -> D -> M S (list D * D).

Section stepper.
  Context {D : Type} `{NumOps D}.
  Local Open Scope num_scope.

  (** Eigen array expressions; sizes agree because [call] checks the callback. *)
  Definition va (x y : list D) : list D := zip_with nadd x y.
  Definition vs (x y : list D) : list D := zip_with nsub x y.
  Definition vk (k : D) (x : list D) : list D := map (fun y => k * y) x.

  (** f(t, v) (stepper_base.hpp:42-46).  An array of another size would break
      Eigen's size rule in the expression that uses it. *)
  Definition call {S} (f : D -> list D -> M S (list D)) (n : nat) (t : D) (v : list D)
    : M S (list D) :=
    k <~ f t v ;;
    if Nat.eqb (length k) n then ret k else undef UArith.

  Definition q (a b : Z) : D := nofZ a / nofZ b.        (* the literal a. / b *)

  (** Euler::step (euler.cpp:24-31) *)
  Definition euler : stepper D := fun S f t0 v0 t1 =>
    let h := t1 - t0 in
    k <~ call f (length v0) t0 v0 ;;
    ret (va v0 (vk h k), h).

  (** Rk4::step (rk4.cpp:24-37) *)
  Definition rk4 : stepper D := fun S f t0 v0 t1 =>
    let h := t1 - t0 in
    let h_2 := h / nofZ 2 in
    let n := length v0 in
    f1 <~ call f n t0 v0 ;;
    let K1 := vk h_2 f1 in
    f2 <~ call f n (t0 + h_2) (va v0 K1) ;;
    let K2 := vk h_2 f2 in
    f3 <~ call f n (t0 + h_2) (va v0 K2) ;;
    let K3 := vk h f3 in
    f4 <~ call f n (t0 + h) (va v0 K3) ;;
    let K4 := vk h f4 in
    ret (va (va (va (va v0 (vk (q 1 3) K1)) (vk (q 2 3) K2)) (vk (q 1 3) K3)) (vk (q 1 6) K4), h).

  (** Eigen's maxCoeff: an assertion fails (undefined) on an empty array. *)
  Definition max_coeff (x : list D) : option D :=
    match x with
    | [] => None
    | a :: x' => Some (fold_left nmax x' a)
    end.

  Definition eps_abs : D := q 1 1000.                   (* 0.001, rkf45.cpp:30 *)

  (** The choice of new_h (rkf45.cpp:46-60); 0.31640625 is 81/256 and 5.0625 is
      81/16, both exact in binary. *)
  Definition rkf45_new_h (h max_abs : D) : D :=
    let s4 := if n0 <? max_abs then (eps_abs * h) / (nofZ 2 * max_abs) else n1 in
    if s4 <? q 81 256 then h / nofZ 2
    else if q 81 16 <? s4 then nofZ 2 * h
    else h.

  (** Rkf45::step (rkf45.cpp:25-61) *)
  Definition rkf45 : stepper D := fun S f t0 v0 t1 =>
    let h := t1 - t0 in
    let n := length v0 in
    f1 <~ call f n t0 v0 ;;
    let K1 := vk h f1 in
    f2 <~ call f n (t0 + q 1 4 * h) (va v0 (vk (q 1 4) K1)) ;;
    let K2 := vk h f2 in
    f3 <~ call f n (t0 + q 3 8 * h)
            (va (va v0 (vk (q 3 8 * nofZ 1 / nofZ 4) K1)) (vk (q 3 8 * nofZ 3 / nofZ 4) K2)) ;;
    let K3 := vk h f3 in
    f4 <~ call f n (t0 + q 12 13 * h)
            (va (vs (va v0 (vk (q 12 13 * nofZ 161 / nofZ 169) K1))
                    (vk (q 12 13 * nofZ 600 / nofZ 169) K2))
                (vk (q 12 13 * nofZ 608 / nofZ 169) K3)) ;;
    let K4 := vk h f4 in
    f5 <~ call f n t1
            (vs (va (vs (va v0 (vk (q 8341 4104) K1)) (vk (q 32832 4104) K2))
                    (vk (q 29440 4104) K3))
                (vk (q 845 4104) K4)) ;;
    let K5 := vk h f5 in
    f6 <~ call f n (t0 + q 1 2 * h)
            (vs (va (vs (va (vs v0 (vk (q 1 2 * nofZ 6080 / nofZ 10260) K1))
                            (vk (q 1 2 * nofZ 41040 / nofZ 10260) K2))
                        (vk (q 1 2 * nofZ 28352 / nofZ 10260) K3))
                    (vk (q 1 2 * nofZ 9295 / nofZ 10260) K4))
                (vk (q 1 2 * nofZ 5643 / nofZ 10260) K5)) ;;
    let K6 := vk h f6 in
    let v1 := vs (va (va (va v0 (vk (q 2375 20520) K1)) (vk (q 11264 20520) K3))
                     (vk (q 10985 20520) K4))
                 (vk (q 4104 20520) K5) in
    let ZT := va (vs (va (va (va v0 (vk (q 33440 282150) K1)) (vk (q 146432 282150) K3))
                         (vk (q 142805 282150) K4))
                     (vk (q 50787 282150) K5))
                 (vk (q 10260 282150) K6) in
    match max_coeff (map nabs (vs v1 ZT)) with
    | None => undef UIndex
    | Some max_abs => ret (v1, rkf45_new_h h max_abs)
    end.
End stepper.
