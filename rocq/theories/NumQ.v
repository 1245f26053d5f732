(** Doubles as exact rationals in lowest terms: an executable instance for
    concrete witnesses. *)
From Coq Require Import QArith Qreduction Qabs ZArith Bool.
From Verif Require Import Num.

Global Instance num_Q : NumOps Q := {|
  nadd := fun x y => Qred (x + y)%Q;
  nsub := fun x y => Qred (x - y)%Q;
  nmul := fun x y => Qred (x * y)%Q;
  ndiv := fun x y => Qred (x / y)%Q;
  nabs := fun x => Qred (Qabs x);
  nofZ := inject_Z;
  nleb := Qle_bool;
  nltb := fun x y => negb (Qle_bool y x);
  neqb := Qeq_bool
|}.
