(** Doubles as IEEE 754 binary64 (round to nearest even), computed with the
    standard library's SpecFloat. *)
From Coq Require Import ZArith Floats.SpecFloat.
From Verif Require Import Num.

Notation f64 := spec_float (only parsing).
Definition f_prec : Z := 53.
Definition f_emax : Z := 1024.

Global Instance num_F : NumOps spec_float := {|
  nadd := SFadd f_prec f_emax;
  nsub := SFsub f_prec f_emax;
  nmul := SFmul f_prec f_emax;
  ndiv := SFdiv f_prec f_emax;
  nabs := SFabs;
  nofZ := fun z => binary_normalize f_prec f_emax z 0 false;
  nleb := SFleb;
  nltb := SFltb;
  neqb := SFeqb
|}.
