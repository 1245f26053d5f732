(** Explicit Runge-Kutta methods in general: Butcher tableaus, order conditions,
    and the tableaus of the methods the steppers are named after. *)
From stdpp Require Import prelude.
From Coq Require Import Reals QArith Qreals.
From Verif Require Import Num NumR Res.
Local Open Scope R_scope.

(** One row per stage: the node c and the coefficients of the earlier stages. *)
Record tableau := Tableau { tb_rows : list (Q * list Q); tb_weights : list Q }.

(** The i-th component of sum_j a_j k_j. *)
Fixpoint rk_sum (a : list Q) (ks : list (list R)) (i : nat) : R :=
  match a, ks with
  | x :: a', k :: ks' => Q2R x * nth i k 0 + rk_sum a' ks' i
  | _, _ => 0
  end.
(** v + h * sum_j a_j k_j *)
Definition rk_add (v : list R) (h : R) (a : list Q) (ks : list (list R)) : list R :=
  map (fun i => nth i v 0 + h * rk_sum a ks i) (seq 0 (length v)).
(** The derivatives of the stages, each one the result of calling [f] once. *)
Fixpoint rk_stages {S} (f : R -> list R -> M S (list R)) (rows : list (Q * list Q)) (t0 : R) (v0 : list R) (h : R) (ks : list (list R)) : M S (list (list R)) :=
  match rows with
  | [] => ret ks
  | (c, a) :: rows' =>
      k <~ f (t0 + Q2R c * h) (rk_add v0 h a ks) ;;
      if Nat.eqb (length k) (length v0) then rk_stages f rows' t0 v0 h (ks ++ [k]) else undef UArith
  end.

(** The textbook methods.  Fehlberg's method of order 4 with an embedded method of
    order 5 (Fehlberg 1969, formula 2). *)
Definition tab_euler : tableau := Tableau [(0%Q, [])] [1%Q].
Definition tab_rk4 : tableau := Tableau
  [(0%Q, []); ((1#2)%Q, [(1#2)%Q]); ((1#2)%Q, [0%Q; (1#2)%Q]); (1%Q, [0%Q; 0%Q; 1%Q])] [(1#6)%Q; (1#3)%Q; (1#3)%Q; (1#6)%Q].
Definition rows_fehlberg : list (Q * list Q) :=
  [ (0%Q, []);
    ((1#4)%Q, [(1#4)%Q]);
    ((3#8)%Q, [(3#32)%Q; (9#32)%Q]);
    ((12#13)%Q, [(1932#2197)%Q; (-7200#2197)%Q; (7296#2197)%Q]);
    (1%Q, [(439#216)%Q; (-8)%Q; (3680#513)%Q; (-845#4104)%Q]);
    ((1#2)%Q, [(-8#27)%Q; 2%Q; (-3544#2565)%Q; (1859#4104)%Q; (-11#40)%Q]) ].
Definition tab_fehlberg4 : tableau := Tableau rows_fehlberg [(25#216)%Q; 0%Q; (1408#2565)%Q; (2197#4104)%Q; (-1#5)%Q; 0%Q].
Definition tab_fehlberg5 : tableau := Tableau rows_fehlberg [(16#135)%Q; 0%Q; (6656#12825)%Q; (28561#56430)%Q; (-9#50)%Q; (2#55)%Q].

(** Rooted trees, their order, density and elementary weights, and the order
    conditions (Hairer, Norsett, Wanner, Solving Ordinary Differential Equations I,
    II.2): a method has order p if for every tree of order at most p the weight is
    one over the density. *)
Inductive rtree := RNode (ch : list rtree).
Fixpoint order (t : rtree) : nat := match t with RNode ch => S (list_sum (map order ch)) end.
Fixpoint density (t : rtree) : Z := match t with RNode ch => fold_right Z.mul (Z.of_nat (order t)) (map density ch) end.
Definition qdot (x y : list Q) : Q := fold_right Qplus 0%Q (zip_with Qmult x y).
(** For every stage the product over the subtrees of sum_j a_ij * (weight of the
    subtree at stage j). *)
Fixpoint stage_weight (rows : list (Q * list Q)) (t : rtree) : list Q :=
  match t with
  | RNode ch =>
      let sub := map (stage_weight rows) ch in
      map (fun r => Qred (fold_right Qmult 1%Q (map (fun u => qdot (snd r) u) sub))) rows
  end.
Definition tree_weight (tb : tableau) (t : rtree) : Q := qdot (tb_weights tb) (stage_weight (tb_rows tb) t).
Definition has_order (tb : tableau) (p : nat) : Prop :=
  forall t, (order t <= p)%nat -> (tree_weight tb t == 1 / inject_Z (density t))%Q.

(** Polynomials as lists of coefficients. *)
Fixpoint peval (p : list R) (t : R) : R := match p with [] => 0 | a :: p' => a + t * peval p' t end.
(** Value at [t] of the derivative. *)
Fixpoint pderiv (p : list R) (t : R) : R := match p with [] => 0 | a :: p' => peval p' t + t * pderiv p' t end.
(** Scalar products. *)
Definition dot (w x : list R) : R := fold_right Rplus 0 (zip_with Rmult w x).
(** The largest absolute difference of two vectors. *)
Definition dist_max (x y : list R) : R := fold_right Rmax 0 (map Rabs (zip_with Rminus x y)).

(** [y] is the result of a step of the method [tb] from [t0] to [t1] in state [x] for
    the differential equation x' = F(t, x), where F may be a relation: the derivatives
    [ks] of the stages belong to the stages' times and states. *)
Definition rk_solution (tb : tableau) (F : R -> list R -> list R -> Prop) (t0 : R) (x : list R) (t1 : R) (y : list R) : Prop :=
  exists ks, length ks = length (tb_rows tb) /\
    (forall i c a k, tb_rows tb !! i = Some (c, a) -> ks !! i = Some k -> F (t0 + Q2R c * (t1 - t0)) (rk_add x (t1 - t0) a (take i ks)) k) /\
    y = rk_add x (t1 - t0) (tb_weights tb) ks.
