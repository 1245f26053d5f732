(** Diagrams whose differential equation has a solution for every initial value. *)
From stdpp Require Import prelude.
From Coq Require Import Reals.
From Verif Require Import SpecSmooth SpecDiag.
Local Open Scope R_scope.

(** The graph of [h] is nowhere steeper than some bound. *)
Definition sloped (h : R -> R) : Prop := exists L, 0 <= L /\ forall a b, Rabs (h a - h b) <= L * Rabs (a - b).
(** [e] depends on no signals except [fs]. *)
Definition only (fs : list nat) (e : expr) : Prop := forall s, s ∈ expr_sigs e -> s ∈ fs.

(** An expression that does not grow faster than the states do: the signals [fs] are
    functions of time alone, [V t x] are the values of the signals at time [t] in state
    [x], for [n] states.  A factor, unless it is the only one, is a function of time
    alone, and so is a denominator, and it is not zero. *)
Fixpoint gentle (fs : list nat) (n : nat) (V : R -> list R -> nat -> R) (t0 T : R) (e : expr) : Prop :=
  match e with
  | ENum _ | ETime | ESig _ => True
  | EPlus e1 e2 | EMinus e1 e2 => gentle fs n V t0 T e1 /\ gentle fs n V t0 T e2
  | EMult e1 e2 => gentle fs n V t0 T e1 /\ gentle fs n V t0 T e2 /\ (only fs e1 \/ only fs e2)
  | EDiv e1 e2 => gentle fs n V t0 T e1 /\ gentle fs n V t0 T e2 /\ only fs e2 /\
      forall t x, t0 <= t <= T -> length x = n -> expr_at t (V t x) e2 <> 0
  | EFun h e1 => gentle fs n V t0 T e1 /\
      (sloped h \/ only fs e1 /\ forall t x, t0 <= t <= T -> length x = n -> continuity_pt h (expr_at t (V t x) e1))
  end.
(** All formulas, in the order in which [solve] evaluates them. *)
Fixpoint gentle_all (fs : list nat) (n : nat) (t0 T : R) (V : R -> list R -> nat -> R) (env : formulas) : Prop :=
  match env with
  | [] => True
  | (s, e) :: env' => gentle fs n V t0 T e /\ (s ∈ fs -> only fs e) /\
      gentle_all fs n t0 T (fun t x s' => if Nat.eqb s' s then expr_at t (V t x) e else V t x s') env'
  end.
Definition gentle_diagram (env : formulas) (zs : list nat) (t0 T : R) : Prop :=
  exists fs, (forall z, z ∈ zs -> z ∉ fs) /\ gentle_all fs (length zs) t0 T (fun _ x => states_are zs x) env.
