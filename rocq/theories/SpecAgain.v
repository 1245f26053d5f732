(** Blocks that can be evaluated again without leaving a trace. *)
From stdpp Require Import prelude gmap.
From Verif Require Import Num Res Store Leaf Sched Stepper Sim SpecHist SpecRun.

(** The same members.  Derivative's [_t0] and [_x0] are not compared before its
    first post_step: derivative.hpp:51-59 overwrites them in every activation
    until then and nothing reads them. *)
Definition same_member {D} (m m' : lstate D) : Prop :=
  m' = m \/ exists t0 x0 t0' x0' y, m = LDeriv true t0 x0 y /\ m' = LDeriv true t0' x0' y.

(** Whatever the signals are, if [p] returns, it returns an [a] with [Q a]. *)
Fixpoint returns {D A} (Q : A -> Prop) (p : prog D A) : Prop :=
  match p with
  | PRet a => Q a
  | PGet _ k => forall v, returns Q (k v)
  | PSet _ _ p' => returns Q p'
  | PDebug _ _ p' => returns Q p'
  | PThrow _ | PUB _ => True
  end.

(** Neither pre_step nor activation_function of [l] changes its members. *)
Definition steady {D} `{NumOps D} (l : leaf D) : Prop :=
  forall t m, returns (same_member m) (pre l t m) /\ returns (same_member m) (act l t m).

(** Classes of the library for which this holds: all but TriggeredIntegrator.  A
    user's class must not change its members in these two functions. *)
Definition steady_class {D} (l : leaf D) : Prop :=
  match l_cls l with
  | CTrig _ => False
  | CUser ua up _ => forall t vs, returns (eq vs) (ua t (l_ibus l) (l_obus l) vs) /\ returns (eq vs) (up t (l_ibus l) (l_obus l) vs)
  | _ => True
  end.

(** The signals linked to the blocks of a model. *)
Definition linked {D} (tr : tree D) (s : nat) : Prop :=
  exists n f, n ∈ nodes tr /\ (s, f) ∈ node_linked n.

(** How the attempts of the stepper start: the time, the state vector passed, what
    was recorded when pre_step had been called before, and whether the attempt is
    accepted (after a rejected one the simulator begins the step again). *)
Record start (D : Type) : Type := Start {
  st_time : D; st_state : list D; st_begin : option (D * store D * gmap nat (lstate D)); st_ok : bool }.
Arguments Start {D}. Arguments st_time {D}. Arguments st_state {D}. Arguments st_begin {D}. Arguments st_ok {D}.
Fixpoint starts_in {D} (b : option (D * store D * gmap nat (lstate D))) (ms : list (event D)) : list (start D) :=
  match ms with
  | [] => []
  | EvBegin t σ m :: ms' => starts_in (Some (t, σ, m)) ms'
  | EvTry t1 x _ _ _ :: ms' =>
      Start t1 x b (match ms' with e :: _ => negb (is_begin e) | [] => true end) :: starts_in None ms'
  | _ :: ms' => starts_in b ms'
  end.
Definition starts {D} (log : list (event D)) : list (start D) := starts_in None (marks log).
(** Two attempts start alike. *)
Definition alike {D} (V : nat -> Prop) (a a' : start D) : Prop :=
  st_time a' = st_time a /\ st_state a' = st_state a /\
  exists t σ m σ' m', st_begin a = Some (t, σ, m) /\ st_begin a' = Some (t, σ', m') /\
    (forall s, V s -> value σ' s = value σ s) /\ (forall b, same_member (member m b) (member m' b)).
