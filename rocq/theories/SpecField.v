(** The differential equation a model stands for, stated through the values of its
    signals at one instant. *)
From stdpp Require Import prelude gmap.
From Verif Require Import Num Res Store Leaf Sched Stepper Sim SpecSched P_Prog P_Lib SpecBlock SpecHist SpecRun P_Trace P_Pack.

(** On every path through [p] that returns, [s] is assigned. *)
Fixpoint assigns {D A} (s : nat) (p : prog D A) : Prop :=
  match p with
  | PRet _ => False
  | PGet _ k => forall v, assigns s (k v)
  | PSet s' _ p' => s' = s \/ assigns s p'
  | PDebug _ _ p' => assigns s p'
  | PThrow _ | PUB _ => True
  end.

Section field.
  Context {D : Type} `{NumOps D}.
  Implicit Types (σ : store D) (l : leaf D).

  (** With the members [m] and the signals as in [σ], the block [l] satisfies its
      equation (SpecBlock.v; none for the classes with user code assigning signals
      itself, Delay and Derivative), and its activation function, given the values in
      [σ], returns and assigns the values in [σ]. *)
  Definition law l (t : D) (m : lstate D) σ : Prop :=
    equation l t m σ /\ exists m', shows σ (act l t m) m'.

  (** [σ] has a value for every signal the simulation of the model [g] defines at time
      [t] when the members of the blocks are [m] and the states are [x]: the states
      [zs] have the values [x]; the user's inputs are set; every block satisfies its
      law unless it waits for a signal that has no value; and [dx] are the values of
      the signals the states are the integrals of.  Types, sizes and derivatives of
      signals are as in [σ0]. *)
  Record instant (σ0 : store D) (g : cfg D) (zs : list nat) (t : D) (m : nat -> lstate D) (x dx : list D) σ : Prop := {
    in_state : x = pack σ zs;
    in_known z : z ∈ zs -> exists v, value σ z = Some v;
    in_inputs f : g_inputs g = Some f -> shows σ (f t) tt;
    in_icb : shows σ (g_icb g t) tt;
    in_laws l : l ∈ leaves (g_tree g) -> is_builder (l_cls l) = false -> waits σ l \/ law l t (m (l_id l)) σ;
    in_deriv : exists ds, Forall2 (fun z d => exists c v, σ0 !! z = Some c /\ c_deriv c = Some d /\ value σ d = Some v) zs ds /\ dx = pack σ ds;
    in_typed s v : value σ s = Some v -> exists c, σ0 !! s = Some c /\ kind_fits (c_kind c) v = true /\ size_fits (c_kind c) v = true
  }.
  (** [dx] is the derivative of the states at time [t] in state [x]. *)
  Definition field (σ0 : store D) (g : cfg D) (zs : list nat) (t : D) (m : nat -> lstate D) (x dx : list D) : Prop :=
    exists σ, instant σ0 g zs t m x dx σ.
  (** [s] has its value before any block is activated: it is a state or set by the
      user's inputs, which look at no signals. *)
  Definition given (g : cfg D) (zs : list nat) (t : D) (s : nat) : Prop :=
    s ∈ zs \/ exists p ws, (g_inputs g = Some p \/ g_icb g = p) /\ ceval (fun _ => None) (p t) = Some (tt, ws) /\ s ∈ map fst ws.
  (** [s] is assigned by the block [l]. *)
  Definition gives l (s : nat) : Prop := forall t m, assigns s (act l t m).
  (** The blocks can be ordered such that each one needs only signals that are given
      or assigned by earlier blocks; likewise the derivatives of the states. *)
  Definition well_posed (σ0 : store D) (g : cfg D) (zs : list nat) (t : D) : Prop :=
    exists rank : leaf D -> nat,
      (forall l s, l ∈ leaves (g_tree g) -> is_builder (l_cls l) = false -> s ∈ required l ->
         given g zs t s \/ exists l', l' ∈ leaves (g_tree g) /\ is_builder (l_cls l') = false /\ (rank l' < rank l)%nat /\ gives l' s) /\
      (forall z c d, z ∈ zs -> σ0 !! z = Some c -> c_deriv c = Some d ->
         given g zs t d \/ exists l', l' ∈ leaves (g_tree g) /\ is_builder (l_cls l') = false /\ gives l' d).
  (** A block of a user class keeps the value of [z] in its member number [i]: whenever
      its pre_step returns it has assigned that member to [z], and its post_step copies
      the value of [z] back. *)
  Definition keeps_in l (i z : nat) : Prop :=
    match l_cls l with
    | CUser _ up uo => forall t vs vs' σ,
        (shows σ (up t (l_ibus l) (l_obus l) vs) vs' -> forall v, vs !! i = Some v -> value σ z = Some v) /\
        (shows σ (uo t (l_ibus l) (l_obus l) vs) vs' -> exists v, value σ z = Some v /\ vs' !! i = Some v)
    | _ => False
    end.
  (** [z] is the output of an Integrator, or a state kept by a block of a user class. *)
  Definition integral (g : cfg D) (z : nat) : Prop :=
    (exists l T, l ∈ leaves (g_tree g) /\ l_cls l = CInteg T /\ h_out (l_h l) = Some z) \/
    exists l i, l ∈ leaves (g_tree g) /\ keeps_in l i z.
End field.

(** [y] and [h] are what the stepper [stp] can return for a step from [t0] to [t1] in
    state [x] if the function it is given computes derivatives as [F] says.  (There is
    a function, with a state of its own, such that it does.) *)
Definition obeys {D} (stp : stepper D) (F : D -> list D -> list D -> Prop) (t0 : D) (x : list D) (t1 : D) (y : list D) (h : D) : Prop :=
  exists (S : Type) (f : D -> list D -> M S (list D)) (a b : S),
    (forall t v p k q, length v = length x -> f t v p = Ok k q -> F t v k) /\ stp S f t0 x t1 a = Ok (y, h) b.

(** The steps tried, as recorded: from when, in which state, with which signals and
    members after pre_step had been called, until when, with which result and
    suggestion, and whether it is accepted (SpecRun.v). *)
Record move (D : Type) : Type := Move {
  mv_from : D; mv_state : list D; mv_begin : option (D * store D * gmap nat (lstate D)); mv_to : D; mv_result : list D; mv_new : D; mv_ok : bool }.
Arguments Move {D}. Arguments mv_from {D}. Arguments mv_state {D}. Arguments mv_begin {D}. Arguments mv_to {D}. Arguments mv_result {D}. Arguments mv_new {D}. Arguments mv_ok {D}.
Fixpoint moves_in {D} (b : option (D * store D * gmap nat (lstate D))) (ms : list (event D)) : list (move D) :=
  match ms with
  | [] => []
  | EvBegin t σ m :: ms' => moves_in (Some (t, σ, m)) ms'
  | EvTry t1 x t2 y h :: ms' =>
      Move t1 x b t2 y h (match ms' with e :: _ => negb (is_begin e) | [] => true end) :: moves_in None ms'
  | _ :: ms' => moves_in b ms'
  end.
Definition moves {D} (log : list (event D)) : list (move D) := moves_in None (marks log).

(** Every accepted step starts where the accepted one before ended, the first one at
    time [t] in state [x]; rejected steps start where the next one starts.  The last
    accepted step ends at time [t'] in state [x']. *)
Fixpoint chained {D} (t : D) (x : list D) (ms : list (move D)) (t' : D) (x' : list D) : Prop :=
  match ms with
  | [] => t' = t /\ x' = x
  | a :: ms' => mv_from a = t /\ mv_state a = x /\ if mv_ok a then chained (mv_to a) (mv_result a) ms' t' x' else chained t x ms' t' x'
  end.

(** A step of the stepper [stp] along the differential equation of the model. *)
Definition along {D} `{NumOps D} (σ0 : store D) (g : cfg D) (zs : list nat) (stp : stepper D) (a : move D) : Prop :=
  exists σ m, mv_begin a = Some (mv_from a, σ, m) /\ mv_state a = pack σ zs /\
    obeys stp (fun t v k => field σ0 g zs t (member m) v k) (mv_from a) (mv_state a) (mv_to a) (mv_result a) (mv_new a).
