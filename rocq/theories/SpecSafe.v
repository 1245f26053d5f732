(** Models whose simulation is free of undefined behaviour. *)
From stdpp Require Import prelude gmap strings.
From Coq Require Import ZArith.
From Verif Require Import Num Res Name Store Leaf Sched Stepper Sim World Api SpecSized SpecSim.

(** [v] is a value of the C++ type [T]. *)
Definition has_ty {D} (T : ty) (v : val D) : Prop :=
  match T, v with TyD, VS _ | TyI, VI _ | TyB, VB _ | TyA, VA _ => True | _, _ => False end.

(** [careful U K Q p]: a program that accesses only signals [s] that exist, with their
    kind [K s], assigns only values of that kind, whatever it reads (of the kind and the
    size of the signal), and when it returns
    does so with a result in [Q]; undefined behaviour of its own is one of [U]. *)
Fixpoint careful {D A} (U : ub -> Prop) (K : nat -> option kind) (Q : A -> Prop) (p : prog D A) : Prop :=
  match p with
  | PRet a => Q a
  | PGet s k => exists kd, K s = Some kd /\ forall v, kind_fits kd v = true -> size_fits kd v = true -> careful U K Q (k v)
  | PSet s v p' => exists kd, K s = Some kd /\ kind_fits kd v = true /\ careful U K Q p'
  | PDebug c _ p' => c = true -> careful U K Q p'
  | PThrow _ => True
  | PUB u => U u
  end.
(** A function of the user: no undefined behaviour of its own. *)
Definition harmless {D A} (K : nat -> option kind) (Q : A -> Prop) (p : prog D A) : Prop := careful (fun _ => False) K Q p.

Section spec.
  Context {D : Type} `{NumOps D}.
  Implicit Types (w : world D) (g : cfg D) (s : simst D).

  (** The kinds of the value signals of a world. *)
  Definition sig_kinds w (s : nat) : option kind :=
    match w_sigs w !! s with Some o => if is_bus (so_kind o) then None else Some (so_kind o) | None => None end.

  (** What the C++ type checker knows of the arguments of the constructors (the
      instantiations at the end of the header files). *)
  Definition ctor_typed (c : cls D) (st : lstate D) : Prop :=
    match c with
    | CConst T v => has_ty T v
    | CGain T k => match T with TyD | TyA => has_ty TyD k | TyI => has_ty TyI k | TyB => False end
    | CAdd T v | CMul T v => (T = TyD \/ T = TyA) /\ has_ty T v
    | CMemory T => forall v, st = LMem v -> has_ty T v
    | CDelay T _ => T = TyD \/ T = TyA
    | CInteg T | CTrig T => (T = TyD \/ T = TyA) /\ forall v b, st = LInteg v b -> has_ty T v
    | _ => True
    end.
  (** The functions of the user are harmless; members of a user class may obey an
      invariant [P]. *)
  Definition user_harmless (K : nat -> option kind) (c : cls D) (st : lstate D) (ib ob : list (string * nat)) : Prop :=
    match c with
    | CSource T f => forall t, harmless K (has_ty T) (f t)
    | CSources f => forall t, harmless K (fun _ => True) (f ob t)
    | CFunction f => forall t, harmless K (fun _ => True) (f t ib ob)
    | CSISO T f => forall t x, has_ty T x -> harmless K (has_ty T) (f t x)
    | CSO T f => forall t, harmless K (has_ty T) (f t ib)
    | CUser ua up uo => exists P : list (val D) -> Prop, (forall vs, st = LUser vs -> P vs) /\
        forall t vs, P vs -> harmless K P (ua t ib ob vs) /\ harmless K P (up t ib ob vs) /\ harmless K P (uo t ib ob vs)
    | _ => True
    end.
  (** A stepper has no undefined behaviour, and keeps the size of a vector that is not
      empty, if the callback does. *)
  Definition stepper_safe (stp : stepper D) : Prop :=
    forall S (I : S -> Prop) (U : ub -> Prop) (cb : D -> list D -> M S (list D)) n, n ≠ 0 ->
      (forall (t : D) (x : list D) (z : S), length x = n -> I z ->
         match cb t x z with Ok r z' => I z' /\ length r = n | Exn _ z' => I z' | UB u => U u | OOF => True end) ->
      forall (t1 : D) (x : list D) (t2 : D) (z : S), length x = n -> I z ->
         match stp S cb t1 x t2 z with Ok r z' => I z' /\ length (fst r) = n | Exn _ z' => I z' | UB u => U u | OOF => True end.

  (** A block that multiplies ints, or that adds or multiplies arrays one of which
      differs in size from the initial value given to the constructor. *)
  Definition misfits (K : nat -> option kind) (l : leaf D) : Prop :=
    match l_cls l with
    | CGain TyI _ => True
    | CAdd TyA v | CMul TyA v => exists e n x, e ∈ l_ibus l /\ K (snd e) = Some (KArray n) /\ v = VA x /\ n ≠ length x
    | _ => False
    end.

  (** A debug build of a model below block [b], all of whose blocks are connected, and a
      simulator for it. *)
  Record proper w (b : nat) g : Prop := {
    pp_built : built true w;
    pp_tree : compile_model w b = Some (g_tree g);
    pp_dbg : g_dbg g = true;
    pp_leaf l : l ∈ leaves (g_tree g) -> exists o, w_blks w !! l_id l = Some o /\ bo_conn o = true /\
      ctor_typed (bo_cls o) (bo_st o) /\ user_harmless (sig_kinds w) (bo_cls o) (bo_st o) (bo_ibus o) (bo_obus o);
    pp_inputs f t : g_inputs g = Some f -> harmless (sig_kinds w) (fun _ => True) (f t);
    pp_icb t : harmless (sig_kinds w) (fun _ => True) (g_icb g t);
    pp_stepper stp : g_stepper g = Some stp -> stepper_safe stp;
    pp_iter l : g_iter g l ≡ₚ l;
    pp_reuse : g_mode g = MReuse -> exists n z f o, n ∈ nodes (g_tree g) /\ (z, f) ∈ node_linked n /\
      w_sigs w !! z = Some o /\ is_Some (so_deriv o) /\ (so_kind o = KScalar \/ exists m, so_kind o = KArray (S m))
  }.

  (** The states that model and simulators get into by constructing simulators, one
      after the other, initialising each at most once, and running them; calls may throw. *)
  Inductive driven w b : cfg D -> simst D -> Prop :=
  | dr_first g : proper w b g -> driven w b g (new_sim (initial_dyn w))
  | dr_next g0 s0 g : driven w b g0 s0 -> proper w b g -> driven w b g (new_sim (s_dyn s0))
  | dr_init g s t s' : driven w b g s -> s_init s = false -> leaves_behind (init g t s) s' -> driven w b g s'
  | dr_run g s fuel t lo hi s' : driven w b g s -> leaves_behind (run g fuel t lo hi s) s' -> driven w b g s'.
End spec.
