(** The operations a client performs on signals and blocks, and the worlds that
    any sequence of them can lead to. *)
From stdpp Require Import prelude gmap strings.
From Coq Require Import ZArith.
From Verif Require Import Num Res Name Store Leaf Sched World.

Section api.
  Context {D : Type} `{NumOps D}.
  Context (dbg : bool).
  Notation W := (M (world D)).

  (** Port counts and initial members given by the constructors: const.hpp:34,
      source.hpp:35, sources.hpp:33, function.hpp:34, siso_function.hpp:35,
      so_function.hpp:35, gain.hpp:35, add.hpp:37, multiply.hpp:37, subtract.hpp:36,
      divide.hpp:36, pipe.hpp:36, memory.hpp:35, delay.hpp:36, derivative.hpp:35,
      integrator.hpp:33, triggered_integrator.hpp:35, bus_block_builder.hpp:46,
      submodel.hpp:30.  Function, Sources, SOFunction, Submodel and user
      classes take port counts from the user. *)
  Definition ctor_ok (c : cls D) (st : lstate D) (nin nout : N) : Prop :=
    match c with
    | CConst _ _ => st = LNone /\ nin = 0%N /\ nout = 1%N
    | CSource _ _ => st = LNone /\ nin = NoIOLimit /\ nout = 1%N
    | CSources _ => st = LNone /\ nin = 0%N
    | CFunction _ => st = LNone
    | CSISO _ _ | CGain _ _ | CPipe _ => st = LNone /\ nin = 1%N /\ nout = 1%N
    | CSO _ _ => st = LNone /\ nout = 1%N
    | CAdd _ _ | CMul _ _ => st = LNone /\ nin = NoIOLimit /\ nout = 1%N
    | CSub | CDiv => st = LNone /\ nin = 2%N /\ nout = 1%N
    | CMemory _ => (exists v, st = LMem v) /\ nin = 1%N /\ nout = 1%N
    | CDelay _ _ => st = LDelay [] [] /\ nin = 3%N /\ nout = 1%N
    | CDeriv => (exists y, st = LDeriv true None None y) /\ nin = 1%N /\ nout = 1%N
    | CInteg _ => (exists v, st = LInteg v false) /\ nin = 1%N /\ nout = 1%N
    | CTrig _ => (exists v, st = LInteg v false) /\ nin = 2%N /\ nout = 1%N
    | CBusMem _ _ | CBusPipe _ => st = LNone /\ nin = NoIOLimit /\ nout = NoIOLimit
    | CUser _ _ _ => exists vs, st = LUser vs
    | CSubmodel => st = LNone
    end.

  (** One client operation. *)
  Inductive wop : Type :=
  | ONewSig (k : kind) (name : string)
  | ONewBus (l : list nat) (name : string)
  | ONewBusL (l : list (string * nat)) (name : string)
  | ONewBlock (c : cls D) (st : lstate D) (parent : option nat) (name : string) (nin nout : N)
  | ORenameSig (s : nat) (name : string)
  | ORenameBlk (b : nat) (name : string)
  | OSetParent (b p : nat)
  | OLinkBlock (p b : nat)
  | OConnect (b ib ob : nat)
  | OAddBlock (p b ib ob : nat)
  | OInputAt (b i : nat)
  | OInputLb (b : nat) (lb : string)
  | OOutputAt (b i : nat)
  | OSetDeriv (T : ty) (s ds : nat)
  | OLink (b s : nat) (f : N).

  (** What the C++ type checker guarantees about an operation. *)
  Definition wop_ok (o : wop) : Prop :=
    match o with
    | ONewSig k _ => k ≠ KBus
    | ONewBlock c st _ _ nin nout => ctor_ok c st nin nout
    | OSetDeriv T _ _ => T = TyD \/ T = TyA
    | _ => True
    end.

  (** FloatSignalImplT<T>::set_deriv_signal (float_signal.hpp:39-44), which is public,
      through a ScalarSignal (T = double) or an ArraySignal (T = Array). *)
  Definition float_set_deriv (T : ty) (s ds : nat) : W unit :=
    o <~ get_sig s ;;
    if ty_fits T (so_kind o) then set_deriv T s ds else undef UType.
  (** Block::link_signal (block.cpp:96-111) called by the methods of a user class, as in
      samples/test09_mass_spring_damper.cpp:61-63.  Simplification: only after the
      class has called Leaf::connect, and not by user classes derived from Submodel. *)
  Definition user_link (b s : nat) (f : N) : W unit :=
    o <~ get_blk b ;;
    if is_user (bo_cls o) && bo_conn o then link_signal b s f else undef UType.

  Definition exec (o : wop) : W unit :=
    match o with
    | ONewSig k name => x <~ new_signal k name ;; ret tt
    | ONewBus l name => x <~ new_bus l name ;; ret tt
    | ONewBusL l name => x <~ new_bus_labelled l name ;; ret tt
    | ONewBlock c st parent name nin nout => x <~ new_block c st parent name nin nout ;; ret tt
    | ORenameSig s name => rename_sig s name
    | ORenameBlk b name => rename_blk b name
    | OSetParent b p => x <~ set_parent b p ;; ret tt
    | OLinkBlock p b => x <~ link_block p b ;; ret tt
    | OConnect b ib ob => connect dbg b ib ob
    | OAddBlock p b ib ob => x <~ add_block dbg p b ib ob ;; ret tt
    | OInputAt b i => x <~ input_at b i ;; ret tt
    | OInputLb b lb => x <~ input_lb b lb ;; ret tt
    | OOutputAt b i => x <~ output_at b i ;; ret tt
    | OSetDeriv T s ds => float_set_deriv T s ds
    | OLink b s f => user_link b s f
    end.

  (** Worlds reachable by client operations; a client may catch an exception and
      go on with what the operation left behind. *)
  Inductive wreach : world D -> Prop :=
  | wr_empty : wreach empty_world
  | wr_ok w o u w' : wreach w -> wop_ok o -> exec o w = Ok u w' -> wreach w'
  | wr_exn w o e w' : wreach w -> wop_ok o -> exec o w = Exn e w' -> wreach w'.

  (** Executing a list of operations that all succeed. *)
  Fixpoint exec_all (os : list wop) : W unit :=
    match os with
    | [] => ret tt
    | o :: os' => exec o ;;; exec_all os'
    end.
  Definition world_of (os : list wop) : world D :=
    match exec_all os empty_world with Ok _ w => w | _ => empty_world end.

  Lemma exec_all_reach os w w' u :
    wreach w -> Forall wop_ok os -> exec_all os w = Ok u w' -> wreach w'.
  Proof.
    intros Hr Hok. revert w Hr. induction Hok as [|o os Ho Hos IH]; intros w Hr He; cbn in He.
    - unfold ret in He. by simplify_eq.
    - unfold bnd in He. destruct (exec o w) as [x w1|e w1|y|] eqn:E; try done.
      eapply IH; [|exact He]. by eapply wr_ok.
  Qed.
End api.
Arguments wop : clear implicits.
