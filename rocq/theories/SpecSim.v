(** The states a model and its simulators can get into, through the public calls
    init and run. *)
From stdpp Require Import prelude gmap.
From Verif Require Import Num Res Store Leaf Sched Stepper Sim P_Evolve.

(** The state a call leaves behind, when it returns or throws. *)
Definition leaves_behind {S A} (r : res S A) (x : S) : Prop :=
  match r with Ok _ y | Exn _ y => y = x | _ => False end.

(** [simulated dbg d0 g s]: starting with the model in state [d0], after any
    sequence of simulators (with any settings, one after the other) being
    constructed, initialised and run, some of these calls possibly ending in an
    exception, the current simulator has settings [g] and state [s]. *)
Inductive simulated {D} `{NumOps D} (dbg : bool) (d0 : dyn D) : cfg D -> simst D -> Prop :=
| sm_first g : g_dbg g = dbg -> (forall stp, g_stepper g = Some stp -> stepper_ok stp) ->
    simulated dbg d0 g (new_sim d0)
| sm_next g0 s0 g : simulated dbg d0 g0 s0 ->
    g_dbg g = dbg -> (forall stp, g_stepper g = Some stp -> stepper_ok stp) ->
    simulated dbg d0 g (new_sim (s_dyn s0))
| sm_init g s t s' : simulated dbg d0 g s -> leaves_behind (init g t s) s' -> simulated dbg d0 g s'
| sm_run g s fuel t lo hi s' : simulated dbg d0 g s -> leaves_behind (run g fuel t lo hi s) s' -> simulated dbg d0 g s'.
