(** What a simulation shows from outside: the signals and block members at the
    ends of steps, and the calls of the stepper. *)
From stdpp Require Import prelude gmap.
From Verif Require Import Num Res Store Leaf Sched Stepper Sim World Api P_Rel.

(** [simulated_ok dbg tr d0 g s]: starting with the model [tr] in state [d0],
    after any sequence of simulators of that model being constructed, initialised
    and run, all calls returning normally, the current simulator has settings [g]
    and state [s]. *)
Inductive simulated_ok {D} `{NumOps D} (dbg : bool) (tr : tree D) (d0 : dyn D) : cfg D -> simst D -> Prop :=
| so_first g : g_dbg g = dbg -> g_tree g = tr -> (forall stp, g_stepper g = Some stp -> stepper_rel stp) ->
    simulated_ok dbg tr d0 g (new_sim d0)
| so_next g0 s0 g : simulated_ok dbg tr d0 g0 s0 ->
    g_dbg g = dbg -> g_tree g = tr -> (forall stp, g_stepper g = Some stp -> stepper_rel stp) ->
    simulated_ok dbg tr d0 g (new_sim (s_dyn s0))
| so_init g s t s' : simulated_ok dbg tr d0 g s -> init g t s = Ok tt s' -> simulated_ok dbg tr d0 g s'
| so_run g s fuel t lo hi s' : simulated_ok dbg tr d0 g s -> run g fuel t lo hi s = Ok tt s' -> simulated_ok dbg tr d0 g s'.

(** The recorded snapshots and stepper calls. *)
Definition is_mark {D} (e : event D) : bool :=
  match e with EvTry _ _ _ _ _ | EvBegin _ _ _ | EvEval _ _ _ | EvStep _ _ _ => true | _ => false end.
Definition marks {D} (log : list (event D)) : list (event D) := List.filter is_mark log.
Arguments marks : simpl never.
(** Times and signals at the ends of the steps. *)
Definition step_of {D} (e : event D) : list (D * store D) :=
  match e with EvStep t σ _ => [(t, σ)] | _ => [] end.
Definition steps {D} (log : list (event D)) : list (D * store D) := concat (map step_of log).
(** The member of block [b] in a snapshot. *)
Definition member {D} (ms : gmap nat (lstate D)) (b : nat) : lstate D := default LNone (ms !! b).

(** [s] is a simulation, in a debug build, of block [b] of a world some client
    has built. *)
Definition simulation_of {D} `{NumOps D} (w : world D) (b : nat) (g : cfg D) (s : simst D) : Prop :=
  (exists dbg, wreach dbg w) /\ exists tr, compile_model w b = Some tr /\ simulated_ok true tr (initial_dyn w) g s.
(** [l] is a leaf of the simulated model and [o] the block object as constructed
    and connected by the client. *)
Definition block_of {D} (w : world D) (g : cfg D) (l : leaf D) (o : blkobj D) : Prop :=
  l ∈ leaves (g_tree g) /\ w_blks w !! l_id l = Some o.
(** The mark [e] was recorded after the marks [v]. *)
Definition marked {D} (s : simst D) (v : list (event D)) (e : event D) : Prop :=
  exists rest, marks (s_log s) = v ++ e :: rest.
