(** Several simulators for one model, one after the other. *)
From stdpp Require Import prelude gmap.
From Verif Require Import Num Res Store Leaf Sched Stepper Sim World Api SpecSched SpecSafe SpecGoes SpecGoes2 SpecLint.

(** What a client does with one simulator: a configuration (kind, callbacks, stepper), the
    signals its callbacks assign, the start time, the calls of run. *)
Record sitting (D : Type) : Type := Sitting { st_cfg : cfg D; st_ins1 : list nat; st_ins2 : list nat; st_start : D; st_calls : list (D * D * D) }.
Arguments Sitting {D}. Arguments st_cfg {D}. Arguments st_ins1 {D}. Arguments st_ins2 {D}. Arguments st_start {D}. Arguments st_calls {D}.

Section spec.
  Context {D : Type} `{NumOps D}.
  (** The program: construct a simulator, use it, go on to the next.  The client catches the
      exception with which a FastSimulator refuses a model.  The results are the simulators
      at the end of each sitting, [None] for a refusal. *)
  Fixpoint sittings (fuel : nat) (ps : list (sitting D)) (d : dyn D) : res (dyn D) (list (option (simst D))) :=
    match ps with
    | [] => Ok [] d
    | p :: ps =>
        match program (st_cfg p) fuel (st_start p) (st_calls p) (new_sim d) with
        | Ok _ s => match sittings fuel ps (s_dyn s) with Ok rs d' => Ok (Some s :: rs) d' | r => r end
        | Exn EFast s => match sittings fuel ps (s_dyn s) with Ok rs d' => Ok (None :: rs) d' | r => r end
        | Exn e s => Exn e (s_dyn s)
        | UB u => UB u
        | OOF => OOF
        end
    end.
  (** A FastSimulator is refused if the model has blocks and is not new. *)
  Definition refused (used : bool) (p : sitting D) : Prop :=
    used = true /\ g_mode (st_cfg p) = MFast /\ leaves (g_tree (st_cfg p)) ≠ [].
  (** What the client may do; [τ]: when the last sitting ended.  With a Delay a later sitting
      has to start later than the one before ended. *)
  Fixpoint admissible (used : bool) (τ : option D) (ps : list (sitting D)) : Prop :=
    match ps with
    | [] => True
    | p :: ps =>
        (refused used p -> admissible true τ ps) /\
        (~ refused used p ->
          (has_delay (g_tree (st_cfg p)) -> forall a, τ = Some a -> nltb a (st_start p) = true) /\
          permitted (st_cfg p) (st_start p) (st_calls p) /\ admissible true (Some (end_of (st_start p) (st_calls p))) ps)
    end.
  (** What comes out of it. *)
  Fixpoint expected (w : world D) (used : bool) (ps : list (sitting D)) (rs : list (option (simst D))) : Prop :=
    match ps, rs with
    | [], [] => True
    | p :: ps, r :: rs =>
        match r with
        | None => refused used p
        | Some s => ~ refused used p /\ s_tprev s = end_of (st_start p) (st_calls p) /\ settled w (st_cfg p) (st_ins1 p) (st_ins2 p) s
        end /\ expected w true ps rs
    | _, _ => False
    end.
End spec.
