(** The rows of the table of a simulation. *)
From stdpp Require Import prelude gmap.
From Coq Require Import ZArith NArith.
From Verif Require Import Num Res Store Leaf Sched Stepper Sim World SpecHist SpecRec SpecSafe SpecLint SpecTable P_Rel P_Trace.

Section spec.
  Context {D : Type} `{NumOps D}.
  (** A checked model is simulated by the calls of run [calls], all of which return, the
      first one initialising; [ss] are the states of the simulator after each of them. *)
  Definition tabulated (w : world D) (b : bid) (g : cfg D) (ins1 ins2 : list nat) (fuel : nat) (calls : list (D * D * D)) (ss : list (simst D)) : Prop :=
    checked w b g ins1 ins2 /\ (forall stp, g_stepper g = Some stp -> stepper_rel stp) /\
    (exists t0 lo0 hi0 cs, calls = (t0, lo0, hi0) :: cs /\ permitted g t0 cs) /\ ends g fuel calls (new_sim (initial_dyn w)) ss.
  (** Row [k] of the table: the call and the state after it. *)
  Definition row (calls : list (D * D * D)) (ss : list (simst D)) (k : nat) (t : D) (s : simst D) : Prop :=
    (exists lo hi, calls !! k = Some (t, lo, hi)) /\ ss !! k = Some s.
  (** The times and the signals of the rows. *)
  Definition rows (calls : list (D * D * D)) (ss : list (simst D)) : list (D * store D) :=
    zip_with (fun c s => (c.1.1, s_store s)) calls ss.
  (** In the signals [τ], what the callbacks that set the input signals at time [t] read
      and write is what is there. *)
  Definition supplied (g : cfg D) (t : D) (τ : store D) : Prop :=
    (forall f, g_inputs g = Some f -> shows τ (f t) tt) /\ shows τ (g_icb g t) tt.
End spec.
