(** What a History should contain, described by the sequence of the calls made. *)
From stdpp Require Import prelude gmap.
From Coq Require Import ZArith NArith.
From Verif Require Import Num Res Store.

(** Before recording: choosing the signals. *)
Inductive pick : Type := PTrack (s : nat) | PUntrack (s : nat).
(** Recording: update(k, t) while the signals are [σ], and shrink_to_fit(). *)
Inductive rec (D : Type) : Type := RUpdate (σ : store D) (k : N) (t : D) | RShrink.
Arguments RUpdate {D}. Arguments RShrink {D}.

(** The signals chosen, first chosen first. *)
Definition picked (ps : list pick) : list nat :=
  fold_left (fun sg p => match p with
                         | PTrack s => if bool_decide (s ∈ sg) then sg else sg ++ [s]
                         | PUntrack s => List.filter (fun x => negb (Nat.eqb x s)) sg
                         end) ps [].

(** The last update with row number [k]. *)
Definition last_update {D} (os : list (rec D)) (k : N) : option (store D * D) :=
  fold_left (fun r o => match o with
                        | RUpdate σ k' t => if N.eqb k' k then Some (σ, t) else r
                        | RShrink => r
                        end) os None.
(** One more than the largest row number used. *)
Definition rows_used {D} (os : list (rec D)) : N :=
  fold_left (fun n o => match o with RUpdate _ k _ => N.max n (N.succ k) | RShrink => n end) os 0%N.

(** A value as numbers; zeros if the signal has none. *)
Definition numbers {D} `{NumOps D} (σ : store D) (s : nat) : list D :=
  match value σ s with
  | Some (VS x) => [x]
  | Some (VI z) => [nofZ z]
  | Some (VB b) => [nofZ (if b then 1 else 0)%Z]
  | Some (VA l) => l
  | None => match σ !! s with
            | Some (Cell (KArray n) _ _ _) => replicate n n0
            | _ => [n0]
            end
  end.
