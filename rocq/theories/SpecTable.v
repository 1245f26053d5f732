(** The main function of the sample programs: simulate, and record after every call of run. *)
From stdpp Require Import prelude gmap.
From Coq Require Import ZArith NArith.
From Verif Require Import Num Res Store Leaf Sched Stepper Sim World Hist SpecRec SpecSafe SpecLint.

Section spec.
  Context {D : Type} `{NumOps D}.
  (** A member function of the History object [h], called between calls of the simulator. *)
  Definition in_hist {A} (m : M (hist D) A) (h : hist D) : M (simst D) (hist D) := fun s =>
    match m h with Ok _ h' => Ok h' s | Exn e _ => Exn e s | UB u => UB u | OOF => OOF end.
  (** [for (...) { sim.run(t, lo, hi); history.update(ind++, t); }], for instance
      samples/tut01_mass_spring_damper.cpp:73-78; [ind] is a uint. *)
  Fixpoint record_loop (g : cfg D) (fuel : nat) (ind : N) (calls : list (D * D * D)) (h : hist D) : M (simst D) (hist D) :=
    match calls with
    | [] => ret h
    | (t, lo, hi) :: cs =>
        run g fuel t lo hi ;;;
        σ <~ gets s_store ;;
        h' <~ in_hist (update (g_dbg g) σ ind t) h ;;
        record_loop g fuel (uadd ind 1) cs h'
    end.
  (** [History history(grow); history.track(...); ...], the loop, [history.shrink_to_fit()]
      (samples/tut01_mass_spring_damper.cpp:68-81) *)
  Definition record_program (g : cfg D) (fuel : nat) (grow : N) (sigs : list nat) (calls : list (D * D * D)) : M (simst D) (hist D) :=
    σ <~ gets s_store ;;
    h <~ in_hist (forM sigs (fun s => bnd (track (g_dbg g) σ s) (fun _ => ret tt))) (new_hist grow) ;;
    h' <~ record_loop g fuel 0 calls h ;;
    ret (shrink_to_fit h').

  (** [ss] are the simulator's states after each of the calls. *)
  Fixpoint ends (g : cfg D) (fuel : nat) (calls : list (D * D * D)) (s : simst D) (ss : list (simst D)) : Prop :=
    match calls, ss with
    | [], [] => True
    | (t, lo, hi) :: cs, s1 :: ss' => run g fuel t lo hi s = Ok tt s1 /\ ends g fuel cs s1 ss'
    | _, _ => False
    end.
  (** The table one would write down by hand: the times of the calls, and for every tracked
      signal its numbers after each call. *)
  Definition table (sigs : list nat) (calls : list (D * D * D)) (ss : list (simst D)) (h : hist D) : Prop :=
    nrows h = N.of_nat (length calls) /\ hi_time h = map (fun c => Some (c.1.1)) calls /\
    (forall x, x ∈ sigs -> hi_map h !! x = Some (map (fun s => map Some (numbers (s_store s) x)) ss)) /\
    forall x, x ∉ sigs -> hi_map h !! x = None.
  (** The lines of the exported file, [order] being the iteration order of the map. *)
  Definition lines (order : list nat) (calls : list (D * D * D)) (ss : list (simst D)) : list (list (option D)) :=
    zip_with (fun c s => Some (c.1.1) :: concat (map (fun x => map Some (numbers (s_store s) x)) order)) calls ss.
End spec.
