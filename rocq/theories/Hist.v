(** History (solver/history.hpp, history.cpp). *)
From stdpp Require Import prelude gmap.
From Coq Require Import ZArith NArith.
From Verif Require Import Num Res Store.

(** [uint] is 32 bits wide. *)
Definition two32 : N := 4294967296.
Definition uadd (a b : N) : N := N.modulo (a + b) two32.
Definition umax : N := 4294967295.          (* uint(-1) *)

(** A History object (history.hpp:39-42).  The time column and the matrices are
    lists of rows, an element never written is [None].  The unordered_map base
    class is [hi_map]; rows of a scalar, int or bool signal have one column. *)
Record hist (D : Type) : Type := Hist {
  hi_grow : N;                                   (* _nrows_grow *)
  hi_bottom : N;                                 (* _bottom_row *)
  hi_time : list (option D);                     (* _time *)
  hi_sigs : list sid;                            (* _signals *)
  hi_map : gmap nat (list (list (option D)))     (* the base class *)
}.
Arguments Hist {D}. Arguments hi_grow {D}. Arguments hi_bottom {D}.
Arguments hi_time {D}. Arguments hi_sigs {D}. Arguments hi_map {D}.

Section hist.
  Context {D : Type} `{NumOps D}.
  Context (dbg : bool).
  Notation HM := (M (hist D)).

  (** History::History (history.hpp:45) *)
  Definition new_hist (grow : N) : hist D :=
    Hist grow umax (replicate (N.to_nat grow) None) [] ∅.

  (** empty() of the base class *)
  Definition hist_empty (h : hist D) : bool := bool_decide (hi_map h = ∅).

  (** Whether [dynamic_pointer_cast<ValueSignalImpl>] succeeds; [σ] are the signals.
      Passing a null Signal is not modelled. *)
  Definition is_value_signal (σ : store D) (s : sid) : bool :=
    match σ !! s with
    | Some c => match c_kind c with KBus => false | _ => true end
    | None => false
    end.

  (** History::track (history.cpp:28-37) *)
  Definition track (σ : store D) (s : sid) : HM bool :=
    e <~ gets hist_empty ;;
    debug_verify dbg e EAssert ;;;
    sg <~ gets hi_sigs ;;
    if is_value_signal σ s && negb (bool_decide (s ∈ sg)) then
      modify (fun h => Hist (hi_grow h) (hi_bottom h) (hi_time h) (hi_sigs h ++ [s]) (hi_map h)) ;;;
      ret true
    else ret false.

  Fixpoint remove_first (s : sid) (l : list sid) : option (list sid) :=
    match l with
    | [] => None
    | x :: l' => if Nat.eqb x s then Some l'
                 else match remove_first s l' with Some r => Some (x :: r) | None => None end
    end.
  (** History::untrack (history.cpp:39-45): erases the end iterator if absent *)
  Definition untrack (σ : store D) (s : sid) : HM unit :=
    e <~ gets hist_empty ;;
    debug_verify dbg e EAssert ;;;
    if is_value_signal σ s then
      sg <~ gets hi_sigs ;;
      match remove_first s sg with
      | Some r => modify (fun h => Hist (hi_grow h) (hi_bottom h) (hi_time h) r (hi_map h))
      | None => undef UErase
      end
    else ret tt.

  (** Number of matrix columns for a signal (history.cpp:58-73). *)
  Definition ncols (σ : store D) (s : sid) : nat :=
    match σ !! s with
    | Some c => match c_kind c with KArray n => n | _ => 1 end
    | None => 1
    end.
  (** Eigen's conservativeResize(n, NoChange) with a filler for new rows *)
  Definition cresize {A} (n : nat) (fill : A) (l : list A) : list A :=
    take n l ++ replicate (n - length l) fill.

  Definition fresh_matrix (grow : N) (cols : nat) : list (list (option D)) :=
    replicate (N.to_nat grow) (replicate cols None).

  (** What is written into a row (history.cpp:90-118); an unassigned signal gives
      zeros.  A release build may hold an array of another size: undefined. *)
  Definition sample (σ : store D) (s : sid) : HM (list D) :=
    match σ !! s with
    | None => undef UNull
    | Some c =>
        if c_asg c then
          match get_value dbg s σ with
          | Ok (VS x) _ => ret [x]
          | Ok (VI z) _ => ret [nofZ z]
          | Ok (VB b) _ => ret [if b then nofZ 1 else nofZ 0]
          | Ok (VA l) _ => if Nat.eqb (length l) (ncols σ s) then ret l else undef UArith
          | Exn e _ => throw e
          | UB u => undef u
          | OOF => fun _ => OOF
          end
        else ret (replicate (ncols σ s) n0)
    end.

  (** Body of the loop over [_signals] (history.cpp:83-120) *)
  Definition update_sig (σ : store D) (k : N) (s : sid) : HM unit :=
    h <~ gets id ;;
    match hi_map h !! s with
    | None => throw EIndex                           (* unordered_map::at *)
    | Some m =>
        let m1 := if N.leb (N.of_nat (length m)) k
                  then cresize (N.to_nat (uadd k (hi_grow h))) (replicate (ncols σ s) None) m
                  else m in
        v <~ sample σ s ;;
        if Nat.ltb (N.to_nat k) (length m1) then
          modify (fun h => Hist (hi_grow h) (hi_bottom h) (hi_time h) (hi_sigs h)
                             (<[s := <[N.to_nat k := map Some v]> m1]> (hi_map h)))
        else undef UIndex
    end.

  (** History::update (history.cpp:47-126); [k] is a uint *)
  Definition update (σ : store D) (k : N) (t : D) : HM unit :=
    e <~ gets hist_empty ;;
    sg <~ gets hi_sigs ;;
    if e && (match sg with [] => true | _ => false end) then ret tt
    else
      (if e : bool then
         modify (fun h => Hist (hi_grow h) (hi_bottom h) (hi_time h) (hi_sigs h)
           (fold_left (fun m s => <[s := fresh_matrix (hi_grow h) (ncols σ s)]> m) (hi_sigs h) (hi_map h)))
       else ret tt) ;;;
      modify (fun h =>
        if N.leb (N.of_nat (length (hi_time h))) k
        then Hist (hi_grow h) (hi_bottom h) (cresize (N.to_nat (uadd k (hi_grow h))) None (hi_time h))
               (hi_sigs h) (hi_map h)
        else h) ;;;
      tm <~ gets hi_time ;;
      (if Nat.ltb (N.to_nat k) (length tm) then
         modify (fun h => Hist (hi_grow h) (hi_bottom h) (<[N.to_nat k := Some t]> (hi_time h))
                            (hi_sigs h) (hi_map h))
       else undef UIndex) ;;;
      forM sg (update_sig σ k) ;;;
      modify (fun h =>
        if N.eqb (hi_bottom h) umax || N.ltb (hi_bottom h) k
        then Hist (hi_grow h) k (hi_time h) (hi_sigs h) (hi_map h)
        else h).

  (** History::nrows (history.hpp:52) *)
  Definition nrows (h : hist D) : N := uadd (hi_bottom h) 1.

  (** History::shrink_to_fit (history.cpp:128-143); it only ever makes smaller, so
      the filler is irrelevant unless a matrix has fewer rows than the time column. *)
  Definition shrink_to_fit (h : hist D) : hist D :=
    let n := nrows h in
    if N.leb (N.of_nat (length (hi_time h))) n then h
    else Hist (hi_grow h) (hi_bottom h) (cresize (N.to_nat n) None (hi_time h)) (hi_sigs h)
           ((fun m => cresize (N.to_nat n) (match m with r :: _ => map (fun _ => None) r | [] => [] end) m)
              <$> hi_map h).

  (** operator[] (history.hpp:55-59); a matrix is returned by reference *)
  Definition hist_get (σ : store D) (s : sid) : HM (list (list (option D))) :=
    verify (is_value_signal σ s) EType ;;;
    h <~ gets id ;;
    match hi_map h !! s with
    | Some m => ret m
    | None => throw EIndex                           (* unordered_map::at *)
    end.

  (** The header line of export_csv (history.cpp:156-176) as a list of columns:
      the name of a signal and, for an array, the index in brackets. *)
  Definition columns (σ : store D) (order : list sid) : list (sid * option nat) :=
    concat (map (fun s => match σ !! s with
                          | Some c => match c_kind c with
                                      | KArray n => map (fun k => (s, Some k)) (seq 0 n)
                                      | _ => [(s, None)]
                                      end
                          | None => [(s, None)]
                          end) order).

  (** The value lines of export_csv (history.cpp:178-203), one list per line; a
      [None] is an element of the matrices that was never written.  [order] is the
      iteration order of the unordered_map. *)
  Fixpoint row_cells (h : hist D) (k : nat) (order : list sid) : HM (list (option D)) :=
    match order with
    | [] => ret []
    | s :: order' =>
        match hi_map h !! s with
        | None => undef UNull
        | Some m => match m !! k with
                    | Some r => rest <~ row_cells h k order' ;; ret (r ++ rest)
                    | None => undef UIndex
                    end
        end
    end.
  Fixpoint export_rows (h : hist D) (ks : list nat) (order : list sid)
    : HM (list (list (option D))) :=
    match ks with
    | [] => ret []
    | k :: ks' =>
        match hi_time h !! k with
        | None => undef UIndex
        | Some t =>
            r <~ row_cells h k order ;;
            rest <~ export_rows h ks' order ;;
            ret ((t :: r) :: rest)
        end
    end.
  Definition export_csv (order : list sid) : HM (list (list (option D))) :=
    h <~ gets id ;;
    if hist_empty h then ret []
    else export_rows h (seq 0 (length (hi_time h))) order.
End hist.
