(** Model of shared/named_object.hpp and shared/named_object.cpp. *)
From stdpp Require Import prelude.
From Coq Require Import Ascii String NArith.
Local Open Scope string_scope.

(** The test in the lambda of ValidName::emend (named_object.cpp:32).  [char] may
    be signed in C++; a byte above 127 is then negative and fails every range
    test, as its unsigned value does here. *)
Definition keepable (c : ascii) : bool :=
  let n := N_of_ascii c in
  ((97 <=? n) && (n <=? 122) || (65 <=? n) && (n <=? 90) || (48 <=? n) && (n <=? 57)
   || (n =? 95))%N.

(** ValidName::emend(std::string_view) (named_object.cpp:25-38) *)
Fixpoint emend (s : string) : string :=
  match s with
  | EmptyString => EmptyString
  | String c s' => String (if keepable c then c else "_"%char) (emend s')
  end.

(** A ValidName is its [_name].  Constructor and assignment from a string_view
    (named_object.hpp:42-49) apply [emend]. *)
Definition valid_name (s : string) : string := emend s.

(** ValidName::append (named_object.hpp:31-37) for a ValidName argument, whose
    [emend] overload (line 66) returns the stored text; and for a string. *)
Definition append_valid (n sep m : string) : string := n ++ sep ++ m.
Definition append_str (n sep s : string) : string := n ++ sep ++ emend s.

(** operator| and operator/ (named_object.hpp:53-63) with a ValidName argument *)
Definition name_dot (n m : string) : string := append_valid n "." m.
Definition name_slash (n m : string) : string := append_valid n "/" m.

(** Block::full_name (block/block.cpp:91-94) of a block whose names along the
    parent chain, outermost first, are [ns]: an empty ValidName for "no parent",
    then one operator/ per block. *)
Fixpoint full_name_from (acc : string) (ns : list string) : string :=
  match ns with
  | [] => acc
  | n :: ns' => full_name_from (name_slash acc n) ns'
  end.
Definition full_name_of (ns : list string) : string := full_name_from "" ns.
