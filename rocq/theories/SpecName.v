(** Specification of legal names, independent of the model. *)
From stdpp Require Import prelude.
From Coq Require Import Ascii String.
Local Open Scope string_scope.

Definition legal_chars : list ascii :=
  list_ascii_of_string "abcdefghijklmnopqrstuvwxyzABCDEFGHIJKLMNOPQRSTUVWXYZ0123456789_".
Definition legal (c : ascii) : Prop := In c legal_chars.
Definition legal_name (s : string) : Prop :=
  forall i c, String.get i s = Some c -> legal c.

(** [sanitised s r]: r is s with every illegal byte replaced by '_'. *)
Definition sanitised (s r : string) : Prop :=
  String.length r = String.length s /\
  forall i c, String.get i s = Some c ->
    (legal c -> String.get i r = Some c) /\
    (~ legal c -> String.get i r = Some "_"%char).
