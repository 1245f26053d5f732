(** Tracing as it is meant: every function has a record of its own, and there is no global
    stack. *)
From stdpp Require Import prelude strings pretty.
From Coq Require Import ZArith.
From Verif Require Import Trace.
Local Open Scope string_scope.
Local Open Scope list_scope.

(** pooya_trace_update refers to a local variable that pooya_trace declares, so it compiles
    only where there is one; [own]: there is one. *)
Fixpoint compiles {S} (own : bool) (c : code S) : Prop :=
  match c with
  | CSeq a b | CTry a b => compiles own a /\ compiles own b
  | CDyn k => forall s, compiles own (k s)
  | CSize k => forall n, compiles own (k n)
  | CScope _ _ _ b => compiles true b
  | CUpdate _ _ _ => own = true
  | _ => True
  end.
(** The text of an exception of a release build, and of a debug build if it is thrown
    while the functions with records [active], the innermost first, are active. *)
Definition headline (file : string) (line : Z) (msg : string) : string :=
  nl +:+ "Pooya Exception:" +:+ nl +:+ "  " +:+ file +:+ ":" +:+ pretty line +:+ nl +:+ "  " +:+ msg +:+ nl +:+ nl.
Definition report (file : string) (line : Z) (msg : string) (active : list info) : string :=
  headline file line msg +:+ "Pooya Traceback:" +:+ nl +:+ String.concat "" (map entry active).
Definition active (me : option info) (callers : list info) : list info := match me with Some i => i :: callers | None => callers end.

(** The run of a function with its record [me], called from functions with records
    [callers]: the outcome, the state, and the record at the end. *)
Fixpoint locally {S} (callers : list info) (c : code S) (me : option info) (s : S) : outcome * S * option info :=
  match c with
  | CSkip => (Normal, s, me)
  | CDo f => (Normal, f s, me)
  | CSeq a b => match locally callers a me s with (Normal, s1, me1) => locally callers b me1 s1 | r => r end
  | CDyn k => locally callers (k s) me s
  | CScope file line msg body => let '(o, s1, _) := locally (active me callers) body (Some (Info file line msg)) s in (o, s1, me)
  | CUpdate file line msg => (Normal, s, match me with Some i => Some (Info file line (if bool_decide (msg = "") then ti_msg i else msg)) | None => None end)
  | CVerify p file line msg | CDebugVerify p file line msg => (if p s then Normal else Threw (report file line msg (active me callers)), s, me)
  | CThrow e => (Threw e, s, me)
  | CTry body handler => match locally callers body me s with (Threw _, s1, me1) => locally callers handler me1 s1 | r => r end
  | CSize k => locally callers (k (length (active me callers))) me s
  end.
(** Programs without debug checks that do not look at the stack: tracing is all that is left
    of the difference between the builds. *)
Fixpoint indifferent {S} (c : code S) : Prop :=
  match c with
  | CSeq a b | CTry a b => indifferent a /\ indifferent b
  | CDyn k => forall s, indifferent (k s)
  | CScope _ _ _ b => indifferent b
  | CDebugVerify _ _ _ _ | CSize _ => False
  | _ => True
  end.
