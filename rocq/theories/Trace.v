(** The stack of trace records and the text of exceptions. *)
From stdpp Require Import prelude strings pretty.
From Coq Require Import ZArith.
Local Open Scope string_scope.
Local Open Scope list_scope.

(** PooyaTraceInfo (src/helper/trace.hpp:39-44). *)
Record info : Type := Info { ti_file : string; ti_line : Z; ti_msg : string }.
(** The record emplace_back() creates (trace.hpp:39-44, 51). *)
Definition blank : info := Info "" (-1) "".

(** "\n" *)
Definition nl : string := String (Ascii.ascii_of_nat 10) EmptyString.
(** The lines for one record (src/helper/trace.cpp:35-39). *)
Definition entry (i : info) : string :=
  "- " +:+ ti_file i +:+ ":" +:+ pretty (ti_line i) +:+ nl +:+ (if bool_decide (ti_msg i = "") then "" else "  " +:+ ti_msg i +:+ nl).
(** pooya_trace_info_string (trace.cpp:29-42): from the last record to the first. *)
Definition trace_string (st : list info) : string := "Pooya Traceback:" +:+ nl +:+ String.concat "" (map entry (rev st)).
(** pooya_throw_exception (src/helper/util.cpp:28-40). *)
Definition what (dbg : bool) (file : string) (line : Z) (msg : string) (st : list info) : string :=
  nl +:+ "Pooya Exception:" +:+ nl +:+ "  " +:+ file +:+ ":" +:+ pretty line +:+ nl +:+ "  " +:+ msg +:+ nl +:+ nl +:+ (if dbg then trace_string st else "").

(** What a program of the library and its client does, as far as tracing is concerned, with
    a state [S] of its own.  Loops and recursion are unrolled through [CDyn]: the rest of
    the program depends on the state (simplification: only programs that come to an end). *)
Inductive code (S : Type) : Type :=
| CSkip
| CDo (f : S -> S)
| CSeq (a b : code S)
| CDyn (k : S -> code S)
| CScope (file : string) (line : Z) (msg : string) (body : code S)   (* { pooya_trace(msg); body } (trace.hpp:68-70) *)
| CUpdate (file : string) (line : Z) (msg : string)                   (* pooya_trace_update(msg) (trace.hpp:71) *)
| CVerify (c : S -> bool) (file : string) (line : Z) (msg : string)   (* pooya_verify (src/helper/verify.hpp:23-27) *)
| CDebugVerify (c : S -> bool) (file : string) (line : Z) (msg : string) (* pooya_debug_verify (verify.hpp:29-37) *)
| CThrow (e : string)                                                 (* an exception of the standard library or of the client *)
| CTry (body : code S) (handler : code S)                             (* try { body } catch (...) { handler } in client code *)
| CSize (k : nat -> code S).                                          (* reads pooya_trace_info.size(), as the main functions of samples do *)
Arguments CSkip {S}. Arguments CDo {S}. Arguments CSeq {S}. Arguments CDyn {S}. Arguments CScope {S}. Arguments CUpdate {S}.
Arguments CVerify {S}. Arguments CDebugVerify {S}. Arguments CThrow {S}. Arguments CTry {S}. Arguments CSize {S}.

Inductive outcome : Type := Normal | Threw (text : string) | Undefined.

(** PooyaTracer::update (trace.hpp:53-63); line 55 is the check. *)
Definition update (file : string) (line : Z) (msg : string) (st : list info) : outcome * list info :=
  match last st with
  | None => (Threw (what true "trace.hpp" 55 "Empty trace queue!" st), st)
  | Some i => (Normal, removelast st ++ [Info file line (if bool_decide (msg = "") then ti_msg i else msg)])
  end.
(** ~PooyaTracer (trace.hpp:65): pop_back of an empty vector is undefined. *)
Definition pop (o : outcome) (st : list info) : outcome * list info :=
  match st with [] => (Undefined, []) | _ => (o, removelast st) end.

(** The run of a program with the global stack [st] (trace.hpp:46, trace.cpp:27). *)
Fixpoint exec {S} (dbg : bool) (c : code S) (s : S) (st : list info) : outcome * S * list info :=
  match c with
  | CSkip => (Normal, s, st)
  | CDo f => (Normal, f s, st)
  | CSeq a b => match exec dbg a s st with (Normal, s1, st1) => exec dbg b s1 st1 | r => r end
  | CDyn k => exec dbg (k s) s st
  | CScope file line msg body =>
      if dbg then
        match update file line msg (st ++ [blank]) with
        | (Normal, st1) => match exec dbg body s st1 with
                           | (Undefined, s2, st2) => (Undefined, s2, st2)
                           | (o, s2, st2) => let '(o', st3) := pop o st2 in (o', s2, st3)
                           end
        | (o, st1) => let '(o', st3) := pop o st1 in (o', s, st3)
        end
      else exec dbg body s st
  | CUpdate file line msg => if dbg then let '(o, st1) := update file line msg st in (o, s, st1) else (Normal, s, st)
  | CVerify p file line msg => (if p s then Normal else Threw (what dbg file line msg st), s, st)
  | CDebugVerify p file line msg => (if dbg then if p s then Normal else Threw (what dbg file line msg st) else Normal, s, st)
  | CThrow e => (Threw e, s, st)
  | CTry body handler => match exec dbg body s st with (Threw _, s1, st1) => exec dbg handler s1 st1 | r => r end
  | CSize k => exec dbg (k (length st)) s st
  end.
