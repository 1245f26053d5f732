(** Every client operation, whether it returns or throws, is a sequence of the
    elementary changes of objects listed here, each with the condition under which
    the code performs it.  Invariants of reachable worlds are proved from this
    list (P_World.v). *)
From stdpp Require Import prelude gmap strings.
From Coq Require Import ZArith.
From Verif Require Import Num Res Name SpecName P_Name Store Leaf Sched World Api.

Section steps.
  Context {D : Type} `{NumOps D}.
  Implicit Types (w : world D).

  Definition upd w (b : nat) (f : blkobj D -> blkobj D) : world D :=
    World (w_sigs w) (alter f b (w_blks w)).
  Definition putsig w (s : nat) (o : sigobj) : world D := World (<[s := o]> (w_sigs w)) (w_blks w).
  Definition addsig w (o : sigobj) : world D := World (w_sigs w ++ [o]) (w_blks w).
  Definition addblk w (o : blkobj D) : world D := World (w_sigs w) (w_blks w ++ [o]).

  (** [s] is a value signal. *)
  Definition vsig w (s : nat) : Prop := exists o, w_sigs w !! s = Some o /\ is_bus (so_kind o) = false.
  Definition vsigb w (s : nat) : bool :=
    match w_sigs w !! s with Some o => negb (is_bus (so_kind o)) | None => false end.
  Definition tsig w (T : ty) (s : nat) : Prop := exists o, w_sigs w !! s = Some o /\ ty_fits T (so_kind o) = true.

  (** Linking the value signals of a bus one after the other. *)
  Definition add_links w (f : N) (m : list (string * nat)) (ls : list (nat * N)) : list (nat * N) :=
    fold_left (fun ls e => if vsigb w (snd e) then link_pair ls (snd e) f else ls) m ls.

  Definition linked_with (o : blkobj D) (s : nat) (f : N) : Prop :=
    exists f', (s, f') ∈ bo_linked o /\ N.land f' f = f.

  (** Type of the typed signal members of a class. *)
  Definition cls_ty (c : cls D) : ty :=
    match c with
    | CConst T _ | CSource T _ | CSISO T _ | CSO T _ | CGain T _ | CAdd T _ | CMul T _ | CPipe T
    | CMemory T | CDelay T _ | CInteg T | CTrig T => T
    | _ => TyD
    end.
  Definition new_in w (o : blkobj D) (T : ty) (h h' : option nat) : Prop :=
    h' = h \/ exists s, h' = Some s /\ tsig w T s /\ linked_with o s (N.lor fInput fRequired).
  Definition new_out w (o : blkobj D) (T : ty) (h h' : option nat) : Prop :=
    h' = h \/ exists s, h' = Some s /\ tsig w T s /\ linked_with o s fOutput.

  (** Each signal a block holds in a member is that of the port the member is named
      after; the Delay finds its inputs by their labels. *)
  Definition at_port (m : list (string * nat)) (i : nat) (h : option nat) : Prop :=
    forall s, h = Some s -> exists lb, m !! i = Some (lb, s).
  Definition at_name (m : list (string * nat)) (lb : string) (h : option nat) : Prop :=
    forall s, h = Some s -> find_label m lb = Some s.
  Definition ported (c : cls D) (im om : list (string * nat)) (h : handles) : Prop :=
    match c with CDelay _ _ => at_name im "in" (h_in h) | _ => at_port im 0 (h_in h) end /\
    at_port om 0 (h_out h) /\ at_port im 0 (h_x1 h) /\ at_port im 1 (h_x2 h) /\
    at_name im "delay" (h_delay h) /\ at_name im "initial" (h_initial h) /\ at_name im "trigger" (h_trig h).

  Definition child_added (ch : list nat) (b : nat) : list nat :=
    if bool_decide (b ∈ ch) then ch else ch ++ [b].

  Inductive step : world D -> world D -> Prop :=
  | st_sig w k name : k ≠ KBus -> step w (addsig w (SigObj (emend name) k None []))
  | st_bus w name m :
      (forall e, e ∈ m -> legal_name (fst e) /\ snd e < length (w_sigs w)) ->
      step w (addsig w (SigObj (emend name) KBus None m))
  | st_name_sig w s o name : w_sigs w !! s = Some o -> legal_name name ->
      step w (putsig w s (SigObj name (so_kind o) (so_deriv o) (so_mem o)))
  | st_deriv w T s o ds : w_sigs w !! s = Some o -> ty_fits T (so_kind o) = true -> tsig w T ds ->
      step w (putsig w s (SigObj (so_name o) (so_kind o) (Some ds) (so_mem o)))
  | st_blk w c st name nin nout : ctor_ok c st nin nout ->
      step w (addblk w (BlkObj (emend name) None [] nin nout false [] [] [] c no_handles st))
  | st_blk_in w c st p op name nin nout : ctor_ok c st nin nout ->
      w_blks w !! p = Some op -> is_submodel (bo_cls op) = true ->
      step w (upd (addblk w (BlkObj (emend name) (Some p) [] nin nout false [] [] [] c no_handles st)) p
                  (fun x => set_children (child_added (bo_children x) (length (w_blks w))) x))
  | st_name_blk w b name : legal_name name -> step w (upd w b (set_name name))
  | st_parent w b o p op :
      w_blks w !! b = Some o -> bo_parent o = None ->
      w_blks w !! p = Some op -> is_submodel (bo_cls op) = true ->
      step w (upd (upd w b (set_par (Some p))) p (fun x => set_children (child_added (bo_children x) b) x))
  | st_relink w b o p op :
      w_blks w !! b = Some o -> bo_parent o = Some p -> w_blks w !! p = Some op ->
      step w (upd w p (fun x => set_children (child_added (bo_children x) b) x))
  | st_connect w b o im om :
      w_blks w !! b = Some o -> bo_conn o = false ->
      port_ok (bo_nin o) (length im) = true -> port_ok (bo_nout o) (length om) = true ->
      (exists ib oi, w_sigs w !! ib = Some oi /\ im = so_mem oi) ->
      (exists ob oo, w_sigs w !! ob = Some oo /\ om = so_mem oo) ->
      (forall e, e ∈ im ++ om -> snd e < length (w_sigs w)) ->
      step w (upd w b (fun x => set_conn im om
               (set_linked (add_links w fOutput om (add_links w (N.lor fInput fRequired) im (bo_linked x))) x)))
  | st_link w b o s f :
      w_blks w !! b = Some o -> bo_conn o = true -> vsig w s ->
      (f = N.lor fInput fRequired \/ f = fOutput \/ is_user (bo_cls o) = true) ->
      step w (upd w b (fun x => set_linked (link_pair (bo_linked x) s f) x))
  | st_unreq w b o s :
      w_blks w !! b = Some o -> bo_conn o = true ->
      match bo_cls o with
      | CMemory _ | CInteg _ => True
      | CTrig _ => h_trig (bo_h o) = None
      | _ => False
      end ->
      step w (upd w b (fun x => set_linked (map_pair (bo_linked x) s drop_req) x))
  | st_req w b o s :
      w_blks w !! b = Some o -> bo_conn o = true ->
      step w (upd w b (fun x => set_linked (map_pair (bo_linked x) s add_req) x))
  | st_h w b o h' :
      w_blks w !! b = Some o -> bo_conn o = true ->
      new_in w o (cls_ty (bo_cls o)) (h_in (bo_h o)) (h_in h') ->
      new_out w o (cls_ty (bo_cls o)) (h_out (bo_h o)) (h_out h') ->
      new_in w o TyD (h_x1 (bo_h o)) (h_x1 h') ->
      new_in w o TyD (h_x2 (bo_h o)) (h_x2 h') ->
      new_in w o TyD (h_delay (bo_h o)) (h_delay h') ->
      new_in w o (cls_ty (bo_cls o)) (h_initial (bo_h o)) (h_initial h') ->
      new_in w o TyB (h_trig (bo_h o)) (h_trig h') ->
      (ported (bo_cls o) (bo_ibus o) (bo_obus o) (bo_h o) -> ported (bo_cls o) (bo_ibus o) (bo_obus o) h') ->
      step w (upd w b (fun x => set_h h' x))
  | st_cls w b o i e i' :
      w_blks w !! b = Some o -> bo_cls o = CBusMem i e -> step w (upd w b (set_cls (CBusMem i' e))).
  Definition steps := rtc step.
End steps.
