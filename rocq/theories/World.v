(** Signal objects, buses, blocks, the block hierarchy and connect().
    Models signal/bus.hpp, signal/signal.hpp, signal/float_signal.hpp,
    block/block.*, block/submodel.*, block/single*.hpp, the connect overrides in
    block/extra, block/extra/bus_*.cpp. *)
From stdpp Require Import prelude gmap strings pretty.
From Coq Require Import ZArith Ascii.
From Verif Require Import Num Res Name Store Leaf Sched.

(** A SignalImpl object.  [so_mem] is BusImpl::_signals (bus.hpp:141), which
    never changes after construction. *)
Record sigobj : Type := SigObj {
  so_name : string;
  so_kind : kind;
  so_deriv : option sid;
  so_mem : bus
}.

(** A Block object.  Parent and children are Block identities. *)
Record blkobj (D : Type) : Type := BlkObj {
  bo_name : string;              (* NamedObject::_name *)
  bo_parent : option bid;        (* _parent *)
  bo_children : list bid;        (* Submodel::_blocks *)
  bo_nin : N;                    (* _num_iports *)
  bo_nout : N;                   (* _num_oports *)
  bo_conn : bool;                (* _connected *)
  bo_ibus : bus;                 (* members of _ibus *)
  bo_obus : bus;                 (* members of _obus *)
  bo_linked : list (sid * N);    (* _linked_signals *)
  bo_cls : cls D;                (* dynamic type and constructor arguments *)
  bo_h : handles;                (* typed signal members *)
  bo_st : lstate D               (* members set by the constructor *)
}.
Arguments BlkObj {D}. Arguments bo_name {D}. Arguments bo_parent {D}.
Arguments bo_children {D}. Arguments bo_nin {D}. Arguments bo_nout {D}.
Arguments bo_conn {D}. Arguments bo_ibus {D}. Arguments bo_obus {D}.
Arguments bo_linked {D}. Arguments bo_cls {D}. Arguments bo_h {D}. Arguments bo_st {D}.

(** All objects; the identity of an object is its index. *)
Record world (D : Type) : Type := World {
  w_sigs : list sigobj;
  w_blks : list (blkobj D)
}.
Arguments World {D}. Arguments w_sigs {D}. Arguments w_blks {D}.

Definition empty_world {D} : world D := World [] [].

(** uint16_t(-1), block.hpp:47 *)
Definition NoIOLimit : N := 65535.

Section bset.
  Context {D : Type}.
  Implicit Types b : blkobj D.
  Definition set_name n b := BlkObj n (bo_parent b) (bo_children b) (bo_nin b) (bo_nout b)
    (bo_conn b) (bo_ibus b) (bo_obus b) (bo_linked b) (bo_cls b) (bo_h b) (bo_st b).
  Definition set_par p b := BlkObj (bo_name b) p (bo_children b) (bo_nin b) (bo_nout b)
    (bo_conn b) (bo_ibus b) (bo_obus b) (bo_linked b) (bo_cls b) (bo_h b) (bo_st b).
  Definition set_children c b := BlkObj (bo_name b) (bo_parent b) c (bo_nin b) (bo_nout b)
    (bo_conn b) (bo_ibus b) (bo_obus b) (bo_linked b) (bo_cls b) (bo_h b) (bo_st b).
  Definition set_conn i o b := BlkObj (bo_name b) (bo_parent b) (bo_children b) (bo_nin b) (bo_nout b)
    true i o (bo_linked b) (bo_cls b) (bo_h b) (bo_st b).
  Definition set_linked k b := BlkObj (bo_name b) (bo_parent b) (bo_children b) (bo_nin b) (bo_nout b)
    (bo_conn b) (bo_ibus b) (bo_obus b) k (bo_cls b) (bo_h b) (bo_st b).
  Definition set_h h b := BlkObj (bo_name b) (bo_parent b) (bo_children b) (bo_nin b) (bo_nout b)
    (bo_conn b) (bo_ibus b) (bo_obus b) (bo_linked b) (bo_cls b) h (bo_st b).
  Definition set_cls c b := BlkObj (bo_name b) (bo_parent b) (bo_children b) (bo_nin b) (bo_nout b)
    (bo_conn b) (bo_ibus b) (bo_obus b) (bo_linked b) c (bo_h b) (bo_st b).
End bset.

Definition ty_fits (T : ty) (k : kind) : bool :=
  match T, k with
  | TyD, KScalar | TyI, KInt | TyB, KBool | TyA, KArray _ => true
  | _, _ => false
  end.
Definition is_bus (k : kind) : bool := match k with KBus => true | _ => false end.
Definition is_submodel {D} (c : cls D) : bool := match c with CSubmodel => true | _ => false end.
Definition is_user {D} (c : cls D) : bool := match c with CUser _ _ _ => true | _ => false end.

Section world.
  Context {D : Type} `{NumOps D}.
  Context (dbg : bool).
  Notation W := (M (world D)).

  Definition get_sig (s : sid) : W sigobj :=
    fun w => match w_sigs w !! s with Some o => Ok o w | None => UB UNull end.
  Definition put_sig (s : sid) (o : sigobj) : W unit :=
    modify (fun w => World (<[s := o]> (w_sigs w)) (w_blks w)).
  Definition get_blk (b : bid) : W (blkobj D) :=
    fun w => match w_blks w !! b with Some o => Ok o w | None => UB UNull end.
  Definition upd_blk (b : bid) (f : blkobj D -> blkobj D) : W unit :=
    modify (fun w => World (w_sigs w) (alter f b (w_blks w))).
  Definition alloc_sig (o : sigobj) : W sid :=
    fun w => Ok (length (w_sigs w)) (World (w_sigs w ++ [o]) (w_blks w)).
  Definition alloc_blk (o : blkobj D) : W bid :=
    fun w => Ok (length (w_blks w)) (World (w_sigs w) (w_blks w ++ [o])).

  (** Constructors of ScalarSignal, IntSignal, BoolSignal, ArraySignal. *)
  Definition new_signal (k : kind) (name : string) : W sid :=
    alloc_sig (SigObj (valid_name name) k None []).

  (** NamedObject::rename (named_object.hpp:79) on signals and blocks *)
  Definition rename_sig (s : sid) (name : string) : W unit :=
    o <~ get_sig s ;; put_sig s (SigObj (emend name) (so_kind o) (so_deriv o) (so_mem o)).
  Definition rename_blk (b : bid) (name : string) : W unit :=
    upd_blk b (set_name (emend name)).

  (** BusImpl constructor, body of the loop for pairs (bus.hpp:58-63). *)
  Definition bus_entry (label : string) (s : sid) : W (string * sid) :=
    let lb := valid_name label in
    o <~ get_sig s ;;
    (if String.eqb (so_name o) "" then rename_sig s lb else ret tt) ;;;
    ret (lb, s).
  Fixpoint bus_entries (l : list (string * sid)) : W bus :=
    match l with
    | [] => ret []
    | (lb, s) :: l' => e <~ bus_entry lb s ;; r <~ bus_entries l' ;; ret (e :: r)
    end.
  (** _make_auto_label (bus.hpp:143) *)
  Definition auto_label (k : nat) : string := "sig" +:+ pretty k.
  (** ... and for plain signals (bus.hpp:64-69). *)
  Fixpoint auto_pairs (k : nat) (l : list sid) : list (string * sid) :=
    match l with
    | [] => []
    | s :: l' => (auto_label k, s) :: auto_pairs (S k) l'
    end.

  (** The two Bus constructors (bus.hpp:151-157). *)
  Definition new_bus_labelled (l : list (string * sid)) (name : string) : W sid :=
    m <~ bus_entries l ;; alloc_sig (SigObj (valid_name name) KBus None m).
  Definition new_bus (l : list sid) (name : string) : W sid :=
    new_bus_labelled (auto_pairs 0 l) name.

  (** Members of a Bus. *)
  Definition bus_members (b : sid) : W bus :=
    o <~ get_sig b ;; if is_bus (so_kind o) then ret (so_mem o) else undef UType.

  (** BusImpl::at(std::size_t) (bus.hpp:83-87): std::vector::at *)
  Definition at_index (m : bus) (i : nat) : W sid :=
    match m !! i with Some e => ret (snd e) | None => throw EIndex end.
  (** BusImpl::operator[](std::size_t) (bus.hpp:89-94) *)
  Definition sub_index (m : bus) (i : nat) : W sid :=
    debug_verify dbg (Nat.ltb i (length m)) EIndex ;;;
    match m !! i with Some e => ret (snd e) | None => undef UIndex end.

  (** [label.find(".")] and the two [substr] calls: the part before the first dot
      and, if there is a dot, the part after it. *)
  Fixpoint cut_dot (s : string) : string * option string :=
    match s with
    | EmptyString => ("", None)
    | String c s' =>
        if Ascii.eqb c "." then ("", Some s')
        else let '(a, r) := cut_dot s' in (String c a, r)
    end.
  (** std::find_if over the labels (bus.hpp:102-103) *)
  Fixpoint find_label (m : bus) (lb : string) : option sid :=
    match m with
    | [] => None
    | (l, s) :: m' => if String.eqb l lb then Some s else find_label m' lb
    end.

  (** BusImpl::at(std::string_view) (bus.hpp:96-114).  The recursion shortens the
      label, [S (String.length label)] is enough fuel. *)
  Fixpoint at_fuel (fuel : nat) (m : bus) (label : string) : W sid :=
    match fuel with
    | O => fun _ => OOF
    | S fuel' =>
        match find_label m (fst (cut_dot label)) with
        | None => throw ELabel
        | Some s =>
            match snd (cut_dot label) with
            | None => ret s
            | Some rest =>
                o <~ get_sig s ;;
                verify (is_bus (so_kind o)) EType ;;;
                at_fuel fuel' (so_mem o) rest
            end
        end
    end.
  Definition at_label (m : bus) (label : string) : W sid :=
    at_fuel (S (String.length label)) m label.

  (** BusImpl::try_at (bus.hpp:116-136): the nested bus is reached by an unchecked
      static_cast (line 133), the test of line 134 is never true. *)
  Definition try_at (m : bus) (label : string) : W (option sid) :=
    match find_label m (fst (cut_dot label)) with
    | None => ret None
    | Some s =>
        match snd (cut_dot label) with
        | None => ret (Some s)
        | Some rest =>
            o <~ get_sig s ;;
            if is_bus (so_kind o) then (r <~ at_label (so_mem o) rest ;; ret (Some r))
            else undef UType
        end
    end.

  (** Signal::fail_if_invalid_signal_type and SignalT<T>::reset / the SignalT<T>
      constructors (signal.hpp:47-52, 73-90): binding a handle of type [T]. *)
  Definition bind_handle (T : ty) (s : sid) : W sid :=
    o <~ get_sig s ;; verify (ty_fits T (so_kind o)) EType ;;; ret s.
  (** The same for a Bus handle (bus.hpp:159-160). *)
  Definition bind_bus (s : sid) : W sid :=
    o <~ get_sig s ;; verify (is_bus (so_kind o)) EType ;;; ret s.

  (** FloatSignalImplT::set_deriv_signal (float_signal.hpp:39-44) of a signal of
      type [T]; the member is assigned before the sizes are compared. *)
  Definition kind_size (k : kind) : nat := match k with KArray n => n | _ => 1 end.
  Definition set_deriv (T : ty) (s ds : sid) : W unit :=
    od <~ get_sig ds ;;
    verify (ty_fits T (so_kind od)) EType ;;;
    o <~ get_sig s ;;
    put_sig s (SigObj (so_name o) (so_kind o) (Some ds) (so_mem o)) ;;;
    verify (Nat.eqb (kind_size (so_kind o)) (kind_size (so_kind od))) ESize.

  (** Submodel::link_block (submodel.cpp:112-125) *)
  Definition link_block (p b : bid) : W bool :=
    o <~ get_blk b ;;
    if bool_decide (bo_parent o = Some p) then
      op <~ get_blk p ;;
      (if bool_decide (b ∈ bo_children op) then ret tt
       else upd_blk p (fun x => set_children (bo_children x ++ [b]) x)) ;;;
      ret true
    else ret false.

  (** Block::Block (block.cpp:28-32).  Only a Submodel can be passed as parent. *)
  Definition new_block (c : cls D) (st : lstate D) (parent : option bid) (name : string)
      (nin nout : N) : W bid :=
    (match parent with
     | Some p => op <~ get_blk p ;; if is_submodel (bo_cls op) then ret tt else undef UType
     | None => ret tt
     end) ;;;
    b <~ alloc_blk (BlkObj (valid_name name) parent [] nin nout false [] [] [] c no_handles st) ;;
    (match parent with Some p => r <~ link_block p b ;; ret tt | None => ret tt end) ;;;
    ret b.

  (** Block::set_parent (block.cpp:34-46) *)
  Definition set_parent (b p : bid) : W bool :=
    op <~ get_blk p ;;
    if is_submodel (bo_cls op) then
      o <~ get_blk b ;;
      match bo_parent o with
      | Some p' => if Nat.eqb p' p then (upd_blk b (set_par (Some p)) ;;; r <~ link_block p b ;; ret true)
                   else ret false
      | None => upd_blk b (set_par (Some p)) ;;; r <~ link_block p b ;; ret true
      end
    else undef UType.

  (** Block::link_signal (block.cpp:96-111) on a list of pairs *)
  Fixpoint link_pair (ls : list (sid * N)) (s : sid) (f : N) : list (sid * N) :=
    match ls with
    | [] => [(s, f)]
    | (s', f') :: ls' => if Nat.eqb s' s then (s', N.lor f' f) :: ls' else (s', f') :: link_pair ls' s f
    end.
  Definition link_signal (b : bid) (s : sid) (f : N) : W unit :=
    o <~ get_sig s ;;
    if is_bus (so_kind o) then ret tt
    else upd_blk b (fun x => set_linked (link_pair (bo_linked x) s f) x).
  (** [ptr->second = g(ptr->second)] on the result of find_linked_signal
      (block.cpp:113-118), nothing if not found *)
  Fixpoint map_pair (ls : list (sid * N)) (s : sid) (g : N -> N) : list (sid * N) :=
    match ls with
    | [] => []
    | (s', f') :: ls' => if Nat.eqb s' s then (s', g f') :: ls' else (s', f') :: map_pair ls' s g
    end.
  Definition adjust_link (b : bid) (s : sid) (g : N -> N) : W unit :=
    upd_blk b (fun x => set_linked (map_pair (bo_linked x) s g) x).

  Definition port_ok (limit : N) (n : nat) : bool := N.eqb limit NoIOLimit || N.eqb (N.of_nat n) limit.

  (** Block::connect (block.cpp:48-89); [ib] and [ob] are Bus objects. *)
  Definition block_connect (b : bid) (ib ob : sid) : W unit :=
    im <~ bus_members ib ;;
    om <~ bus_members ob ;;
    o <~ get_blk b ;;
    verify (negb (bo_conn o)) EReconnect ;;;
    verify (port_ok (bo_nin o) (length im)) EPorts ;;;
    verify (port_ok (bo_nout o) (length om)) EPorts ;;;
    forM im (fun e => link_signal b (snd e) (N.lor fInput fRequired)) ;;;
    forM om (fun e => link_signal b (snd e) fOutput) ;;;
    upd_blk b (set_conn im om).

  (** Block::input / Block::output (block.hpp:75-96) by index and by label *)
  Definition input_at (b : bid) (i : nat) : W sid :=
    o <~ get_blk b ;; s <~ at_index (bo_ibus o) i ;;
    link_signal b s (N.lor fInput fRequired) ;;; ret s.
  Definition input_lb (b : bid) (lb : string) : W sid :=
    o <~ get_blk b ;; s <~ at_label (bo_ibus o) lb ;;
    link_signal b s (N.lor fInput fRequired) ;;; ret s.
  Definition output_at (b : bid) (i : nat) : W sid :=
    o <~ get_blk b ;; s <~ at_index (bo_obus o) i ;;
    link_signal b s fOutput ;;; ret s.

  (** SingleInputT::connect after Leaf::connect (singlei.hpp:45) *)
  Definition bind_in (b : bid) (T : ty) : W unit :=
    s <~ input_at b 0 ;; r <~ bind_handle T s ;;
    upd_blk b (fun x => let h := bo_h x in set_h (Handles (Some s) (h_out h) (h_x1 h) (h_x2 h)
                 (h_delay h) (h_initial h) (h_trig h)) x).
  (** SingleOutputT::connect after Base::connect (singleo.hpp:46) *)
  Definition bind_out (b : bid) (T : ty) : W unit :=
    s <~ output_at b 0 ;; r <~ bind_handle T s ;;
    upd_blk b (fun x => let h := bo_h x in set_h (Handles (h_in h) (Some s) (h_x1 h) (h_x2 h)
                 (h_delay h) (h_initial h) (h_trig h)) x).
  (** subtract.hpp:48-49, divide.hpp:48-49 *)
  Definition bind_x12 (b : bid) : W unit :=
    s1 <~ input_at b 0 ;; r1 <~ bind_handle TyD s1 ;;
    upd_blk b (fun x => let h := bo_h x in set_h (Handles (h_in h) (h_out h) (Some s1) (h_x2 h)
                 (h_delay h) (h_initial h) (h_trig h)) x) ;;;
    s2 <~ input_at b 1 ;; r2 <~ bind_handle TyD s2 ;;
    upd_blk b (fun x => let h := bo_h x in set_h (Handles (h_in h) (h_out h) (h_x1 h) (Some s2)
                 (h_delay h) (h_initial h) (h_trig h)) x).
  (** DelayT::connect after Base::connect (delay.hpp:51-54) *)
  Definition bind_delay (b : bid) (T : ty) : W unit :=
    s1 <~ input_lb b "in" ;; r1 <~ bind_handle T s1 ;;
    upd_blk b (fun x => let h := bo_h x in set_h (Handles (Some s1) (h_out h) (h_x1 h) (h_x2 h)
                 (h_delay h) (h_initial h) (h_trig h)) x) ;;;
    s2 <~ input_lb b "delay" ;; r2 <~ bind_handle TyD s2 ;;
    upd_blk b (fun x => let h := bo_h x in set_h (Handles (h_in h) (h_out h) (h_x1 h) (h_x2 h)
                 (Some s2) (h_initial h) (h_trig h)) x) ;;;
    s3 <~ input_lb b "initial" ;; r3 <~ bind_handle T s3 ;;
    upd_blk b (fun x => let h := bo_h x in set_h (Handles (h_in h) (h_out h) (h_x1 h) (h_x2 h)
                 (h_delay h) (Some s3) (h_trig h)) x).
  (** IntegratorBaseT::connect after Base::connect (integrator_base.hpp:51-61);
      [ptr->second & ~Required], [ptr->second | Required] *)
  Definition drop_req (f : N) : N := N.ldiff f fRequired.
  Definition add_req (f : N) : N := N.lor f fRequired.
  Definition bind_integ (b : bid) (T : ty) : W unit :=
    s <~ input_at b 0 ;;
    o <~ get_blk b ;;
    match h_out (bo_h o) with
    | None => undef UNull
    | Some so =>
        set_deriv T so s ;;;
        adjust_link b s drop_req ;;;
        adjust_link b so add_req
    end.
  (** TriggeredIntegratorT::connect after Base::connect (triggered_integrator.hpp:52) *)
  Definition bind_trig (b : bid) : W unit :=
    s <~ input_lb b "trigger" ;; r <~ bind_handle TyB s ;;
    upd_blk b (fun x => let h := bo_h x in set_h (Handles (h_in h) (h_out h) (h_x1 h) (h_x2 h)
                 (h_delay h) (h_initial h) (Some s)) x).
  (** The debug checks of AddT::connect and MultiplyT::connect (add.hpp:50-55) *)
  Definition check_inputs (b : bid) (T : ty) : W unit :=
    o <~ get_blk b ;;
    debug_verify dbg (Nat.leb 1 (length (bo_ibus o))) EPorts ;;;
    forM (bo_ibus o) (fun e =>
      os <~ get_sig (snd e) ;; debug_verify dbg (ty_fits T (so_kind os)) EType).
  (** MemoryT::connect after Base::connect (memory.hpp:50-53) *)
  Definition unrequire_in (b : bid) : W unit :=
    o <~ get_blk b ;;
    match h_in (bo_h o) with
    | None => undef UNull
    | Some s => adjust_link b s drop_req
    end.

  (** The virtual connect of all classes except the bus builders. *)
  Definition connect_simple (b : bid) (ib ob : sid) : W unit :=
    o <~ get_blk b ;;
    match bo_cls o with
    | CConst T _ | CSource T _ | CSO T _ =>
        block_connect b ib ob ;;; bind_out b T
    | CSISO T _ | CGain T _ | CPipe T =>
        block_connect b ib ob ;;; bind_in b T ;;; bind_out b T
    | CDeriv => block_connect b ib ob ;;; bind_in b TyD ;;; bind_out b TyD
    | CMemory T => block_connect b ib ob ;;; bind_in b T ;;; bind_out b T ;;; unrequire_in b
    | CAdd T _ | CMul T _ => block_connect b ib ob ;;; bind_out b T ;;; check_inputs b T
    | CSub | CDiv => block_connect b ib ob ;;; bind_out b TyD ;;; bind_x12 b
    | CDelay T _ => block_connect b ib ob ;;; bind_out b T ;;; bind_delay b T
    | CInteg T => block_connect b ib ob ;;; bind_out b T ;;; bind_integ b T
    | CTrig T => block_connect b ib ob ;;; bind_out b T ;;; bind_integ b T ;;; bind_trig b
    | CSources _ | CFunction _ | CUser _ _ _ | CSubmodel | CBusMem _ _ | CBusPipe _ =>
        block_connect b ib ob
    end.

  (** Submodel::add_block (submodel.cpp:127-132) for these classes *)
  Definition add_block_simple (p b : bid) (ib ob : sid) : W bool :=
    r <~ set_parent b p ;;
    if r : bool then connect_simple b ib ob ;;; ret true else ret false.

  (** BusMemory::_init_values is a std::map: at most one value per label; the
      first of two equal keys in the initializer list wins. *)
  Fixpoint find_init (l : list (string * val D)) (lb : string) : option (val D) :=
    match l with
    | [] => None
    | (k, v) :: l' => if String.eqb k lb then Some v else find_init l' lb
    end.
  Fixpoint erase_init (l : list (string * val D)) (lb : string) : list (string * val D) :=
    match l with
    | [] => []
    | (k, v) :: l' => if String.eqb k lb then erase_init l' lb else (k, v) :: erase_init l' lb
    end.

  (** The type of memory block and its initial value (bus_memory.cpp:60-89). *)
  Definition mem_ic (k : kind) (iv : option (val D)) : res unit (ty * val D) :=
    match k, iv with
    | KScalar, None => Ok (TyD, VS n0) tt
    | KScalar, Some (VS x) => Ok (TyD, VS x) tt
    | KInt, None => Ok (TyI, VI 0) tt
    | KInt, Some (VI x) => Ok (TyI, VI x) tt
    | KBool, None => Ok (TyB, VB false) tt
    | KBool, Some (VB x) => Ok (TyB, VB x) tt
    | KArray n, None => Ok (TyA, VA (replicate n n0)) tt
    | KArray n, Some (VA x) => Ok (TyA, VA x) tt
    | KBus, _ => Exn ENonValue tt
    | _, Some _ => Exn EVariant tt
    end.
  (** BusMemory::block_builder (bus_memory.cpp:57-99) *)
  Definition build_memory (b : bid) (label : string) (si so : sid) : W unit :=
    o <~ get_blk b ;;
    match bo_cls o with
    | CBusMem inits excl =>
        os <~ get_sig si ;;
        match mem_ic (so_kind os) (find_init inits label) with
        | Ok (T, v) _ =>
            m <~ new_block (CMemory T) (LMem v) (bo_parent o) "" 1 1 ;;
            upd_blk b (set_cls (CBusMem (erase_init inits label) excl)) ;;;
            rename_blk m label ;;;
            ib <~ new_bus [si] "" ;;
            ob <~ new_bus [so] "" ;;
            connect_simple m ib ob
        | Exn e _ => throw e
        | UB u => undef u
        | OOF => fun _ => OOF
        end
    | _ => undef UType
    end.
  Definition pipe_ty (k : kind) : option ty :=
    match k with KScalar => Some TyD | KInt => Some TyI | KBool => Some TyB
               | KArray _ => Some TyA | KBus => None end.
  (** BusPipe::block_builder (bus_pipe.cpp:33-67) *)
  Definition build_pipe (b : bid) (label : string) (si so : sid) : W unit :=
    o <~ get_blk b ;;
    os <~ get_sig si ;;
    match pipe_ty (so_kind os) with
    | None => throw ENonValue
    | Some T =>
        m <~ new_block (CPipe T) LNone None "" 1 1 ;;
        rename_blk m label ;;;
        ib <~ new_bus [si] "" ;;
        ob <~ new_bus [so] "" ;;
        match bo_parent o with
        | None => undef UNull
        | Some p => r <~ add_block_simple p m ib ob ;; ret tt
        end
    end.
  Definition builder_excl (c : cls D) : list string :=
    match c with CBusMem _ e | CBusPipe e => e | _ => [] end.
  Definition build_one (b : bid) (label : string) (si so : sid) : W unit :=
    o <~ get_blk b ;;
    match bo_cls o with
    | CBusMem _ _ => build_memory b label si so
    | CBusPipe _ => build_pipe b label si so
    | _ => undef UType
    end.

  Definition str_in (l : list string) (x : string) : bool := existsb (String.eqb x) l.

  (** BusBlockBuilder::visit_bus (bus_block_builder.cpp:41-65).  Members of a bus
      exist before the bus, so the identity of the bus bounds the recursion. *)
  Fixpoint visit_bus (fuel : nat) (b : bid) (excl : list string) (im om : bus)
      (prefix : string) (m : bus) {struct fuel} : W unit :=
    match fuel with
    | O => fun _ => OOF
    | S fuel' =>
        if str_in excl prefix then ret tt
        else
          forM m (fun e =>
            let '(label, s) := e in
            o <~ get_sig s ;;
            if is_bus (so_kind o) then
              visit_bus fuel' b excl im om (prefix +:+ label +:+ ".") (so_mem o)
            else
              let nl := prefix +:+ label in
              if str_in excl nl then ret tt
              else
                si <~ at_label im nl ;;
                so <~ at_label om nl ;;
                build_one b nl si so)
    end.

  (** The virtual connect of all classes; BusBlockBuilder::connect
      (bus_block_builder.cpp:27-39), BusMemory::connect (bus_memory.cpp:33-55). *)
  Definition connect (b : bid) (ib ob : sid) : W unit :=
    o <~ get_blk b ;;
    match bo_cls o with
    | CBusMem _ excl =>
        block_connect b ib ob ;;;
        im <~ bus_members ib ;; om <~ bus_members ob ;;
        visit_bus (S ib) b excl im om "" im ;;;
        o' <~ get_blk b ;;
        debug_verify dbg (match bo_cls o' with CBusMem [] _ => true | _ => false end) EUnusedInit
    | CBusPipe excl =>
        block_connect b ib ob ;;;
        im <~ bus_members ib ;; om <~ bus_members ob ;;
        visit_bus (S ib) b excl im om "" im
    | _ => connect_simple b ib ob
    end.

  (** Submodel::add_block (submodel.cpp:127-132) *)
  Definition add_block (p b : bid) (ib ob : sid) : W bool :=
    r <~ set_parent b p ;;
    if r : bool then connect b ib ob ;;; ret true else ret false.

  (** Block::full_name (block.cpp:91-94); does not terminate on a cycle. *)
  Fixpoint full_name (fuel : nat) (w : world D) (b : bid) : option string :=
    match fuel with
    | O => None
    | S fuel' =>
        match w_blks w !! b with
        | None => None
        | Some o =>
            match bo_parent o with
            | None => Some (name_slash "" (bo_name o))
            | Some p => match full_name fuel' w p with
                        | Some fp => Some (name_slash fp (bo_name o))
                        | None => None
                        end
            end
        end
    end.

  (** The model tree below a block, as a simulator sees it. *)
  Fixpoint compile (fuel : nat) (w : world D) (b : bid) : option (tree D) :=
    match fuel with
    | O => None
    | S fuel' =>
        match w_blks w !! b with
        | None => None
        | Some o =>
            if is_submodel (bo_cls o) then
              match mapM (compile fuel' w) (bo_children o) with
              | Some ch => Some (TSub b (bo_linked o) ch)
              | None => None
              end
            else Some (TLeaf (Leaf b (bo_cls o) (bo_ibus o) (bo_obus o) (bo_h o) (bo_linked o)))
        end
    end.
  Definition compile_model (w : world D) (b : bid) : option (tree D) :=
    compile (S (length (w_blks w))) w b.

  (** Signals and block members before the first simulation. *)
  Definition initial_store (w : world D) : store D :=
    list_to_map (omap (fun p => let '(i, o) := p in
                        if is_bus (so_kind o) then None
                        else Some (i, Cell (so_kind o) (so_deriv o) false None))
                  (imap (fun i o => (i, o)) (w_sigs w))).
  Definition initial_core (w : world D) : core D :=
    Core (initial_store w)
         (list_to_map (imap (fun i o => (i, bo_st o)) (w_blks w))) ∅ [].
  Definition initial_dyn (w : world D) : dyn D := Dyn (initial_core w) ∅.
End world.
