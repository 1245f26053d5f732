(** SimulatorBase, Simulator and FastSimulator (solver/simulator_base.*,
    simulator.*, fast_simulator.* ). *)
From stdpp Require Import prelude gmap strings.
From Coq Require Import ZArith.
From Verif Require Import Num Res Store Leaf Sched Stepper.

(** Which simulator: Simulator with reuse_order false or true, or FastSimulator. *)
Inductive mode := MDefault | MReuse | MFast.

(** What is fixed when a simulator is constructed, and the build. *)
Record cfg (D : Type) : Type := Cfg {
  g_dbg : bool;                            (* POOYA_DEBUG *)
  g_mode : mode;
  g_tree : tree D;                         (* _model *)
  g_inputs : option (D -> prog D unit);    (* _inputs_cb, simulator_base.hpp:51 *)
  g_icb : D -> prog D unit;                (* the virtual Block::input_cb of the model, block.hpp:64 *)
  g_stepper : option (stepper D);          (* _stepper, simulator_base.hpp:60 *)
  g_iter : list sid -> list sid;           (* the order in which an unordered_set of signals is iterated *)
  g_junk : D                               (* contents of freshly resized arrays *)
}.
Arguments Cfg {D}. Arguments g_dbg {D}. Arguments g_mode {D}. Arguments g_tree {D}.
Arguments g_inputs {D}. Arguments g_icb {D}. Arguments g_stepper {D}.
Arguments g_iter {D}. Arguments g_junk {D}.

(** State of a simulator together with the model it drives. *)
Record simst (D : Type) : Type := Simst {
  s_dyn : dyn D;
  s_po1 : list (node D);             (* _processing_order1, simulator.hpp:43 *)
  s_po2 : list (node D);             (* _processing_order2, simulator.hpp:44 *)
  s_cur : option bool;               (* _current_po: null, &_processing_order1 (true) or 2 (false) *)
  s_fast : list (list (leaf D));     (* FastSimulator::_processing_order *)
  s_tprev : D;                       (* _t_prev *)
  s_vsigs : list sid;                (* value_signals_ *)
  s_scal : list sid;                 (* scalar_state_signals_ *)
  s_arr : list sid;                  (* array_state_signals_ *)
  s_sv : list D;                     (* _state_variables *)
  s_svo : list D;                    (* _state_variables_orig *)
  s_dv : list D;                     (* _state_variable_derivs *)
  s_init : bool                      (* _initialized *)
}.
Arguments Simst {D}. Arguments s_dyn {D}. Arguments s_po1 {D}. Arguments s_po2 {D}.
Arguments s_cur {D}. Arguments s_fast {D}. Arguments s_tprev {D}. Arguments s_vsigs {D}.
Arguments s_scal {D}. Arguments s_arr {D}. Arguments s_sv {D}. Arguments s_svo {D}.
Arguments s_dv {D}. Arguments s_init {D}.

Section upd.
  Context {D : Type}.
  Implicit Types s : simst D.
  Definition put_dyn d s := Simst d (s_po1 s) (s_po2 s) (s_cur s) (s_fast s) (s_tprev s)
    (s_vsigs s) (s_scal s) (s_arr s) (s_sv s) (s_svo s) (s_dv s) (s_init s).
  Definition put_po p1 p2 cur s := Simst (s_dyn s) p1 p2 cur (s_fast s) (s_tprev s)
    (s_vsigs s) (s_scal s) (s_arr s) (s_sv s) (s_svo s) (s_dv s) (s_init s).
  Definition put_fast f s := Simst (s_dyn s) (s_po1 s) (s_po2 s) (s_cur s) f (s_tprev s)
    (s_vsigs s) (s_scal s) (s_arr s) (s_sv s) (s_svo s) (s_dv s) (s_init s).
  Definition put_tprev t s := Simst (s_dyn s) (s_po1 s) (s_po2 s) (s_cur s) (s_fast s) t
    (s_vsigs s) (s_scal s) (s_arr s) (s_sv s) (s_svo s) (s_dv s) (s_init s).
  Definition put_sv x s := Simst (s_dyn s) (s_po1 s) (s_po2 s) (s_cur s) (s_fast s) (s_tprev s)
    (s_vsigs s) (s_scal s) (s_arr s) x (s_svo s) (s_dv s) (s_init s).
  Definition put_svo x s := Simst (s_dyn s) (s_po1 s) (s_po2 s) (s_cur s) (s_fast s) (s_tprev s)
    (s_vsigs s) (s_scal s) (s_arr s) (s_sv s) x (s_dv s) (s_init s).
  Definition put_dv x s := Simst (s_dyn s) (s_po1 s) (s_po2 s) (s_cur s) (s_fast s) (s_tprev s)
    (s_vsigs s) (s_scal s) (s_arr s) (s_sv s) (s_svo s) x (s_init s).
  Definition s_core s : core D := d_core (s_dyn s).
  Definition s_store s : store D := k_store (s_core s).
  Definition s_log s : list (event D) := k_log (s_core s).
End upd.

(** A freshly constructed simulator on a model in state [d]
    (simulator_base.cpp:27-31 and the member initialisers). *)
Definition new_sim {D} `{NumOps D} (d : dyn D) : simst D :=
  Simst d [] [] None [] n0 [] [] [] [] [] [] false.

Definition on_dyn {D A} : M (dyn D) A -> M (simst D) A := lift s_dyn put_dyn.
Definition on_core' {D A} (m : M (core D) A) : M (simst D) A := on_dyn (on_core m).
Definition on_store' {D A} (m : M (store D) A) : M (simst D) A := on_core' (on_store m).

Section sim.
  Context {D : Type} `{NumOps D}.
  Context (g : cfg D).
  Local Open Scope num_scope.
  Notation dbg := (g_dbg g).
  Notation tr := (g_tree g).

  (** [if (_inputs_cb) _inputs_cb(_model, t); _model.input_cb(t);]
      (simulator_base.cpp:179-183 and five more places) *)
  Definition inputs (t : D) : M (core D) unit :=
    emit (EvInputs t) ;;;
    (match g_inputs g with Some f => on_store (run_prog dbg (f t)) | None => ret tt end) ;;;
    on_store (run_prog dbg (g_icb g t)).

  (** The evaluation part of process_model. *)
  Definition eval_model (t : D) : M (simst D) unit :=
    match g_mode g with
    | MFast =>                                           (* fast_simulator.cpp:37-38 *)
        o <~ gets s_fast ;; on_core' (fast_eval dbg o t)
    | MDefault =>                                        (* simulator.cpp:43,84-86 *)
        on_dyn (modify (mark_unprocessed tr)) ;;;
        on_dyn (process_all dbg tr t)
    | MReuse =>                                          (* simulator.cpp:43,45-81 *)
        on_dyn (modify (mark_unprocessed tr)) ;;;
        cur <~ gets s_cur ;;
        match cur with
        | None => undef UNull
        | Some true =>
            po <~ gets s_po1 ;;
            po' <~ on_dyn (reuse_all dbg po t) ;;
            modify (fun s => put_po (s_po1 s) po' (Some false) s)
        | Some false =>
            po <~ gets s_po2 ;;
            po' <~ on_dyn (reuse_all dbg po t) ;;
            modify (fun s => put_po po' (s_po2 s) (Some true) s)
        end
    end.

  (** Simulator::process_model and FastSimulator::process_model
      (simulator.cpp:31-121, fast_simulator.cpp:25-41).  The debug output of
      lines 89-118 has no effect on the model; [snap] is ghost. *)
  Definition process_model (t : D) (call_pre_step call_post_step : bool) : M (simst D) unit :=
    on_core' (inputs t) ;;;
    (if call_pre_step then on_core' (pre_step dbg tr t ;;; snap (EvBegin t)) else ret tt) ;;;
    eval_model t ;;;
    on_core' (snap (EvEval t)) ;;;
    (if call_post_step then on_core' (post_step dbg tr t ;;; snap (EvStep t)) else ret tt).

  (** [for (auto& sig : value_signals_) sig->clear();] *)
  Definition clear_all : M (simst D) unit :=
    vs <~ gets s_vsigs ;; on_store' (forM vs clear_sig).

  (** All signals linked to blocks of the model, without repetition: the
      insertions into [value_signals] (simulator_base.cpp:45-79).  Only the set
      matters, the iteration order is [g_iter]. *)
  Definition linked_signals (t : tree D) : list sid :=
    remove_dups (concat (map (fun n => map fst (node_linked n)) (nodes t))).
  Definition is_scalar_state (σ : store D) (s : sid) : bool :=
    match σ !! s with
    | Some c => match c_kind c, c_deriv c with KScalar, Some _ => true | _, _ => false end
    | None => false
    end.
  Definition is_array_state (σ : store D) (s : sid) : bool :=
    match σ !! s with
    | Some c => match c_kind c, c_deriv c with KArray _, Some _ => true | _, _ => false end
    | None => false
    end.
  Definition sig_size (σ : store D) (s : sid) : nat :=
    match σ !! s with
    | Some c => match c_kind c with KArray n => n | _ => 1 end
    | None => 0
    end.

  (** Eigen's resize: keeps the contents if the size does not change. *)
  Definition resize (n : nat) (x : list D) : list D :=
    if Nat.eqb (length x) n then x else replicate n (g_junk g).

  (** SimulatorBase::init (simulator_base.cpp:33-117); the three member vectors
      are appended to, not replaced. *)
  Definition base_init (t0 : D) : M (simst D) unit :=
    modify (fun s =>
      let σ := s_store s in
      let all := linked_signals tr in
      let scal := List.filter (is_scalar_state σ) all in
      let arr := List.filter (is_array_state σ) all in
      let n := (length scal + sum_list (map (sig_size σ) arr))%nat in
      Simst (s_dyn s) (s_po1 s) (s_po2 s) (s_cur s) (s_fast s) t0
        (s_vsigs s ++ g_iter g all) (s_scal s ++ g_iter g scal) (s_arr s ++ g_iter g arr)
        (resize n (s_sv s)) (resize n (s_svo s)) (resize n (s_dv s)) (s_init s)) ;;;
    clear_all ;;;
    modify (fun s => Simst (s_dyn s) (s_po1 s) (s_po2 s) (s_cur s) (s_fast s) (s_tprev s)
      (s_vsigs s) (s_scal s) (s_arr s) (s_sv s) (s_svo s) (s_dv s) true).

  (** Simulator::init (simulator.cpp:123-157) *)
  Definition simulator_init (t0 : D) : M (simst D) unit :=
    base_init t0 ;;;
    n <~ gets (fun s => length (s_sv s)) ;;
    (match g_mode g, n with
     | MReuse, S _ =>
         p1 <~ gets s_po1 ;; p2 <~ gets s_po2 ;;
         debug_verify dbg (match p1 with [] => true | _ => false end) EAssert ;;;
         debug_verify dbg (match p2 with [] => true | _ => false end) EAssert ;;;
         modify (fun s => put_po (s_po1 s ++ nodes tr) (s_po2 s) (Some true) s)
     | _, _ => ret tt
     end) ;;;
    process_model t0 true true.

  (** FastSimulator::init (fast_simulator.cpp:43-120).  In a release build a
      second call would append to [_processing_order]. *)
  Definition fast_init (t0 : D) : M (simst D) unit :=
    base_init t0 ;;;
    o0 <~ gets s_fast ;;
    debug_verify dbg (match o0 with [] => true | _ => false end) EAssert ;;;
    on_core' (inputs t0) ;;;
    on_core' (pre_step dbg tr t0 ;;; snap (EvBegin t0)) ;;;
    r <~ on_core' (fast_schedule dbg (leaves tr) t0) ;;
    modify (fun s => put_fast (s_fast s ++ fst r) s) ;;;
    verify (Nat.eqb (snd r) (length (leaves tr))) EFast ;;;
    on_core' (snap (EvEval t0)) ;;;
    clear_all ;;;
    process_model t0 true true.

  (** the virtual init *)
  Definition init (t0 : D) : M (simst D) unit :=
    match g_mode g with
    | MFast => fast_init t0
    | _ => simulator_init t0
    end.

  (** Writing [xs] through a [double*] into the array [arr]. *)
  Definition write_prefix (xs arr : list D) : option (list D) :=
    if Nat.leb (length xs) (length arr) then Some (xs ++ drop (length xs) arr) else None.

  (** reset_with_state_variables (simulator_base.cpp:246-266): set the state
      signals from consecutive elements of [sv]. *)
  Fixpoint set_scalars (ss : list sid) (sv : list D) : M (store D) (list D) :=
    match ss with
    | [] => ret sv
    | s :: ss' =>
        match sv with
        | [] => undef UIndex
        | x :: sv' => set_value dbg s (VS x) ;;; set_scalars ss' sv'
        end
    end.
  Fixpoint set_arrays (ss : list sid) (sv : list D) : M (store D) (list D) :=
    match ss with
    | [] => ret sv
    | s :: ss' =>
        n <~ gets (fun σ => sig_size σ s) ;;
        if Nat.leb n (length sv) then
          set_value dbg s (VA (take n sv)) ;;; set_arrays ss' (drop n sv)
        else undef UIndex
    end.
  Definition reset_sv (sv : list D) : M (simst D) unit :=
    clear_all ;;;
    ss <~ gets s_scal ;;
    aa <~ gets s_arr ;;
    on_store' (rest <~ set_scalars ss sv ;; rest' <~ set_arrays aa rest ;; ret tt).

  (** Reading a scalar or array signal into consecutive elements
      (simulator_base.cpp:131-143 and 273-283). *)
  Definition get_scalar (s : sid) : M (store D) (list D) :=
    v <~ get_value dbg s ;; match v with VS x => ret [x] | _ => undef UType end.
  Definition get_array (s : sid) : M (store D) (list D) :=
    n <~ gets (fun σ => sig_size σ s) ;;
    v <~ get_value dbg s ;;
    match v with
    | VA x => if Nat.eqb (length x) n then ret x else undef UArith
    | _ => undef UType
    end.
  Fixpoint collect (f : sid -> M (store D) (list D)) (ss : list sid) : M (store D) (list D) :=
    match ss with
    | [] => ret []
    | s :: ss' => x <~ f s ;; r <~ collect f ss' ;; ret (x ++ r)
    end.

  (** get_state_variables (simulator_base.cpp:268-285), returning the new
      contents of the array passed. *)
  Definition get_sv (arr : list D) : M (simst D) (list D) :=
    n <~ gets (fun s => length (s_sv s)) ;;
    debug_verify dbg (Nat.eqb (length arr) n) EAssert ;;;
    ss <~ gets s_scal ;;
    aa <~ gets s_arr ;;
    x <~ on_store' (x1 <~ collect get_scalar ss ;; x2 <~ collect get_array aa ;; ret (x1 ++ x2)) ;;
    match write_prefix x arr with Some r => ret r | None => undef UIndex end.

  (** [sig->deriv_signal()] then get_value *)
  Definition deriv_of (get : sid -> M (store D) (list D)) (s : sid) : M (store D) (list D) :=
    o <~ gets (fun σ : store D => match σ !! s with Some c => c_deriv c | None => None end) ;;
    match o with Some ds => get ds | None => undef UNull end.

  (** minor_solver_step_cb (simulator_base.cpp:123-146) *)
  Definition minor_cb (t : D) (sv : list D) : M (simst D) (list D) :=
    reset_sv sv ;;;
    process_model t false false ;;;
    ss <~ gets s_scal ;;
    aa <~ gets s_arr ;;
    x <~ on_store' (x1 <~ collect (deriv_of get_scalar) ss ;;
                    x2 <~ collect (deriv_of get_array) aa ;; ret (x1 ++ x2)) ;;
    dv <~ gets s_dv ;;
    match write_prefix x dv with
    | Some r => modify (put_dv r) ;;; ret r
    | None => undef UIndex
    end.

  (** simulator_base.cpp:175-184 and 200-209 *)
  Definition begin_step (t : D) : M (simst D) unit :=
    clear_all ;;; on_core' (inputs t) ;;; on_core' (pre_step dbg tr t ;;; snap (EvBegin t)).

  (** [std::max(min_time_step, std::min(new_h, max_time_step))] (lines 219, 233) *)
  Definition clip (lo hi x : D) : D := nmax lo (nmin x hi).

  (** The while loop of run (simulator_base.cpp:198-236). *)
  Fixpoint run_loop (fuel : nat) (t lo hi : D) (t1 t2 : D) (force : bool) : M (simst D) unit :=
    if t1 <? t then
      match fuel with
      | O => fun _ => OOF
      | S fuel' =>
          begin_step t1 ;;;
          o <~ gets s_svo ;; x <~ get_sv o ;; modify (put_svo x) ;;;
          match g_stepper g with
          | None => undef UNull
          | Some stp =>
              r <~ stp _ minor_cb t1 x t2 ;;
              modify (put_sv (fst r)) ;;;
              on_core' (emit (EvTry t1 x t2 (fst r) (snd r))) ;;;
              let new_h := snd r in
              let h := t2 - t1 in
              if force || (h <=? new_h) || (h <=? lo) then
                let new_h' := clip lo hi new_h in
                let t1' := t2 in
                let t2' := nmin (t1' + new_h') t in
                (if t1' <? t then
                   sv <~ gets s_sv ;; reset_sv sv ;;; process_model t1' false true
                 else ret tt) ;;;
                run_loop fuel' t lo hi t1' t2' false
              else
                let force' := new_h <=? lo in
                let new_h' := clip lo hi new_h in
                run_loop fuel' t lo hi t1 (t1 + new_h') force'
          end
      end
    else ret tt.

  (** SimulatorBase::run (simulator_base.cpp:119-244) *)
  Definition run (fuel : nat) (t lo hi : D) : M (simst D) unit :=
    ini <~ gets s_init ;;
    if negb ini then init t
    else
      n <~ gets (fun s => length (s_sv s)) ;;
      tp <~ gets s_tprev ;;
      (match n with
       | O => ret tt
       | S _ =>
           if t <? tp then throw EBackInTime
           else if t =? tp then
             begin_step t ;;;
             o <~ gets s_sv ;; x <~ get_sv o ;; modify (put_sv x)
           else
             debug_verify dbg (match g_stepper g with Some _ => true | None => false end) EAssert ;;;
             debug_verify dbg (n0 <? lo) EAssert ;;;
             debug_verify dbg (lo <? hi) EAssert ;;;
             run_loop fuel t lo hi tp t false
       end) ;;;
      sv <~ gets s_sv ;;
      reset_sv sv ;;;
      process_model t (match n with O => true | S _ => false end) true ;;;
      modify (put_tprev t).
End sim.
