(** Lifetimes of blocks.  Parent and child refer to each other by plain pointers
    (block.hpp:121, submodel.hpp:63), simulators to the model by a reference and to
    its blocks by plain pointers (simulator_base.hpp:49, simulator.hpp:41-46,
    fast_simulator.hpp:42), and the destructor of a block (block.hpp:59) tells nobody.
    The functions below are those of Visit.v, Sched.v and Sim.v once more, with every
    access to a block made explicit: it is undefined when the block does not exist any
    more. *)
From stdpp Require Import prelude gmap strings.
From Coq Require Import ZArith.
From Verif Require Import Num Res Store Leaf Sched Stepper Sim Visit World Api.

(** The classes that override Block::pre_step and Block::post_step (block.hpp:65-66)
    and trace there: integrator_base.hpp:65-77, triggered_integrator.hpp:57-59,
    memory.hpp:58-60, derivative.hpp:42-44, delay.hpp:59-61.  What a user class does is up
    to it; here it traces. *)
Definition has_pre {D} (c : cls D) : bool :=
  match c with CInteg _ | CTrig _ | CUser _ _ _ => true | _ => false end.
Definition has_post {D} (c : cls D) : bool :=
  match c with CInteg _ | CTrig _ | CMemory _ | CDeriv | CDelay _ _ | CUser _ _ _ => true | _ => false end.

Section life.
  Context {D : Type} `{NumOps D}.
  Context (dbg : bool).
  Context (w : world D).
  (** the blocks that have been destroyed *)
  Context (dead : gset bid).

  (** Access to a member of block [b]. *)
  Definition deref {S} (b : bid) : M S unit :=
    if bool_decide (b ∈ dead) then undef UDead else ret tt.
  (** The accesses of Block::full_name (block.cpp:91-94), which asks the parent first;
      with the fuel of [full_name]. *)
  Fixpoint climb {S} (fuel : nat) (b : bid) : M S unit :=
    match fuel with
    | O => fun _ => OOF
    | Datatypes.S fuel' =>
        deref b ;;;
        match w_blks w !! b with
        | None => undef UNull
        | Some o => match bo_parent o with Some p => climb fuel' p | None => ret tt end
        end
    end.
  (** [pooya_trace("block: " + full_name().str())] (trace.hpp:59-62): nothing in a
      release build (trace.hpp:29-32). *)
  Definition trace {S} (b : bid) : M S unit :=
    if dbg then climb (Datatypes.S (length (w_blks w))) b else ret tt.
  (** A call of a member function that traces. *)
  Definition use_blk {S} (b : bid) : M S unit := deref b ;;; trace b.

  (** Block::visit and Submodel::visit (block.hpp:101-112, submodel.cpp:58-110) *)
  Section visit.
    Context {S : Type} (cb : node D -> nat -> M S bool) (max_level : nat).
    Fixpoint lvisit (tr : tree D) (level : nat) : M S bool :=
      match tr with
      | TLeaf l => use_blk (l_id l) ;;; visit1 cb max_level (NLeaf l) level
      | TSub b k ch =>
          use_blk b ;;;
          if Nat.ltb max_level level then ret true
          else
            r <~ visit1 cb max_level (NSub b k) level ;;
            if negb r then ret false
            else if Nat.ltb level max_level then
              (fix go (ch : list (tree D)) : M S bool :=
                 match ch with
                 | [] => ret true
                 | c :: ch' => q <~ lvisit c (level + 1) ;; if q : bool then go ch' else ret false
                 end) ch
            else ret true
      end.
  End visit.

  (** _mark_unprocessed (block.cpp:120-123, submodel.cpp:26-35, bus_block_builder.cpp:67-70) *)
  Fixpoint lmark (tr : tree D) : M (dyn D) unit :=
    match tr with
    | TLeaf l => deref (l_id l) ;;; modify (mark_unprocessed (TLeaf l))
    | TSub b _ ch =>
        use_blk b ;;;
        modify (fun d => Dyn (d_core d) (d_sdone d ∖ {[b]})) ;;;
        (fix go (ch : list (tree D)) : M (dyn D) unit :=
           match ch with
           | [] => ret tt
           | c :: ch' => lmark c ;;; go ch'
           end) ch
    end.

  (** pre_step and post_step (block.hpp:65-66, submodel.hpp:38-54) *)
  Fixpoint lpre_step (tr : tree D) (t : D) : M (core D) unit :=
    match tr with
    | TLeaf l =>
        deref (l_id l) ;;; (if has_pre (l_cls l) then trace (l_id l) else ret tt) ;;;
        run_leaf dbg (EvPre (l_id l) t) l (pre l t)
    | TSub b _ ch =>
        use_blk b ;;;
        (fix go (ch : list (tree D)) : M (core D) unit :=
           match ch with
           | [] => ret tt
           | c :: ch' => lpre_step c t ;;; go ch'
           end) ch
    end.
  Fixpoint lpost_step (tr : tree D) (t : D) : M (core D) unit :=
    match tr with
    | TLeaf l =>
        deref (l_id l) ;;; (if has_post (l_cls l) then trace (l_id l) else ret tt) ;;;
        run_leaf dbg (EvPost (l_id l) t) l (post l t)
    | TSub b _ ch =>
        use_blk b ;;;
        (fix go (ch : list (tree D)) : M (core D) unit :=
           match ch with
           | [] => ret tt
           | c :: ch' => lpost_step c t ;;; go ch'
           end) ch
    end.

  (** Leaf::process and Submodel::process (leaf.cpp:23-35, submodel.cpp:37-56) *)
  Fixpoint lprocess (tr : tree D) (t : D) : M (dyn D) nat :=
    match tr with
    | TLeaf l => use_blk (l_id l) ;;; on_core (leaf_process dbg l t)
    | TSub b _ ch =>
        use_blk b ;;;
        p <~ gets (fun d => is_sdone d b) ;;
        if p : bool then ret 0
        else
          set_sdone b ;;;
          (fix go (ch : list (tree D)) (n : nat) : M (dyn D) nat :=
             match ch with
             | [] => ret n
             | c :: ch' =>
                 k <~ lprocess c t ;;
                 q <~ gets (tree_processed c) ;;
                 (if q : bool then ret tt else unset_sdone b) ;;;
                 go ch' (n + k)
             end) ch 0
    end.
  (** [while (_model.process(t)) {}] (simulator.cpp:84-86) *)
  Fixpoint lprocess_loop (fuel : nat) (tr : tree D) (t : D) : M (dyn D) unit :=
    match fuel with
    | O => fun _ => OOF
    | S fuel' =>
        k <~ lprocess tr t ;;
        match k with
        | O => ret tt
        | S _ => lprocess_loop fuel' tr t
        end
    end.
  Definition lprocess_all (tr : tree D) (t : D) : M (dyn D) unit :=
    lprocess_loop (S (length (leaves tr))) tr t.

  (** The reuse-order branch (simulator.cpp:45-81) *)
  Definition lnode_process (n : node D) (t : D) : M (dyn D) unit :=
    use_blk (node_id n) ;;; node_process dbg n t.
  Fixpoint lreuse_pass (po : list (node D)) (t : D) : M (dyn D) (list (node D)) :=
    match po with
    | [] => ret []
    | n :: po' =>
        deref (node_id n) ;;;
        p <~ gets (node_processed n) ;;
        if p : bool then lreuse_pass po' t
        else
          lnode_process n t ;;;
          q <~ gets (node_processed n) ;;
          r <~ lreuse_pass po' t ;;
          ret (if q : bool then n :: r else r)
    end.
  Fixpoint lreuse_loop (fuel : nat) (po : list (node D)) (t : D) (acc : list (node D))
    : M (dyn D) (list (node D)) :=
    match fuel with
    | O => fun _ => OOF
    | S fuel' =>
        r <~ lreuse_pass po t ;;
        match r with
        | [] => ret acc
        | _ => lreuse_loop fuel' po t (acc ++ r)
        end
    end.
  Definition lreuse_all (po : list (node D)) (t : D) : M (dyn D) (list (node D)) :=
    acc <~ lreuse_loop (S (length po)) po t [] ;;
    forM po (fun n => deref (node_id n)) ;;;
    rest <~ gets (fun d => List.filter (fun n => negb (node_processed n d)) po) ;;
    debug_verify dbg (Nat.eqb (length po) (length (acc ++ rest))) EAssert ;;;
    ret (acc ++ rest).

  (** FastSimulator (fast_simulator.cpp:37-38 and 77-110).  The loops of init only
      handle blocks that were visited just before, so they are not repeated here. *)
  Definition lfast_eval (order : list (list (leaf D))) (t : D) : M (core D) unit :=
    forM order (fun ls => forM ls (fun l =>
      deref (l_id l) ;;; (if is_builder (l_cls l) then ret tt else trace (l_id l)) ;;; activate dbg l t)).

End life.

Section lsim.
  Context {D : Type} `{NumOps D}.
  Context (w : world D) (dead : gset bid).
  Context (g : cfg D).
  Notation tr := (g_tree g).
  Notation dbg := (g_dbg g).
  (** the block passed to the simulator *)
  Definition root_id : bid := match tr with TLeaf l => l_id l | TSub b _ _ => b end.
  (** [_model.visit(cb, 0)] with a callback that only looks; the number of blocks stands
      for the default depth limit, the largest 32-bit number. *)
  Definition lvisit_all : M (simst D) unit :=
    r <~ lvisit dbg w dead (fun _ _ => ret true) (length (nodes tr)) tr 0 ;; ret tt.

  (** The evaluation part of process_model; in a debug build Simulator then looks for
      unprocessed blocks with a visitor and prints their names (simulator.cpp:89-118). *)
  Definition leval_model (t : D) : M (simst D) unit :=
    match g_mode g with
    | MFast => o <~ gets s_fast ;; on_core' (lfast_eval dbg w dead o t)
    | MDefault =>
        on_dyn (lmark dbg w dead tr) ;;;
        on_dyn (lprocess_all dbg w dead tr t) ;;;
        (if dbg then lvisit_all else ret tt)
    | MReuse =>
        on_dyn (lmark dbg w dead tr) ;;;
        cur <~ gets s_cur ;;
        match cur with
        | None => undef UNull
        | Some true =>
            po <~ gets s_po1 ;;
            po' <~ on_dyn (lreuse_all dbg w dead po t) ;;
            modify (fun s => put_po (s_po1 s) po' (Some false) s)
        | Some false =>
            po <~ gets s_po2 ;;
            po' <~ on_dyn (lreuse_all dbg w dead po t) ;;
            modify (fun s => put_po po' (s_po2 s) (Some true) s)
        end ;;;
        (if dbg then lvisit_all else ret tt)
    end.
  (** Simulator::process_model and FastSimulator::process_model
      (simulator.cpp:31-121, fast_simulator.cpp:25-41); [_model.input_cb(t)] is a call. *)
  Definition lprocess_model (t : D) (call_pre_step call_post_step : bool) : M (simst D) unit :=
    deref dead root_id ;;;
    on_core' (inputs g t) ;;;
    (if call_pre_step then on_core' (lpre_step dbg w dead tr t ;;; snap (EvBegin t)) else ret tt) ;;;
    leval_model t ;;;
    on_core' (snap (EvEval t)) ;;;
    (if call_post_step then on_core' (lpost_step dbg w dead tr t ;;; snap (EvStep t)) else ret tt).

  (** Simulator::init and FastSimulator::init: SimulatorBase::init visits every block
      (simulator_base.cpp:45-79), the other two do so once or twice more
      (simulator.cpp:135-150, fast_simulator.cpp:52-68). *)
  Definition linit (t0 : D) : M (simst D) unit :=
    lvisit_all ;;;
    match g_mode g with
    | MFast =>
        base_init g t0 ;;;
        o0 <~ gets s_fast ;;
        debug_verify dbg (match o0 with [] => true | _ => false end) EAssert ;;;
        lvisit_all ;;;
        on_core' (inputs g t0) ;;;
        on_core' (lpre_step dbg w dead tr t0 ;;; snap (EvBegin t0)) ;;;
        r <~ on_core' (fast_schedule dbg (leaves tr) t0) ;;
        modify (fun s => put_fast (s_fast s ++ fst r) s) ;;;
        verify (Nat.eqb (snd r) (length (leaves tr))) EFast ;;;
        on_core' (snap (EvEval t0)) ;;;
        clear_all ;;;
        lprocess_model t0 true true
    | _ =>
        base_init g t0 ;;;
        n <~ gets (fun s => length (s_sv s)) ;;
        (match g_mode g, n with
         | MReuse, S _ =>
             p1 <~ gets s_po1 ;; p2 <~ gets s_po2 ;;
             debug_verify dbg (match p1 with [] => true | _ => false end) EAssert ;;;
             debug_verify dbg (match p2 with [] => true | _ => false end) EAssert ;;;
             lvisit_all ;;;
             modify (fun s => put_po (s_po1 s ++ nodes tr) (s_po2 s) (Some true) s)
         | _, _ => ret tt
         end) ;;;
        lprocess_model t0 true true
    end.

  (** minor_solver_step_cb (simulator_base.cpp:123-146) *)
  Definition lminor_cb (t : D) (sv : list D) : M (simst D) (list D) :=
    reset_sv g sv ;;;
    lprocess_model t false false ;;;
    ss <~ gets s_scal ;;
    aa <~ gets s_arr ;;
    x <~ on_store' (x1 <~ collect (deriv_of (get_scalar g)) ss ;;
                    x2 <~ collect (deriv_of (get_array g)) aa ;; ret (x1 ++ x2)) ;;
    dv <~ gets s_dv ;;
    match write_prefix x dv with
    | Some r => modify (put_dv r) ;;; ret r
    | None => undef UIndex
    end.
  (** simulator_base.cpp:175-184 and 200-209 *)
  Definition lbegin_step (t : D) : M (simst D) unit :=
    clear_all ;;; deref dead root_id ;;; on_core' (inputs g t) ;;;
    on_core' (lpre_step dbg w dead tr t ;;; snap (EvBegin t)).
  (** SimulatorBase::run (simulator_base.cpp:119-244) *)
  Local Open Scope num_scope.
  Fixpoint lrun_loop (fuel : nat) (t lo hi : D) (t1 t2 : D) (force : bool) : M (simst D) unit :=
    if t1 <? t then
      match fuel with
      | O => fun _ => OOF
      | S fuel' =>
          lbegin_step t1 ;;;
          o <~ gets s_svo ;; x <~ get_sv g o ;; modify (put_svo x) ;;;
          match g_stepper g with
          | None => undef UNull
          | Some stp =>
              r <~ stp _ lminor_cb t1 x t2 ;;
              modify (put_sv (fst r)) ;;;
              on_core' (emit (EvTry t1 x t2 (fst r) (snd r))) ;;;
              let new_h := snd r in
              let h := t2 - t1 in
              if force || (h <=? new_h) || (h <=? lo) then
                let new_h' := clip lo hi new_h in
                let t1' := t2 in
                let t2' := nmin (t1' + new_h') t in
                (if t1' <? t then
                   sv <~ gets s_sv ;; reset_sv g sv ;;; lprocess_model t1' false true
                 else ret tt) ;;;
                lrun_loop fuel' t lo hi t1' t2' false
              else
                let force' := new_h <=? lo in
                let new_h' := clip lo hi new_h in
                lrun_loop fuel' t lo hi t1 (t1 + new_h') force'
          end
      end
    else ret tt.
  Definition lrun (fuel : nat) (t lo hi : D) : M (simst D) unit :=
    ini <~ gets s_init ;;
    if negb ini then linit t
    else
      n <~ gets (fun s => length (s_sv s)) ;;
      tp <~ gets s_tprev ;;
      (match n with
       | O => ret tt
       | S _ =>
           if t <? tp then throw EBackInTime
           else if t =? tp then
             lbegin_step t ;;;
             o <~ gets s_sv ;; x <~ get_sv g o ;; modify (put_sv x)
           else
             debug_verify dbg (match g_stepper g with Some _ => true | None => false end) EAssert ;;;
             debug_verify dbg (n0 <? lo) EAssert ;;;
             debug_verify dbg (lo <? hi) EAssert ;;;
             lrun_loop fuel t lo hi tp t false
       end) ;;;
      sv <~ gets s_sv ;;
      reset_sv g sv ;;;
      lprocess_model t (match n with O => true | S _ => false end) true ;;;
      modify (put_tprev t).
End lsim.
