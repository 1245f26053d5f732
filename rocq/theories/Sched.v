(** Block trees and the evaluation of a model at one time point. *)
From stdpp Require Import prelude gmap strings.
From Coq Require Import ZArith.
From Verif Require Import Num Res Store Leaf.

(** A model: the block passed to the simulator with everything below it
    (Submodel::_blocks, submodel.hpp:63).  A submodel also has linked signals
    (block.hpp:120). *)
Inductive tree (D : Type) : Type :=
| TLeaf (l : leaf D)
| TSub (b : bid) (linked : list (sid * N)) (ch : list (tree D)).
Arguments TLeaf {D} l.
Arguments TSub {D} b linked ch.

(** One block of a model. *)
Inductive node (D : Type) : Type :=
| NLeaf (l : leaf D)
| NSub (b : bid) (linked : list (sid * N)).
Arguments NLeaf {D} l.
Arguments NSub {D} b linked.

Definition node_id {D} (n : node D) : bid :=
  match n with NLeaf l => l_id l | NSub b _ => b end.
Definition node_linked {D} (n : node D) : list (sid * N) :=
  match n with NLeaf l => l_linked l | NSub _ k => k end.

(** Blocks in the order in which Block::visit / Submodel::visit call a visitor
    that always returns true (block.hpp:101-105, submodel.cpp:58-83). *)
Fixpoint nodes {D} (tr : tree D) : list (node D) :=
  match tr with
  | TLeaf l => [NLeaf l]
  | TSub b k ch => NSub b k :: concat (map nodes ch)
  end.
(** The leaves among them: the blocks for which [dynamic_cast<Leaf*>] succeeds. *)
Fixpoint leaves {D} (tr : tree D) : list (leaf D) :=
  match tr with
  | TLeaf l => [l]
  | TSub _ _ ch => concat (map leaves ch)
  end.

(** Ghost log of what an observer of the callbacks would see, oldest first. *)
Inductive event (D : Type) : Type :=
| EvInputs (t : D)                   (* the two input callbacks at time t *)
| EvPre (b : bid) (t : D)            (* pre_step of leaf b *)
| EvAct (b : bid) (t : D)            (* activation_function of leaf b *)
| EvPost (b : bid) (t : D)           (* post_step of leaf b *)
| EvTry (t1 : D) (v : list D) (t2 : D) (v' : list D) (new_h : D)
    (* one call of the stepper from state vector v at t1 to t2, with result v' and suggestion new_h *)
(* the signals and block members ... *)
| EvBegin (t : D) (σ : store D) (ms : gmap nat (lstate D))   (* after the pre_step calls *)
| EvEval (t : D) (σ : store D) (ms : gmap nat (lstate D))    (* after an evaluation *)
| EvStep (t : D) (σ : store D) (ms : gmap nat (lstate D)).   (* after the post_step calls *)
Arguments EvInputs {D}. Arguments EvPre {D}. Arguments EvAct {D}.
Arguments EvPost {D}. Arguments EvTry {D}. Arguments EvStep {D}.
Arguments EvBegin {D}. Arguments EvEval {D}.

(** Everything evaluation changes except the flags of submodels: signals, block
    members, the [_processed] flag of leaves (block.hpp:125), and the log. *)
Record core (D : Type) : Type := Core {
  k_store : store D;
  k_lst : gmap nat (lstate D);
  k_done : gset nat;
  k_log : list (event D)
}.
Arguments Core {D}. Arguments k_store {D}. Arguments k_lst {D}.
Arguments k_done {D}. Arguments k_log {D}.

(** ... and the [_processed] flag of submodels. *)
Record dyn (D : Type) : Type := Dyn {
  d_core : core D;
  d_sdone : gset nat
}.
Arguments Dyn {D}. Arguments d_core {D}. Arguments d_sdone {D}.

Definition on_core {D A} : M (core D) A -> M (dyn D) A :=
  lift d_core (fun c d => Dyn c (d_sdone d)).
Definition on_store {D A} : M (store D) A -> M (core D) A :=
  lift k_store (fun σ c => Core σ (k_lst c) (k_done c) (k_log c)).
Definition emit {D} (e : event D) : M (core D) unit :=
  modify (fun c => Core (k_store c) (k_lst c) (k_done c) (k_log c ++ [e])).
(** Members of all blocks that have any. *)
Definition members {D} (c : core D) : gmap nat (lstate D) :=
  omap (fun st => match st with LNone => None | _ => Some st end) (k_lst c).
(** Ghost: record the signals and the members. *)
Definition snap {D} (ev : store D -> gmap nat (lstate D) -> event D) : M (core D) unit :=
  modify (fun c => Core (k_store c) (k_lst c) (k_done c) (k_log c ++ [ev (k_store c) (members c)])).

Section sched.
  Context {D : Type} `{NumOps D}.
  Context (dbg : bool).

  (** Members of a block; a block without mutable members has [LNone]. *)
  Definition lst_of (c : core D) (b : bid) : lstate D := default LNone (k_lst c !! b).

  (** Call of a virtual member function of leaf [l] that is the program [p] on
      its members.  If it throws, the model keeps the members as they were. *)
  Definition run_leaf (ev : event D) (l : leaf D) (p : lstate D -> prog D (lstate D))
    : M (core D) unit :=
    fun c => match run_prog dbg (p (lst_of c (l_id l))) (k_store c) with
             | Ok st σ => Ok tt (Core σ (<[l_id l := st]> (k_lst c)) (k_done c) (k_log c ++ [ev]))
             | Exn e σ => Exn e (Core σ (k_lst c) (k_done c) (k_log c))
             | UB u => UB u
             | OOF => OOF
             end.
  Definition activate (l : leaf D) (t : D) : M (core D) unit :=
    run_leaf (EvAct (l_id l) t) l (act l t).

  (** Leaf::ready_to_process (leaf.cpp:37-47) *)
  Fixpoint ready_links (σ : store D) (ls : list (sid * N)) : bool :=
    match ls with
    | [] => true
    | (s, f) :: ls' =>
        if negb (N.eqb (N.land f fRequired) 0) && negb (assigned σ s) then false
        else ready_links σ ls'
    end.
  Definition ready (c : core D) (l : leaf D) : bool := ready_links (k_store c) (l_linked l).

  Definition is_done (c : core D) (b : bid) : bool := bool_decide (b ∈ k_done c).
  Definition set_done (b : bid) : M (core D) unit :=
    modify (fun c => Core (k_store c) (k_lst c) ({[b]} ∪ k_done c) (k_log c)).

  (** Leaf::process (leaf.cpp:23-35) *)
  Definition leaf_process (l : leaf D) (t : D) : M (core D) nat :=
    fun c =>
      if is_done c (l_id l) || negb (ready c l) then Ok 0 c
      else (activate l t ;;; set_done (l_id l) ;;; ret 1) c.

  Definition is_sdone (d : dyn D) (b : bid) : bool := bool_decide (b ∈ d_sdone d).
  Definition set_sdone (b : bid) : M (dyn D) unit :=
    modify (fun d => Dyn (d_core d) ({[b]} ∪ d_sdone d)).
  Definition unset_sdone (b : bid) : M (dyn D) unit :=
    modify (fun d => Dyn (d_core d) (d_sdone d ∖ {[b]})).

  (** Block::processed (block.hpp:69) *)
  Definition tree_processed (tr : tree D) (d : dyn D) : bool :=
    match tr with
    | TLeaf l => is_done (d_core d) (l_id l)
    | TSub b _ _ => is_sdone d b
    end.

  (** Leaf::process / Submodel::process with [go_deep = true]
      (leaf.cpp:23-35, submodel.cpp:37-56) *)
  Fixpoint process (tr : tree D) (t : D) : M (dyn D) nat :=
    match tr with
    | TLeaf l => on_core (leaf_process l t)
    | TSub b _ ch =>
        p <~ gets (fun d => is_sdone d b) ;;
        if p : bool then ret 0
        else
          set_sdone b ;;;
          (fix go (ch : list (tree D)) (n : nat) : M (dyn D) nat :=
             match ch with
             | [] => ret n
             | c :: ch' =>
                 k <~ process c t ;;
                 q <~ gets (tree_processed c) ;;
                 (if q : bool then ret tt else unset_sdone b) ;;;
                 go ch' (n + k)
             end) ch 0
    end.

  (** [while (_model.process(t)) {}] (simulator.cpp:84-86) *)
  Fixpoint process_loop (fuel : nat) (tr : tree D) (t : D) : M (dyn D) unit :=
    match fuel with
    | O => fun _ => OOF
    | S fuel' =>
        k <~ process tr t ;;
        match k with
        | O => ret tt
        | S _ => process_loop fuel' tr t
        end
    end.
  (** Enough fuel: every iteration but the last activates a leaf. *)
  Definition process_all (tr : tree D) (t : D) : M (dyn D) unit :=
    process_loop (S (length (leaves tr))) tr t.

  (** _mark_unprocessed of blocks, submodels and bus builders
      (block.cpp:120-123, submodel.cpp:26-35, bus_block_builder.cpp:67-70) *)
  Fixpoint mark_unprocessed (tr : tree D) (d : dyn D) : dyn D :=
    match tr with
    | TLeaf l =>
        let c := d_core d in
        let dn := if is_builder (l_cls l) then {[l_id l]} ∪ k_done c else k_done c ∖ {[l_id l]} in
        Dyn (Core (k_store c) (k_lst c) dn (k_log c)) (d_sdone d)
    | TSub b _ ch =>
        fold_left (fun d c => mark_unprocessed c d) ch
          (Dyn (d_core d) (d_sdone d ∖ {[b]}))
    end.

  (** pre_step and post_step of the model: Submodel recurses over its blocks
      (submodel.hpp:38-54), leaves do their own work. *)
  Fixpoint pre_step (tr : tree D) (t : D) : M (core D) unit :=
    match tr with
    | TLeaf l => run_leaf (EvPre (l_id l) t) l (pre l t)
    | TSub _ _ ch =>
        (fix go (ch : list (tree D)) : M (core D) unit :=
           match ch with
           | [] => ret tt
           | c :: ch' => pre_step c t ;;; go ch'
           end) ch
    end.
  Fixpoint post_step (tr : tree D) (t : D) : M (core D) unit :=
    match tr with
    | TLeaf l => run_leaf (EvPost (l_id l) t) l (post l t)
    | TSub _ _ ch =>
        (fix go (ch : list (tree D)) : M (core D) unit :=
           match ch with
           | [] => ret tt
           | c :: ch' => post_step c t ;;; go ch'
           end) ch
    end.

  (** Block::processed and process(t, false) on a single block, as used by the
      reuse-order loop. A submodel just becomes processed (submodel.cpp:41-44). *)
  Definition node_processed (n : node D) (d : dyn D) : bool :=
    match n with
    | NLeaf l => is_done (d_core d) (l_id l)
    | NSub b _ => is_sdone d b
    end.
  Definition node_process (n : node D) (t : D) : M (dyn D) unit :=
    match n with
    | NLeaf l => k <~ on_core (leaf_process l t) ;; ret tt
    | NSub b _ => set_sdone b
    end.

  (** One round of the inner [for] (simulator.cpp:53-65); returns the blocks it
      appended to [*_new_po]. *)
  Fixpoint reuse_pass (po : list (node D)) (t : D) : M (dyn D) (list (node D)) :=
    match po with
    | [] => ret []
    | n :: po' =>
        p <~ gets (node_processed n) ;;
        if p : bool then reuse_pass po' t
        else
          node_process n t ;;;
          q <~ gets (node_processed n) ;;
          r <~ reuse_pass po' t ;;
          ret (if q : bool then n :: r else r)
    end.
  (** The do-while loop (simulator.cpp:50-66). *)
  Fixpoint reuse_loop (fuel : nat) (po : list (node D)) (t : D) (acc : list (node D))
    : M (dyn D) (list (node D)) :=
    match fuel with
    | O => fun _ => OOF
    | S fuel' =>
        r <~ reuse_pass po t ;;
        match r with
        | [] => ret acc
        | _ => reuse_loop fuel' po t (acc ++ r)
        end
    end.
  (** The reuse-order branch (simulator.cpp:45-81): returns the new order.  The
      capacity checks of lines 77-78 are about allocation only and left out. *)
  Definition reuse_all (po : list (node D)) (t : D) : M (dyn D) (list (node D)) :=
    acc <~ reuse_loop (S (length po)) po t [] ;;
    rest <~ gets (fun d => List.filter (fun n => negb (node_processed n d)) po) ;;
    debug_verify dbg (Nat.eqb (length po) (length (acc ++ rest))) EAssert ;;;
    ret (acc ++ rest).

  (** FastSimulator: the ready count (fast_simulator.cpp:80-84). *)
  Definition count_ready (po : list (leaf D)) (c : core D) : nat :=
    length (List.filter (fun l => negb (is_done c (l_id l)) && ready c l) po).
  (** The inner loop (fast_simulator.cpp:91-103); [n] is how many may still be
      added.  Returns the leaves pushed to [list]. *)
  Fixpoint fast_pass (po : list (leaf D)) (t : D) (n : nat) : M (core D) (list (leaf D)) :=
    match po with
    | [] => ret []
    | l :: po' =>
        match n with
        | O => ret []
        | S n' =>
            skip <~ gets (fun c => is_done c (l_id l) || negb (ready c l)) ;;
            if skip : bool then fast_pass po' t n
            else
              k <~ leaf_process l t ;;
              ok <~ gets (fun c => is_done c (l_id l)) ;;
              if ok : bool then (r <~ fast_pass po' t n' ;; ret (l :: r)) else ret []
        end
    end.
  (** The outer loop (fast_simulator.cpp:77-110); returns [_processing_order] and
      [num_blocks_added].  Inside it a list that throws half way is lost with the
      exception, which is immaterial: the object is then unusable in a debug
      build, see [Sim.fast_init]. *)
  Fixpoint fast_loop (fuel : nat) (po : list (leaf D)) (t : D) (acc : list (list (leaf D))) (added : nat)
    : M (core D) (list (list (leaf D)) * nat) :=
    match fuel with
    | O => fun _ => OOF
    | S fuel' =>
        n <~ gets (count_ready po) ;;
        match n with
        | O => ret (acc, added)
        | S _ =>
            r <~ fast_pass po t n ;;
            if Nat.eqb (length r) n then fast_loop fuel' po t (acc ++ [r]) (added + n)
            else ret (acc ++ [r], added)
        end
    end.
  Definition fast_schedule (po : list (leaf D)) (t : D) : M (core D) (list (list (leaf D)) * nat) :=
    fast_loop (S (length po)) po t [] 0.

  (** The double loop of FastSimulator::process_model (fast_simulator.cpp:37-38). *)
  Definition fast_eval (order : list (list (leaf D))) (t : D) : M (core D) unit :=
    forM order (fun ls => forM ls (fun l => activate l t)).
End sched.
