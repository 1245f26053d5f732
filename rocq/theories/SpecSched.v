(** What one evaluation of a model may do: a specification of schedules that does
    not mention how the simulators search for blocks. *)
From stdpp Require Import prelude gmap.
From Coq Require Import ZArith.
From Verif Require Import Num Res Store Leaf Sched.

Section spec.
  Context {D : Type} `{NumOps D}.

  (** Everything leaf [l] waits for is there. *)
  Definition inputs_there (σ : store D) (l : leaf D) : Prop :=
    forall s, s ∈ required l -> assigned σ s = true.
  (** Leaf [l] still waits for a signal. *)
  Definition waits (σ : store D) (l : leaf D) : Prop :=
    exists s, s ∈ required l /\ assigned σ s = false.

  Definition mark_done (b : nat) (c : core D) : core D :=
    Core (k_store c) (k_lst c) ({[b]} ∪ k_done c) (k_log c).

  (** [legal_run dbg t c ls c']: from [c] the leaves [ls] were activated at time
      [t], one after the other; each had not run before, had everything it waits
      for at that moment, and returned normally; [c'] is the state reached. *)
  Inductive legal_run (dbg : bool) (t : D) (c : core D) : list (leaf D) -> core D -> Prop :=
  | lr_nil : legal_run dbg t c [] c
  | lr_snoc ls c1 l c2 :
      legal_run dbg t c ls c1 ->
      l_id l ∉ k_done c1 ->
      inputs_there (k_store c1) l ->
      activate dbg l t c1 = Ok tt c2 ->
      legal_run dbg t c (ls ++ [l]) (mark_done (l_id l) c2).

  (** No leaf of [L] can be activated any more. *)
  Definition exhausted (L : list (leaf D)) (c : core D) : Prop :=
    forall l, l ∈ L -> l_id l ∈ k_done c \/ waits (k_store c) l.

  (** Identities of blocks of a model are distinct (they are objects). *)
  Definition wf_tree (tr : tree D) : Prop := NoDup (map node_id (nodes tr)).
End spec.

(** One evaluation of the model by Simulator without reuse_order
    (simulator.cpp:43,84-86). *)
Definition evaluate {D} `{NumOps D} (dbg : bool) (tr : tree D) (t : D) (d : dyn D) : res (dyn D) unit :=
  process_all dbg tr t (mark_unprocessed tr d).
(** ... and with reuse_order, from the remembered order [po] (simulator.cpp:43-81). *)
Definition evaluate_reuse {D} `{NumOps D} (dbg : bool) (tr : tree D) (po : list (node D)) (t : D) (d : dyn D)
  : res (dyn D) (list (node D)) :=
  reuse_all dbg po t (mark_unprocessed tr d).

Section spec2.
  Context {D : Type} `{NumOps D}.

  (** Signals and block members after an evaluation. *)
  Definition same_result (c c' : core D) : Prop :=
    k_store c = k_store c' /\ k_lst c = k_lst c'.

  (** Whenever an activation of [l] returns, [s] is assigned. *)
  Definition always_writes (dbg : bool) (l : leaf D) (s : nat) : Prop :=
    forall t c c', activate dbg l t c = Ok tt c' -> assigned (k_store c') s = true.
  (** No activation of [l] assigns [s]. *)
  Definition never_writes (dbg : bool) (l : leaf D) (s : nat) : Prop :=
    forall t c c', activate dbg l t c = Ok tt c' -> assigned (k_store c) s = false ->
      assigned (k_store c') s = false.
End spec2.

Section spec3.
  Context {D : Type} `{NumOps D}.
  (** Every activation of [l] that returns assigns exactly the signals [O l] (and
      leaves the others assigned or not as they were). *)
  Definition writes_exactly (dbg : bool) (O : leaf D -> list nat) (l : leaf D) : Prop :=
    forall t c c', activate dbg l t c = Ok tt c' ->
      forall s, assigned (k_store c') s = true <-> assigned (k_store c) s = true \/ s ∈ O l.
  (** Same signals and same members of every block. *)
  Definition same_state (c c' : core D) : Prop :=
    k_store c = k_store c' /\ forall b, lst_of c b = lst_of c' b.
End spec3.
