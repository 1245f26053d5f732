(** Models whose simulation neither throws nor is undefined: what has to be known of the
    blocks and of the wiring. *)
From stdpp Require Import prelude gmap strings.
From Coq Require Import ZArith.
From Verif Require Import Num Res Store Leaf Sched Stepper Sim P_Store P_Log.
Local Open Scope nat_scope.

(** [v] can be stored in a signal of kind [k] in a debug build. *)
Definition fits {D} (k : kind) (v : val D) : Prop := kind_fits k v = true /\ size_fits k v = true.

(** [goes K R os Q p]: whatever values of the right kind and size the program [p] reads,
    it reads only signals in [R] and those it has set itself, passes its checks, sets
    exactly the signals [os] in this order, to values that fit, and returns a result in [Q]. *)
Fixpoint goes {D A} (K : nat -> option kind) (R : nat -> Prop) (os : list nat) (Q : A -> Prop) (p : prog D A) : Prop :=
  match p with
  | PRet a => os = [] /\ Q a
  | PGet s k => R s /\ exists kd, K s = Some kd /\ forall v, fits kd v -> goes K R os Q (k v)
  | PSet s v p' => exists os' kd, os = s :: os' /\ K s = Some kd /\ fits kd v /\ goes K (fun x => R x \/ x = s) os' Q p'
  | PDebug c _ p' => c = true /\ goes K R os Q p'
  | PThrow _ | PUB _ => False
  end.

(** The kinds and the derivatives of the signals in a store. *)
Definition kind_in {D} (σ : store D) (s : nat) : option kind := c_kind <$> σ !! s.
Definition deriv_in {D} (σ : store D) (s : nat) : option nat := match σ !! s with Some c => c_deriv c | None => None end.

(** What a block does, seen from outside: the signals its activation function and its
    pre_step assign, and what is known of its members after a post_step at the given
    time (if there was one). *)
Record duty (D : Type) : Type := Duty {
  y_out : leaf D -> list nat;
  y_pre : leaf D -> list nat;
  y_inv : leaf D -> option D -> lstate D -> Prop
}.
Arguments Duty {D}. Arguments y_out {D}. Arguments y_pre {D}. Arguments y_inv {D}.

Section spec.
  Context {D : Type} `{NumOps D}.
  Local Open Scope num_scope.

  (** [nxt a b]: a post_step at [b] may follow one at [a].  Blocks without requirements
      allow any; a Delay needs later ones (delay.hpp:78).  The conditions hold for the
      times at which a simulator ends steps. *)
  Record clockwork (nxt : D -> D -> Prop) : Prop := {
    ck_lt a b : (a <? b) = true -> nxt a b;
    ck_accept t lo hi a x : (n0 <? lo) = true -> (a <? t) = true -> nxt a (nmin (a + clip lo hi x) t);
    ck_redo lo hi a b x : (n0 <? lo) = true -> accepts lo false (b - a) x = false -> nxt a b -> nxt a (a + clip lo hi x)
  }.
  Definition may_end (nxt : D -> D -> Prop) (τ : option D) (t : D) : Prop := match τ with Some a => nxt a t | None => True end.

  (** The block [l] does its duty: in a store with kinds [K], where the signals [X] get
      assigned in every evaluation. *)
  Record dutiful (K : nat -> option kind) (nxt : D -> D -> Prop) (X : list nat) (y : duty D) (l : leaf D) : Prop := {
    du_act τ t st : y_inv y l τ st -> goes K (fun s => s ∈ required l) (y_out y l) (y_inv y l τ) (act l t st);
    du_pre τ t st : y_inv y l τ st -> goes K (fun _ => False) (y_pre y l) (y_inv y l τ) (pre l t st);
    du_post τ t st : y_inv y l τ st -> may_end nxt τ t -> goes K (fun s => s ∈ X) [] (y_inv y l (Some t)) (post l t st)
  }.

  (** A stepper works if the callback does. *)
  Definition carries (stp : stepper D) : Prop :=
    forall S (I : S -> Prop) (cb : D -> list D -> M S (list D)) n, n ≠ 0 ->
      (forall (t : D) (x : list D) (z : S), length x = n -> I z -> exists r z', cb t x z = Ok r z' /\ I z' /\ length r = n) ->
      forall (t1 : D) (x : list D) (t2 : D) (z : S), length x = n -> I z ->
        exists r z', stp S cb t1 x t2 z = Ok r z' /\ I z' /\ length (fst r) = n.
  (** A stepper with a fixed step: it suggests the step it was asked for. *)
  Definition constant (stp : stepper D) : Prop :=
    forall S (cb : D -> list D -> M S (list D)) t1 x t2 z r z', stp S cb t1 x t2 z = Ok r z' -> snd r = t2 - t1.

  (** The signals assigned by the two callbacks of the client, by pre_step, and by the
      activation functions. *)
  Definition givens (ins1 ins2 : list nat) (y : duty D) (tr : tree D) : list nat := ins1 ++ ins2 ++ concat (map (y_pre y) (leaves tr)).
  Definition made (ins1 ins2 : list nat) (y : duty D) (tr : tree D) : list nat := givens ins1 ins2 y tr ++ concat (map (y_out y) (leaves tr)).

  (** A Simulator takes the blocks that only build other blocks for processed from the
      start, a FastSimulator waits for their inputs as well. *)
  Definition awaited (g : cfg D) (l : leaf D) : Prop := is_builder (l_cls l) = false \/ g_mode g = MFast.

  (** A well-built model with a simulator for it: every signal has one place where it is
      assigned, nothing waits for itself, the signals assigned by pre_step are the state
      variables, and every block does its duty. *)
  Record sane (g : cfg D) (K : nat -> option kind) (dv : nat -> option nat) (nxt : D -> D -> Prop) (y : duty D) (ins1 ins2 : list nat) : Prop := {
    sn_dbg : g_dbg g = true;
    sn_wf : NoDup (map node_id (nodes (g_tree g)));
    sn_iter l : g_iter g l ≡ₚ l;
    sn_clock : clockwork nxt;
    sn_stepper stp : g_stepper g = Some stp -> carries stp;
    sn_once : NoDup (made ins1 ins2 y (g_tree g));
    sn_linked s : s ∈ made ins1 ins2 y (g_tree g) -> s ∈ linked_signals (g_tree g);
    sn_there s : s ∈ linked_signals (g_tree g) -> is_Some (K s);
    sn_inputs f t : g_inputs g = Some f -> goes K (fun _ => False) ins1 (fun _ => True) (f t);
    sn_inputs0 : g_inputs g = None -> ins1 = [];
    sn_icb t : goes K (fun s => s ∈ ins1) ins2 (fun _ => True) (g_icb g t);
    sn_duty l : l ∈ leaves (g_tree g) -> dutiful K nxt (made ins1 ins2 y (g_tree g)) y l;
    sn_builder l : l ∈ leaves (g_tree g) -> is_builder (l_cls l) = true -> y_out y l = [];
    sn_states z : z ∈ concat (map (y_pre y) (leaves (g_tree g))) <->
      z ∈ linked_signals (g_tree g) /\ is_Some (dv z) /\ (K z = Some KScalar \/ exists n, K z = Some (KArray n));
    sn_sizes z n : z ∈ concat (map (y_pre y) (leaves (g_tree g))) -> K z = Some (KArray n) -> n ≠ 0;
    sn_deriv z d : z ∈ linked_signals (g_tree g) -> dv z = Some d -> d ∈ made ins1 ins2 y (g_tree g) /\ K d = K z;
    sn_order : exists rank : leaf D -> nat, forall l s, l ∈ leaves (g_tree g) -> awaited g l -> s ∈ required l ->
      s ∈ givens ins1 ins2 y (g_tree g) \/ exists l', l' ∈ leaves (g_tree g) /\ rank l' < rank l /\ s ∈ y_out y l'
  }.
End spec.
