(** A checker for the wiring of a model: a function that looks at the blocks and signals
    once, before any simulation.  What it cannot see (functions of the user, the order of
    the times) is stated separately in [user_ok]. *)
From stdpp Require Import prelude gmap strings.
From Coq Require Import ZArith.
From Verif Require Import Num Res Store Leaf Sched Stepper Sim World Api P_Store P_World SpecGoes SpecGoes2 SpecSafe.
Local Open Scope nat_scope.

Definition kind_eqb (a b : kind) : bool :=
  match a, b with
  | KScalar, KScalar | KInt, KInt | KBool, KBool | KBus, KBus => true
  | KArray n, KArray m => Nat.eqb n m
  | _, _ => false
  end.
Definition memb (s : nat) (l : list nat) : bool := existsb (Nat.eqb s) l.
Fixpoint nodupb (l : list nat) : bool := match l with [] => true | x :: l => negb (memb x l) && nodupb l end.

Section spec.
  Context {D : Type} `{NumOps D}.

  (** The derivatives of the signals of a world (float_signal.hpp:36-43). *)
  Definition sig_derivs (w : world D) (s : nat) : option nat :=
    match w_sigs w !! s with Some o => if is_bus (so_kind o) then None else so_deriv o | None => None end.

  Section at_kinds.
  Context (K : nat -> option kind).
  Definition on (o : option nat) (f : nat -> bool) : bool := match o with Some s => f s | None => false end.
  Definition thereb (s : nat) : bool := match K s with Some _ => true | None => false end.
  Definition isb (k : kind) (s : nat) : bool := match K s with Some k' => kind_eqb k' k | None => false end.
  Definition floatb (s : nat) : bool := match K s with Some KScalar | Some (KArray _) => true | _ => false end.
  Definition sameb (s s' : nat) : bool := match K s with Some k => isb k s' | None => false end.
  Definition fitsb (s : nat) (v : val D) : bool := match K s with Some k => kind_fits k v && size_fits k v | None => false end.

  (** The wiring of one block. *)
  Definition suitsb (X : list nat) (l : leaf D) : bool :=
    let rq := fun s => memb s (required l) in
    let x := fun s => memb s X in
    let hs := l_h l in
    match l_cls l with
    | CConst _ v => on (h_out hs) (fun o => fitsb o v)
    | CSource _ _ | CSO _ _ => on (h_out hs) thereb
    | CSources _ | CFunction _ => true
    | CSISO _ _ => on (h_in hs) (fun i => on (h_out hs) (fun o => rq i && thereb i && thereb o))
    | CGain _ c => match c with VS _ => on (h_in hs) (fun i => on (h_out hs) (fun o => rq i && floatb i && sameb i o)) | _ => false end
    | CAdd _ v | CMul _ v => on (h_out hs) (fun o => floatb o && fitsb o v && forallb (fun e => rq (snd e) && sameb o (snd e)) (l_ibus l))
    | CSub | CDiv => on (h_x1 hs) (fun a => on (h_x2 hs) (fun b => on (h_out hs) (fun o =>
        rq a && isb KScalar a && (rq b && isb KScalar b) && isb KScalar o)))
    | CPipe _ => on (h_in hs) (fun i => on (h_out hs) (fun o => rq i && sameb i o))
    | CMemory _ => on (h_in hs) (fun i => on (h_out hs) (fun o => x i && sameb i o))
    | CDelay _ _ => on (h_in hs) (fun i => on (h_initial hs) (fun a => on (h_delay hs) (fun d => on (h_out hs) (fun o =>
        x i && floatb i && (rq a && sameb i a) && (rq d && isb KScalar d) && sameb i o))))
    | CDeriv => on (h_in hs) (fun i => on (h_out hs) (fun o => rq i && x i && isb KScalar i && isb KScalar o))
    | CInteg _ => on (h_out hs) (fun o => floatb o && x o)
    | CTrig _ => on (h_out hs) (fun o => on (h_trig hs) (fun t => floatb o && x o && (rq t && isb KBool t)))
    | CBusMem _ _ | CBusPipe _ => true
    | CUser _ _ _ => forallb x (map fst (l_linked l))
    | CSubmodel => false
    end.
  (** The members with which the block is constructed. *)
  Definition beginsb (l : leaf D) (st : lstate D) : bool :=
    let out := fun v => on (h_out (l_h l)) (fun o => fitsb o v) in
    match l_cls l with
    | CMemory _ => match st with LMem v => out v | _ => false end
    | CInteg _ | CTrig _ => match st with LInteg v _ => out v | _ => false end
    | CDelay _ _ => match st with LDelay [] [] => true | _ => false end
    | CDeriv => match st with LDeriv true _ _ _ => true | _ => false end
    | _ => true
    end.

  (** The same for a class of the user: some condition holds of the members at the start
      and is kept by its functions, which read and assign the right signals. *)
  Definition user_begins (l : leaf D) (st : lstate D) : Prop :=
    match l_cls l with CUser _ _ _ => lib_inv K l None st | _ => True end.

  (** What remains to be known of the functions of the user, and of the times if there is
      a Delay. *)
  Definition user_ok (nxt : D -> D -> Prop) (l : leaf D) : Prop :=
    let rq := fun s => s ∈ required l in
    let out := fun v => exists o k, h_out (l_h l) = Some o /\ K o = Some k /\ fits k v in
    match l_cls l with
    | CSource _ f => forall t, goes K rq [] out (f t)
    | CSources f => forall t, goes K rq (map snd (l_obus l)) (fun _ => True) (f (l_obus l) t)
    | CFunction f => forall t, goes K rq (map snd (l_obus l)) (fun _ => True) (f t (l_ibus l) (l_obus l))
    | CSISO _ f => forall i k t x, h_in (l_h l) = Some i -> K i = Some k -> fits k x -> goes K rq [] out (f t x)
    | CSO _ f => forall t, goes K rq [] out (f t (l_ibus l))
    | CDelay _ _ => forall a b, nxt a b -> nltb a b = true
    | _ => True
    end.
  End at_kinds.

  (** An order in which the blocks can run: as long as there is a block that can run
      next, because everything it requires is assigned, take it. *)
  Fixpoint pick (have : list nat) (past ls : list (leaf D)) : option (leaf D * list (leaf D)) :=
    match ls with
    | [] => None
    | l :: ls => if forallb (fun s => memb s have) (required l) then Some (l, rev_append past ls) else pick have (l :: past) ls
    end.
  Fixpoint schedule (n : nat) (have : list nat) (ls : list (leaf D)) : option (list (leaf D)) :=
    match n, ls with
    | _, [] => Some []
    | O, _ => None
    | S n, _ =>
        match pick have [] ls with
        | Some (l, ls') => match schedule n (have ++ lib_out l) ls' with Some r => Some (l :: r) | None => None end
        | None => None
        end
    end.

  (** The blocks the simulator waits for. *)
  Definition waitsb (m : mode) (l : leaf D) : bool := match m with MFast => true | _ => negb (is_builder (l_cls l)) end.
  Definition lint (m : mode) (w : world D) (ins1 ins2 : list nat) (tr : tree D) : bool :=
    let K := sig_kinds w in
    let dv := sig_derivs w in
    let ls := leaves tr in
    let zs := concat (map lib_pre ls) in
    let gv := ins1 ++ ins2 ++ zs in
    let X := gv ++ concat (map lib_out ls) in
    let N := linked_signals tr in
    nodupb X && forallb (fun s => memb s N) X && forallb (thereb K) N
    && forallb (suitsb K X) ls
    && forallb (fun l => match w_blks w !! l_id l with Some o => beginsb K l (bo_st o) | None => false end) ls
    && forallb (fun z => match dv z with Some d => memb d X && sameb K z d && (memb z zs || negb (floatb K z)) | None => negb (memb z zs) end) N
    && forallb (fun z => floatb K z && match K z with Some (KArray 0) => false | _ => true end) zs
    && match schedule (length ls) gv (List.filter (waitsb m) ls) with Some _ => true | None => false end.

  (** A model with a simulator for it, as a client has to set them up: the model is built
      with the library and passes [lint], the callbacks assign [ins1] and [ins2], the
      functions of the user do what they should.  ([g_dbg]: a debug build; the iteration
      order of an unordered set is arbitrary.) *)
  Record checked (w : world D) (b : bid) (g : cfg D) (ins1 ins2 : list nat) : Prop := {
    cd_built : wreach true w;
    cd_tree : compile_model w b = Some (g_tree g);
    cd_dbg : g_dbg g = true;
    cd_iter l : g_iter g l ≡ₚ l;
    cd_lint : lint (g_mode g) w ins1 ins2 (g_tree g) = true;
    cd_user l : l ∈ leaves (g_tree g) -> user_ok (sig_kinds w) (fun a b => nltb a b = true) l;
    cd_members l o : l ∈ leaves (g_tree g) -> w_blks w !! l_id l = Some o -> user_begins (sig_kinds w) l (bo_st o);
    cd_inputs f t : g_inputs g = Some f -> goes (sig_kinds w) (fun _ => False) ins1 (fun _ => True) (f t);
    cd_inputs0 : g_inputs g = None -> ins1 = [];
    cd_icb t : goes (sig_kinds w) (fun s => s ∈ ins1) ins2 (fun _ => True) (g_icb g t);
    cd_stepper stp : g_stepper g = Some stp -> carries stp;
    cd_reuse : g_mode g = MReuse -> (exists l, l ∈ leaves (g_tree g) /\ lib_pre l ≠ []) /\ forall l, l ∈ leaves (g_tree g) -> is_builder (l_cls l) = false
  }.
  Definition has_delay (tr : tree D) : Prop := exists l T x, l ∈ leaves tr /\ l_cls l = CDelay T x.
  Definition has_state (tr : tree D) : Prop := exists l, l ∈ leaves tr /\ lib_pre l ≠ [].
  (** Calls of run that a client may make, the last one having ended at [tp]: with a
      Delay, later times only; with states, times that are not earlier, and to get to a
      later time a stepper and limits 0 < min < max. *)
  Definition allowed (g : cfg D) (tp t lo hi : D) : Prop :=
    (has_delay (g_tree g) -> nltb tp t = true) /\
    (has_state (g_tree g) -> nltb t tp = false /\ (neqb t tp = true \/ g_stepper g ≠ None /\ nltb n0 lo = true /\ nltb lo hi = true)).
  Fixpoint permitted (g : cfg D) (tp : D) (calls : list (D * D * D)) : Prop :=
    match calls with
    | [] => True
    | (t, lo, hi) :: cs => allowed g tp t lo hi /\ permitted g t cs
    end.
  (** The program of the client: one call after the other. *)
  Fixpoint drive (g : cfg D) (fuel : nat) (calls : list (D * D * D)) : M (simst D) unit :=
    match calls with
    | [] => ret tt
    | (t, lo, hi) :: cs => run g fuel t lo hi ;;; drive g fuel cs
    end.
  Definition program (g : cfg D) (fuel : nat) (t0 : D) (calls : list (D * D * D)) : M (simst D) unit := init g t0 ;;; drive g fuel calls.
  Definition end_of (t0 : D) (calls : list (D * D * D)) : D := match last calls with Some (t, _, _) => t | None => t0 end.
  (** No block was left out: everything the client and the blocks assign has a value that
      fits the signal. *)
  Definition settled (w : world D) (g : cfg D) (ins1 ins2 : list nat) (s : simst D) : Prop :=
    forall x, x ∈ ins1 \/ x ∈ ins2 \/ (exists l, l ∈ leaves (g_tree g) /\ (x ∈ lib_pre l \/ x ∈ lib_out l)) ->
      exists v k, value (s_store s) x = Some v /\ sig_kinds w x = Some k /\ fits k v.
End spec.
