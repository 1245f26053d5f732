(** What the blocks of the library need from the wiring, and what they do then. *)
From stdpp Require Import prelude gmap strings.
From Coq Require Import ZArith.
From Verif Require Import Num Res Store Leaf Sched Stepper Sim P_Store SpecGoes.
Local Open Scope nat_scope.

Definition floating (k : kind) : Prop := match k with KScalar | KArray _ => True | _ => False end.

Section spec.
  Context {D : Type} `{NumOps D} (K : nat -> option kind).
  Local Open Scope num_scope.
  (** The signals a class of the user is linked with, other than its inputs: those it does
      not wait for are assigned by its activation function, those it waits for by its
      pre_step (as in samples/test09_mass_spring_damper.cpp:53-84). *)
  Definition own_links (req : bool) (l : leaf D) : list nat :=
    map fst (filter (fun p => N.land (snd p) fInput = 0%N /\ negb (N.eqb (N.land (snd p) fRequired) 0) = req) (l_linked l)).
  (** The signals assigned by the activation function. *)
  Definition lib_out (l : leaf D) : list nat :=
    match l_cls l with
    | CConst _ _ | CSource _ _ | CSISO _ _ | CSO _ _ | CGain _ _ | CAdd _ _ | CMul _ _ | CSub | CDiv | CPipe _ | CMemory _ | CDelay _ _ | CDeriv =>
        match h_out (l_h l) with Some s => [s] | None => [] end
    | CSources _ | CFunction _ => map snd (l_obus l)
    | CUser _ _ _ => own_links false l
    | _ => []
    end.
  (** The signals assigned by pre_step: the outputs of the integrators, the states of a
      class of the user. *)
  Definition lib_pre (l : leaf D) : list nat :=
    match l_cls l with
    | CInteg _ | CTrig _ => match h_out (l_h l) with Some s => [s] | None => [] end
    | CUser _ _ _ => own_links true l
    | _ => []
    end.
  (** The members between two calls: they fit the output, a Delay has as many times as
      values and knows the last post_step, a Derivative remembers a sample, a class of
      the user keeps some condition on its members that is enough for its functions. *)
  Definition stored (l : leaf D) (v : val D) : Prop := exists s k, h_out (l_h l) = Some s /\ K s = Some k /\ fits k v.
  Definition user_inv (l : leaf D) (ua up uq : D -> bus -> bus -> list (val D) -> prog D (list (val D))) (I : list (val D) -> Prop) : Prop :=
    forall t vs, I vs ->
      goes K (fun s => s ∈ required l) (own_links false l) I (ua t (l_ibus l) (l_obus l) vs) /\
      goes K (fun _ => False) (own_links true l) I (up t (l_ibus l) (l_obus l) vs) /\
      goes K (fun s => s ∈ map fst (l_linked l)) [] I (uq t (l_ibus l) (l_obus l) vs).
  Definition lib_inv (l : leaf D) (τ : option D) (st : lstate D) : Prop :=
    match l_cls l with
    | CMemory _ => exists v, st = LMem v /\ stored l v
    | CInteg _ | CTrig _ => exists v b, st = LInteg v b /\ stored l v
    | CDelay _ _ => exists ts xs, st = LDelay ts xs /\ length ts = length xs /\ last ts = τ /\ forall x, x ∈ xs -> stored l x
    | CDeriv => exists f t0 x0 y0, st = LDeriv f t0 x0 y0 /\ (f = false -> is_Some t0 /\ is_Some x0)
    | CUser ua up uq => exists vs I, st = LUser vs /\ I vs /\ user_inv l ua up uq I
    | _ => True
    end.
  Definition lib : duty D := Duty lib_out lib_pre lib_inv.

  Definition in_of (l : leaf D) (R : nat -> Prop) (o : option nat) (k : kind) : Prop := exists s, o = Some s /\ R s /\ K s = Some k.
  Definition out_of (l : leaf D) (k : kind) : Prop := exists s, h_out (l_h l) = Some s /\ K s = Some k.
  (** The wiring suits the block: its signals are there with kinds that go together, and
      the functions of the user read required signals only and return values that fit. *)
  Definition suits (nxt : D -> D -> Prop) (X : list nat) (l : leaf D) : Prop :=
    let rq := fun s => s ∈ required l in
    let hs := l_h l in
    match l_cls l with
    | CConst _ v => exists k, out_of l k /\ fits k v
    | CSource _ f => exists k, out_of l k /\ forall t, goes K rq [] (fits k) (f t)
    | CSources f => forall t, goes K rq (map snd (l_obus l)) (fun _ => True) (f (l_obus l) t)
    | CFunction f => forall t, goes K rq (map snd (l_obus l)) (fun _ => True) (f t (l_ibus l) (l_obus l))
    | CSISO _ f => exists ki k, in_of l rq (h_in hs) ki /\ out_of l k /\ forall t x, fits ki x -> goes K rq [] (fits k) (f t x)
    | CSO _ f => exists k, out_of l k /\ forall t, goes K rq [] (fits k) (f t (l_ibus l))
    | CGain _ c => exists k a, floating k /\ c = VS a /\ in_of l rq (h_in hs) k /\ out_of l k
    | CAdd _ v | CMul _ v => exists k, floating k /\ out_of l k /\ fits k v /\ forall e, e ∈ l_ibus l -> snd e ∈ required l /\ K (snd e) = Some k
    | CSub | CDiv => in_of l rq (h_x1 hs) KScalar /\ in_of l rq (h_x2 hs) KScalar /\ out_of l KScalar
    | CPipe _ => exists k, in_of l rq (h_in hs) k /\ out_of l k
    | CMemory _ => exists k, in_of l (fun s => s ∈ X) (h_in hs) k /\ out_of l k
    | CDelay _ _ => exists k, floating k /\ in_of l (fun s => s ∈ X) (h_in hs) k /\ in_of l rq (h_initial hs) k /\ in_of l rq (h_delay hs) KScalar /\ out_of l k /\
        forall a b, nxt a b -> (a <? b) = true
    | CDeriv => in_of l rq (h_in hs) KScalar /\ (forall s, h_in hs = Some s -> s ∈ X) /\ out_of l KScalar
    | CInteg _ => exists k, floating k /\ out_of l k /\ forall s, h_out hs = Some s -> s ∈ X
    | CTrig _ => exists k, floating k /\ out_of l k /\ (forall s, h_out hs = Some s -> s ∈ X) /\ in_of l rq (h_trig hs) KBool
    | CBusMem _ _ | CBusPipe _ => True
    | CUser _ _ _ => forall s, s ∈ map fst (l_linked l) -> s ∈ X
    | CSubmodel => False
    end.
End spec.
