(** What the blocks compute and how connect() wires them, stated without the
    programs of the model. *)
From stdpp Require Import prelude gmap strings.
From Coq Require Import ZArith.
From Verif Require Import Num Store Leaf P_Prog.

Section spec.
  Context {D : Type} `{NumOps D}.
  Local Open Scope num_scope.

  (** Pointwise application of a binary operation to two scalars or two arrays. *)
  Inductive pointwise (f : D -> D -> D) : val D -> val D -> val D -> Prop :=
  | pw_scalar a b : pointwise f (VS a) (VS b) (VS (f a b))
  | pw_array a b c : length a = length b -> length a = length c ->
      (forall i x y, a !! i = Some x -> b !! i = Some y -> c !! i = Some (f x y)) ->
      pointwise f (VA a) (VA b) (VA c).
  (** [accumulates f x0 [x1; ..; xn] y]: y = (..(x0 f x1) f ..) f xn *)
  Inductive accumulates (f : D -> D -> D) : val D -> list (val D) -> val D -> Prop :=
  | acc_nil x : accumulates f x [] x
  | acc_cons x v z vs y : pointwise f x v z -> accumulates f z vs y -> accumulates f x (v :: vs) y.
  (** k * x *)
  Inductive scaled : val D -> val D -> val D -> Prop :=
  | sc_scalar a b : scaled (VS a) (VS b) (VS (a * b))
  | sc_array a b : scaled (VS a) (VA b) (VA (map (fun x => a * x) b))
  | sc_int a b : scaled (VI a) (VI b) (VI (a * b)%Z).

  (** The user function [p], run with the signal values of [σ], returns [v]. *)
  Definition returns (σ : store D) (p : prog D (val D)) (v : val D) : Prop :=
    exists ws, ceval (value σ) p = Some (v, ws).

  (** The equation of a stateless block (and of Memory in state [st]) between the
      values that the signals have in [σ]. *)
  Definition equation (l : leaf D) (t : D) (st : lstate D) (σ : store D) : Prop :=
    let hs := l_h l in
    match l_cls l with
    | CConst _ v => exists so, h_out hs = Some so /\ value σ so = Some v
    | CSource _ f => exists so v, h_out hs = Some so /\ returns σ (f t) v /\ value σ so = Some v
    | CSISO _ f => exists si so x v, h_in hs = Some si /\ h_out hs = Some so /\
        value σ si = Some x /\ returns σ (f t x) v /\ value σ so = Some v
    | CSO _ f => exists so v, h_out hs = Some so /\ returns σ (f t (l_ibus l)) v /\ value σ so = Some v
    | CGain _ k => exists si so x y, h_in hs = Some si /\ h_out hs = Some so /\
        value σ si = Some x /\ value σ so = Some y /\ scaled k x y
    | CAdd _ ini => exists so xs y, h_out hs = Some so /\
        Forall2 (fun e x => value σ (snd e) = Some x) (l_ibus l) xs /\
        value σ so = Some y /\ accumulates nadd ini xs y
    | CMul _ ini => exists so xs y, h_out hs = Some so /\
        Forall2 (fun e x => value σ (snd e) = Some x) (l_ibus l) xs /\
        value σ so = Some y /\ accumulates nmul ini xs y
    | CSub => exists s1 s2 so x1 x2 y, h_x1 hs = Some s1 /\ h_x2 hs = Some s2 /\ h_out hs = Some so /\
        value σ s1 = Some x1 /\ value σ s2 = Some x2 /\ value σ so = Some y /\ pointwise nsub x1 x2 y
    | CDiv => exists s1 s2 so x1 x2 y, h_x1 hs = Some s1 /\ h_x2 hs = Some s2 /\ h_out hs = Some so /\
        value σ s1 = Some x1 /\ value σ s2 = Some x2 /\ value σ so = Some y /\ pointwise ndiv x1 x2 y
    | CPipe _ => exists si so x, h_in hs = Some si /\ h_out hs = Some so /\
        value σ si = Some x /\ value σ so = Some x
    | CMemory _ => exists so v, h_out hs = Some so /\ st = LMem v /\ value σ so = Some v
    | _ => True
    end.

  (** Among the value signals [X], the user-supplied functions of a block read only
      signals the block waits for (which is every value signal at the top level of
      its input bus) or that they have written themselves. *)
  Definition user_reads (X : gset nat) (l : leaf D) : Prop :=
    let R := fun s => s ∈ X -> s ∈ required l in
    match l_cls l with
    | CSource _ f => forall t, reads_in R (f t)
    | CSources f => forall t, reads_in R (f (l_obus l) t)
    | CFunction f => forall t, reads_in R (f t (l_ibus l) (l_obus l))
    | CSISO _ f => forall t x, reads_in R (f t x)
    | CSO _ f => forall t, reads_in R (f t (l_ibus l))
    | CUser f _ _ => forall t vs, reads_in R (f t (l_ibus l) (l_obus l) vs)
    | _ => True
    end.

  (** The value signals a block's own code reads belong to the ones it waits for. *)
  Definition reads_wired (X : gset nat) (l : leaf D) : Prop :=
    let hs := l_h l in
    let ok := fun o : option nat => forall s, o = Some s -> s ∈ X -> s ∈ required l in
    match l_cls l with
    | CSISO _ _ | CGain _ _ | CPipe _ | CDeriv => ok (h_in hs)
    | CAdd _ _ | CMul _ _ => forall e, e ∈ l_ibus l -> snd e ∈ X -> snd e ∈ required l
    | CSub | CDiv => ok (h_x1 hs) /\ ok (h_x2 hs)
    | CDelay _ _ => ok (h_delay hs) /\ ok (h_initial hs)
    | CTrig _ => ok (h_trig hs)
    | _ => True
    end.
End spec.
