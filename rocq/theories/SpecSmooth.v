(** Models whose derivatives are computed by smooth blocks. *)
From stdpp Require Import prelude gmap.
From Coq Require Import Reals.
From Verif Require Import Num NumR Res Store Leaf Sched Stepper Sim SpecSched P_Prog P_Lib SpecBlock P_Trace SpecField.
Local Open Scope R_scope.

(** On the set [U], [f] has four derivatives and the fourth is continuous. *)
Definition smooth_on (U : R -> Prop) (f : R -> R) : Prop :=
  exists f1 f2 f3 f4, forall a, U a -> derivable_pt_lim f a (f1 a) /\ derivable_pt_lim f1 a (f2 a) /\
    derivable_pt_lim f2 a (f3 a) /\ derivable_pt_lim f3 a (f4 a) /\ continuity_pt f4 a.

(** What a user's function computes from numbers, time and signals. *)
Inductive expr : Type :=
| ENum (a : R)
| ETime
| ESig (s : nat)
| EPlus (e1 e2 : expr) | EMinus (e1 e2 : expr) | EMult (e1 e2 : expr) | EDiv (e1 e2 : expr)
| EFun (h : R -> R) (e : expr).
Fixpoint expr_sigs (e : expr) : list nat :=
  match e with
  | ENum _ | ETime => []
  | ESig s => [s]
  | EPlus e1 e2 | EMinus e1 e2 | EMult e1 e2 | EDiv e1 e2 => expr_sigs e1 ++ expr_sigs e2
  | EFun _ e1 => expr_sigs e1
  end.
Definition real_of (σ : store R) (s : nat) : R := match value σ s with Some (VS a) => a | _ => 0 end.
Fixpoint expr_at (t : R) (v : nat -> R) (e : expr) : R :=
  match e with
  | ENum a => a
  | ETime => t
  | ESig s => v s
  | EPlus e1 e2 => expr_at t v e1 + expr_at t v e2
  | EMinus e1 e2 => expr_at t v e1 - expr_at t v e2
  | EMult e1 e2 => expr_at t v e1 * expr_at t v e2
  | EDiv e1 e2 => expr_at t v e1 / expr_at t v e2
  | EFun h e1 => h (expr_at t v e1)
  end.
(** Where the signals of [e] have scalar values, [s] has the value of [e]. *)
Definition set_to (σ : store R) (t : R) (s : nat) (e : expr) : Prop :=
  (forall s', s' ∈ expr_sigs e -> exists a, value σ s' = Some (VS a)) -> value σ s = Some (VS (expr_at t (real_of σ) e)).

Section smooth.
  Context (σ0 : store R) (g : cfg R) (zs : list nat) (φ : R -> list R) (t0 T : R).
  (** Between [t0] and [T], while the states are [φ], the signal [s] has values in [U]
      only. *)
  Definition stays (s : nat) (U : R -> Prop) : Prop :=
    forall t m dx σ a, t0 <= t <= T -> instant σ0 g zs t m (φ t) dx σ -> value σ s = Some (VS a) -> U a.
  (** A block with scalar signals whose output is a smooth function of its inputs and of
      time around the solution [φ]. *)
  Definition smooth_block (l : leaf R) : Prop :=
    match l_cls l with
    | CConst TyD (VS _) | CGain TyD (VS _) | CAdd TyD (VS _) | CMul TyD (VS _) | CSub | CPipe TyD => True
    | CDiv => exists s, h_x2 (l_h l) = Some s /\ stays s (fun a => a <> 0)
    | CSource TyD f => exists U h, open_set U /\ smooth_on U h /\ (forall t, f t = PRet (VS (h t))) /\ forall t, t0 <= t <= T -> U t
    | CSISO TyD f => exists U h s, open_set U /\ smooth_on U h /\ (forall t a, f t (VS a) = PRet (VS (h a))) /\ h_in (l_h l) = Some s /\ stays s U
    | _ => False
    end.
  (** Between [t0] and [T], while the states are [φ], the values of [e] are in [P]. *)
  Definition along (P : R -> Prop) (e : expr) : Prop :=
    forall t m dx σ, t0 <= t <= T -> instant σ0 g zs t m (φ t) dx σ -> P (expr_at t (real_of σ) e).
  (** Denominators are not zero and functions are smooth around the solution [φ]. *)
  Fixpoint smooth_expr (e : expr) : Prop :=
    match e with
    | ENum _ | ETime | ESig _ => True
    | EPlus e1 e2 | EMinus e1 e2 | EMult e1 e2 => smooth_expr e1 /\ smooth_expr e2
    | EDiv e1 e2 => smooth_expr e1 /\ smooth_expr e2 /\ along (fun a => a <> 0) e2
    | EFun h e1 => smooth_expr e1 /\ exists U, open_set U /\ smooth_on U h /\ along U e1
    end.
  (** The signal [s] is a state, or the scalar output of a smooth block that waits only
      for such signals, or set by a block that does so (a user's function, say) or by the
      input callbacks to the value of a smooth expression in such signals; it does not
      depend on itself. *)
  Inductive smoothly : nat -> Prop :=
  | sm_state z : z ∈ zs -> smoothly z
  | sm_block l s : l ∈ leaves (g_tree g) -> smooth_block l -> h_out (l_h l) = Some s ->
      (forall s', s' ∈ required l -> smoothly s') -> smoothly s
  | sm_user l s e : l ∈ leaves (g_tree g) -> is_builder (l_cls l) = false ->
      (forall s', s' ∈ required l -> smoothly s') ->
      (forall t m m' σ, (forall s', s' ∈ required l -> exists a, value σ s' = Some (VS a)) -> shows σ (act l t m) m' -> set_to σ t s e) -> smooth_expr e ->
      (forall s', s' ∈ expr_sigs e -> smoothly s') -> smoothly s
  | sm_input s e : (forall t σ, (forall z, z ∈ zs -> exists a, value σ z = Some (VS a)) -> (forall p, g_inputs g = Some p -> shows σ (p t) tt) -> shows σ (g_icb g t) tt -> set_to σ t s e) ->
      smooth_expr e -> (forall s', s' ∈ expr_sigs e -> smoothly s') -> smoothly s.
  (** [φ] is a solution of the differential equation of the model. *)
  Definition solution : Prop :=
    forall t, t0 <= t <= T -> exists m dx, field σ0 g zs t m (φ t) dx /\
      forall i, (i < length zs)%nat -> derivable_pt_lim (fun τ => nth i (φ τ) 0) t (nth i dx 0).
End smooth.
