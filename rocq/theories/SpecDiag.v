(** Block diagrams as formulas. *)
From stdpp Require Import prelude gmap.
From Coq Require Import Reals.
From Verif Require Import Num NumR Res Store Leaf Sched Stepper Sim SpecSched P_Prog P_Trace SpecField SpecSmooth.
Local Open Scope R_scope.

(** A diagram written as formulas: each signal with an expression in signals that come
    earlier. *)
Notation formulas := (list (nat * expr)).

(** The values of the signals at time [t], by evaluating the formulas in order, when [v] are
    the values of the states. *)
Fixpoint solve (env : formulas) (t : R) (v : nat -> R) : nat -> R :=
  match env with
  | [] => v
  | (s, e) :: env' => solve env' t (fun s' => if Nat.eqb s' s then expr_at t v e else v s')
  end.
(** The states [zs] have the values [x]. *)
Fixpoint states_are (zs : list nat) (x : list R) (s : nat) : R :=
  match zs, x with
  | z :: zs', a :: x' => if Nat.eqb s z then a else states_are zs' x' s
  | _, _ => 0
  end.
(** The right-hand side of the differential equation: the derivatives of the states are
    the signals [ds]. *)
Definition rhs (env : formulas) (zs ds : list nat) (t : R) (x : list R) : list R :=
  map (solve env t (states_are zs x)) ds.

(** [φ] satisfies the differential equation between [t0] and [T]. *)
Definition follows (env : formulas) (zs ds : list nat) (φ : R -> list R) (t0 T : R) : Prop :=
  forall t, t0 <= t <= T -> length (φ t) = length zs /\
    forall i, (i < length zs)%nat -> derivable_pt_lim (fun τ => nth i (φ τ) 0) t (nth i (rhs env zs ds t (φ t)) 0).
(** Along [φ] no denominator is zero and every function is smooth where it is used. *)
Fixpoint fine_expr (v : R -> nat -> R) (t0 T : R) (e : expr) : Prop :=
  match e with
  | ENum _ | ETime | ESig _ => True
  | EPlus e1 e2 | EMinus e1 e2 | EMult e1 e2 => fine_expr v t0 T e1 /\ fine_expr v t0 T e2
  | EDiv e1 e2 => fine_expr v t0 T e1 /\ fine_expr v t0 T e2 /\ forall t, t0 <= t <= T -> expr_at t (v t) e2 <> 0
  | EFun h e1 => fine_expr v t0 T e1 /\ exists U, open_set U /\ smooth_on U h /\ forall t, t0 <= t <= T -> U (expr_at t (v t) e1)
  end.
Definition fine_along (env : formulas) (zs : list nat) (φ : R -> list R) (t0 T : R) : Prop :=
  forall s e, (s, e) ∈ env -> fine_expr (fun t => solve env t (states_are zs (φ t))) t0 T e.

(** Where the signals of the formulas [ds] have scalar values, the program [p] sets exactly
    the signals of [ds], to the values of their expressions, if it comes to an end; ... *)
Definition scalars (ρ : nat -> option (val R)) (ds : formulas) : Prop :=
  forall s e s', (s, e) ∈ ds -> s' ∈ expr_sigs e -> exists a, ρ s' = Some (VS a).
Definition real (ρ : nat -> option (val R)) (s : nat) : R := match ρ s with Some (VS a) => a | _ => 0 end.
Definition sets {A} (p : prog R A) (t : R) (ds : formulas) : Prop :=
  forall ρ a ws, scalars ρ ds -> ceval ρ p = Some (a, ws) -> ws = map (fun d => (fst d, VS (expr_at t (real ρ) (snd d)))) ds.
(** ... and it does. *)
Definition ends {A} (p : prog R A) (ds : formulas) : Prop :=
  forall ρ, scalars ρ ds -> exists a ws, ceval ρ p = Some (a, ws).

(** The formulas [env] are a description of the model [g] with states [zs] and derivatives
    [ds]; [mem] are members of the blocks with which they can be activated. *)
Record diagram (σ0 : store R) (g : cfg R) (mem : nat -> lstate R) (env : formulas) (zs ds : list nat) : Prop := {
  (** all signals are scalar and set once, by states or formulas *)
  dg_scalar s : s ∈ zs ++ map fst env -> exists c, σ0 !! s = Some c /\ c_kind c = KScalar;
  dg_once : NoDup (zs ++ map fst env);
  (** a block sets signals by formulas in the signals it waits for, and these are known *)
  dg_block l : l ∈ leaves (g_tree g) -> is_builder (l_cls l) = false ->
    exists d, d ⊆ env /\ (forall s e s', (s, e) ∈ d -> s' ∈ expr_sigs e -> s' ∈ required l) /\
      (forall s', s' ∈ required l -> s' ∈ zs ++ map fst env) /\
      (forall t m, sets (act l t m) t d) /\ forall t, ends (act l t (mem (l_id l))) d;
  (** the input callbacks set signals by formulas in states *)
  dg_inputs p : g_inputs g = Some p -> exists d, d ⊆ env /\ (forall s e s', (s, e) ∈ d -> s' ∈ expr_sigs e -> s' ∈ zs) /\
    forall t, sets (p t) t d /\ ends (p t) d;
  dg_icb : exists d, d ⊆ env /\ (forall s e s', (s, e) ∈ d -> s' ∈ expr_sigs e -> s' ∈ zs) /\ forall t, sets (g_icb g t) t d /\ ends (g_icb g t) d;
  (** each formula is one of a block that waits only for earlier signals, or of an input
      callback *)
  dg_source env1 s e env2 : env = env1 ++ (s, e) :: env2 ->
    (exists l d, l ∈ leaves (g_tree g) /\ is_builder (l_cls l) = false /\ (s, e) ∈ d /\ (forall t m, sets (act l t m) t d) /\
       (forall s1 e1 s', (s1, e1) ∈ d -> s' ∈ expr_sigs e1 -> s' ∈ required l) /\ forall s', s' ∈ required l -> s' ∈ zs ++ map fst env1) \/
    (exists p d, (g_inputs g = Some p \/ g_icb g = p) /\ (s, e) ∈ d /\ (forall t, sets (p t) t d) /\
       forall s1 e1 s', (s1, e1) ∈ d -> s' ∈ expr_sigs e1 -> s' ∈ zs);
  (** the derivatives *)
  dg_deriv : Forall2 (fun z d => exists c, σ0 !! z = Some c /\ c_deriv c = Some d /\ d ∈ zs ++ map fst env) zs ds
}.

(** ** Reading the formulas off the wiring *)
(** What the library's blocks mean, and blocks with functions of the user. *)
Inductive means (l : leaf R) (st : lstate R) : formulas -> Prop :=
| mean_const a so : l_cls l = CConst TyD (VS a) -> h_out (l_h l) = Some so -> means l st [(so, ENum a)]
| mean_source f h so : l_cls l = CSource TyD f -> (forall t, f t = PRet (VS (h t))) -> h_out (l_h l) = Some so -> means l st [(so, EFun h ETime)]
| mean_siso f h si so : l_cls l = CSISO TyD f -> (forall t a, f t (VS a) = PRet (VS (h a))) -> h_in (l_h l) = Some si -> h_out (l_h l) = Some so ->
    means l st [(so, EFun h (ESig si))]
| mean_gain k si so : l_cls l = CGain TyD (VS k) -> h_in (l_h l) = Some si -> h_out (l_h l) = Some so -> means l st [(so, EMult (ENum k) (ESig si))]
| mean_add a so : l_cls l = CAdd TyD (VS a) -> h_out (l_h l) = Some so ->
    means l st [(so, fold_left (fun e s => EPlus e (ESig s)) (map snd (l_ibus l)) (ENum a))]
| mean_mul a so : l_cls l = CMul TyD (VS a) -> h_out (l_h l) = Some so ->
    means l st [(so, fold_left (fun e s => EMult e (ESig s)) (map snd (l_ibus l)) (ENum a))]
| mean_sub s1 s2 so : l_cls l = CSub -> h_x1 (l_h l) = Some s1 -> h_x2 (l_h l) = Some s2 -> h_out (l_h l) = Some so -> means l st [(so, EMinus (ESig s1) (ESig s2))]
| mean_div s1 s2 so : l_cls l = CDiv -> h_x1 (l_h l) = Some s1 -> h_x2 (l_h l) = Some s2 -> h_out (l_h l) = Some so -> means l st [(so, EDiv (ESig s1) (ESig s2))]
| mean_pipe si so : l_cls l = CPipe TyD -> h_in (l_h l) = Some si -> h_out (l_h l) = Some so -> means l st [(so, ESig si)]
| mean_integ ty : l_cls l = CInteg ty -> means l st []
| mean_function f d : l_cls l = CFunction f -> (forall t, sets (f t (l_ibus l) (l_obus l)) t d /\ ends (f t (l_ibus l) (l_obus l)) d) -> means l st d
| mean_user a p q vs d : l_cls l = CUser a p q -> st = LUser vs ->
    (forall t vs', sets (a t (l_ibus l) (l_obus l) vs') t d) -> (forall t, ends (a t (l_ibus l) (l_obus l) vs) d) -> means l st d.
(** The blocks [lds], each with its formulas, in an order in which each waits only for
    [known] signals and those of earlier blocks. *)
Fixpoint chain (mem : nat -> lstate R) (known : list nat) (lds : list (leaf R * formulas)) : Prop :=
  match lds with
  | [] => True
  | (l, d) :: lds' => means l (mem (l_id l)) d /\ (forall s, s ∈ concat (map (fun q => expr_sigs (snd q)) d) -> s ∈ required l) /\
      (forall s, s ∈ required l -> s ∈ known) /\ chain mem (known ++ map fst d) lds'
  end.
