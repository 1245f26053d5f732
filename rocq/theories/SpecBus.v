(** Vocabulary for the bus builders (BusMemory, BusPipe), independent of the way
    they walk through a bus. *)
From stdpp Require Import prelude gmap strings.
From Coq Require Import ZArith.
From Verif Require Import Num Res Name SpecName Store Leaf Sched World.

(** A path is a list of labels, outermost first; in text, joined by dots. *)
Definition dotted (p : list string) : string := String.concat "." p.
(** The text in front of the last label: "" or "a.b." *)
Definition lead (q : list string) : string := foldr (fun l r => l +:+ "." +:+ r) "" q.

Section bus.
  Context (S : list sigobj).
  (** [member m p s]: the path [p] leads from the members [m] to the signal [s]. *)
  Inductive member : bus -> list string -> nat -> Prop :=
  | m_here m l s : (l, s) ∈ m -> member m [l] s
  | m_in m l b o p s :
      (l, b) ∈ m -> S !! b = Some o -> so_kind o = KBus -> member (so_mem o) p s -> member m (l :: p) s.
  (** The same, but with several members of one label only the first one counts. *)
  Definition first (m : bus) (l : string) (s : nat) : Prop :=
    exists i, m !! i = Some (l, s) /\ forall j e, j < i -> m !! j = Some e -> fst e ≠ l.
  Inductive resolves : bus -> list string -> nat -> Prop :=
  | f_here m l s : first m l s -> resolves m [l] s
  | f_in m l b o p s :
      first m l b -> S !! b = Some o -> so_kind o = KBus -> resolves (so_mem o) p s -> resolves m (l :: p) s.
  (** No bus has two members of one label. *)
  Inductive distinct : bus -> Prop :=
  | dist m : NoDup m.*1 ->
      (forall l b o, (l, b) ∈ m -> S !! b = Some o -> so_kind o = KBus -> distinct (so_mem o)) -> distinct m.
  Definition value_signal (s : nat) : Prop := exists o, S !! s = Some o /\ so_kind o ≠ KBus.
End bus.

(** Signals are only added and named: kind, members and derivative stay. *)
Definition like (S S' : list sigobj) : Prop :=
  forall s o, S !! s = Some o -> exists o', S' !! s = Some o' /\ so_kind o' = so_kind o /\ so_mem o' = so_mem o /\
    so_deriv o' = so_deriv o /\ (so_name o ≠ "" -> so_name o' = so_name o).

(** The exclusion list [excl] excludes the path [p]: it contains the path itself,
    or the path of a bus on the way with a dot behind it ("" for the whole bus). *)
Definition excluded (excl : list string) (p : list string) : Prop :=
  dotted p ∈ excl \/ exists q r, p = q ++ r /\ r ≠ [] /\ lead q ∈ excl.

Section init.
  Context {D : Type} `{NumOps D}.
  (** The value given for a label, if any: the first one counts. *)
  Definition given (inits : list (string * val D)) (l : string) (v : val D) : Prop :=
    exists i, inits !! i = Some (l, v) /\ forall j e, j < i -> inits !! j = Some e -> fst e ≠ l.
  (** The block type for a kind of signal; zero and the values of that type. *)
  Definition kind_ty (k : kind) (T : ty) : Prop :=
    (k = KScalar /\ T = TyD) \/ (k = KInt /\ T = TyI) \/ (k = KBool /\ T = TyB) \/ (exists n, k = KArray n /\ T = TyA).
  Definition zero_of (k : kind) : val D :=
    match k with KScalar => VS n0 | KInt => VI 0 | KBool => VB false | KArray n => VA (replicate n n0) | KBus => VB false end.
  Definition is_ty (T : ty) (v : val D) : Prop :=
    match T, v with TyD, VS _ | TyI, VI _ | TyB, VB _ | TyA, VA _ => True | _, _ => False end.

  (** The flags of a block's links when it reads [si] with flags [f] and writes [so]. *)
  Definition wires (f : N) (si so : nat) (o : blkobj D) : Prop :=
    bo_conn o = true /\ (bo_ibus o).*2 = [si] /\ (bo_obus o).*2 = [so] /\
    h_in (bo_h o) = Some si /\ h_out (bo_h o) = Some so /\
    bo_linked o = if decide (si = so) then [(si, N.lor f fOutput)] else [(si, f); (so, fOutput)].

  (** From [w] to [w'], connecting the builder [b] (object [o]) added [k] blocks: they
      are the newest ones and the newest children of its parent; no other block and
      no signal changed. *)
  Definition grown (w w' : world D) (b : nat) (o : blkobj D) (k : nat) : Prop :=
    length (w_blks w') = (length (w_blks w) + k)%nat /\
    like (w_sigs w) (w_sigs w') /\
    (forall p op, bo_parent o = Some p -> w_blks w !! p = Some op ->
       w_blks w' !! p = Some (set_children (bo_children op ++ seq (length (w_blks w)) k) op)) /\
    (forall b', b' ≠ b -> Some b' ≠ bo_parent o -> b' < length (w_blks w) -> w_blks w' !! b' = w_blks w !! b').
End init.
