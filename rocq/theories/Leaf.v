(** The leaf blocks of the library: their static description, their internal
    state and their activation_function, pre_step and post_step. *)
From stdpp Require Import prelude gmap strings.
From Coq Require Import ZArith.
From Verif Require Import Num Res Store.

(** A Bus as a block sees it: labels and signals in order (bus.hpp:46). *)
Notation bus := (list (string * nat)) (only parsing).

(** The template argument T of the block classes (signal/trait.hpp:28-88). *)
Inductive ty := TyD | TyI | TyB | TyA.

(** Block classes with their constructor arguments.  User supplied functions are
    functions to programs, so they may read and write signals and throw, but
    carry no state of their own between calls (state is modelled by [CUser]). *)
Inductive cls (D : Type) : Type :=
| CConst (T : ty) (v : val D)                              (* extra/const.hpp *)
| CSource (T : ty) (f : D -> prog D (val D))               (* extra/source.hpp *)
| CSources (f : bus -> D -> prog D unit)                   (* extra/sources.hpp *)
| CFunction (f : D -> bus -> bus -> prog D unit)           (* extra/function.hpp *)
| CSISO (T : ty) (f : D -> val D -> prog D (val D))        (* extra/siso_function.hpp *)
| CSO (T : ty) (f : D -> bus -> prog D (val D))            (* extra/so_function.hpp *)
| CGain (T : ty) (k : val D)                               (* extra/gain.hpp *)
| CAdd (T : ty) (ini : val D)                              (* extra/add.hpp *)
| CMul (T : ty) (ini : val D)                              (* extra/multiply.hpp *)
| CSub                                                     (* extra/subtract.hpp, scalar *)
| CDiv                                                     (* extra/divide.hpp, scalar *)
| CPipe (T : ty)                                           (* extra/pipe.hpp *)
| CMemory (T : ty)                                         (* extra/memory.hpp *)
| CDelay (T : ty) (lifespan : D)                           (* extra/delay.hpp *)
| CDeriv                                                   (* extra/derivative.hpp, scalar *)
| CInteg (T : ty)                                          (* integrator.hpp *)
| CTrig (T : ty)                                           (* extra/triggered_integrator.hpp *)
| CBusMem (inits : list (string * val D)) (excl : list string)  (* extra/bus_memory.hpp *)
| CBusPipe (excl : list string)                            (* extra/bus_pipe.hpp *)
| CUser (uact upre upost : D -> bus -> bus -> list (val D) -> prog D (list (val D)))
                                                           (* a user-defined subclass of Leaf *)
| CSubmodel.                                               (* submodel.hpp: not a leaf *)
Arguments CConst {D}. Arguments CSource {D}. Arguments CSources {D}.
Arguments CFunction {D}. Arguments CSISO {D}. Arguments CSO {D}. Arguments CGain {D}.
Arguments CAdd {D}. Arguments CMul {D}. Arguments CSub {D}. Arguments CDiv {D}.
Arguments CPipe {D}. Arguments CMemory {D}. Arguments CDelay {D}. Arguments CDeriv {D}.
Arguments CInteg {D}. Arguments CTrig {D}. Arguments CBusMem {D}. Arguments CBusPipe {D}.
Arguments CUser {D}. Arguments CSubmodel {D}.

(** Members of a block object that change while a model is simulated. *)
Inductive lstate (D : Type) : Type :=
| LNone
| LMem (v : val D)                                   (* memory.hpp:71 *)
| LDelay (ts : list D) (xs : list (val D))           (* delay.hpp:119-120 *)
| LDeriv (first : bool) (t : option D) (x : option D) (y : D)   (* derivative.hpp:71-74 *)
| LInteg (v : val D) (triggered : bool)              (* integrator_base.hpp:81, triggered_integrator.hpp:86 *)
| LUser (vs : list (val D)).
Arguments LNone {D}. Arguments LMem {D}. Arguments LDelay {D}.
Arguments LDeriv {D}. Arguments LInteg {D}. Arguments LUser {D}.

(** The typed signal members of a block class; [None] before connect(). *)
Record handles : Type := Handles {
  h_in : option sid;       (* singlei.hpp:30, delay.hpp:123 *)
  h_out : option sid;      (* singleo.hpp:30 *)
  h_x1 : option sid;       (* subtract.hpp:62, divide.hpp:62 *)
  h_x2 : option sid;       (* subtract.hpp:63, divide.hpp:63 *)
  h_delay : option sid;    (* delay.hpp:124 *)
  h_initial : option sid;  (* delay.hpp:125 *)
  h_trig : option sid      (* triggered_integrator.hpp:85 *)
}.
Definition no_handles : handles := Handles None None None None None None None.

(** SignalLinkType (block.hpp:49-56) *)
Definition fInput : N := 1.
Definition fOutput : N := 2.
Definition fInternal : N := 4.
Definition fRequired : N := 8.

(** A connected leaf block (block.hpp:117-121). *)
Record leaf (D : Type) : Type := Leaf {
  l_id : bid;
  l_cls : cls D;
  l_ibus : bus;
  l_obus : bus;
  l_h : handles;
  l_linked : list (sid * N)
}.
Arguments Leaf {D}. Arguments l_id {D}. Arguments l_cls {D}. Arguments l_ibus {D}.
Arguments l_obus {D}. Arguments l_h {D}. Arguments l_linked {D}.

(** The signals of a block that are flagged Required, in link order. *)
Definition required {D} (l : leaf D) : list sid :=
  map fst (filter (fun p => N.land (snd p) fRequired ≠ 0%N) (l_linked l)).

(** BusBlockBuilder and its subclasses (bus_block_builder.hpp:35). *)
Definition is_builder {D} (c : cls D) : bool :=
  match c with CBusMem _ _ | CBusPipe _ => true | _ => false end.

Section leaf.
  Context {D : Type} `{NumOps D}.
  Local Open Scope num_scope.

  (** Using a typed signal member. *)
  Definition with_h {A} (o : option sid) (k : sid -> prog D A) : prog D A :=
    match o with Some s => k s | None => PUB UUnconnected end.

  (** Eigen array arithmetic: sizes must agree (an assertion in Eigen, undefined
      with assertions off). *)
  Fixpoint map2 (f : D -> D -> D) (xs ys : list D) : option (list D) :=
    match xs, ys with
    | [], [] => Some []
    | x :: xs', y :: ys' =>
        match map2 f xs' ys' with Some r => Some (f x y :: r) | None => None end
    | _, _ => None
    end.
  Definition vop2 (f : D -> D -> D) (x y : val D) : option (val D) :=
    match x, y with
    | VS a, VS b => Some (VS (f a b))
    | VA a, VA b => match map2 f a b with Some r => Some (VA r) | None => None end
    | _, _ => None
    end.
  Definition vmap (f : D -> D) (x : val D) : option (val D) :=
    match x with
    | VS a => Some (VS (f a))
    | VA a => Some (VA (map f a))
    | _ => None
    end.
  Definition vzero (v : val D) : val D :=
    match v with
    | VS _ => VS n0 | VI _ => VI 0 | VB _ => VB false
    | VA l => VA (map (fun _ => n0) l)
    end.
  Definition int_ok (z : Z) : bool := ((-2147483648 <=? z) && (z <=? 2147483647))%Z.

  (** [_k * _s_in->get_value()] (gain.hpp:42) *)
  Definition gain_val (k x : val D) : option (val D) :=
    match k, x with
    | VS a, VS b => Some (VS (a * b))
    | VS a, VA b => Some (VA (map (fun y => a * y) b))
    | VI a, VI b => if int_ok (a * b)%Z then Some (VI (a * b)%Z) else None
    | _, _ => None
    end.

  Definition pset_opt (s : sid) (o : option (val D)) (p : prog D (lstate D)) : prog D (lstate D) :=
    match o with Some v => PSet s v p | None => PUB UArith end.

  (** The loop of add.hpp:63-68 and multiply.hpp:64-69. *)
  Fixpoint fold_bus (f : D -> D -> D) (acc : val D) (b : bus) (k : val D -> prog D (lstate D))
    : prog D (lstate D) :=
    match b with
    | [] => k acc
    | (_, s) :: b' =>
        PGet s (fun v => match vop2 f acc v with
                         | Some acc' => fold_bus f acc' b' k
                         | None => PUB UArith
                         end)
    end.

  (** The loops [for (v : _t) { if (v >= t1) break; k++; }] (delay.hpp:65-73,
      103-111): the number of leading elements that are not [>= t1]. *)
  Fixpoint count_lt (ts : list D) (t1 : D) : nat :=
    match ts with
    | [] => 0
    | v :: ts' => if t1 <=? v then 0 else S (count_lt ts' t1)
    end.

  (** delay.hpp:113 *)
  Definition interp (xk xk1 : val D) (t tk tk1 : D) : option (val D) :=
    match vop2 nsub xk xk1 with
    | Some dx => match vmap (fun y => y * (t - tk1) / (tk - tk1)) dx with
                 | Some q => vop2 nadd q xk1
                 | None => None
                 end
    | None => None
    end.

  (** DelayT::activation_function (delay.hpp:83-115) *)
  Definition delay_act (hs : handles) (t : D) (ts : list D) (xs : list (val D))
    : prog D (lstate D) :=
    with_h (h_out hs) (fun so =>
    with_h (h_initial hs) (fun si =>
    with_h (h_delay hs) (fun sd =>
    let st := LDelay ts xs in
    match ts with
    | [] => PGet si (fun v => PSet so v (PRet st))
    | th :: _ =>
        PGet sd (fun dv =>
          match dv with
          | VS d =>
              let t' := t - d in
              if t' <=? th then PGet si (fun v => PSet so v (PRet st))
              else if default th (last ts) <=? t' then
                match last xs with
                | Some x => PSet so x (PRet st)
                | None => PUB UIndex
                end
              else
                match count_lt ts t' with
                | O => PUB UIndex
                | S k1 =>
                    match ts !! S k1, ts !! k1, xs !! S k1, xs !! k1 with
                    | Some tk, Some tk1, Some xk, Some xk1 =>
                        pset_opt so (interp xk xk1 t' tk tk1) (PRet st)
                    | _, _, _, _ => PUB UIndex
                    end
                end
          | _ => PUB UType
          end)
    end))).

  (** DelayT::post_step (delay.hpp:59-81).  [_t.erase] and [_x.erase] of the
      first k elements; the loop is skipped for an empty [_t], where k is 0. *)
  Definition delay_post (lifespan : D) (hs : handles) (t : D) (ts : list D) (xs : list (val D))
    : prog D (lstate D) :=
    with_h (h_in hs) (fun sx =>
    let k := count_lt ts (t - lifespan) in
    if Nat.ltb (length xs) k then PUB UErase
    else
      let ts' := drop k ts in
      let xs' := drop k xs in
      PDebug (match last ts' with Some tb => tb <? t | None => true end) EAssert
        (PGet sx (fun x => PRet (LDelay (ts' ++ [t]) (xs' ++ [x]))))).

  (** DerivativeT::activation_function (derivative.hpp:51-68) *)
  Definition deriv_act (hs : handles) (t : D) (first : bool) (t0 x0 : option D) (y : D)
    : prog D (lstate D) :=
    with_h (h_in hs) (fun si =>
    with_h (h_out hs) (fun so =>
    if first then
      PGet si (fun v => match v with
                        | VS x => PSet so (VS y) (PRet (LDeriv true (Some t) (Some x) y))
                        | _ => PUB UType
                        end)
    else
      match t0, x0 with
      | Some t0', Some x0' =>
          if t0' =? t then PSet so (VS y) (PRet (LDeriv first t0 x0 y))
          else PGet si (fun v => match v with
                                 | VS x => PSet so (VS ((x - x0') / (t - t0')))
                                             (PRet (LDeriv first t0 x0 y))
                                 | _ => PUB UType
                                 end)
      | _, _ => PUB UUninit
      end)).

  (** DerivativeT::post_step (derivative.hpp:42-49); line 47 is [_y = _x]. *)
  Definition deriv_post (hs : handles) (t : D) : prog D (lstate D) :=
    with_h (h_in hs) (fun si =>
    PGet si (fun v => match v with
                      | VS x => PRet (LDeriv false (Some t) (Some x) x)
                      | _ => PUB UType
                      end)).

  (** activation_function of every class.  A state that does not belong to the
      class cannot occur in C++. *)
  Definition act (l : leaf D) (t : D) (st : lstate D) : prog D (lstate D) :=
    let hs := l_h l in
    match l_cls l with
    | CConst _ v =>                                        (* const.hpp:42-46 *)
        with_h (h_out hs) (fun so => PSet so v (PRet st))
    | CSource _ f =>                                       (* source.hpp:43-47 *)
        with_h (h_out hs) (fun so => pbind (f t) (fun v => PSet so v (PRet st)))
    | CSources f =>                                        (* sources.hpp:41-45 *)
        pbind (f (l_obus l) t) (fun _ => PRet st)
    | CFunction f =>                                       (* function.hpp:43-47 *)
        pbind (f t (l_ibus l) (l_obus l)) (fun _ => PRet st)
    | CSISO _ f =>                                         (* siso_function.hpp:43-47 *)
        with_h (h_in hs) (fun si => with_h (h_out hs) (fun so =>
          PGet si (fun x => pbind (f t x) (fun v => PSet so v (PRet st)))))
    | CSO _ f =>                                           (* so_function.hpp:44-48 *)
        with_h (h_out hs) (fun so =>
          pbind (f t (l_ibus l)) (fun v => PSet so v (PRet st)))
    | CGain _ k =>                                         (* gain.hpp:39-43 *)
        with_h (h_in hs) (fun si => with_h (h_out hs) (fun so =>
          PGet si (fun x => pset_opt so (gain_val k x) (PRet st))))
    | CAdd _ ini =>                                        (* add.hpp:60-69 *)
        with_h (h_out hs) (fun so =>
          fold_bus nadd ini (l_ibus l) (fun v => PSet so v (PRet st)))
    | CMul _ ini =>                                        (* multiply.hpp:61-70 *)
        with_h (h_out hs) (fun so =>
          fold_bus nmul ini (l_ibus l) (fun v => PSet so v (PRet st)))
    | CSub =>                                              (* subtract.hpp:54-58 *)
        with_h (h_x1 hs) (fun s1 => with_h (h_x2 hs) (fun s2 => with_h (h_out hs) (fun so =>
          PGet s1 (fun x1 => PGet s2 (fun x2 =>
            pset_opt so (vop2 nsub x1 x2) (PRet st))))))
    | CDiv =>                                              (* divide.hpp:54-58 *)
        with_h (h_x1 hs) (fun s1 => with_h (h_x2 hs) (fun s2 => with_h (h_out hs) (fun so =>
          PGet s1 (fun x1 => PGet s2 (fun x2 =>
            pset_opt so (vop2 ndiv x1 x2) (PRet st))))))
    | CPipe _ =>                                           (* pipe.hpp:39-43 *)
        with_h (h_in hs) (fun si => with_h (h_out hs) (fun so =>
          PGet si (fun x => PSet so x (PRet st))))
    | CMemory _ =>                                         (* memory.hpp:64-68 *)
        with_h (h_out hs) (fun so =>
          match st with LMem v => PSet so v (PRet st) | _ => PUB UType end)
    | CDelay _ _ =>
        match st with LDelay ts xs => delay_act hs t ts xs | _ => PUB UType end
    | CDeriv =>
        match st with LDeriv f t0 x0 y => deriv_act hs t f t0 x0 y | _ => PUB UType end
    | CInteg _ => PRet st                                  (* leaf.hpp:41 *)
    | CTrig _ =>                                           (* triggered_integrator.hpp:75-82 *)
        match st with
        | LInteg v trig =>
            if trig then PRet st
            else with_h (h_trig hs) (fun sg =>
                   PGet sg (fun b => match b with
                                     | VB b' => PRet (LInteg v b')
                                     | _ => PUB UType
                                     end))
        | _ => PUB UType
        end
    | CBusMem _ _ | CBusPipe _ => PRet st                  (* leaf.hpp:41 *)
    | CUser ua _ _ =>
        match st with
        | LUser vs => pbind (ua t (l_ibus l) (l_obus l) vs) (fun vs' => PRet (LUser vs'))
        | _ => PUB UType
        end
    | CSubmodel => PRet st
    end.

  (** pre_step of every leaf class (block.hpp:65 is empty).  The debug check of
      integrator_base.hpp:69 is left out: the assignment that follows it makes the
      same one (scalar_signal.hpp:50, array_signal.hpp:60) and throws in its place. *)
  Definition pre (l : leaf D) (t : D) (st : lstate D) : prog D (lstate D) :=
    let hs := l_h l in
    match l_cls l with
    | CInteg _ =>                                          (* integrator_base.hpp:66-71 *)
        match st with
        | LInteg v g => with_h (h_out hs) (fun so => PSet so v (PRet st))
        | _ => PUB UType
        end
    | CTrig _ =>                                           (* triggered_integrator.hpp:57-73 *)
        match st with
        | LInteg v g =>
            let v' := if g then vzero v else v in
            with_h (h_out hs) (fun so => PSet so v' (PRet (LInteg v' false)))
        | _ => PUB UType
        end
    | CUser _ up _ =>
        match st with
        | LUser vs => pbind (up t (l_ibus l) (l_obus l) vs) (fun vs' => PRet (LUser vs'))
        | _ => PUB UType
        end
    | _ => PRet st
    end.

  (** post_step of every leaf class (block.hpp:66 is empty).  The debug check of
      integrator_base.hpp:76 is left out: reading the value makes the same one. *)
  Definition post (l : leaf D) (t : D) (st : lstate D) : prog D (lstate D) :=
    let hs := l_h l in
    match l_cls l with
    | CInteg _ | CTrig _ =>                                (* integrator_base.hpp:73-78 *)
        match st with
        | LInteg v g => with_h (h_out hs) (fun so => PGet so (fun v' => PRet (LInteg v' g)))
        | _ => PUB UType
        end
    | CMemory _ =>                                         (* memory.hpp:58-62 *)
        with_h (h_in hs) (fun si => PGet si (fun x => PRet (LMem x)))
    | CDelay _ life =>
        match st with LDelay ts xs => delay_post life hs t ts xs | _ => PUB UType end
    | CDeriv => deriv_post hs t
    | CUser _ _ up =>
        match st with
        | LUser vs => pbind (up t (l_ibus l) (l_obus l) vs) (fun vs' => PRet (LUser vs'))
        | _ => PUB UType
        end
    | _ => PRet st
    end.
End leaf.
