(** No undefined behaviour. *)
From stdpp Require Import prelude gmap strings.
From Coq Require Import ZArith.
From Verif Require Import Num NumOrd Res Name Store Leaf Sched Stepper Sim World Api Steps P_Steps P_Ops P_Store P_World P_Frame SpecSized P_Sized SpecSim SpecSafe P_Bound.

(** Computations that keep [I], return only in [Q], and have no undefined behaviour but [U]. *)
Definition safe {S A} (U : ub -> Prop) (I : S -> Prop) (m : M S A) (Q : A -> Prop) : Prop :=
  forall s, I s -> match m s with Ok a s' => I s' /\ Q a | Exn _ s' => I s' | UB u => U u | OOF => True end.
Section rules.
  Context {S : Type} (U : ub -> Prop) (I : S -> Prop).
  Lemma safe_ret {A} (a : A) (Q : A -> Prop) : Q a -> safe U I (ret a) Q.
  Proof. by intros HQ s Hs. Qed.
  Lemma safe_throw {A} e (Q : A -> Prop) : safe U I (throw e) Q.
  Proof. by intros s Hs. Qed.
  Lemma safe_undef {A} u (Q : A -> Prop) : U u -> safe U I (undef u) Q.
  Proof. by intros HU s Hs. Qed.
  Lemma safe_oof {A} (Q : A -> Prop) : safe U I (fun _ => OOF) Q.
  Proof. by intros s Hs. Qed.
  Lemma safe_gets {A} (f : S -> A) (Q : A -> Prop) : (forall s, I s -> Q (f s)) -> safe U I (gets f) Q.
  Proof. intros HQ s Hs. cbn. auto. Qed.
  Lemma safe_modify f (Q : unit -> Prop) : (forall s, I s -> I (f s)) -> Q tt -> safe U I (modify f) Q.
  Proof. intros Hf HQ s Hs. cbn. auto. Qed.
  Lemma safe_bnd {A B} (m : M S A) (k : A -> M S B) P Q : safe U I m P -> (forall a, P a -> safe U I (k a) Q) -> safe U I (bnd m k) Q.
  Proof.
    intros Hm Hk s Hs. unfold bnd. specialize (Hm s Hs). destruct (m s) as [a s'|e s'|u|]; try done. destruct Hm as [Hs' HP]. by apply Hk.
  Qed.
  Lemma safe_seq {A B} (m : M S A) (k : M S B) P Q : safe U I m P -> safe U I k Q -> safe U I (bnd m (fun _ => k)) Q.
  Proof. intros Hm Hk. by eapply safe_bnd; [exact Hm|]. Qed.
  Lemma safe_weak {A} (m : M S A) (P Q : A -> Prop) : (forall a, P a -> Q a) -> safe U I m P -> safe U I m Q.
  Proof. intros HPQ Hm s Hs. specialize (Hm s Hs). destruct (m s); try done. naive_solver. Qed.
  Lemma safe_verify c e : safe U I (verify c e) (fun _ => c = true).
  Proof. destruct c; [by apply safe_ret|apply safe_throw]. Qed.
  Lemma safe_debug c e : safe U I (debug_verify true c e) (fun _ => c = true).
  Proof. apply safe_verify. Qed.
  Lemma safe_forM {A} (l : list A) f : (forall x, x ∈ l -> safe U I (f x) (fun _ => True)) -> safe U I (forM l f) (fun _ => True).
  Proof.
    induction l as [|x l IH]; intros Hf; cbn [forM]; [by apply safe_ret|]. eapply safe_seq; [apply Hf, elem_of_list_here|].
    apply IH. intros y Hy. by apply Hf, elem_of_list_further.
  Qed.
End rules.
Lemma safe_lift {S T A} U (I : S -> Prop) (J : T -> Prop) (get : T -> S) put (m : M S A) Q :
  (forall t, J t -> I (get t)) -> (forall t s, J t -> I s -> J (put s t)) -> safe U I m Q -> safe U J (lift get put m) Q.
Proof.
  intros H1 H2 Hm t Ht. unfold lift. specialize (Hm (get t) (H1 t Ht)). destruct (m (get t)); try done; [|by apply H2].
  destruct Hm. split; [by apply H2|done].
Qed.
Lemma safe_up {S A} (U U' : ub -> Prop) (I : S -> Prop) (m : M S A) Q : (forall u, U u -> U' u) -> safe U I m Q -> safe U' I m Q.
Proof. intros HU Hm s Hs. specialize (Hm s Hs). destruct (m s); auto. Qed.

Section prog.
  Context {D : Type} `{NumOps D}.
  Implicit Types K : nat -> option kind.
  Lemma careful_weak {A} (U U' : ub -> Prop) K (P Q : A -> Prop) (p : prog D A) : (forall u, U u -> U' u) -> (forall a, P a -> Q a) -> careful U K P p -> careful U' K Q p.
  Proof.
    intros HU HPQ. induction p as [a|s k IH|s v p IH|c e p IH|e|u]; cbn; auto.
    - intros (kd & Hk & Hv). exists kd. split; [done|]. auto.
    - intros (kd & Hk & Hf & Hp). exists kd. auto.
  Qed.
  Lemma careful_bind {A B} U K (P : A -> Prop) (Q : B -> Prop) (p : prog D A) (k : A -> prog D B) :
    careful U K P p -> (forall a, P a -> careful U K Q (k a)) -> careful U K Q (pbind p k).
  Proof.
    intros Hp Hk. induction p as [a|s k' IH|s v p IH|c e p IH|e|u]; cbn in *; auto.
    - destruct Hp as (kd & E & Hv). exists kd. split; [done|]. auto.
    - destruct Hp as (kd & E & Hf & Hp). exists kd. auto.
  Qed.

  (** Signals keep the shape they have in [σ0]. *)
  Context (σ0 : store D).
  Definition stat (σ : store D) (s : nat) : option (kind * option nat) := (fun c => (c_kind c, c_deriv c)) <$> σ !! s.
  Definition kof (s : nat) : option kind := c_kind <$> σ0 !! s.
  Definition SI (σ : store D) : Prop := (forall s, stat σ s = stat σ0 s) /\ store_ok σ.
  Lemma SI_at σ s kd : SI σ -> kof s = Some kd -> exists c, σ !! s = Some c /\ c_kind c = kd /\ cell_ok c.
  Proof.
    intros [Hs Ho] Hk. specialize (Hs s). unfold stat in Hs. unfold kof in Hk. destruct (σ0 !! s) as [c0|] eqn:E0; [|done].
    destruct (σ !! s) as [c|] eqn:E; [|done]. exists c. cbn in *. split_and!; [done|congruence|by apply (Ho s)].
  Qed.
  Lemma SI_insert σ s c c' : SI σ -> σ !! s = Some c -> c_kind c' = c_kind c -> c_deriv c' = c_deriv c -> cell_ok c' -> SI (<[s := c']> σ).
  Proof.
    intros [Hs Ho] Hc Hk Hd Hok. split.
    - intros s'. rewrite <- Hs. unfold stat. destruct (decide (s = s')) as [<-|Hne]; [rewrite lookup_insert, Hc; cbn; congruence|by rewrite lookup_insert_ne].
    - by apply map_Forall_insert_2.
  Qed.
  Lemma safe_get U s kd : kof s = Some kd -> safe U SI (get_value true s) (fun v => kind_fits kd v = true /\ size_fits kd v = true).
  Proof.
    intros Hk σ Hσ. destruct (SI_at σ s kd Hσ Hk) as (c & Hc & Hkd & Hok). unfold get_value. rewrite Hc, (payload_ok _ Hok). cbn [andb negb].
    destruct (c_asg c) eqn:Ea; cbn; [|done]. destruct Hok as [H1 H2]. destruct (H1 Ea) as [v Hv]. rewrite Hv. split; [done|]. rewrite <- Hkd. by apply H2.
  Qed.
  Lemma safe_set U s kd v : kof s = Some kd -> kind_fits kd v = true -> safe U SI (set_value true s v) (fun _ => True).
  Proof.
    intros Hk Hf σ Hσ. destruct (SI_at σ s kd Hσ Hk) as (c & Hc & Hkd & Hok). unfold set_value. rewrite Hc, Hkd, Hf, (payload_ok _ Hok). cbn [andb negb].
    destruct (c_asg c) eqn:Ea; [done|]. destruct (size_fits kd v) eqn:Es; cbn; [|done]. split; [|done].
    eapply SI_insert; [done|exact Hc|done|done|]. split; cbn; [by eauto|]. intros v' [= <-]. done.
  Qed.
  Lemma safe_clear U s kd : kof s = Some kd -> safe U SI (clear_sig s) (fun _ => True).
  Proof.
    intros Hk σ Hσ. destruct (SI_at σ s kd Hσ Hk) as (c & Hc & Hkd & Hok). unfold clear_sig. rewrite Hc. split; [|done].
    eapply SI_insert; [done|exact Hc|done|done|]. destruct Hok as [_ H2]. split; cbn; [done|]. done.
  Qed.
  Lemma safe_prog {A} U (Q : A -> Prop) (p : prog D A) : careful U kof Q p -> safe U SI (run_prog true p) Q.
  Proof.
    induction p as [a|s k IH|s v p IH|c e p IH|e|u]; cbn [careful run_prog].
    - apply safe_ret.
    - intros (kd & Hk & Hv). eapply safe_bnd; [by apply (safe_get U s kd)|]. intros v [Hf Hs]. by apply IH, Hv.
    - intros (kd & Hk & Hf & Hp). eapply safe_seq; [by eapply safe_set|]. by apply IH.
    - intros Hp. eapply safe_bnd; [apply safe_debug|]. intros a Hc. by apply IH, Hp.
    - intros _. apply safe_throw.
    - apply safe_undef.
  Qed.
End prog.

(** ** Leaves *)
Section leaf.
  Context {D : Type} `{NumOrd D}.
  Context (K : nat -> option kind).
  (** A bound handle of type [T]. *)
  Definition hty (T : ty) (h : option nat) : Prop := exists s k, h = Some s /\ K s = Some k /\ ty_fits T k = true.
  Definition leaf_ok (l : leaf D) : Prop :=
    let h := l_h l in
    match l_cls l with
    | CConst T v => hty T (h_out h) /\ has_ty T v
    | CSource T f => hty T (h_out h) /\ forall t, harmless K (has_ty T) (f t)
    | CSources f => forall t, harmless K (fun _ => True) (f (l_obus l) t)
    | CFunction f => forall t, harmless K (fun _ => True) (f t (l_ibus l) (l_obus l))
    | CSISO T f => hty T (h_in h) /\ hty T (h_out h) /\ forall t x, has_ty T x -> harmless K (has_ty T) (f t x)
    | CSO T f => hty T (h_out h) /\ forall t, harmless K (has_ty T) (f t (l_ibus l))
    | CGain T k => hty T (h_in h) /\ hty T (h_out h) /\ match T with TyD | TyA => has_ty TyD k | TyI => has_ty TyI k | TyB => False end
    | CAdd T v | CMul T v => hty T (h_out h) /\ (T = TyD \/ T = TyA) /\ has_ty T v /\ forall e, e ∈ l_ibus l -> hty T (Some (snd e))
    | CSub | CDiv => hty TyD (h_out h) /\ hty TyD (h_x1 h) /\ hty TyD (h_x2 h)
    | CPipe T | CMemory T => hty T (h_in h) /\ hty T (h_out h)
    | CDelay T _ => (T = TyD \/ T = TyA) /\ hty T (h_out h) /\ hty T (h_in h) /\ hty TyD (h_delay h) /\ hty T (h_initial h)
    | CDeriv => hty TyD (h_in h) /\ hty TyD (h_out h)
    | CInteg T => (T = TyD \/ T = TyA) /\ hty T (h_out h)
    | CTrig T => (T = TyD \/ T = TyA) /\ hty T (h_out h) /\ hty TyB (h_trig h)
    | CUser _ _ _ | CBusMem _ _ | CBusPipe _ | CSubmodel => True
    end.
  Definition mem_ok (l : leaf D) (st : lstate D) : Prop :=
    match l_cls l with
    | CMemory T => exists v, st = LMem v /\ has_ty T v
    | CDelay T _ => exists ts xs, st = LDelay ts xs /\ length ts = length xs /\
        Forall (fun v => exists s k, h_in (l_h l) = Some s /\ K s = Some k /\ ty_fits T k = true /\ kind_fits k v = true /\ size_fits k v = true) xs
    | CDeriv => exists f t0 x0 y, st = LDeriv f t0 x0 y /\ (f = false -> is_Some t0 /\ is_Some x0)
    | CInteg T | CTrig T => exists v b, st = LInteg v b /\ has_ty T v
    | CUser ua up uo => exists vs (P : list (val D) -> Prop), st = LUser vs /\ P vs /\
        forall t vs, P vs -> harmless K P (ua t (l_ibus l) (l_obus l) vs) /\ harmless K P (up t (l_ibus l) (l_obus l) vs) /\
                             harmless K P (uo t (l_ibus l) (l_obus l) vs)
    | _ => True
    end.
  Definition misfit (l : leaf D) (u : ub) : Prop := u = UArith /\ misfits K l.

  Lemma fits_has T k (v : val D) : ty_fits T k = true -> kind_fits k v = true -> has_ty T v.
  Proof. by destruct T, k, v. Qed.
  Lemma has_fits T k (v : val D) : ty_fits T k = true -> has_ty T v -> kind_fits k v = true.
  Proof. by destruct T, k, v. Qed.
  Lemma c_get {A} U (Q : A -> Prop) T s k (f : val D -> prog D A) : K s = Some k -> ty_fits T k = true ->
    (forall v, has_ty T v -> careful U K Q (f v)) -> careful U K Q (PGet s f).
  Proof. intros Hk HT Hf. cbn. exists k. split; [done|]. intros v Hv _. apply Hf. by eapply fits_has. Qed.
  Lemma c_set {A} U (Q : A -> Prop) T s k v (p : prog D A) : K s = Some k -> ty_fits T k = true -> has_ty T v ->
    careful U K Q p -> careful U K Q (PSet s v p).
  Proof. intros Hk HT Hv Hp. cbn. exists k. split_and!; [done|by eapply has_fits|done]. Qed.
  Lemma c_user {A B} U (P : A -> Prop) (Q : B -> Prop) (p : prog D A) (f : A -> prog D B) : harmless K P p -> (forall a, P a -> careful U K Q (f a)) -> careful U K Q (pbind p f).
  Proof. intros Hp Hf. eapply careful_bind; [|exact Hf]. eapply careful_weak; [| |exact Hp]; done. Qed.
  Lemma vop2_D f (x y : val D) : has_ty TyD x -> has_ty TyD y -> exists r, vop2 f x y = Some r /\ has_ty TyD r.
  Proof. destruct x, y; cbn; try done. intros _ _. eexists. split; [done|]. done. Qed.
  Lemma vop2_A f (x y : val D) r : has_ty TyA x -> has_ty TyA y -> vop2 f x y = Some r -> has_ty TyA r.
  Proof. destruct x, y; cbn; try done. destruct (map2 _ _ _); [|done]. intros _ _ [= <-]. done. Qed.
  Lemma vop2_A' f (x y : list D) : length x = length y -> exists r, vop2 f (VA x) (VA y) = Some (VA r) /\ length r = length x.
  Proof.
    intros E. cbn. assert (exists r, map2 f x y = Some r /\ length r = length x) as (r & -> & Hr); [|by exists r].
    revert y E. induction x as [|a x IH]; intros [|b y] [=]; cbn; [by eexists|]. destruct (IH y) as (r & -> & Hr); [done|]. eexists. split; [done|]. cbn. by rewrite Hr.
  Qed.
  Lemma fold_careful f T (Hm : T = TyD \/ T = TyA) (U : ub -> Prop) Q k :
    (forall v, has_ty T v -> careful U K Q (k v)) ->
    forall b acc, has_ty T acc -> (forall e, e ∈ b -> hty T (Some (snd e))) ->
      (T = TyA -> forall e n x, e ∈ b -> K (snd e) = Some (KArray n) -> acc = VA x -> n ≠ length x -> U UArith) -> careful U K Q (fold_bus (D:=D) f acc b k).
  Proof.
    intros Hk. induction b as [|[lb s] b IH]; intros acc Ha Hb HU; cbn [fold_bus]; [by apply Hk|].
    destruct (Hb (lb, s)) as (s' & kd & [= <-] & Hkd & Hf); [by apply elem_of_list_here|].
    assert (forall e, e ∈ b -> hty T (Some (snd e))) as Hb'. { intros e He. by apply Hb, elem_of_list_further. }
    destruct Hm as [-> | ->].
    - eapply c_get; [exact Hkd|exact Hf|]. intros v Hv. destruct (vop2_D f acc v Ha Hv) as (r & -> & Hr). by apply IH.
    - cbn. exists kd. split; [exact Hkd|]. intros v Hv Hs. destruct kd as [| | |n|]; try done. destruct v as [| | |y]; try done. destruct acc as [| | |x]; try done.
      cbn in Hs. apply Nat.eqb_eq in Hs. destruct (decide (n = length x)) as [E|E].
      + destruct (vop2_A' f x y) as (r & -> & Hr); [congruence|]. apply IH; [done|done|]. intros _ e n' x' He Hn' [= <-] Hne. eapply (HU eq_refl e n' x); [by apply elem_of_list_further|done..|congruence].
      + assert (U UArith) as Hu. { eapply (HU eq_refl (lb, s)); [apply elem_of_list_here|done..]. }
        destruct (vop2 f (VA x) (VA y)) as [r|] eqn:Er; [|exact Hu]. apply IH; [by eapply (vop2_A f (VA x) (VA y))|done|]. done.
  Qed.
  Lemma count_lt_le (ts : list D) t : count_lt ts t <= length ts.
  Proof. induction ts as [|v ts IH]; cbn; [done|]. destruct (nleb t v); lia. Qed.
  Lemma count_lt_last (ts : list D) t x : last ts = Some x -> nleb t x = true -> count_lt ts t < length ts.
  Proof.
    induction ts as [|v ts IH]; cbn; [done|]. destruct ts as [|v' ts].
    - intros [= ->] ->. lia.
    - intros Hl Hx. destruct (nleb t v); [lia|]. apply -> Nat.succ_lt_mono. by apply IH.
  Qed.
  Lemma interp_D xk xk1 t tk tk1 : has_ty TyD xk -> has_ty TyD xk1 -> exists r, interp (D:=D) xk xk1 t tk tk1 = Some r /\ has_ty TyD r.
  Proof. destruct xk, xk1; cbn; try done. intros _ _. eexists. split; [done|]. done. Qed.
  Lemma interp_A' x x1 t tk tk1 : length x = length x1 -> exists r, interp (D:=D) (VA x) (VA x1) t tk tk1 = Some (VA r).
  Proof.
    intros E. unfold interp. destruct (vop2_A' nsub x x1 E) as (r & -> & Hr). cbn [vmap].
    destruct (vop2_A' nadd (map (fun y => (y * (t - tk1) / (tk - tk1))%num) r) x1) as (r' & Hr' & _); [rewrite map_length; congruence|]. by exists r'.
  Qed.

  Lemma act_safe l t st : leaf_ok l -> mem_ok l st -> careful (misfit l) K (mem_ok l) (act l t st).
  Proof.
    unfold leaf_ok, act. destruct (l_cls l) as [T v|T f|f|f|T f|T f|T k|T ini|T ini| | |T|T|T life| |T|T|inits ex|ex|ua up upo|] eqn:Ec; intros HL HM.
    - destruct HL as [(so & ko & -> & Hko & Hfo) Hv]. eapply c_set; [done..|]. exact HM.
    - destruct HL as [(so & ko & -> & Hko & Hfo) Hu]. cbn [with_h]. eapply c_user; [apply Hu|]. intros v Hv. by eapply c_set.
    - eapply c_user; [apply HL|]. by intros _ _.
    - eapply c_user; [apply HL|]. by intros _ _.
    - destruct HL as ((si & ki & -> & Hki & Hfi) & (so & ko & -> & Hko & Hfo) & Hu). cbn [with_h]. eapply c_get; [done..|]. intros x Hx.
      eapply c_user; [by apply Hu|]. intros v Hv. by eapply c_set.
    - destruct HL as [(so & ko & -> & Hko & Hfo) Hu]. cbn [with_h]. eapply c_user; [apply Hu|]. intros v Hv. by eapply c_set.
    - destruct HL as ((si & ki & -> & Hki & Hfi) & (so & ko & -> & Hko & Hfo) & Hk). cbn [with_h]. eapply c_get; [done..|]. intros x Hx.
      unfold pset_opt. destruct T, k, x; try done; cbn [gain_val].
      + by eapply c_set.
      + destruct (int_ok _); [by eapply c_set|]. cbn. split; [done|]. unfold misfits. by rewrite Ec.
      + by eapply c_set.
    - destruct HL as ((so & ko & -> & Hko & Hfo) & HT & Hi & Hb). cbn [with_h]. eapply fold_careful; try done.
      + intros v Hv. by eapply c_set.
      + intros -> e n x He Hn -> Hne. split; [done|]. unfold misfits. rewrite Ec. by exists e, n, x.
    - destruct HL as ((so & ko & -> & Hko & Hfo) & HT & Hi & Hb). cbn [with_h]. eapply fold_careful; try done.
      + intros v Hv. by eapply c_set.
      + intros -> e n x He Hn -> Hne. split; [done|]. unfold misfits. rewrite Ec. by exists e, n, x.
    - destruct HL as ((so & ko & -> & Hko & Hfo) & (s1 & k1 & -> & Hk1 & Hf1) & (s2 & k2 & -> & Hk2 & Hf2)). cbn [with_h].
      eapply c_get; [done..|]. intros x1 H1. eapply c_get; [done..|]. intros x2 H2. destruct (vop2_D nsub x1 x2 H1 H2) as (r & -> & Hr). by eapply c_set.
    - destruct HL as ((so & ko & -> & Hko & Hfo) & (s1 & k1 & -> & Hk1 & Hf1) & (s2 & k2 & -> & Hk2 & Hf2)). cbn [with_h].
      eapply c_get; [done..|]. intros x1 H1. eapply c_get; [done..|]. intros x2 H2. destruct (vop2_D ndiv x1 x2 H1 H2) as (r & -> & Hr). by eapply c_set.
    - destruct HL as ((si & ki & -> & Hki & Hfi) & (so & ko & -> & Hko & Hfo)). cbn [with_h]. eapply c_get; [done..|]. intros x Hx. by eapply c_set.
    - destruct HL as (_ & (so & ko & -> & Hko & Hfo)). cbn [with_h]. pose proof HM as HM'. unfold mem_ok in HM'. rewrite Ec in HM'.
      destruct HM' as (v & -> & Hv). by eapply c_set.
    - destruct HL as (HT & (so & ko & Ho & Hko & Hfo) & _ & (sd & kd & Hd & Hkd & Hfd) & (sn & kn & Hn & Hkn & Hfn)).
      pose proof HM as HM'. unfold mem_ok in HM'. rewrite Ec in HM'. destruct HM' as (ts & xs & -> & Hl & Hx). unfold delay_act. rewrite Ho, Hd, Hn. cbn [with_h].
      assert (careful (D:=D) (misfit l) K (mem_ok l) (PGet sn (fun v => PSet so v (PRet (LDelay ts xs))))) as Hini.
      { eapply c_get; [done..|]. intros v Hv. by eapply c_set. }
      destruct ts as [|th ts]; [exact Hini|]. eapply c_get; [done..|]. intros dv Hdv. destruct dv as [d| | |]; try done.
      destruct (nleb _ th) eqn:E1; [exact Hini|].
      destruct (last xs) as [xl|] eqn:Exl.
      2:{ apply last_None in Exl. subst xs. done. }
      destruct (last (th :: ts)) as [tl|] eqn:Etl; [|by apply last_None in Etl]. change (default th (Some tl)) with tl.
      destruct (nleb tl (t - d)%num) eqn:E2.
      { eapply c_set; [done..| |done]. apply last_Some_elem_of in Exl. rewrite Forall_forall in Hx. destruct (Hx _ Exl) as (s' & k' & _ & _ & Hf' & Hk' & _). by eapply fits_has. }
      apply ord_total in E2. pose proof (count_lt_last _ _ _ Etl E2) as Hlt. cbn [count_lt] in *. rewrite E1 in *.
      set (k1 := count_lt ts (t - d)%num) in *.
      destruct (lookup_lt_is_Some_2 (th :: ts) (S k1) Hlt) as [tk ->]. destruct (lookup_lt_is_Some_2 (th :: ts) k1) as [tk1 ->]; [lia|].
      rewrite Hl in Hlt. destruct (lookup_lt_is_Some_2 xs (S k1) Hlt) as [xk Hxk]. destruct (lookup_lt_is_Some_2 xs k1) as [xk1 Hxk1]; [lia|].
      rewrite Hxk, Hxk1. destruct (Forall_lookup_1 _ _ _ _ Hx Hxk) as (s1 & k1' & Es1 & Ek1 & Ef1 & V1 & Z1). destruct (Forall_lookup_1 _ _ _ _ Hx Hxk1) as (s2 & k2' & Es2 & Ek2 & _ & V2 & Z2).
      assert (k2' = k1') as -> by congruence. pose proof (fits_has _ _ _ Ef1 V1) as T1. pose proof (fits_has _ _ _ Ef1 V2) as T2. unfold pset_opt.
      destruct HT as [-> | ->].
      + destruct (interp_D xk xk1 (t - d)%num tk tk1 T1 T2) as (r & -> & Hr). by eapply c_set.
      + assert (exists r, interp xk xk1 (t - d)%num tk tk1 = Some (VA r)) as [r ->]; [|by eapply c_set].
        destruct xk as [| | |x]; try done. destruct xk1 as [| | |x1]; try done. destruct k1' as [| | |n|]; try done. cbn in Z1, Z2. apply Nat.eqb_eq in Z1, Z2.
        apply interp_A'. congruence.
    - destruct HL as ((si & ki & Hi & Hki & Hfi) & (so & ko & Ho & Hko & Hfo)). pose proof HM as HM'. unfold mem_ok in HM'. rewrite Ec in HM'.
      destruct HM' as (f & t0 & x0 & y & -> & Hf). unfold deriv_act. rewrite Hi, Ho. cbn [with_h]. destruct f.
      + eapply c_get; [done..|]. intros v Hv. destruct v; try done. eapply c_set; [done..|]. cbn. unfold mem_ok. rewrite Ec. do 4 eexists. split; [done|]. done.
      + destruct (Hf eq_refl) as [[t0' ->] [x0' ->]]. destruct (neqb t0' t); [by eapply c_set|]. eapply c_get; [done..|]. intros v Hv. destruct v; try done. by eapply c_set.
    - exact HM.
    - destruct HL as (HT & _ & (sg & kg & -> & Hkg & Hfg)). pose proof HM as HM'. unfold mem_ok in HM'. rewrite Ec in HM'.
      destruct HM' as (v & b & -> & Hv). destruct b; [exact HM|]. cbn [with_h]. eapply c_get; [done..|]. intros x Hx. destruct x; try done.
      cbn. unfold mem_ok. rewrite Ec. eauto.
    - exact HM.
    - exact HM.
    - pose proof HM as HM'. unfold mem_ok in HM'. rewrite Ec in HM'. destruct HM' as (vs & P & -> & HP & Hs). eapply c_user; [by apply Hs|].
      intros vs' Hvs'. cbn. unfold mem_ok. rewrite Ec. by exists vs', P.
    - exact HM.
  Qed.
  Lemma vzero_ty T (v : val D) : has_ty T v -> has_ty T (vzero v).
  Proof. by destruct T, v. Qed.
  Lemma pre_safe l t st : leaf_ok l -> mem_ok l st -> careful (misfit l) K (mem_ok l) (pre l t st).
  Proof.
    unfold leaf_ok, pre. destruct (l_cls l) as [T v|T f|f|f|T f|T f|T k|T ini|T ini| | |T|T|T life| |T|T|inits ex|ex|ua up upo|] eqn:Ec; intros HL HM; try exact HM.
    - destruct HL as (HT & (so & ko & -> & Hko & Hfo)). pose proof HM as HM'. unfold mem_ok in HM'. rewrite Ec in HM'.
      destruct HM' as (v & b & -> & Hv). cbn [with_h]. by eapply c_set.
    - destruct HL as (HT & (so & ko & -> & Hko & Hfo) & _). pose proof HM as HM'. unfold mem_ok in HM'. rewrite Ec in HM'.
      destruct HM' as (v & b & -> & Hv). cbn [with_h]. assert (has_ty T (if b then vzero v else v)) as Hv'. { destruct b; [by apply vzero_ty|done]. }
      eapply c_set; [done..|]. cbn. unfold mem_ok. rewrite Ec. eauto.
    - pose proof HM as HM'. unfold mem_ok in HM'. rewrite Ec in HM'. destruct HM' as (vs & P & -> & HP & Hs). eapply c_user; [by apply Hs|].
      intros vs' Hvs'. cbn. unfold mem_ok. rewrite Ec. by exists vs', P.
  Qed.
  Lemma post_safe l t st : leaf_ok l -> mem_ok l st -> careful (misfit l) K (mem_ok l) (post l t st).
  Proof.
    unfold leaf_ok, post. destruct (l_cls l) as [T v|T f|f|f|T f|T f|T k|T ini|T ini| | |T|T|T life| |T|T|inits ex|ex|ua up upo|] eqn:Ec; intros HL HM; try exact HM.
    - destruct HL as ((si & ki & -> & Hki & Hfi) & _). cbn [with_h]. eapply c_get; [done..|]. intros x Hx. cbn. unfold mem_ok. rewrite Ec. eauto.
    - destruct HL as (HT & _ & (si & ki & Hi & Hki & Hfi) & _). pose proof HM as HM'. unfold mem_ok in HM'. rewrite Ec in HM'.
      destruct HM' as (ts & xs & -> & Hl & Hx). unfold delay_post. rewrite Hi. cbn [with_h]. pose proof (count_lt_le ts (t - life)%num) as Hc.
      destruct (Nat.ltb_spec (length xs) (count_lt ts (t - life)%num)); [lia|]. cbn [careful]. intros _. exists ki. split; [done|]. intros v Hv Hs. cbn. unfold mem_ok. rewrite Ec.
      do 2 eexists. split; [done|]. split; [rewrite !app_length, !drop_length; cbn; lia|]. apply Forall_app. split; [by apply Forall_drop|].
      apply Forall_singleton. by exists si, ki.
    - destruct HL as ((si & ki & Hi & Hki & Hfi) & _). unfold deriv_post. rewrite Hi. cbn [with_h]. eapply c_get; [done..|]. intros x Hx. destruct x; try done.
      cbn. unfold mem_ok. rewrite Ec. do 4 eexists. split; [done|]. eauto.
    - destruct HL as (HT & (so & ko & -> & Hko & Hfo)). pose proof HM as HM'. unfold mem_ok in HM'. rewrite Ec in HM'.
      destruct HM' as (v & b & -> & Hv). cbn [with_h]. eapply c_get; [done..|]. intros x Hx. cbn. unfold mem_ok. rewrite Ec. eauto.
    - destruct HL as (HT & (so & ko & -> & Hko & Hfo) & _). pose proof HM as HM'. unfold mem_ok in HM'. rewrite Ec in HM'.
      destruct HM' as (v & b & -> & Hv). cbn [with_h]. eapply c_get; [done..|]. intros x Hx. cbn. unfold mem_ok. rewrite Ec. eauto.
    - pose proof HM as HM'. unfold mem_ok in HM'. rewrite Ec in HM'. destruct HM' as (vs & P & -> & HP & Hs). eapply c_user; [by apply Hs|].
      intros vs' Hvs'. cbn. unfold mem_ok. rewrite Ec. by exists vs', P.
  Qed.
End leaf.
