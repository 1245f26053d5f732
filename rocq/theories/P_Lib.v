(** The library blocks: which signals they read and write, and their equations. *)
From stdpp Require Import prelude gmap strings.
From Coq Require Import ZArith.
From Verif Require Import Num Res Store Leaf Sched SpecSched SpecBlock P_Store P_Prog Util P_Sched P_Modes P_Conf P_Eval.

(** Every returning path of [p] assigns exactly [O], [acc] of it already. *)
Fixpoint paths_write {D A} (acc O : list nat) (p : prog D A) : Prop :=
  match p with
  | PRet _ => forall s, s ∈ acc <-> s ∈ O
  | PGet _ k => forall v, paths_write acc O (k v)
  | PSet s _ p' => paths_write (s :: acc) O p'
  | PDebug _ _ p' => paths_write acc O p'
  | PThrow _ | PUB _ => True
  end.
Fixpoint no_set {D A} (p : prog D A) : Prop :=
  match p with
  | PGet _ k => forall v, no_set (k v)
  | PSet _ _ _ => False
  | PDebug _ _ p' => no_set p'
  | _ => True
  end.

Section lib.
  Context {D : Type} `{NumOps D}.
  Implicit Types (l : leaf D).

  Lemma reads_in_mono {A} (p : prog D A) (R R' : nat -> Prop) :
    (forall s, R s -> R' s) -> reads_in R p -> reads_in R' p.
  Proof.
    revert R R'. induction p as [a|s k IH|s v p IH|b e p IH|e|u]; intros R R' Hs; cbn; try done.
    - intros [Hr Hk]. split; [auto|]. intros v. by eapply IH.
    - apply IH. naive_solver.
    - by apply IH.
  Qed.
  Lemma reads_in_pbind {A B} (p : prog D A) (k : A -> prog D B) (R : nat -> Prop) :
    reads_in R p -> (forall a (R' : nat -> Prop), (forall s, R s -> R' s) -> reads_in R' (k a)) -> reads_in R (pbind p k).
  Proof.
    revert R. induction p as [a|s k' IH|s v p IH|b e p IH|e|u]; intros R Hp Hk; cbn in *; try done.
    - by apply Hk.
    - destruct Hp as [Hr Hp]. split; [done|]. intros v. by apply IH.
    - apply IH; [done|]. intros a R' HR. apply Hk. auto.
    - by apply IH.
  Qed.
  Lemma reads_in_fold f ini (b : list (string * nat)) k (R : nat -> Prop) :
    (forall e, e ∈ b -> R (snd e)) -> (forall v, reads_in R (k v)) -> reads_in R (fold_bus (D:=D) f ini b k).
  Proof.
    revert ini. induction b as [|[lb s] b IH]; intros ini Hb Hk; cbn; [done|].
    split; [apply (Hb (lb, s)); by apply elem_of_list_here|]. intros v. destruct (vop2 f ini v); [|done].
    apply IH; [|done]. intros e He. apply Hb. by apply elem_of_list_further.
  Qed.
  Lemma reads_in_h {A} (o : option nat) (k : nat -> prog D A) R :
    (forall s, o = Some s -> reads_in R (k s)) -> reads_in R (with_h o k).
  Proof. destruct o; cbn; auto. Qed.
  Lemma reads_in_pset s o (p : prog D (lstate D)) (R : nat -> Prop) :
    reads_in (fun x => R x \/ x = s) p -> reads_in R (pset_opt s o p).
  Proof. by destruct o. Qed.

  Lemma lib_local X l : reads_wired X l -> user_reads X l -> local X l.
  Proof.
    intros Hw Hu t st. unfold reads_wired, user_reads in *. unfold act.
    destruct (l_cls l) as [T v|T f|f|f|T f|T f|T k|T ini|T ini| | |T|T|T life| |T|T|inits excl|excl|ua up uo|];
      try done.
    - apply reads_in_h. intros. done.
    - apply reads_in_h. intros. apply reads_in_pbind; [apply Hu|]. done.
    - apply reads_in_pbind; [apply Hu|done].
    - apply reads_in_pbind; [apply Hu|done].
    - apply reads_in_h. intros si Hsi. apply reads_in_h. intros so Hso. split; [auto|]. intros x.
      apply reads_in_pbind; [apply Hu|done].
    - apply reads_in_h. intros so Hso. apply reads_in_pbind; [apply Hu|done].
    - apply reads_in_h. intros si Hsi. apply reads_in_h. intros so Hso. split; [auto|]. intros x. by apply reads_in_pset.
    - apply reads_in_h. intros so Hso. apply reads_in_fold; done.
    - apply reads_in_h. intros so Hso. apply reads_in_fold; done.
    - destruct Hw. apply reads_in_h. intros s1 ?. apply reads_in_h. intros s2 ?. apply reads_in_h. intros so Hso.
      split; [auto|]. intros x. split; [auto|]. intros y. by apply reads_in_pset.
    - destruct Hw. apply reads_in_h. intros s1 ?. apply reads_in_h. intros s2 ?. apply reads_in_h. intros so Hso.
      split; [auto|]. intros x. split; [auto|]. intros y. by apply reads_in_pset.
    - apply reads_in_h. intros si Hsi. apply reads_in_h. intros so Hso. split; [auto|]. done.
    - apply reads_in_h. intros. by destruct st.
    - destruct st as [| |ts xs| | |]; try done. destruct Hw as [Hd Hi]. unfold delay_act.
      apply reads_in_h. intros so Hso. apply reads_in_h. intros si Hsi. apply reads_in_h. intros sd Hsd.
      destruct ts as [|th ts]; [split; [auto|done]|]. split; [auto|]. intros [d| | |]; try done.
      case_match; [split; [auto|done]|]. case_match; [by case_match|].
      repeat case_match; try done. all: try by apply reads_in_pset.
    - destruct st as [| | |first t0 x0 y| |]; try done. unfold deriv_act.
      apply reads_in_h. intros si Hsi. apply reads_in_h. intros so Hso.
      destruct first; [split; [auto|]; intros v; by destruct v|].
      destruct t0, x0; try done. case_match; [done|]. split; [auto|]. intros v; by destruct v.
    - destruct st as [| | | |v g|]; try done. destruct g; [done|].
      apply reads_in_h. intros sg Hsg. split; [auto|]. intros v'; by destruct v'.
    - destruct st; try done. apply reads_in_pbind; [apply Hu|done].
  Qed.

  (** ** Writes *)
  Lemma paths_write_ext {A} (p : prog D A) acc acc' O :
    (forall s, s ∈ acc <-> s ∈ acc') -> paths_write acc O p -> paths_write acc' O p.
  Proof.
    revert acc acc'. induction p as [a|s k IH|s v p IH|b e p IH|e|u]; intros acc acc' He; cbn; try done.
    - intros Hp s. rewrite <- He. apply Hp.
    - intros Hp v. by eapply IH.
    - apply IH. intros x. rewrite !elem_of_cons. by rewrite He.
    - by apply IH.
  Qed.
  Lemma paths_write_pbind {A B} (p : prog D A) (k : A -> prog D B) acc O :
    no_set p -> (forall a, paths_write acc O (k a)) -> paths_write acc O (pbind p k).
  Proof. intros Hp Hk. induction p as [a|s k' IH|s v p IH|b e p IH|e|u]; cbn in *; auto. done. Qed.
  Lemma paths_write_fold f ini (b : list (string * nat)) k acc O :
    (forall v, paths_write acc O (k v)) -> paths_write acc O (fold_bus (D:=D) f ini b k).
  Proof.
    intros Hk. revert ini. induction b as [|[lb s] b IH]; intros ini; cbn; [done|].
    intros v. by destruct (vop2 f ini v).
  Qed.

  Lemma run_prog_paths {A} dbg (p : prog D A) acc O σ a σ' :
    paths_write acc O p -> run_prog dbg p σ = Ok a σ' -> (forall s, s ∈ acc -> assigned σ s = true) ->
    forall s, (assigned σ' s = true <-> assigned σ s = true \/ s ∈ O) /\ (s ∈ acc -> s ∈ O).
  Proof.
    revert acc σ. induction p as [x|s0 k IH|s0 v p IH|b e p IH|e|u]; intros acc σ Hp Hr Hs s; cbn in Hr; try done.
    - unfold ret in Hr. simplify_eq. cbn in Hp. split; [|by apply Hp]. split; [by left|].
      intros [Hx|Hx]; [done|]. by apply Hs, Hp.
    - unfold bnd in Hr. destruct (get_value dbg s0 σ) as [v σ1| | |] eqn:E; try done.
      assert (σ1 = σ) as -> by (unfold get_value in E; repeat case_match; by simplify_eq).
      by eapply IH.
    - unfold bnd in Hr. destruct (set_value dbg s0 v σ) as [y σ1| | |] eqn:E; try done.
      assert (forall x, assigned σ1 x = true <-> assigned σ x = true \/ x = s0) as Ha.
      { intros x. unfold set_value in E. repeat case_match; simplify_eq. unfold assigned.
        destruct (decide (x = s0)) as [->|Hne]; [rewrite lookup_insert; cbn; split; [by right|done]|].
        rewrite lookup_insert_ne by done. split; [by left|by intros [?|?]]. }
      assert (forall x, x ∈ s0 :: acc -> assigned σ1 x = true) as Hs1.
      { intros x. rewrite elem_of_cons, Ha. naive_solver. }
      pose proof (IH (s0 :: acc) σ1 Hp Hr Hs1) as Hi. destruct (Hi s) as [Hi1 Hi2].
      destruct (Hi s0) as [_ Hi3]. specialize (Hi3 (elem_of_list_here _ _)).
      rewrite Hi1, Ha. split; [naive_solver|]. intros Hx. apply Hi2. by apply elem_of_list_further.
    - unfold bnd in Hr. destruct (debug_verify dbg b e σ) as [y σ1| | |] eqn:E; try done.
      assert (σ1 = σ) as -> by (unfold debug_verify, verify, ret, throw in E; destruct dbg, b; by simplify_eq).
      by eapply IH.
  Qed.

  (** The signals a library block assigns at every activation; [None] for blocks
      with user code that may assign signals. *)
  Definition outs (l : leaf D) : option (list nat) :=
    match l_cls l with
    | CConst _ _ | CSource _ _ | CSISO _ _ | CSO _ _ | CGain _ _ | CAdd _ _ | CMul _ _ | CSub | CDiv
    | CPipe _ | CMemory _ | CDelay _ _ | CDeriv =>
        Some (match h_out (l_h l) with Some s => [s] | None => [] end)
    | CInteg _ | CTrig _ | CBusMem _ _ | CBusPipe _ => Some []
    | CSources _ | CFunction _ | CUser _ _ _ | CSubmodel => None
    end.
  (** The value-returning user functions do not assign signals themselves. *)
  Definition user_pure (l : leaf D) : Prop :=
    match l_cls l with
    | CSource _ f => forall t, no_set (f t)
    | CSISO _ f => forall t x, no_set (f t x)
    | CSO _ f => forall t, no_set (f t (l_ibus l))
    | _ => True
    end.

  Lemma paths_h {A} (o : option nat) (k : nat -> prog D A) acc O :
    (forall s, o = Some s -> paths_write acc O (k s)) -> paths_write acc O (with_h o k).
  Proof. destruct o; cbn; auto. Qed.
  Lemma paths_pset s o (p : prog D (lstate D)) acc O :
    paths_write (s :: acc) O p -> paths_write acc O (pset_opt s o p).
  Proof. by destruct o. Qed.

  Lemma lib_paths l O t st : user_pure l -> outs l = Some O -> paths_write [] O (act l t st).
  Proof.
    intros Hu Ho. unfold outs, user_pure in *. unfold act.
    destruct (l_cls l) as [T v|T f|f|f|T f|T f|T k|T ini|T ini| | |T|T|T life| |T|T|inits excl|excl|ua up uo|];
      simplify_eq; try done.
    - apply paths_h. intros so ->. done.
    - apply paths_h. intros so ->. by apply paths_write_pbind.
    - apply paths_h. intros si Hsi. apply paths_h. intros so ->. intros x. by apply paths_write_pbind.
    - apply paths_h. intros so ->. by apply paths_write_pbind.
    - apply paths_h. intros si Hsi. apply paths_h. intros so ->. intros x. by apply paths_pset.
    - apply paths_h. intros so ->. by apply paths_write_fold.
    - apply paths_h. intros so ->. by apply paths_write_fold.
    - apply paths_h. intros s1 H1. apply paths_h. intros s2 H2. apply paths_h. intros so ->. intros x y. by apply paths_pset.
    - apply paths_h. intros s1 H1. apply paths_h. intros s2 H2. apply paths_h. intros so ->. intros x y. by apply paths_pset.
    - apply paths_h. intros si Hsi. apply paths_h. intros so ->. done.
    - apply paths_h. intros so ->. by destruct st.
    - destruct st as [| |ts xs| | |]; try done. unfold delay_act.
      apply paths_h. intros so ->. apply paths_h. intros si Hsi. apply paths_h. intros sd Hsd.
      destruct ts as [|th ts]; [done|]. intros [d| | |]; try done.
      case_match; [done|]. case_match; [by case_match|].
      repeat case_match; try done. all: try by apply paths_pset.
    - destruct st as [| | |first t0 x0 y| |]; try done. unfold deriv_act.
      apply paths_h. intros si Hsi. apply paths_h. intros so ->.
      destruct first; [intros v; by destruct v|].
      destruct t0, x0; try done. case_match; [done|]. intros v; by destruct v.
    - destruct st as [| | | |v g|]; try done. destruct g; [done|].
      apply paths_h. intros sg Hsg. intros v'; by destruct v'.
  Qed.

  Lemma lib_writes dbg l O t c c' s :
    user_pure l -> outs l = Some O -> activate dbg l t c = Ok tt c' ->
    (assigned (k_store c') s = true <-> assigned (k_store c) s = true \/ s ∈ O).
  Proof.
    intros Hu Ho Ha. unfold activate, run_leaf in Ha.
    destruct (run_prog dbg _ _) as [st σ| | |] eqn:E; try done. simplify_eq. cbn.
    eapply run_prog_paths; [by eapply lib_paths|done|].
    intros x Hx. by apply elem_of_nil in Hx.
  Qed.
  Lemma lib_always_writes dbg l O s : user_pure l -> outs l = Some O -> s ∈ O -> always_writes dbg l s.
  Proof. intros Hu Ho Hs t c c' Ha. eapply lib_writes; eauto. Qed.
  Lemma lib_never_writes dbg l O s : user_pure l -> outs l = Some O -> s ∉ O -> never_writes dbg l s.
  Proof.
    intros Hu Ho Hs t c c' Ha Hf. destruct (assigned (k_store c') s) eqn:E; [|done].
    apply (lib_writes dbg l O t c c' s Hu Ho Ha) in E as [E|E]; [congruence|done].
  Qed.

  (** ** Equations *)
  Lemma map2_pointwise f (a b c : list D) :
    map2 f a b = Some c -> length a = length b /\ length a = length c /\
    forall i x y, a !! i = Some x -> b !! i = Some y -> c !! i = Some (f x y).
  Proof.
    revert b c. induction a as [|x a IH]; intros [|y b] c Hc; cbn in Hc; simplify_eq; [done|].
    destruct (map2 f a b) as [r|] eqn:E; simplify_eq. destruct (IH _ _ E) as (H1 & H2 & H3).
    cbn. split_and!; [lia|lia|]. intros [|i] x' y' Hx Hy; cbn in *; simplify_eq; [done|]. by apply H3.
  Qed.
  Lemma vop2_pointwise f (x y z : val D) : vop2 f x y = Some z -> pointwise f x y z.
  Proof.
    destruct x, y; cbn; try done; [intros [= <-]; constructor|].
    destruct (map2 f _ _) eqn:E; [|done]. intros [= <-]. apply map2_pointwise in E as (? & ? & ?).
    by constructor.
  Qed.
  Lemma gain_scaled (k x y : val D) : gain_val k x = Some y -> scaled k x y.
  Proof. destruct k, x; cbn; try done; try (intros [= <-]; constructor). case_match; [|done]. intros [= <-]; constructor. Qed.

  Lemma ceval_pbind {A B} ρ (p : prog D A) (k : A -> prog D B) b ws :
    ceval ρ (pbind p k) = Some (b, ws) ->
    exists a ws1 ws2, ceval ρ p = Some (a, ws1) /\ ceval ρ (k a) = Some (b, ws2) /\ ws = ws1 ++ ws2.
  Proof.
    revert ws. induction p as [a|s k' IH|s v p IH|c e p IH|e|u]; intros ws Hp; cbn in *; try done.
    - eauto 6.
    - destruct (ρ s); [|done]. by apply IH.
    - destruct (ceval ρ (pbind p k)) as [[b' ws']|] eqn:E; [|done]. simplify_eq.
      destruct (IH _ eq_refl) as (a & ws1 & ws2 & -> & H2 & ->). eauto 8.
    - destruct c; [|done]. by apply IH.
  Qed.
  Lemma ceval_fold ρ f ini (b : list (string * nat)) so st st' ws :
    ceval ρ (fold_bus (D:=D) f ini b (fun v => PSet so v (PRet st))) = Some (st', ws) ->
    exists xs y, Forall2 (fun e x => ρ (snd e) = Some x) b xs /\ accumulates f ini xs y /\ ws = [(so, y)].
  Proof.
    revert ini. induction b as [|[lb s] b IH]; intros ini Hb; cbn in Hb.
    - simplify_eq. exists [], ini. split_and!; [constructor|constructor|done].
    - destruct (ρ s) as [v|] eqn:Ev; [|done]. destruct (vop2 f ini v) as [z|] eqn:Ez; [|done].
      destruct (IH z Hb) as (xs & y & Hf & Ha & ->). exists (v :: xs), y. split_and!; [by constructor| |done].
      econstructor; [by apply vop2_pointwise|done].
  Qed.

  Lemma ceval_equation l t st τ st' ws :
    ceval (value τ) (act l t st) = Some (st', ws) ->
    (forall s v, (s, v) ∈ ws -> value τ s = Some v) -> equation l t st τ.
  Proof.
    intros Hc Hv. unfold equation. unfold act in Hc.
    destruct (l_cls l) as [T v|T f|f|f|T f|T f|T k|T ini|T ini| | |T|T|T life| |T|T|inits excl|excl|ua up uo|];
      try done.
    - destruct (h_out (l_h l)) as [so|]; [|done]. cbn in Hc. simplify_eq. exists so. split; [done|].
      apply Hv, elem_of_list_here.
    - destruct (h_out (l_h l)) as [so|]; [|done]. cbn in Hc.
      apply ceval_pbind in Hc as (v & ws1 & ws2 & H1 & H2 & ->). cbn in H2. simplify_eq.
      exists so, v. split_and!; [done|by exists ws1|]. apply Hv, elem_of_app. right. apply elem_of_list_here.
    - destruct (h_in (l_h l)) as [si|]; [|done]. destruct (h_out (l_h l)) as [so|]; [|done]. cbn in Hc.
      destruct (value τ si) as [x|] eqn:Ex; [|done].
      apply ceval_pbind in Hc as (v & ws1 & ws2 & H1 & H2 & ->). cbn in H2. simplify_eq.
      exists si, so, x, v. split_and!; [done..|by exists ws1|]. apply Hv, elem_of_app. right. apply elem_of_list_here.
    - destruct (h_out (l_h l)) as [so|]; [|done]. cbn in Hc.
      apply ceval_pbind in Hc as (v & ws1 & ws2 & H1 & H2 & ->). cbn in H2. simplify_eq.
      exists so, v. split_and!; [done|by exists ws1|]. apply Hv, elem_of_app. right. apply elem_of_list_here.
    - destruct (h_in (l_h l)) as [si|]; [|done]. destruct (h_out (l_h l)) as [so|]; [|done]. cbn in Hc.
      destruct (value τ si) as [x|] eqn:Ex; [|done].
      destruct (gain_val k x) as [y|] eqn:Ey; cbn in Hc; [|done]. simplify_eq.
      exists si, so, x, y. split_and!; [done..|apply Hv, elem_of_list_here|by apply gain_scaled].
    - destruct (h_out (l_h l)) as [so|]; [|done]. cbn in Hc.
      apply ceval_fold in Hc as (xs & y & Hf & Ha & ->). exists so, xs, y. split_and!; [done..|apply Hv, elem_of_list_here|done].
    - destruct (h_out (l_h l)) as [so|]; [|done]. cbn in Hc.
      apply ceval_fold in Hc as (xs & y & Hf & Ha & ->). exists so, xs, y. split_and!; [done..|apply Hv, elem_of_list_here|done].
    - destruct (h_x1 (l_h l)) as [s1|]; [|done]. destruct (h_x2 (l_h l)) as [s2|]; [|done].
      destruct (h_out (l_h l)) as [so|]; [|done]. cbn in Hc.
      destruct (value τ s1) as [x1|] eqn:E1; [|done]. destruct (value τ s2) as [x2|] eqn:E2; [|done].
      destruct (vop2 nsub x1 x2) as [y|] eqn:Ey; cbn in Hc; [|done]. simplify_eq.
      exists s1, s2, so, x1, x2, y. split_and!; [done..|apply Hv, elem_of_list_here|by apply vop2_pointwise].
    - destruct (h_x1 (l_h l)) as [s1|]; [|done]. destruct (h_x2 (l_h l)) as [s2|]; [|done].
      destruct (h_out (l_h l)) as [so|]; [|done]. cbn in Hc.
      destruct (value τ s1) as [x1|] eqn:E1; [|done]. destruct (value τ s2) as [x2|] eqn:E2; [|done].
      destruct (vop2 ndiv x1 x2) as [y|] eqn:Ey; cbn in Hc; [|done]. simplify_eq.
      exists s1, s2, so, x1, x2, y. split_and!; [done..|apply Hv, elem_of_list_here|by apply vop2_pointwise].
    - destruct (h_in (l_h l)) as [si|]; [|done]. destruct (h_out (l_h l)) as [so|]; [|done]. cbn in Hc.
      destruct (value τ si) as [x|] eqn:Ex; [|done]. simplify_eq.
      exists si, so, x. split_and!; [done..|apply Hv, elem_of_list_here].
    - destruct (h_out (l_h l)) as [so|]; [|done]. cbn in Hc. destruct st; try done. cbn in Hc. simplify_eq.
      eexists so, _. split_and!; [done..|apply Hv, elem_of_list_here].
  Qed.

  Lemma write_all_value ws (σ : store D) s v :
    writable σ ws -> (s, v) ∈ ws -> value (write_all ws σ) s = Some v.
  Proof.
    intros [Hn Hw] Hin. rewrite Forall_forall in Hw. destruct (Hw _ Hin) as (c & Hc & _).
    unfold value. by rewrite (write_all_in σ ws s v c Hn Hin Hc).
  Qed.

  Lemma run_equations t c ls c' :
    legal_run true t c ls c' -> forall l, l ∈ ls -> equation l t (lst_of c (l_id l)) (k_store c').
  Proof.
    intros Hr l Hl. destruct (legal_run_traced t c ls c' Hr) as (tr & Htr & Ht).
    rewrite <- Htr in Hl. apply elem_of_list_fmap in Hl as (e & -> & He).
    destruct Ht as (Hs & Hw & _ & Hce). rewrite Forall_forall in Hce.
    specialize (Hce e He (k_store c') (ext_refl _)). destruct e as [l [st ws]]; cbn in *.
    eapply ceval_equation; [done|]. intros s v Hsv. rewrite Hs.
    apply write_all_value; [done|]. unfold writes. apply elem_of_concat_map. exists (l, (st, ws)). done.
  Qed.

  Lemma evaluate_equations tr t d d' l :
    wf_tree tr -> evaluate true tr t d = Ok tt d' ->
    l ∈ leaves tr -> is_builder (l_cls l) = false -> l_id l ∈ k_done (d_core d') ->
    equation l t (lst_of (d_core d) (l_id l)) (k_store (d_core d')).
  Proof.
    intros Hw Hr Hl Hb Hd. destruct (evaluate_ok _ _ _ _ _ _ Hw Hr) as (ls & Hls & Hin & _).
    assert (l ∈ ls) as Hll.
    { eapply done_in_run; eauto; [by apply wf_leaves|]. rewrite marked_leaf by done. by rewrite Hb. }
    pose proof (run_equations _ _ _ _ Hls l Hll) as He. unfold lst_of in *. by rewrite marked_lst in He.
  Qed.
End lib.
