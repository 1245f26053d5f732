(** Repeating an evaluation: states that differ only in what later clears, writes
    and activations overwrite. *)
From stdpp Require Import prelude gmap.
From Coq Require Import ZArith.
From Verif Require Import Num Res Store Leaf Sched Stepper Sim SpecSched P_Store P_Prog P_Modes P_Conf P_Sched P_Eval P_Lib P_Fast P_Sim P_Evolve
  P_Simulated P_Rel SpecHist P_Trace SpecAgain.

Lemma same_member_refl {D} (m : lstate D) : same_member m m.
Proof. by left. Qed.
Lemma same_member_sym {D} (m m' : lstate D) : same_member m m' -> same_member m' m.
Proof. intros [->|(a & b & c & d & y & -> & ->)]; [by left|]. right. eauto 10. Qed.
Lemma same_member_trans {D} (m1 m2 m3 : lstate D) : same_member m1 m2 -> same_member m2 m3 -> same_member m1 m3.
Proof.
  intros [->|(a & b & c & d & y & -> & ->)]; [done|]. intros [->|(a' & b' & c' & d' & y' & E & ->)]; [right; eauto 10|].
  injection E as -> -> ->. right. eauto 10.
Qed.

Section returns.
  Context {D : Type} `{NumOps D}.
  Lemma returns_bind {A B} (Q : A -> Prop) (R : B -> Prop) (p : prog D A) k :
    returns Q p -> (forall a, Q a -> returns R (k a)) -> returns R (pbind p k).
  Proof. intros Hp Hk. induction p as [a|s k' IH|s v p IH|c e p IH|e|u]; cbn in *; auto. Qed.
  Lemma returns_true {A} (p : prog D A) : returns (fun _ => True) p.
  Proof. induction p as [a|s k' IH|s v p IH|c e p IH|e|u]; cbn in *; auto. Qed.
  Lemma returns_fold f acc b (k : val D -> prog D (lstate D)) Q : (forall v, returns Q (k v)) -> returns Q (fold_bus f acc b k).
  Proof.
    intros Hk. revert acc. induction b as [|[lb s] b IH]; intros acc; cbn; [apply Hk|]. intros v. destruct (vop2 f acc v); [apply IH|done].
  Qed.
  Lemma returns_shows {A} (Q : A -> Prop) (p : prog D A) τ a : returns Q p -> shows τ p a -> Q a.
  Proof.
    intros Hp (ws & Hc & _). revert ws Hc Hp. induction p as [a'|s k' IH|s v p IH|c e p IH|e|u]; intros ws Hc Hp; cbn in *; try done.
    - by injection Hc as <- <-.
    - destruct (value τ s) as [v|]; [|done]. eapply IH; [exact Hc|apply Hp].
    - destruct (ceval (value τ) p) as [[a1 w1]|] eqn:E; [|done]. injection Hc as <- <-. by eapply IH.
    - destruct c; [|done]. by eapply IH.
  Qed.
  Lemma steady_library (l : leaf D) : steady_class l -> steady l.
  Proof.
    unfold steady_class, steady. intros Hc t m. unfold pre, act, with_h, pset_opt.
    assert (forall s (p : prog D (val D)), returns (same_member m) (pbind p (fun v => PSet s v (PRet m)))) as Hb.
    { intros s p. eapply returns_bind; [apply returns_true|]. intros v _. cbn. by left. }
    assert (forall (p : prog D unit), returns (same_member m) (pbind p (fun _ => PRet m))) as Hb'.
    { intros p. eapply returns_bind; [apply returns_true|]. intros v _. cbn. by left. }
    assert (same_member m m) as Hm by (by left).
    split.
    - destruct (l_cls l) as [ty v|ty f|f|f|ty f|ty f|ty k|ty ini|ty ini| | |ty|ty|ty life| |ty|ty|inits ex|ex|ua up upo|] eqn:El; try exact Hm; try done.
      + destruct m; try done. by destruct (h_out (l_h l)).
      + destruct m as [| | | | |vs]; try done. eapply returns_bind; [apply (Hc t vs)|]. intros vs' <-. by left.
    - destruct (l_cls l) as [ty v|ty f|f|f|ty f|ty f|ty k|ty ini|ty ini| | |ty|ty|ty life| |ty|ty|inits ex|ex|ua up upo|] eqn:El; try exact Hm; try done; try apply Hb'.
      + by destruct (h_out (l_h l)).
      + destruct (h_out (l_h l)); [apply Hb|done].
      + destruct (h_in (l_h l)); [|done]. destruct (h_out (l_h l)); [|done]. intros x. apply Hb.
      + destruct (h_out (l_h l)); [apply Hb|done].
      + destruct (h_in (l_h l)); [|done]. destruct (h_out (l_h l)); [|done]. intros x. by destruct (gain_val k x).
      + destruct (h_out (l_h l)); [|done]. by apply returns_fold.
      + destruct (h_out (l_h l)); [|done]. by apply returns_fold.
      + destruct (h_x1 (l_h l)); [|done]. destruct (h_x2 (l_h l)); [|done]. destruct (h_out (l_h l)); [|done]. intros x y. by destruct (vop2 nsub x y).
      + destruct (h_x1 (l_h l)); [|done]. destruct (h_x2 (l_h l)); [|done]. destruct (h_out (l_h l)); [|done]. intros x y. by destruct (vop2 ndiv x y).
      + destruct (h_in (l_h l)); [|done]. destruct (h_out (l_h l)); [|done]. intros x. exact Hm.
      + destruct (h_out (l_h l)); [|done]. by destruct m.
      + destruct m as [|v|ts xs|f t0 x0 y|v b|vs]; try done. unfold delay_act, with_h, pset_opt.
        destruct (h_out (l_h l)); [|done]. destruct (h_initial (l_h l)); [|done]. destruct (h_delay (l_h l)); [|done].
        destruct ts as [|th ts]; [intros v; exact Hm|]. cbn [returns]. intros [d| | |]; try done.
        repeat match goal with |- context [match ?x with _ => _ end] => destruct x end; try done; intros v'; exact Hm.
      + destruct m as [|v|ts xs|f t0 x0 y|v b|vs]; try done. unfold deriv_act, with_h.
        destruct (h_in (l_h l)); [|done]. destruct (h_out (l_h l)); [|done]. destruct f.
        * intros [d| | |]; try done. right. eauto 10.
        * destruct t0, x0; try done. destruct (_ =? _)%num; [exact Hm|]. by intros [].
      + destruct m as [|v|ts xs|f t0 x0 y|v b|vs]; try done. eapply returns_bind; [apply (Hc t vs)|]. intros vs' <-. by left.
  Qed.
End returns.

(** Programs making the same calls and returning related results. *)
Inductive prel {D A} (R : A -> A -> Prop) : prog D A -> prog D A -> Prop :=
| prel_ret a a' : R a a' -> prel R (PRet a) (PRet a')
| prel_get s k k' : (forall v, prel R (k v) (k' v)) -> prel R (PGet s k) (PGet s k')
| prel_set s v p p' : prel R p p' -> prel R (PSet s v p) (PSet s v p')
| prel_debug c e p p' : prel R p p' -> prel R (PDebug c e p) (PDebug c e p')
| prel_throw e : prel R (PThrow e) (PThrow e)
| prel_ub u : prel R (PUB u) (PUB u).

Section prel.
  Context {D : Type} `{NumOps D}.
  Lemma prel_refl {A} (R : A -> A -> Prop) (p : prog D A) : (forall a, R a a) -> prel R p p.
  Proof. intros Hr. induction p; by constructor. Qed.
  Lemma prel_bind {A B} (R : B -> B -> Prop) (p : prog D A) k k' : (forall a, prel R (k a) (k' a)) -> prel R (pbind p k) (pbind p k').
  Proof. intros Hk. induction p; cbn; by try constructor. Qed.
  Lemma prel_fold (R : lstate D -> lstate D -> Prop) f acc b k k' : (forall v, prel R (k v) (k' v)) -> prel R (fold_bus f acc b k) (fold_bus f acc b k').
  Proof.
    intros Hk. revert acc. induction b as [|[lb s] b IH]; intros acc; cbn; [apply Hk|]. constructor. intros v. destruct (vop2 f acc v); [apply IH|constructor].
  Qed.
  Ltac same := repeat first [assumption | apply prel_bind; intros ? | apply prel_fold; intros ? | constructor; (intros ? || idtac) |
      match goal with |- prel _ match ?x with _ => _ end _ => destruct x end].
  Lemma act_same (l : leaf D) t m m' : same_member m m' -> prel same_member (act l t m) (act l t m').
  Proof.
    intros Hm. pose proof Hm as [->|(t0 & x0 & t0' & x0' & y & -> & ->)]; [apply prel_refl; by left|].
    unfold act, with_h, pset_opt, deriv_act, with_h. destruct (l_cls l); same.
  Qed.
  Lemma pre_same (l : leaf D) t m m' : same_member m m' -> prel same_member (pre l t m) (pre l t m').
  Proof.
    intros Hm. pose proof Hm as [->|(t0 & x0 & t0' & x0' & y & -> & ->)]; [apply prel_refl; by left|].
    unfold pre. destruct (l_cls l); same.
  Qed.
  Lemma post_same (l : leaf D) t m m' : same_member m m' -> prel same_member (post l t m) (post l t m').
  Proof.
    intros Hm. pose proof Hm as [->|(t0 & x0 & t0' & x0' & y & -> & ->)]; [apply prel_refl; by left|].
    unfold post, deriv_post, with_h. destruct (l_cls l); same.
  Qed.
End prel.

(** [over V σ σ']: [σ'] has what [σ] has, with the same type, and what is assigned
    in [σ] has the same value in [σ']; for signals in [V] also the converse. *)
Definition over {D} (V : nat -> Prop) (σ σ' : store D) : Prop :=
  forall s, match σ !! s, σ' !! s with
  | Some c, Some c' => c_kind c' = c_kind c /\ c_deriv c' = c_deriv c /\
      (c_asg c = true -> c_asg c' = true /\ c_val c' = c_val c) /\ (V s -> c_asg c' = c_asg c)
  | None, None => True
  | _, _ => False
  end.
Section over.
  Context {D : Type} `{NumOps D} (V : nat -> Prop).
  Implicit Types σ τ : store D.
  Lemma over_value σ σ' s : over V σ σ' -> V s -> value σ' s = value σ s.
  Proof.
    intros Ho Hv. specialize (Ho s). unfold value. destruct (σ !! s) as [c|], (σ' !! s) as [c'|]; try done.
    destruct Ho as (_ & _ & H1 & H2). rewrite H2 by done. destruct (c_asg c); [|done]. by apply H1.
  Qed.
  Lemma over_assigned σ σ' s : over V σ σ' -> V s -> assigned σ' s = assigned σ s.
  Proof.
    intros Ho Hv. specialize (Ho s). unfold assigned. destruct (σ !! s) as [c|], (σ' !! s) as [c'|]; try done. by apply Ho.
  Qed.
  Lemma over_get σ σ' s v τ v' τ' : over V σ σ' -> get_value true s σ = Ok v τ -> get_value true s σ' = Ok v' τ' -> v' = v /\ over V τ τ'.
  Proof.
    intros Ho E E'. pose proof (Ho s) as Hs. unfold get_value in E, E'. destruct (σ !! s) as [c|]; [|done]. destruct (σ' !! s) as [c'|]; [|done].
    destruct Hs as (_ & _ & H1 & _). cbn in E, E'. destruct (negb (payload_size_ok c)); [done|]. destruct (c_asg c); [|done]. cbn in E.
    destruct (H1 eq_refl) as [Ha Hv]. destruct (negb (payload_size_ok c')); [done|]. rewrite Ha, Hv in E'. cbn in E'.
    destruct (c_val c); [|done]. injection E as <- <-. by injection E' as <- <-.
  Qed.
  Lemma over_insert σ σ' s c c' : over V σ σ' -> is_Some (σ !! s) ->
    c_kind c' = c_kind c -> c_deriv c' = c_deriv c -> c_val c' = c_val c -> c_asg c' = c_asg c -> over V (<[s := c]> σ) (<[s := c']> σ').
  Proof.
    intros Ho Hs E1 E2 E3 E4 x. destruct (decide (x = s)) as [->|Hne]; [rewrite !lookup_insert; split_and!; [done..|by rewrite E3, E4|done]|].
    rewrite !lookup_insert_ne by done. apply Ho.
  Qed.
  Lemma over_set σ σ' s v u τ u' τ' : over V σ σ' -> set_value true s v σ = Ok u τ -> set_value true s v σ' = Ok u' τ' -> over V τ τ'.
  Proof.
    intros Ho E E'. pose proof (Ho s) as Hs. unfold set_value in E, E'. destruct (σ !! s) as [c|] eqn:Ec; [|done]. destruct (σ' !! s) as [c'|]; [|done].
    repeat (match type of E with (if ?b then _ else _) = _ => destruct b; [done|] end).
    repeat (match type of E' with (if ?b then _ else _) = _ => destruct b; [done|] end).
    injection E as _ <-. injection E' as _ <-. apply over_insert; [done|by eexists|by apply Hs..|done|done].
  Qed.
  Lemma over_prog {A} (R : A -> A -> Prop) (p p' : prog D A) σ σ' a τ a' τ' : prel R p p' -> over V σ σ' ->
    run_prog true p σ = Ok a τ -> run_prog true p' σ' = Ok a' τ' -> R a a' /\ over V τ τ'.
  Proof.
    intros Hp. revert σ σ'. induction Hp as [b b' Hb|s k k' Hk IH|s v p p' Hp IH|c e p p' Hp IH|e|u]; intros σ σ' Ho E E'; cbn in E, E'; try done.
    - injection E as <- <-. by injection E' as <- <-.
    - unfold bnd in E, E'. destruct (get_value true s σ) as [v σ1| | |] eqn:E1; try done. destruct (get_value true s σ') as [v' σ1'| | |] eqn:E1'; try done.
      destruct (over_get _ _ _ _ _ _ _ Ho E1 E1') as [-> Ho1]. by eapply IH.
    - unfold bnd in E, E'. destruct (set_value true s v σ) as [u σ1| | |] eqn:E1; try done. destruct (set_value true s v σ') as [u' σ1'| | |] eqn:E1'; try done.
      eapply IH; [|exact E|exact E']. by eapply over_set.
    - unfold bnd, debug_verify, verify in E, E'. destruct c; [|done]. by eapply IH.
  Qed.

  (** States of the model. *)
  Definition cover (c c' : core D) : Prop :=
    over V (k_store c) (k_store c') /\ forall b, same_member (lst_of c b) (lst_of c' b).
  Definition wrel {S T A} (R : S -> T -> Prop) (m : M S A) (m' : M T A) : Prop :=
    forall x x' a y a' y', R x x' -> m x = Ok a y -> m' x' = Ok a' y' -> a' = a /\ R y y'.
  Lemma wrel_bnd {S T A B} (R : S -> T -> Prop) (m : M S A) m' (k : A -> M S B) k' :
    wrel R m m' -> (forall a, wrel R (k a) (k' a)) -> wrel R (bnd m k) (bnd m' k').
  Proof.
    intros Hm Hk x x' b y b' y' Hr. unfold bnd. destruct (m x) as [a y1| | |] eqn:E; try done. destruct (m' x') as [a' y1'| | |] eqn:E'; try done.
    destruct (Hm _ _ _ _ _ _ Hr E E') as [-> Hr1]. by apply Hk.
  Qed.
  Lemma wrel_ret {S T A} (R : S -> T -> Prop) (a : A) : wrel R (ret a) (ret a).
  Proof. intros x x' b y b' y' Hr [= <- <-] [= <- <-]. done. Qed.
  Lemma wrel_store (p : prog D unit) : wrel cover (on_store (run_prog true p)) (on_store (run_prog true p)).
  Proof.
    intros c c' [] y [] y' [Hs Hl]. unfold on_store, lift. destruct (run_prog true p (k_store c)) as [a σ| | |] eqn:E; try done.
    destruct (run_prog true p (k_store c')) as [a' σ'| | |] eqn:E'; try done. intros [= _ <-] [= _ <-].
    split; [done|]. split; [|exact Hl]. cbn. eapply (over_prog eq); [|exact Hs|exact E|exact E']. by apply prel_refl.
  Qed.
  Lemma wrel_modify {S T} (R : S -> T -> Prop) f f' : (forall x x', R x x' -> R (f x) (f' x')) -> wrel R (modify f) (modify f').
  Proof. intros Hf x x' [] y [] y' Hr [= <-] [= <-]. split; [done|]. by apply Hf. Qed.
  Lemma wrel_emit e e' : wrel cover (emit e) (emit e').
  Proof. by apply wrel_modify. Qed.
  Lemma wrel_snap e e' : wrel cover (snap e) (snap e').
  Proof. by apply wrel_modify. Qed.
  Lemma wrel_inputs g g' t : g_dbg g = true -> g_dbg g' = true -> g_inputs g' = g_inputs g -> g_icb g' = g_icb g -> wrel cover (inputs g t) (inputs g' t).
  Proof.
    intros Hg Hg' E1 E2. unfold inputs. rewrite Hg, Hg', E1, E2. apply wrel_bnd; [apply wrel_emit|intros _].
    apply wrel_bnd; [|intros _; apply wrel_store]. destruct (g_inputs g); [apply wrel_store|apply wrel_ret].
  Qed.
  Lemma wrel_leaf e e' l (p : lstate D -> prog D (lstate D)) : (forall m m', same_member m m' -> prel same_member (p m) (p m')) ->
    wrel cover (run_leaf true e l p) (run_leaf true e' l p).
  Proof.
    intros Hp c c' [] y [] y' [Hs Hl]. unfold run_leaf. destruct (run_prog true _ (k_store c)) as [a σ| | |] eqn:E; try done.
    destruct (run_prog true _ (k_store c')) as [a' σ'| | |] eqn:E'; try done. intros [= <-] [= <-].
    destruct (over_prog same_member _ _ _ _ _ _ _ _ (Hp _ _ (Hl (l_id l))) Hs E E') as [Ha Ho].
    split; [done|]. split; [exact Ho|]. intros b. unfold lst_of. cbn. destruct (decide (b = l_id l)) as [->|Hne]; [by rewrite !lookup_insert|].
    rewrite !lookup_insert_ne by done. apply Hl.
  Qed.
  Lemma wrel_each ev ev' (p : leaf D -> lstate D -> prog D (lstate D)) ls : (forall l m m', same_member m m' -> prel same_member (p l m) (p l m')) ->
    wrel cover (each true ev p ls) (each true ev' p ls).
  Proof.
    intros Hp. induction ls as [|l ls IH]; [apply wrel_ret|]. unfold each in *. cbn [forM].
    apply wrel_bnd; [apply wrel_leaf, Hp|intros _; apply IH].
  Qed.
  Lemma wrel_ext {S T A} (R : S -> T -> Prop) (m n : M S A) (m' n' : M T A) : (forall x, m x = n x) -> (forall x, m' x = n' x) -> wrel R n n' -> wrel R m m'.
  Proof. intros E E' Hw x x' a y a' y'. rewrite E, E'. apply Hw. Qed.
  Lemma wrel_pre tr t : wrel cover (pre_step true tr t) (pre_step true tr t).
  Proof. eapply wrel_ext; [intros x; apply pre_each..|]. apply wrel_each. intros l. apply pre_same. Qed.
  Lemma wrel_post tr t : wrel cover (post_step true tr t) (post_step true tr t).
  Proof. eapply wrel_ext; [intros x; apply post_each..|]. apply wrel_each. intros l. apply post_same. Qed.
  Lemma wrel_acts ls t : wrel cover (acts true t ls) (acts true t ls).
  Proof. eapply wrel_ext; [intros x; apply acts_each..|]. apply wrel_each. intros l. apply act_same. Qed.
End over.
