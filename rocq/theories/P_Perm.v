(** Steppers and the order of the state variables. *)
From stdpp Require Import prelude.
From Coq Require Import Reals Lra.
From Verif Require Import Num NumR Res Stepper P_Rel.

Section perm.
  Context {D : Type} `{NumOps D}.
  (** The elements of [v] in the order given by [p]. *)
  Definition perm (p : list nat) (v : list D) : list D := map (fun i => nth i v n0) p.

  (** A stepper that does not care about the order of the state variables: with the
      variables and the derivatives in another order it makes the same calls, returns
      the same variables in that order and suggests the same step. *)
  Definition stepper_perm (stp : stepper D) : Prop :=
    forall S1 S2 (Rl : S1 -> S2 -> Prop) n p f1 f2, p ≡ₚ seq 0 n ->
      (forall t v x1 x2 k y1, length v = n -> Rl x1 x2 -> f1 t v x1 = Ok k y1 -> length k = n ->
         exists y2, f2 t (perm p v) x2 = Ok (perm p k) y2 /\ Rl y1 y2) ->
      forall t0 v0 t1 x1 x2 v1 h y1, length v0 = n -> Rl x1 x2 -> stp S1 f1 t0 v0 t1 x1 = Ok (v1, h) y1 ->
        length v1 = n /\ exists y2, stp S2 f2 t0 (perm p v0) t1 x2 = Ok (perm p v1, h) y2 /\ Rl y1 y2.

  Lemma perm_len p v : length (perm p v) = length p.
  Proof. apply map_length. Qed.
  Lemma perm_zip f p a b : length a = length b -> Forall (fun i => i < length a) p -> perm p (zip_with f a b) = zip_with f (perm p a) (perm p b).
  Proof.
    intros Hl Hp. unfold perm. induction Hp as [|i p Hi Hp IH]; cbn [map zip_with]; [done|]. rewrite IH. f_equal. clear -Hl Hi.
    revert b i Hl Hi. induction a as [|x a IHa]; intros [|y b] i Hl Hi; cbn in *; try lia. destruct i; [done|]. apply IHa; lia.
  Qed.
  Lemma perm_map f p a : Forall (fun i => i < length a) p -> perm p (map f a) = map f (perm p a).
  Proof.
    intros Hp. unfold perm. induction Hp as [|i p Hi Hp IH]; cbn [map zip_with]; [done|]. rewrite IH. f_equal.
    rewrite (nth_indep _ n0 (f n0)) by (by rewrite map_length). apply map_nth.
  Qed.
  Lemma perm_seq v : perm (seq 0 (length v)) v = v.
  Proof.
    unfold perm. induction v as [|x v IH]; cbn; [done|]. f_equal. rewrite <- seq_shift, map_map. cbn. exact IH.
  Qed.
  Lemma perm_perm p v : p ≡ₚ seq 0 (length v) -> perm p v ≡ₚ v.
  Proof. intros Hp. rewrite <- (perm_seq v) at 2. unfold perm. by apply Permutation_map. Qed.

  Section steppers.
    Context {S1 S2 : Type} (Rl : S1 -> S2 -> Prop) (n : nat) (p : list nat) (f1 : D -> list D -> M S1 (list D)) (f2 : D -> list D -> M S2 (list D)).
    Context (Hp : p ≡ₚ seq 0 n).
    Context (Hf : forall t v x1 x2 k y1, length v = n -> Rl x1 x2 -> f1 t v x1 = Ok k y1 -> length k = n ->
         exists y2, f2 t (perm p v) x2 = Ok (perm p k) y2 /\ Rl y1 y2).
    Lemma bounded (v : list D) : length v = n -> Forall (fun i => i < length v)%nat p.
    Proof. intros ->. apply Forall_forall. intros i Hi. rewrite Hp in Hi. apply elem_of_seq in Hi. lia. Qed.
    Lemma perm_va a b : length a = n -> length b = n -> va (perm p a) (perm p b) = perm p (va a b).
    Proof. intros Ha Hb. unfold va. rewrite perm_zip; [done|by rewrite Ha, Hb|by apply bounded]. Qed.
    Lemma perm_vs a b : length a = n -> length b = n -> vs (perm p a) (perm p b) = perm p (vs a b).
    Proof. intros Ha Hb. unfold vs. rewrite perm_zip; [done|by rewrite Ha, Hb|by apply bounded]. Qed.
    Lemma perm_vk k a : length a = n -> vk k (perm p a) = perm p (vk k a).
    Proof. intros Ha. unfold vk. rewrite perm_map; [done|by apply bounded]. Qed.
    Lemma va_len a b : length a = n -> length b = n -> length (va a b) = n.
    Proof. intros Ha Hb. unfold va. rewrite zip_with_length. lia. Qed.
    Lemma vs_len a b : length a = n -> length b = n -> length (vs a b) = n.
    Proof. intros Ha Hb. unfold vs. rewrite zip_with_length. lia. Qed.
    Lemma vk_len k a : length a = n -> length (vk k a) = n.
    Proof. intros Ha. unfold vk. by rewrite map_length. Qed.
    Lemma perm_len_n v : length (perm p v) = n.
    Proof. by rewrite perm_len, Hp, seq_length. Qed.
    (** One call and what follows it. *)
    Lemma perm_call {A} t v (k1 : list D -> M S1 A) (k2 : list D -> M S2 A) (P : A -> A -> Prop) : length v = n ->
      (forall k, length k = n -> forall x1 x2 a y1, Rl x1 x2 -> k1 k x1 = Ok a y1 -> exists a2 y2, k2 (perm p k) x2 = Ok a2 y2 /\ P a a2 /\ Rl y1 y2) ->
      forall x1 x2 a y1, Rl x1 x2 -> bnd (call f1 n t v) k1 x1 = Ok a y1 -> exists a2 y2, bnd (call f2 n t (perm p v)) k2 x2 = Ok a2 y2 /\ P a a2 /\ Rl y1 y2.
    Proof.
      intros Hv Hk x1 x2 a y1 Hr. unfold bnd, call, bnd. destruct (f1 t v x1) as [k z1| | |] eqn:E; try done.
      destruct (Nat.eqb_spec (length k) n) as [Hl|]; [|done]. cbn. intros Hr1.
      destruct (Hf _ _ _ _ _ _ Hv Hr E Hl) as (z2 & -> & Hz). rewrite perm_len_n, Nat.eqb_refl. cbn. by eapply Hk.
    Qed.
  End steppers.

  Definition out (n : nat) (p : list nat) (a a2 : list D * D) : Prop := length (fst a) = n /\ a2 = (perm p (fst a), snd a).
  Lemma out_done {S1 S2 : Type} (Rl : S1 -> S2 -> Prop) n p v1 h y1 (r : res S2 (list D * D)) :
    (exists a2 y2, r = Ok a2 y2 /\ out n p (v1, h) a2 /\ Rl y1 y2) -> length v1 = n /\ exists y2, r = Ok (perm p v1, h) y2 /\ Rl y1 y2.
  Proof. intros (a2 & y2 & -> & [Hl ->] & Hr). cbn in *. eauto. Qed.

  Ltac lens := repeat first [assumption | apply va_len | apply vs_len | apply vk_len].
  Ltac perms n p Hp := repeat first [rewrite (perm_vk n p Hp) by lens | rewrite (perm_va n p Hp) by lens | rewrite (perm_vs n p Hp) by lens].
  Ltac one Rl n p f1 f2 Hp Hf :=
    lazymatch goal with |- bnd (call f1 n _ ?v) _ _ = _ -> exists a2 y2, bnd (call f2 n _ ?v') _ _ = _ /\ _ =>
      replace v' with (perm p v) by (perms n p Hp; reflexivity) end;
    let Hz := fresh "Hz" in
    match goal with Hz : Rl _ _ |- _ => eapply (perm_call Rl n p f1 f2 Hp Hf); [lens| |exact Hz]; clear Hz end;
    intros ? ? ? ? ? ? Hz.

  Lemma euler_perm : stepper_perm euler.
  Proof.
    intros S1 S2 Rl n p f1 f2 Hp Hf t0 v0 t1 x1 x2 v1 h y1 Hv Hr Hs. apply out_done. revert Hs.
    unfold euler. cbv zeta. rewrite Hv, (perm_len_n n p Hp). one Rl n p f1 f2 Hp Hf.
    intros [= <- <-]. eexists _, _. split; [done|]. split; [|done]. split; cbn [fst snd]; [lens|]. perms n p Hp. done.
  Qed.
  Lemma rk4_perm : stepper_perm rk4.
  Proof.
    intros S1 S2 Rl n p f1 f2 Hp Hf t0 v0 t1 x1 x2 v1 h y1 Hv Hr Hs. apply out_done. revert Hs.
    unfold rk4. cbv zeta. rewrite Hv, (perm_len_n n p Hp). do 4 one Rl n p f1 f2 Hp Hf.
    intros [= <- <-]. eexists _, _. split; [done|]. split; [|done]. split; cbn [fst snd]; [lens|]. perms n p Hp. done.
  Qed.
  (** RKF45 looks at the largest difference. *)
  Lemma rkf45_perm : (forall x y : list D, x ≡ₚ y -> max_coeff x = max_coeff y) -> stepper_perm rkf45.
  Proof.
    intros Hmax S1 S2 Rl n p f1 f2 Hp Hf t0 v0 t1 x1 x2 v1 h y1 Hv Hr Hs. apply out_done. revert Hs.
    unfold rkf45. cbv zeta. rewrite Hv, (perm_len_n n p Hp). do 6 one Rl n p f1 f2 Hp Hf.
    perms n p Hp. rewrite <- (perm_map nabs p) by (apply (bounded n p Hp); lens).
    rewrite (Hmax (perm p _) _) by (apply perm_perm; rewrite map_length, vs_len with (n := n) by lens; exact Hp).
    destruct (max_coeff _); [|done].
    intros [= <- <-]. eexists _, _. split; [done|]. split; [|done]. split; cbn [fst snd]; [lens|]. done.
  Qed.
End perm.

(** The largest of real numbers does not depend on their order. *)
Lemma max_coeff_is (x : list R) m : max_coeff x = Some m <-> m ∈ x /\ Forall (fun y => (y <= m)%R) x.
Proof.
  assert (forall (x : list R) a, fold_left nmax x a ∈ a :: x /\ Forall (fun y => (y <= fold_left nmax x a)%R) (a :: x)) as Hm.
  { clear. induction x as [|b x IH]; intros a; cbn [fold_left].
    - split; [by apply elem_of_list_here|]. constructor; [lra|constructor].
    - destruct (IH (nmax a b)) as [Hi Hf]. inversion_clear Hf as [|? ? Hab Hx].
      assert (a <= nmax a b /\ b <= nmax a b /\ (nmax a b = a \/ nmax a b = b))%R as (Ha & Hb & Hc).
      { unfold nmax. cbn. unfold Rltb. destruct (Rlt_dec a b); split_and!; try lra; auto. }
      split; [|constructor; [lra|constructor; [lra|done]]].
      apply elem_of_cons in Hi as [->|Hi]; [destruct Hc as [->| ->]; set_solver|set_solver]. }
  destruct x as [|a x]; cbn [max_coeff]; [split; [done|intros [Hi _]; by apply elem_of_nil in Hi]|].
  destruct (Hm x a) as [Hi Hf]. split; [intros [= <-]; done|]. intros [Hi2 Hf2]. f_equal.
  rewrite Forall_forall in Hf, Hf2. specialize (Hf _ Hi2). specialize (Hf2 _ Hi). cbn in *. lra.
Qed.
Lemma max_coeff_perm (x y : list R) : x ≡ₚ y -> max_coeff x = max_coeff y.
Proof.
  intros Hp. destruct (max_coeff x) as [m|] eqn:E.
  - symmetry. apply max_coeff_is in E. apply max_coeff_is. by rewrite <- Hp.
  - destruct x; [|done]. apply Permutation_nil in Hp. by subst.
Qed.
