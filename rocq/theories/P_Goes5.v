(** The blocks of the library do their duty. *)
From stdpp Require Import prelude gmap strings.
From Coq Require Import ZArith.
From Verif Require Import Num NumOrd Res Store Leaf Sched Stepper Sim P_Store SpecGoes SpecGoes2 P_Goes.
Local Open Scope nat_scope.

Section values.
  Context {D : Type} `{NumOps D}.
  Lemma map2_len (f : D -> D -> D) x : forall z, length x = length z -> exists r, map2 f x z = Some r /\ length r = length x.
  Proof.
    induction x as [|a x IH]; intros [|b z] Hl; try done; cbn; [by exists []|]. injection Hl as Hl. destruct (IH z Hl) as (r & -> & Hr). exists (f a b :: r). cbn. by rewrite Hr.
  Qed.
  Lemma fits_scalar (v : val D) : fits KScalar v -> exists a, v = VS a.
  Proof. intros [Hk _]. destruct v; try done. by eexists. Qed.
  Lemma fits_bool (v : val D) : fits KBool v -> exists a, v = VB a.
  Proof. intros [Hk _]. destruct v; try done. by eexists. Qed.
  Lemma fits_array n (v : val D) : fits (KArray n) v -> exists a, v = VA a /\ length a = n.
  Proof. intros [Hk Hz]. destruct v; try done. eexists. split; [done|]. cbn in Hz. by apply Nat.eqb_eq in Hz. Qed.
  Lemma fits_arr n (a : list D) : length a = n -> fits (KArray n) (VA a).
  Proof. intros Hl. split; [done|]. cbn. by apply Nat.eqb_eq. Qed.
  Lemma vop2_fits (f : D -> D -> D) k a b : floating k -> fits k a -> fits k b -> exists r, vop2 f a b = Some r /\ fits k r.
  Proof.
    intros Hk Ha Hb. destruct k as [| | |n|]; try done.
    - apply fits_scalar in Ha as [x ->]. apply fits_scalar in Hb as [z ->]. by eexists.
    - apply fits_array in Ha as (x & -> & Hx). apply fits_array in Hb as (z & -> & Hz). cbn. destruct (map2_len f x z) as (r & -> & Hr); [congruence|].
      eexists. split; [done|]. apply fits_arr. congruence.
  Qed.
  Lemma vmap_fits (f : D -> D) k a : floating k -> fits k a -> exists r, vmap f a = Some r /\ fits k r.
  Proof.
    intros Hk Ha. destruct k as [| | |n|]; try done.
    - apply fits_scalar in Ha as [x ->]. by eexists.
    - apply fits_array in Ha as (x & -> & Hx). eexists. split; [done|]. apply fits_arr. by rewrite map_length.
  Qed.
  Lemma gain_fits k a x : floating k -> fits k x -> exists r, gain_val (VS a) x = Some r /\ fits k r.
  Proof.
    intros Hk Ha. destruct k as [| | |n|]; try done.
    - apply fits_scalar in Ha as [z ->]. by eexists.
    - apply fits_array in Ha as (z & -> & Hx). eexists. split; [done|]. apply fits_arr. by rewrite map_length.
  Qed.
  Lemma vzero_fits k v : floating k -> fits k v -> fits k (vzero v).
  Proof.
    intros Hk Ha. destruct k as [| | |n|]; try done.
    - apply fits_scalar in Ha as [z ->]. done.
    - apply fits_array in Ha as (z & -> & Hx). cbn. apply fits_arr. by rewrite map_length.
  Qed.
  Lemma interp_fits k a b t t1 t2 : floating k -> fits k a -> fits k b -> exists r, interp a b t t1 t2 = Some r /\ fits k r.
  Proof.
    intros Hk Ha Hb. unfold interp. destruct (vop2_fits nsub k a b Hk Ha Hb) as (r & -> & Hr).
    match goal with |- context [vmap ?f r] => destruct (vmap_fits f k r Hk Hr) as (q & -> & Hq) end. by apply vop2_fits.
  Qed.
  Lemma count_le (ts : list D) t : count_lt ts t <= length ts.
  Proof. induction ts as [|a ts IH]; cbn; [lia|]. destruct (nleb t a); lia. Qed.
  Lemma count_all (ts : list D) t a : last ts = Some a -> nleb t a = true -> count_lt ts t < length ts.
  Proof.
    induction ts as [|b ts IH]; [done|]. intros Hl Ha. cbn. destruct (nleb t b) eqn:E; [lia|]. destruct ts as [|c ts]; [cbn in Hl; congruence|].
    assert (last (c :: ts) = Some a) as Hl' by done. specialize (IH Hl' Ha). cbn in *. lia.
  Qed.
  Lemma last_drop (ts : list D) k a : last (drop k ts) = Some a -> last ts = Some a.
  Proof.
    revert k. induction ts as [|b ts IH]; intros [|k] Hl; try done. specialize (IH k Hl). destruct ts; done.
  Qed.
End values.

Section blocks.
  Context {D : Type} `{NumOps D} (K : nat -> option kind) (nxt : D -> D -> Prop) (X : list nat).
  Local Open Scope num_scope.

  Lemma goes_ret {A} R (Q : A -> Prop) a : Q a -> goes (D:=D) K R [] Q (PRet a).
  Proof. done. Qed.
  Lemma goes_set {A} (R : nat -> Prop) os (Q : A -> Prop) s v p k : K s = Some k -> fits k v -> goes (D:=D) K (fun x => R x \/ x = s) os Q p -> goes K R (s :: os) Q (PSet s v p).
  Proof. intros Hk Hf Hp. exists os, k. done. Qed.
  Lemma goes_set1 {A} (R : nat -> Prop) (Q : A -> Prop) s v a k : K s = Some k -> fits k v -> Q a -> goes (D:=D) K R [s] Q (PSet s v (PRet a)).
  Proof. intros Hk Hf Hp. by apply (goes_set _ _ _ _ _ _ k). Qed.
  Lemma goes_get {A} (R : nat -> Prop) os (Q : A -> Prop) s f k : R s -> K s = Some k -> (forall v, fits k v -> goes (D:=D) K R os Q (f v)) -> goes K R os Q (PGet s f).
  Proof. intros Hr Hk Hf. split; [done|]. by exists k. Qed.
  Lemma goes_fold (R : nat -> Prop) (f : D -> D -> D) (Q : lstate D -> Prop) k os kont : floating k -> (forall v, fits k v -> goes K R os Q (kont v)) ->
    forall b acc, fits k acc -> (forall e, e ∈ b -> R (snd e) /\ K (snd e) = Some k) -> goes K R os Q (fold_bus f acc b kont).
  Proof.
    intros Hk Hc. induction b as [|[lb s] b IH]; intros acc Ha Hb; cbn [fold_bus]; [by apply Hc|].
    destruct (Hb (lb, s)) as [Hr Hks]; [apply elem_of_list_here|]. apply (goes_get _ _ _ _ _ k); [done|done|]. intros v Hv.
    destruct (vop2_fits f k acc v Hk Ha Hv) as (r & -> & Hr'). apply IH; [done|]. intros e He. apply Hb. by apply elem_of_list_further.
  Qed.

  Context {Ho : NumOrd D}.
  Theorem lib_dutiful l : suits K nxt X l -> dutiful K nxt X (lib K) l.
  Proof.
    intros Hsu. destruct l as [bid c ib ob hs lk].
    assert (forall A os R (Q : lstate D -> Prop) (p : prog D A) Q1, goes K R os Q1 p -> forall k, (forall a, Q1 a -> goes K (fun x => R x \/ x ∈ os) [] Q (k a)) -> goes K R os Q (pbind p k)) as Hbind.
    { intros A os R Q p Q1 Hp k Hk. rewrite <- (app_nil_r os). eapply (goes_bind K (fun _ => None)); [exact Hp|exact Hk]. }
    split; intros τ t st Hi.
    - unfold suits in Hsu. unfold act. cbn [y_inv y_out lib l_cls l_h l_ibus l_obus] in *. unfold lib_inv, lib_out in *. cbn [l_cls l_h l_ibus l_obus] in *.
      destruct c; cbn in Hi.
      + (* Const *) destruct Hsu as (k & (s & Eo & Ek) & Hv). cbn in Eo. rewrite Eo. cbn [with_h]. by apply (goes_set1 _ _ _ _ _ k).
      + (* Source *) destruct Hsu as (k & (s & Eo & Ek) & Hv). cbn in Eo. rewrite Eo. cbn [with_h]. change [s] with ([] ++ [s]). eapply (goes_bind K (fun _ => None)); [apply Hv|]. intros a Ha. by apply (goes_set1 _ _ _ _ _ k).
      + (* Sources *) eapply Hbind; [apply Hsu|]. intros a Ha. by apply goes_ret.
      + eapply Hbind; [apply Hsu|]. intros a Ha. by apply goes_ret.
      + (* SISO *) destruct Hsu as (ki & k & (si & Ei & Ri & Eki) & (s & Eo & Ek) & Hv). cbn in Eo. rewrite Eo, Ei. cbn [with_h]. apply (goes_get _ _ _ _ _ ki); [done|done|]. intros x Hx.
        change [s] with ([] ++ [s]). eapply (goes_bind K (fun _ => None)); [by apply Hv|]. intros a Ha. by apply (goes_set1 _ _ _ _ _ k).
      + (* SO *) destruct Hsu as (k & (s & Eo & Ek) & Hv). cbn in Eo. rewrite Eo. cbn [with_h]. change [s] with ([] ++ [s]). eapply (goes_bind K (fun _ => None)); [apply Hv|]. intros a Ha. by apply (goes_set1 _ _ _ _ _ k).
      + (* Gain *) destruct Hsu as (kd & a & Hk & -> & (si & Ei & Ri & Eki) & (s & Eo & Ek)). cbn in Eo. rewrite Eo, Ei. cbn [with_h]. apply (goes_get _ _ _ _ _ kd); [done|done|]. intros x Hx.
        destruct (gain_fits kd a x Hk Hx) as (r & -> & Hr). by apply (goes_set1 _ _ _ _ _ kd).
      + (* Add *) destruct Hsu as (k & Hk & (s & Eo & Ek) & Hv & Hb). cbn in Eo. rewrite Eo. cbn [with_h]. apply (goes_fold _ _ _ k); [done| |done|done]. intros v Hv'. by apply (goes_set1 _ _ _ _ _ k).
      + destruct Hsu as (k & Hk & (s & Eo & Ek) & Hv & Hb). cbn in Eo. rewrite Eo. cbn [with_h]. apply (goes_fold _ _ _ k); [done| |done|done]. intros v Hv'. by apply (goes_set1 _ _ _ _ _ k).
      + (* Sub *) destruct Hsu as ((s1 & E1 & R1 & K1) & (s2 & E2 & R2 & K2) & (s & Eo & Ek)). cbn in Eo. rewrite Eo, E1, E2. cbn [with_h].
        apply (goes_get _ _ _ _ _ KScalar); [done|done|]. intros x Hx. apply (goes_get _ _ _ _ _ KScalar); [done|done|]. intros z Hz.
        destruct (vop2_fits nsub KScalar x z I Hx Hz) as (r & -> & Hr). by apply (goes_set1 _ _ _ _ _ KScalar).
      + destruct Hsu as ((s1 & E1 & R1 & K1) & (s2 & E2 & R2 & K2) & (s & Eo & Ek)). cbn in Eo. rewrite Eo, E1, E2. cbn [with_h].
        apply (goes_get _ _ _ _ _ KScalar); [done|done|]. intros x Hx. apply (goes_get _ _ _ _ _ KScalar); [done|done|]. intros z Hz.
        destruct (vop2_fits ndiv KScalar x z I Hx Hz) as (r & -> & Hr). by apply (goes_set1 _ _ _ _ _ KScalar).
      + (* Pipe *) destruct Hsu as (k & (si & Ei & Ri & Eki) & (s & Eo & Ek)). cbn in Eo. rewrite Eo, Ei. cbn [with_h]. apply (goes_get _ _ _ _ _ k); [done|done|]. intros x Hx. by apply (goes_set1 _ _ _ _ _ k).
      + (* Memory *) destruct Hsu as (k & _ & (s & Eo & Ek)). destruct Hi as (v & -> & (s' & k' & Eo' & Ek' & Hf)). cbn in Eo, Eo'. rewrite Eo. cbn [with_h]. apply (goes_set1 _ _ _ _ _ k'); [congruence|done|].
        exists v. split; [done|]. exists s', k'. done.
      + (* Delay *) destruct Hsu as (k & Hk & (sx & Ex & _) & (si & Ei & Ri & Eki) & (sd & Ed & Rd & Ekd) & (s & Eo & Ek) & _). destruct Hi as (ts & xs & -> & Hl & Hla & Hst).
        assert (forall x, x ∈ xs -> fits k x) as Hfx. { intros x Hx. destruct (Hst x Hx) as (s' & k' & Eo' & Ek' & Hf). cbn in Eo, Eo'. congruence. }
        cbn in Eo. rewrite Eo. unfold delay_act. rewrite Eo, Ei, Ed. cbn [with_h].
        assert (forall P : Prop, P -> (exists ts0 xs0, LDelay ts xs = LDelay ts0 xs0 /\ length ts0 = length xs0 /\ last ts0 = τ /\ forall x, x ∈ xs0 -> stored K (Leaf bid (CDelay T lifespan) ib ob hs lk) x) /\ P) as Hst2.
        { intros P HP. split; [|done]. exists ts, xs. done. }
        destruct ts as [|th ts'] eqn:Ets.
        { apply (goes_get _ _ _ _ _ k); [done|done|]. intros v Hv. apply (goes_set1 _ _ _ _ _ k); [done|done|]. by apply (Hst2 True). }
        rewrite <- Ets in *. apply (goes_get _ _ _ _ _ KScalar); [done|done|]. intros v Hv. apply fits_scalar in Hv as [d ->]. cbv zeta.
        destruct (t - d <=? th) eqn:E1.
        { apply (goes_get _ _ _ _ _ k); [done|done|]. intros v Hv. apply (goes_set1 _ _ _ _ _ k); [done|done|]. by apply (Hst2 True). }
        assert (exists tl, last ts = Some tl) as [tl Htl]. { rewrite Ets. destruct (last (th :: ts')) eqn:El; [by eexists|]. by apply last_None in El. }
        rewrite Htl. change (default th (Some tl)) with tl.
        destruct (tl <=? t - d) eqn:E2.
        { destruct (last xs) as [x|] eqn:Elx.
          - apply (goes_set1 _ _ _ _ _ k); [done| |by apply (Hst2 True)]. apply Hfx. apply last_Some_elem_of. done.
          - apply last_None in Elx. rewrite Elx in Hl. rewrite Ets in Hl. done. }
        apply ord_total in E2. pose proof (count_all ts (t - d) tl Htl E2) as Hc.
        destruct (count_lt ts (t - d)) as [|k1] eqn:Ec. { rewrite Ets in Ec. cbn in Ec. rewrite E1 in Ec. done. }
        destruct (lookup_lt_is_Some_2 ts (Datatypes.S k1)) as [tk ->]; [done|]. destruct (lookup_lt_is_Some_2 ts k1) as [tk1 ->]; [lia|].
        destruct (lookup_lt_is_Some_2 xs (Datatypes.S k1)) as [xk Exk]; [lia|]. destruct (lookup_lt_is_Some_2 xs k1) as [xk1 Exk1]; [lia|]. rewrite Exk, Exk1.
        destruct (interp_fits k xk xk1 (t - d) tk tk1 Hk) as (r & -> & Hr); [by eapply Hfx, elem_of_list_lookup_2|by eapply Hfx, elem_of_list_lookup_2|].
        apply (goes_set1 _ _ _ _ _ k); [done|done|]. by apply (Hst2 True).
      + (* Deriv *) destruct Hsu as ((si & Ei & Ri & Eki) & _ & (s & Eo & Ek)). destruct Hi as (f & t0 & x0 & y0 & -> & Hf). cbn in Eo. rewrite Eo. unfold deriv_act. rewrite Eo, Ei. cbn [with_h].
        destruct f.
        { apply (goes_get _ _ _ _ _ KScalar); [done|done|]. intros v Hv. apply fits_scalar in Hv as [x ->]. apply (goes_set1 _ _ _ _ _ KScalar); [done|done|]. by eexists _, _, _, _. }
        destruct (Hf eq_refl) as [[t0' ->] [x0' ->]]. destruct (t0' =? t).
        { apply (goes_set1 _ _ _ _ _ KScalar); [done|done|]. by eexists _, _, _, _. }
        apply (goes_get _ _ _ _ _ KScalar); [done|done|]. intros v Hv. apply fits_scalar in Hv as [x ->]. apply (goes_set1 _ _ _ _ _ KScalar); [done|done|]. by eexists _, _, _, _.
      + (* Integ *) done.
      + (* Trig *) destruct Hsu as (k & Hk & _ & _ & (sg & Eg & Rg & Ekg)). destruct Hi as (v & b & -> & Hv). destruct b.
        { apply goes_ret. by eexists _, _. }
        rewrite Eg. cbn [with_h]. apply (goes_get _ _ _ _ _ KBool); [done|done|]. intros w Hw. apply fits_bool in Hw as [b ->]. apply goes_ret. by eexists _, _.
      + done.
      + done.
      + (* User *) destruct Hi as (vs & I & -> & Hvs & HI). eapply Hbind; [apply (HI t vs Hvs)|]. intros vs' Hvs'. apply goes_ret. by exists vs', I.
      + done.
    - unfold suits in Hsu. unfold pre. cbn [y_inv y_pre lib l_cls l_h l_ibus l_obus] in *. unfold lib_inv, lib_pre in *. cbn [l_cls l_h l_ibus l_obus] in *.
      destruct c; try done; cbn in Hi.
      + destruct Hi as (v & b & -> & (s & k & Eo & Ek & Hf)). cbn in Eo. rewrite Eo. cbn [with_h]. apply (goes_set1 _ _ _ _ _ k); [done|done|]. exists v, b. split; [done|]. exists s, k. done.
      + destruct Hsu as (k & Hk & (s & Eo & Ek) & _). destruct Hi as (v & b & -> & (s' & k' & Eo' & Ek' & Hf)). cbn in Eo, Eo'. rewrite Eo. cbn [with_h]. cbv zeta.
        assert (fits k (if b then vzero v else v)) as Hf'. { assert (fits k v) by congruence. destruct b; [by apply vzero_fits|done]. }
        apply (goes_set1 _ _ _ _ _ k); [done|done|]. eexists _, _. split; [done|]. exists s, k. done.
      + destruct Hi as (vs & I & -> & Hvs & HI). eapply Hbind; [apply (HI t vs Hvs)|]. intros vs' Hvs'. apply goes_ret. by exists vs', I.
    - intros Hend. unfold suits in Hsu. unfold post. cbn [y_inv lib l_cls l_h l_ibus l_obus] in *. unfold lib_inv in *. cbn [l_cls l_h l_ibus l_obus] in *.
      destruct c; try done; cbn in Hi.
      + (* Memory *) destruct Hsu as (k & (si & Ei & Ri & Eki) & (s & Eo & Ek)). rewrite Ei. cbn [with_h]. apply (goes_get _ _ _ _ _ k); [done|done|]. intros x Hx. apply goes_ret. exists x. split; [done|]. exists s, k. done.
      + (* Delay *) destruct Hsu as (k & Hk & (sx & Ex & Rx & Ekx) & _ & _ & (s & Eo & Ek) & Hlt). destruct Hi as (ts & xs & -> & Hl & Hla & Hst). unfold delay_post. rewrite Ex. cbn [with_h]. cbv zeta.
        pose proof (count_le ts (t - lifespan)) as Hc. assert (Nat.ltb (length xs) (count_lt ts (t - lifespan)) = false) as -> by (apply Nat.ltb_ge; lia).
        split.
        { destruct (last (drop (count_lt ts (t - lifespan)) ts)) as [tb|] eqn:Eb; [|done]. apply last_drop in Eb. rewrite <- Hla, Eb in Hend. by apply Hlt. }
        apply (goes_get _ _ _ _ _ k); [done|done|]. intros x Hx. apply goes_ret. eexists _, _. split; [done|]. split; [rewrite !app_length, !drop_length; cbn; lia|].
        split; [by rewrite last_snoc|]. intros z [Hz|Hz]%elem_of_app.
        * apply Hst. eapply elem_of_submseteq; [exact Hz|]. apply sublist_submseteq, sublist_drop.
        * apply elem_of_list_singleton in Hz as ->. exists s, k. done.
      + (* Deriv *) destruct Hsu as ((si & Ei & Ri & Eki) & Hx & (s & Eo & Ek)). unfold deriv_post. rewrite Ei. cbn [with_h]. apply (goes_get _ _ _ _ _ KScalar); [by apply Hx|done|]. intros v Hv. apply fits_scalar in Hv as [x ->].
        apply goes_ret. eexists _, _, _, _. split; [done|]. by intros _.
      + (* Integ *) destruct Hsu as (k & Hk & (s & Eo & Ek) & Hx). destruct Hi as (v & b & -> & _). cbn in Eo. rewrite Eo. cbn [with_h]. apply (goes_get _ _ _ _ _ k); [by apply Hx|done|]. intros w Hw. apply goes_ret. eexists _, _. split; [done|]. exists s, k. done.
      + destruct Hsu as (k & Hk & (s & Eo & Ek) & Hx & _). destruct Hi as (v & b & -> & _). cbn in Eo. rewrite Eo. cbn [with_h]. apply (goes_get _ _ _ _ _ k); [by apply Hx|done|]. intros w Hw. apply goes_ret. eexists _, _. split; [done|]. exists s, k. done.
      + destruct Hi as (vs & I & -> & Hvs & HI). eapply Hbind; [|intros vs' Hvs'; apply goes_ret; by exists vs', I].
        eapply goes_weak; [|done|apply (HI t vs Hvs)]. intros s Hs. by apply Hsu.
  Qed.
End blocks.
