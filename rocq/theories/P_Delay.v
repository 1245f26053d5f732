(** The buffers of a Delay block. *)
From stdpp Require Import prelude gmap.
From Coq Require Import ZArith.
From Verif Require Import Num NumOrd Res Store Leaf Sched Stepper Sim World Api SpecSched P_Store P_Prog SpecHist P_Trace P_Life.
Local Open Scope nat_scope.
Local Open Scope num_scope.
Notation steps := SpecHist.steps.

(** Strictly increasing. *)
Definition incr {D} `{NumOps D} (ts : list D) : Prop :=
  forall i j a b, i < j -> ts !! i = Some a -> ts !! j = Some b -> (a <? b) = true.
(** Linear interpolation at [u] of [x] at time [ta] and [y] at time [tb], pointwise
    for arrays. *)
Definition lin {D} `{NumOps D} (ta tb u a b : D) : D := (b - a) * (u - ta) / (tb - ta) + a.
Definition linear {D} `{NumOps D} (ta tb u : D) (x y z : val D) : Prop :=
  match x, y with
  | VS a, VS b => z = VS (lin ta tb u a b)
  | VA a, VA b => length a = length b /\ z = VA (zip_with (lin ta tb u) a b)
  | _, _ => False
  end.
(** [y] is what was recorded of signal [si] at the steps [hist], at time [u]:
    interpolated between two consecutive steps, constant after the last. *)
Definition recorded {D} `{NumOps D} (hist : list (D * store D)) (si : nat) (u : D) (y : val D) : Prop :=
  (exists tn σn, last hist = Some (tn, σn) /\ (tn <=? u) = true /\ value σn si = Some y) \/
  (exists i ta σa tb σb x1 x2, hist !! i = Some (ta, σa) /\ hist !! S i = Some (tb, σb) /\
     (ta <? tb) = true /\ (ta <? u) = true /\ (u <=? tb) = true /\
     value σa si = Some x1 /\ value σb si = Some x2 /\ linear ta tb u x1 x2 y).

Section delay.
  Context {D : Type} `{NumOrd D}.
  Implicit Types (l : leaf D) (v : list (event D)) (ts : list D).

  Lemma incr_cons t ts : incr (t :: ts) -> incr ts.
  Proof. intros Hi i j a b Hij Ha Hb. apply (Hi (S i) (S j) a b); [lia|done|done]. Qed.
  Lemma incr_drop k ts : incr ts -> incr (drop k ts).
  Proof. intros Hi i j a b Hij. rewrite !lookup_drop. apply Hi. lia. Qed.
  Lemma incr_snoc ts t : incr ts -> (forall j a, ts !! j = Some a -> (a <? t) = true) -> incr (ts ++ [t]).
  Proof.
    intros Hi Ht i j a b Hij Ha Hb. destruct (decide (j < length ts)) as [Hj|Hj].
    - rewrite lookup_app_l in Ha by lia. rewrite lookup_app_l in Hb by lia. by apply (Hi i j).
    - apply lookup_lt_Some in Hb as Hl. rewrite app_length in Hl. cbn in Hl. rewrite lookup_app_l in Ha by lia.
      rewrite lookup_app_r in Hb by lia. replace (j - length ts)%nat with 0 in Hb by lia. injection Hb as <-. by eapply Ht.
  Qed.
  Lemma incr_last ts tn j a : incr ts -> last ts = Some tn -> ts !! j = Some a -> (a <=? tn) = true.
  Proof.
    intros Hi Hl Hj. rewrite last_lookup in Hl. apply lookup_lt_Some in Hj as Hlt. destruct (decide (j = pred (length ts))) as [->|Hn].
    - rewrite Hj in Hl. injection Hl as ->. apply leb_refl.
    - apply ltb_le. apply (Hi j (pred (length ts))); [lia|done|done].
  Qed.
  Lemma count_lt_spec ts u : incr ts -> forall j a, ts !! j = Some a -> (j < count_lt ts u <-> (a <? u) = true).
  Proof.
    induction ts as [|t ts IH]; intros Hi j a Hj; [done|]. cbn. destruct (u <=? t) eqn:E.
    - split; [lia|]. intros Ha. exfalso. apply ltb_lt in Ha. assert ((u <=? a) = true); [|congruence].
      destruct j as [|j]; [by injection Hj as <-|]. eapply ord_trans; [exact E|]. apply ltb_le. apply (Hi 0 (S j)); [lia|done|done].
    - destruct j as [|j].
      + injection Hj as <-. split; [intros _; by apply ltb_lt|lia].
      + rewrite <- (IH (incr_cons _ _ Hi) j a Hj). lia.
  Qed.
  Lemma count_lt_le ts (u : D) : count_lt ts u <= length ts.
  Proof. induction ts as [|t ts IH]; cbn; [lia|]. destruct (u <=? t); lia. Qed.

  Lemma map2_zip f (xs ys r : list D) : map2 f xs ys = Some r -> length xs = length ys /\ r = zip_with f xs ys.
  Proof.
    revert ys r. induction xs as [|x xs IH]; intros [|y ys] r; cbn; try done.
    - by intros [= <-].
    - destruct (map2 f xs ys) as [r'|] eqn:E; [|done]. intros [= <-]. destruct (IH _ _ E) as [-> ->]. done.
  Qed.
  Lemma interp_linear x2 x1 u tb ta z : interp x2 x1 u tb ta = Some z -> linear ta tb u x1 x2 z.
  Proof.
    unfold interp, linear. destruct x2 as [b| | |bs], x1 as [a| | |as']; cbn; try done.
    - by intros [= <-].
    - destruct (map2 nsub bs as') as [r|] eqn:E; [|done]. apply map2_zip in E as [El ->].
      cbn. match goal with |- context[map2 nadd ?a as'] => destruct (map2 nadd a as') as [r|] eqn:E; [|done] end. apply map2_zip in E as [_ ->]. intros [= <-]. split; [done|]. f_equal.
      clear -El. revert as' El. induction bs as [|b bs IH]; intros [|a as'] El; try done. cbn. unfold lin at 1. f_equal. apply IH. by injection El.
  Qed.

  Definition samples (hist : list (D * store D)) (si : nat) (xs : list (val D)) : Prop :=
    Forall2 (fun p x => value p.2 si = Some x) hist xs.
  Definition buffers (L : D) (si : nat) v (m : lstate D) (k : nat) (xs : list (val D)) : Prop :=
    m = LDelay (drop k (map fst (steps v))) (drop k xs) /\ samples (steps v) si xs /\ incr (drop k (map fst (steps v))) /\
    (k <= length (steps v)) /\ (steps v ≠ [] -> k < length (steps v)) /\
    ((n0 <=? L) = true -> incr (map fst (steps v)) /\
       forall j tj tn, map fst (steps v) !! j = Some tj -> last (map fst (steps v)) = Some tn -> (k <= j <-> (tn - L <=? tj) = true)).

  Lemma delay_life l T L si v m : l_cls l = CDelay T L -> h_in (l_h l) = Some si -> life l (LDelay [] []) v m ->
    exists k xs, buffers L si v m k xs.
  Proof.
    intros Hc Hi. revert v m. apply (life_ind' l _ (fun v m => exists k xs, buffers L si v m k xs)).
    { exists 0, []. split_and!; [done|by constructor|by intros i j a b _|by cbn|done|]. intros _. split; [by intros i j a b _|done]. }
    intros v m e m' _ (k & xs & Hm & Hs & Hin & Hkl & Hk & HL) Hl.
    assert (step_of e = [] -> m' = m -> exists k xs, buffers L si (v ++ [e]) m' k xs) as Hsame.
    { intros He ->. exists k, xs. unfold buffers. by rewrite steps_snoc, He, app_nil_r. }
    destruct e as [| | | |t1 y t2 y' h|t σ ms|t σ ms|t σ ms]; try done; cbn in Hl.
    - by apply Hsame.
    - apply Hsame; [done|]. destruct Hl as [Hp _]. unfold pre in Hp. rewrite Hc in Hp. by apply shows_ret in Hp as ->.
    - apply Hsame; [done|]. destruct Hl as [[Ha|[_ ->]] _]; [|done]. unfold act in Ha. rewrite Hc, Hm in Ha. unfold delay_act in Ha. rewrite Hm.
      apply shows_h in Ha as (so & _ & Ha). apply shows_h in Ha as (s0 & _ & Ha). apply shows_h in Ha as (sd & _ & Ha).
      destruct (drop k (map fst (steps v))) as [|th ts'].
      + apply shows_get in Ha as (x & _ & Ha). apply shows_set in Ha as [_ Ha]. by apply shows_ret in Ha as ->.
      + apply shows_get in Ha as (d & _ & Ha). destruct d as [d| | |]; try by apply shows_ub in Ha.
        destruct (t - d <=? th).
        * apply shows_get in Ha as (x & _ & Ha). apply shows_set in Ha as [_ Ha]. by apply shows_ret in Ha as ->.
        * destruct (default th (last (th :: ts')) <=? t - d).
          -- destruct (last (drop k xs)); [|by apply shows_ub in Ha]. apply shows_set in Ha as [_ Ha]. by apply shows_ret in Ha as ->.
          -- destruct (count_lt (th :: ts') (t - d)) as [|k1]; [by apply shows_ub in Ha|].
             destruct ((th :: ts') !! S k1), ((th :: ts') !! k1), (drop k xs !! S k1), (drop k xs !! k1); try by apply shows_ub in Ha.
             apply shows_opt in Ha as (? & _ & _ & Ha). by apply shows_ret in Ha as ->.
    - destruct Hl as (_ & Hp & _). unfold post in Hp. rewrite Hc, Hm in Hp. unfold delay_post in Hp. rewrite Hi in Hp. cbn [with_h] in Hp.
      set (ts := map fst (steps v)) in *. set (c := count_lt (drop k ts) (t - L)) in *.
      destruct (Nat.ltb _ _); [by apply shows_ub in Hp|]. apply shows_debug in Hp as [Hd Hp]. apply shows_get in Hp as (x & Hx & Hp). apply shows_ret in Hp as ->.
      assert (length ts = length (steps v)) as Elen by apply map_length.
      assert (length xs = length (steps v)) as Elx by (symmetry; by eapply Forall2_length).
      assert (c <= length ts - k)%nat as Hc1. { etransitivity; [apply count_lt_le|]. by rewrite drop_length. }
      set (k' := (k + c)%nat). assert (k' <= length (steps v)) as Hk' by (unfold k'; lia).
      rewrite !drop_drop in *. fold k' in Hd |- *.
      assert (incr (drop k' ts ++ [t])) as Hin'.
      { apply incr_snoc; [unfold k'; rewrite <- drop_drop; by apply incr_drop|]. intros j a Hj.
        destruct (last (drop k' ts)) as [tb|] eqn:E; [|apply last_None in E; by rewrite E in Hj].
        eapply ltb_trans_r; [|exact Hd]. eapply incr_last; [|exact E|exact Hj]. unfold k'. rewrite <- drop_drop. by apply incr_drop. }
      assert (map fst (steps (v ++ [EvStep t σ ms])) = ts ++ [t]) as Ets by (rewrite steps_snoc, map_app; done).
      exists k', (xs ++ [x]). unfold buffers. rewrite Ets, steps_snoc. cbn [step_of].
      rewrite !drop_app_le by lia. split_and!.
      + done.
      + apply Forall2_app; [done|]. by constructor.
      + done.
      + rewrite app_length. lia.
      + intros _. rewrite app_length. cbn. lia.
      + intros HL0. destruct (HL HL0) as [Hinc Hret].
        assert (forall j a, ts !! j = Some a -> j < k' -> (a <? t - L) = true) as Hdrop.
        { intros j a Hj Hjk. destruct (decide (j < k)) as [Hlt|Hge].
          - destruct (last ts) as [tn|] eqn:El; [|apply last_None in El; by rewrite El in Hj].
            assert ((a <? tn - L) = true) as Ha. { apply ltb_lt. destruct (tn - L <=? a) eqn:E; [|done]. apply (Hret j a tn Hj eq_refl) in E. lia. }
            assert ((tn <=? t) = true) as Htn.
            { assert (last (drop k ts) = Some tn) as Eld.
              { rewrite last_lookup in El |- *. rewrite drop_length, lookup_drop, <- El. f_equal.
                assert (k < length (steps v)); [|lia]. apply Hk. intros E. unfold ts in Hj. by rewrite E in Hj. }
              destruct (decide (c = length (drop k ts))) as [Ec|Ec].
              - assert ((tn <? t - L) = true) as Hx1.
                { rewrite last_lookup in Eld. apply (count_lt_spec (drop k ts) (t - L) Hin _ _ Eld). fold c. rewrite Ec.
                  apply lookup_lt_Some in Eld. lia. }
                eapply ord_trans; [apply ltb_le, Hx1|]. by apply sub_le.
              - assert (last (drop k' ts) = Some tn) as Eld'.
                { rewrite last_lookup in Eld |- *. unfold k'. rewrite <- drop_drop, drop_length, lookup_drop, <- Eld. f_equal. rewrite drop_length in Ec |- *. lia. }
                rewrite Eld' in Hd. by apply ltb_le. }
            eapply ltb_trans_l; [exact Ha|]. by apply ord_sub_l.
          - apply (count_lt_spec (drop k ts) (t - L) Hin (j - k)%nat a); [|fold c; lia]. rewrite lookup_drop, <- Hj. f_equal. lia. }
        assert (forall j a, ts !! j = Some a -> k' <= j -> (t - L <=? a) = true /\ (a <? t) = true) as Hkeep.
        { intros j a Hj Hjk. assert (drop k' ts !! (j - k')%nat = Some a) as Hd1. { rewrite lookup_drop, <- Hj. f_equal. lia. } split.
          - apply ltb_ge. destruct (a <? t - L) eqn:E; [|done].
            apply (count_lt_spec (drop k ts) (t - L) Hin (j - k)%nat a) in E; [fold c in E; lia|]. rewrite lookup_drop, <- Hj. f_equal. lia.
          - apply (Hin' (j - k')%nat (length (drop k' ts))); [by apply lookup_lt_Some in Hd1|by apply lookup_app_l_Some|]. by rewrite lookup_app_r, Nat.sub_diag. }
        split.
        * apply incr_snoc; [done|]. intros j a Hj. destruct (decide (j < k')) as [Hlt|Hge].
          -- eapply ltb_trans_l; [by eapply Hdrop|]. by apply sub_le.
          -- apply (Hkeep j a Hj). lia.
        * intros j tj tn Hj Hlast. rewrite last_snoc in Hlast. injection Hlast as <-.
          destruct (decide (j < length ts)) as [Hlt|Hge].
          -- rewrite lookup_app_l in Hj by done. split; [intros Hle; by apply (Hkeep j)|]. intros Hle. destruct (decide (k' <= j)); [done|].
             assert ((tj <? t - L) = true) as Hx1 by (apply (Hdrop j); [done|lia]). apply ltb_lt in Hx1. congruence.
          -- apply lookup_lt_Some in Hj as Hjl. rewrite app_length in Hjl. cbn in Hjl. rewrite lookup_app_r in Hj by lia.
             replace (j - length ts)%nat with 0 in Hj by lia. injection Hj as <-. split; [intros _; by apply sub_le|lia].
  Qed.

  Lemma samples_drop hist si xs k j x : samples hist si xs -> drop k xs !! j = Some x -> exists t σ, hist !! (k + j)%nat = Some (t, σ) /\ value σ si = Some x.
  Proof. intros Hs. rewrite lookup_drop. intros Hj. destruct (Forall2_lookup_r _ _ _ _ _ Hs Hj) as ([t σ] & Hp & Hv). by exists t, σ. Qed.
  Lemma samples_times (hist : list (D * store D)) k j t σ a : hist !! (k + j)%nat = Some (t, σ) -> drop k (map fst hist) !! j = Some a -> a = t.
  Proof. rewrite lookup_drop. intros Hh. pose proof (list_lookup_fmap fst hist (k + j)%nat) as E. rewrite Hh in E. cbn in E. intros Ha. change (map fst hist) with (fst <$> hist) in Ha. rewrite E in Ha. by injection Ha. Qed.

  (** What an activation of a Delay outputs, given its buffers. *)
  Lemma delay_output l T L si so sd s0 v m k xs t σ m' : l_cls l = CDelay T L -> h_out (l_h l) = Some so -> h_delay (l_h l) = Some sd -> h_initial (l_h l) = Some s0 ->
    buffers L si v m k xs -> shows σ (act l t m) m' ->
    match drop k (map fst (steps v)) with
    | [] => exists y, value σ so = Some y /\ value σ s0 = Some y
    | th :: _ => exists y d, value σ so = Some y /\ value σ sd = Some (VS d) /\
        (((t - d <=? th) = true /\ value σ s0 = Some y) \/ ((th <? t - d) = true /\ recorded (steps v) si (t - d) y))
    end.
  Proof.
    intros Hc Ho Hd Hs0 (Hm & Hs & Hin & Hkl & Hk & _) Ha. unfold act in Ha. rewrite Hc, Hm in Ha. unfold delay_act in Ha.
    rewrite Ho, Hd, Hs0 in Ha. cbn [with_h] in Ha. destruct (drop k (map fst (steps v))) as [|th ts'] eqn:Ets.
    { apply shows_get in Ha as (x & Hx & Ha). apply shows_set in Ha as [Hy _]. by exists x. }
    apply shows_get in Ha as (d & Hdv & Ha). destruct d as [d| | |]; try by apply shows_ub in Ha.
    destruct (t - d <=? th) eqn:E1.
    { apply shows_get in Ha as (x & Hx & Ha). apply shows_set in Ha as [Hy _]. exists x, d. split_and!; [done|done|]. by left. }
    destruct (default th (last (th :: ts')) <=? t - d) eqn:E2.
    - destruct (last (drop k xs)) as [x|] eqn:Elx; [|by apply shows_ub in Ha]. apply shows_set in Ha as [Hy _]. exists x, d. split_and!; [done|done|].
      right. split; [by apply ltb_lt|]. left. rewrite last_lookup in Elx. destruct (samples_drop _ _ _ _ _ _ Hs Elx) as (tn & σn & Hn & Hv).
      assert (length xs = length (steps v)) as Elen by (symmetry; by eapply Forall2_length).
      assert (length (th :: ts') = length (drop k xs)) as El2. { rewrite <- Ets, !drop_length, map_length. lia. }
      assert ((k + pred (length (drop k xs)))%nat = pred (length (steps v))) as Ek. { rewrite drop_length in *. cbn in El2. lia. }
      exists tn, σn. split_and!; [rewrite last_lookup, <- Ek; done| |done].
      assert (last (th :: ts') = Some tn) as El3.
      { rewrite last_lookup. destruct ((th :: ts') !! pred (length (th :: ts'))) as [a|] eqn:Ea.
        - f_equal. eapply samples_times; [exact Hn|]. rewrite <- El2. by rewrite Ets.
        - apply lookup_ge_None_1 in Ea. cbn in Ea. lia. }
      by rewrite El3 in E2.
    - destruct (count_lt (th :: ts') (t - d)) as [|k1] eqn:Ec; [by apply shows_ub in Ha|].
      destruct ((th :: ts') !! S k1) as [tb|] eqn:Eb; [|by apply shows_ub in Ha]. destruct ((th :: ts') !! k1) as [ta|] eqn:Ea; [|by apply shows_ub in Ha].
      destruct (drop k xs !! S k1) as [xb|] eqn:Exb; [|by apply shows_ub in Ha]. destruct (drop k xs !! k1) as [xa|] eqn:Exa; [|by apply shows_ub in Ha].
      apply shows_opt in Ha as (y & Hint & Hy & _). exists y, d. split_and!; [done|done|]. right. split; [by apply ltb_lt|]. right.
      destruct (samples_drop _ _ _ _ _ _ Hs Exa) as (ta' & σa & Hna & Hva). destruct (samples_drop _ _ _ _ _ _ Hs Exb) as (tb' & σb & Hnb & Hvb).
      assert (ta = ta') as <-. { eapply samples_times; [exact Hna|]. by rewrite Ets. } assert (tb = tb') as <-. { eapply samples_times; [exact Hnb|]. by rewrite Ets. }
      exists (k + k1)%nat, ta, σa, tb, σb, xa, xb. split_and!; [done|by rewrite <- Nat.add_succ_r| | | |done|done|by apply interp_linear].
      + apply (Hin k1 (S k1)); [lia|done|done].
      + apply (count_lt_spec _ (t - d) Hin _ _ Ea). lia.
      + apply ltb_ge. destruct (tb <? t - d) eqn:E; [|done]. apply (count_lt_spec _ (t - d) Hin _ _ Eb) in E. lia.
  Qed.
End delay.
