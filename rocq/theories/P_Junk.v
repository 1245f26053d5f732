(** What the three arrays of state variables contain before they are written does not
    show: simulators whose arrays differ do the same. *)
From stdpp Require Import prelude gmap strings.
From Coq Require Import ZArith.
From Verif Require Import Num Res Store Leaf Sched Stepper Sim SpecSched P_Store P_Prog P_Sched P_Modes P_Sim P_Evolve P_Log P_Pack P_Rel P_Field P_Redo P_Order2.
Local Open Scope nat_scope.

(** The same simulator with other contents of the arrays. *)
Definition dress {D} (a b c : list D) (s : simst D) : simst D := put_sv a (put_svo b (put_dv c s)).
Definition rmap {S S' A} (f : S -> S') (r : res S A) : res S' A := match r with Ok x s => Ok x (f s) | Exn e s => Exn e (f s) | UB u => UB u | OOF => OOF end.
Definition unseen {D A} (m : M (simst D) A) : Prop := forall a b c s, m (dress a b c s) = rmap (dress a b c) (m s).

Section unseen.
  Context {D : Type} `{NumOps D}.
  Lemma un_ret {A} (x : A) : unseen (D:=D) (ret x).
  Proof. done. Qed.
  Lemma un_throw {A} e : unseen (D:=D) (throw (A:=A) e).
  Proof. done. Qed.
  Lemma un_undef {A} u : unseen (D:=D) (undef (A:=A) u).
  Proof. done. Qed.
  Lemma un_bnd {A B} (m : M (simst D) A) (k : A -> M (simst D) B) : unseen m -> (forall x, unseen (k x)) -> unseen (bnd m k).
  Proof. intros Hm Hk a b c s. unfold bnd. rewrite Hm. destruct (m s) as [x s1| | |]; cbn; [apply Hk|done..]. Qed.
  Lemma un_gets {A} (f : simst D -> A) : (forall a b c s, f (dress a b c s) = f s) -> unseen (gets f).
  Proof. intros Hf a b c s. unfold gets. cbn. by rewrite Hf. Qed.
  Lemma un_modify (f : simst D -> simst D) : (forall a b c s, f (dress a b c s) = dress a b c (f s)) -> unseen (modify f).
  Proof. intros Hf a b c s. unfold modify. cbn. by rewrite Hf. Qed.
  Lemma un_on_dyn {A} (m : M (dyn D) A) : unseen (on_dyn m).
  Proof. intros a b c s. unfold on_dyn, lift. cbn. by destruct (m (s_dyn s)). Qed.
  Lemma un_on_core {A} (m : M (core D) A) : unseen (on_core' m).
  Proof. apply un_on_dyn. Qed.
  Lemma un_on_store {A} (m : M (store D) A) : unseen (on_store' m).
  Proof. apply un_on_dyn. Qed.
  Lemma un_if {A} (b : bool) (m m' : M (simst D) A) : unseen m -> unseen m' -> unseen (if b then m else m').
  Proof. by destruct b. Qed.
  Lemma un_verify c e : unseen (D:=D) (verify c e).
  Proof. unfold verify. by destruct c. Qed.
  Lemma un_debug dbg c e : unseen (D:=D) (debug_verify dbg c e).
  Proof. unfold debug_verify. destruct dbg; [apply un_verify|apply un_ret]. Qed.

  Context (g : cfg D).
  Lemma un_clear : unseen (D:=D) clear_all.
  Proof. apply un_bnd; [by apply un_gets|intros vs; apply un_on_store]. Qed.
  Lemma un_eval t : unseen (eval_model g t).
  Proof.
    unfold eval_model. destruct (g_mode g).
    - apply un_bnd; [apply un_on_dyn|intros _; apply un_on_dyn].
    - apply un_bnd; [apply un_on_dyn|intros _]. apply un_bnd; [by apply un_gets|intros cur]. destruct cur as [[]|]; [| |apply un_undef].
      + apply un_bnd; [by apply un_gets|intros po]. apply un_bnd; [apply un_on_dyn|intros po']. by apply un_modify.
      + apply un_bnd; [by apply un_gets|intros po]. apply un_bnd; [apply un_on_dyn|intros po']. by apply un_modify.
    - apply un_bnd; [by apply un_gets|intros o; apply un_on_core].
  Qed.
  Lemma un_process t b1 b2 : unseen (process_model g t b1 b2).
  Proof.
    unfold process_model. apply un_bnd; [apply un_on_core|intros _]. apply un_bnd; [apply un_if; [apply un_on_core|apply un_ret]|intros _].
    apply un_bnd; [apply un_eval|intros _]. apply un_bnd; [apply un_on_core|intros _]. apply un_if; [apply un_on_core|apply un_ret].
  Qed.
  Lemma un_reset x : unseen (reset_sv g x).
  Proof. unfold reset_sv. apply un_bnd; [apply un_clear|intros _]. apply un_bnd; [by apply un_gets|intros ss]. apply un_bnd; [by apply un_gets|intros aa]. apply un_on_store. Qed.
  Lemma un_begin t : unseen (begin_step g t).
  Proof. unfold begin_step. apply un_bnd; [apply un_clear|intros _]. apply un_bnd; [apply un_on_core|intros _]. apply un_on_core. Qed.
End unseen.

Lemma collect_len {D} `{NumOps D} (f : nat -> M (store D) (list D)) (n : nat -> nat) zs σ x σ' : (forall z y σ1 σ2, f z σ1 = Ok y σ2 -> σ2 = σ1) ->
  (forall z y, z ∈ zs -> f z σ = Ok y σ -> length y = n z) -> collect f zs σ = Ok x σ' -> σ' = σ /\ length x = sum_list (map n zs).
Proof.
  intros Hf. revert x σ'. induction zs as [|z zs IH]; intros x σ' Hn; cbn [collect]; [by intros [= <- <-]|]. unfold bnd.
  destruct (f z σ) as [y σ1| | |] eqn:E; try done. pose proof (Hf _ _ _ _ E) as ->. destruct (collect f zs σ) as [r σ2| | |] eqn:E2; try done. intros [= <- <-].
  destruct (IH r σ2) as [-> Hl]; [intros z' y' Hz'; apply Hn; by right|done|]. split; [done|]. rewrite app_length, Hl. cbn. f_equal. apply Hn; [by left|done].
Qed.

Section junk.
  Context {D : Type} `{NumOps D} (g : cfg D).
  Implicit Types s : simst D.
  (** Up to the contents of the three arrays; and with the same state variables. *)
  Definition inv s : Prop := packed g s /\ derivs_fit (s_store s).
  Definition blur s1 s2 : Prop := inv s1 /\ exists a b c, s2 = dress a b c s1 /\ length a = length (s_sv s1) /\ length b = length (s_svo s1) /\ length c = length (s_dv s1).
  Definition clear s1 s2 : Prop := blur s1 s2 /\ s_sv s2 = s_sv s1.
  Lemma inv_both {A} (m : M (simst D) A) s a s' : pres (both g) m -> inv s -> m s = Ok a s' -> inv s'.
  Proof.
    intros Hm [Hp Hf] E. split; [by eapply both_packed|]. specialize (Hm s). rewrite E in Hm. destruct Hm as [Hv _]. pose proof (ev_dyn _ _ _ Hv) as [Hs _]. by eapply fit_shape.
  Qed.
  Lemma blur_unseen {A} (m : M (simst D) A) : unseen m -> pres (both g) m -> mrel blur m m.
  Proof.
    intros Hu Hm s1 s2 (Hi & a & b & c & -> & L1 & L2 & L3). rewrite Hu. destruct (m s1) as [x s1'| | |] eqn:E; try done. cbn. eexists. split; [done|].
    split; [by eapply inv_both|]. specialize (Hm s1). rewrite E in Hm. destruct Hm as [_ (V1 & V2 & V3)]. exists a, b, c. split_and!; congruence.
  Qed.
  Lemma clear_unseen {A} (m : M (simst D) A) : unseen m -> pres (both g) m -> mrel clear m m.
  Proof.
    intros Hu Hm s1 s2 [(Hi & a & b & c & -> & L1 & L2 & L3) Hv]. rewrite Hu. destruct (m s1) as [x s1'| | |] eqn:E; try done. cbn. eexists. split; [done|].
    specialize (Hm s1) as Hm1. rewrite E in Hm1. destruct Hm1 as [_ (V1 & V2 & V3)]. split; [|cbn in *; congruence].
    split; [by eapply inv_both|]. exists a, b, c. split_and!; congruence.
  Qed.
  Lemma gather_two s1 s2 f1 f2 y s1' : (forall z y σ1 σ2, f1 z σ1 = Ok y σ2 -> σ2 = σ1) -> (forall z y σ1 σ2, f2 z σ1 = Ok y σ2 -> σ2 = σ1) ->
    (forall z y, z ∈ s_scal s1 -> f1 z (s_store s1) = Ok y (s_store s1) -> length y = sig_size (s_store s1) z) ->
    (forall z y, z ∈ s_arr s1 -> f2 z (s_store s1) = Ok y (s_store s1) -> length y = sig_size (s_store s1) z) -> blur s1 s2 ->
    on_store' (x1 <~ collect f1 (s_scal s1) ;; x2 <~ collect f2 (s_arr s1) ;; ret (x1 ++ x2)) s1 = Ok y s1' ->
    s1' = s1 /\ length y = length (s_sv s1) /\ on_store' (x1 <~ collect f1 (s_scal s1) ;; x2 <~ collect f2 (s_arr s1) ;; ret (x1 ++ x2)) s2 = Ok y s2.
  Proof.
    intros R1 R2 L1 L2 ([Hp _] & a & b & c & -> & _) E. set (m := bnd (collect f1 (s_scal s1)) _) in *.
    destruct (on_store_inv _ _ _ _ E) as (σ' & Em).
    assert (σ' = s_store s1 /\ length y = length (s_sv s1)) as [-> Hl].
    { unfold m, bnd in Em. destruct (collect f1 _ _) as [x1 σ1| | |] eqn:E1; try done. destruct (collect_len _ _ _ _ _ _ R1 L1 E1) as [-> K1].
      destruct (collect f2 _ _) as [x2 σ2| | |] eqn:E2; try done. destruct (collect_len _ _ _ _ _ _ R2 L2 E2) as [-> K2]. injection Em as <- <-. split; [done|].
      by rewrite app_length, K1, K2, (pk_sv _ _ Hp), width_app. }
    rewrite (on_store_ok _ _ _ _ Em), put_same in E. injection E as <-. split; [done|]. split; [done|]. rewrite (un_on_store m a b c s1). rewrite (on_store_ok _ _ _ _ Em), put_same. done.
  Qed.
  Lemma scal_one s z : packed g s -> z ∈ s_scal s -> sig_size (s_store s) z = 1.
  Proof. intros Hp Hz. destruct (pk_scal _ _ Hp z Hz) as (c & Hc & Hk). unfold sig_size. by rewrite Hc, Hk. Qed.
  Lemma get_two o1 s1 s2 x s1' : blur s1 s2 -> length o1 = length (s_sv s1) -> get_sv g o1 s1 = Ok x s1' ->
    s1' = s1 /\ length x = length (s_sv s1) /\ forall o2, length o2 = length (s_sv s1) -> get_sv g o2 s2 = Ok x s2.
  Proof.
    intros Hb Ho. unfold get_sv. unfold bnd at 1, gets at 1. unfold bnd at 1. rewrite Ho, Nat.eqb_refl.
    assert (forall s : simst D, debug_verify (g_dbg g) true EAssert s = Ok tt s) as Hdv by (intros s; by destruct (g_dbg g)). rewrite Hdv.
    unfold bnd at 1, gets at 1. unfold bnd at 1, gets at 1. unfold bnd at 1. destruct (on_store' _ s1) as [y s3| | |] eqn:E; try done.
    pose proof Hb as ([Hp Hf] & a & b & c & Es2 & La & Lb & Lc).
    destruct (gather_two s1 s2 (get_scalar g) (get_array g) y s3) as (-> & Hl & E2); [| | | |done|exact E|].
    { intros z y' σ1 σ2 Ez. by apply get_scalar_inv in Ez as [? _]. } { intros z y' σ1 σ2 Ez. by apply get_array_inv in Ez as [? _]. }
    { intros z y' Hz Ez. apply get_scalar_inv in Ez as (_ & d & -> & _). by rewrite (scal_one _ _ Hp Hz). }
    { intros z y' Hz Ez. by apply get_array_inv in Ez as (_ & -> & _). }
    rewrite (P_Pack.write_all y o1) by congruence. intros [= <- <-]. split; [done|]. split; [done|]. intros o2 Ho2.
    rewrite (bnd_goes _ _ s2 (length (s_sv s2)) s2) by done. assert (length (s_sv s2) = length o2) as ->. { rewrite Es2. cbn. congruence. } rewrite Nat.eqb_refl.
    rewrite (bnd_goes _ _ s2 tt s2) by apply Hdv. rewrite (bnd_goes _ _ s2 (s_scal s1) s2) by (by rewrite Es2). rewrite (bnd_goes _ _ s2 (s_arr s1) s2) by (by rewrite Es2).
    rewrite (bnd_goes _ _ _ _ _ E2). by rewrite (P_Pack.write_all y o2) by congruence.
  Qed.
  Lemma minor_two (Rel : simst D -> simst D -> Prop) t x : Rel = blur \/ Rel = clear -> mrel Rel (minor_cb g t x) (minor_cb g t x).
  Proof.
    intros HR. assert (forall A (m : M (simst D) A), unseen m -> pres (both g) m -> mrel Rel m m) as Hgo by (intros A m; destruct HR as [-> | ->]; [apply blur_unseen|apply clear_unseen]).
    unfold minor_cb. apply mrel_bnd; [apply Hgo; [apply un_reset|apply pres_both; [apply pres_reset_sv|apply vecs_reset_sv]]|intros _].
    apply mrel_bnd; [apply Hgo; [apply un_process|apply pres_both; [apply pres_process_model|apply vecs_process_model]]|intros _].
    intros s1 s2 Hr. unfold bnd at 1, gets at 1. unfold bnd at 1, gets at 1. unfold bnd at 1. destruct (on_store' _ s1) as [y s3| | |] eqn:E; try done.
    assert (blur s1 s2) as Hb by (destruct HR as [-> | ->]; [done|apply Hr]). pose proof Hb as ([Hp Hf] & a & b & c & Es2 & La & Lb & Lc).
    destruct (gather_two s1 s2 (deriv_of (get_scalar g)) (deriv_of (get_array g)) y s3) as (-> & Hl & E2); [| | | |done|exact E|].
    { intros z y' σ1 σ2. apply deriv_same. intros ? ? ? ? Ez. by apply get_scalar_inv in Ez as [? _]. } { intros z y' σ1 σ2. apply deriv_same. intros ? ? ? ? Ez. by apply get_array_inv in Ez as [? _]. }
    { intros z y' Hz Ez. unfold deriv_of, bnd, gets in Ez. destruct (_ !! z) as [c'|]; [|done]. destruct (c_deriv c') as [d|]; [|done].
      apply get_scalar_inv in Ez as (_ & d' & -> & _). by rewrite (scal_one _ _ Hp Hz). }
    { intros z y' Hz Ez. unfold deriv_of, bnd, gets in Ez. destruct (_ !! z) as [c'|] eqn:Ec; [|done]. destruct (c_deriv c') as [d|] eqn:Ed; [|done].
      apply get_array_inv in Ez as (_ & -> & _). by eapply Hf. }
    assert (length (s_dv s1) = length y) as Ld by (by rewrite Hl, (pk_sv _ _ Hp), (pk_dv _ _ Hp)).
    unfold bnd at 1, gets at 1. rewrite (P_Pack.write_all y (s_dv s1)) by done. unfold bnd at 1, modify at 1. unfold ret at 1.
    exists (put_dv y s2). split.
    - rewrite (bnd_goes _ _ s2 (s_scal s1) s2) by (by rewrite Es2). rewrite (bnd_goes _ _ s2 (s_arr s1) s2) by (by rewrite Es2). rewrite (bnd_goes _ _ _ _ _ E2).
      rewrite (bnd_goes _ _ s2 (s_dv s2) s2) by done. rewrite (P_Pack.write_all y (s_dv s2)); [done|]. rewrite Es2. cbn. congruence.
    - assert (blur (put_dv y s1) (put_dv y s2)) as Hb2.
      { split; [split; [|done]; by apply (packed_evo g s1)|]. exists a, b, y. by rewrite Es2. }
      destruct HR as [-> | ->]; [done|]. split; [done|]. destruct Hr as [_ Hv]. exact Hv.
  Qed.
  Lemma clear_blur s1 s2 : clear s1 s2 -> blur s1 s2.
  Proof. by intros [? _]. Qed.
  Lemma clear_load : mrel clear (sv <~ gets s_sv ;; reset_sv g sv) (sv <~ gets s_sv ;; reset_sv g sv).
  Proof. apply mrel_bnd; [apply mrel_gets; by intros s1 s2 [_ ?]|]. intros x. apply clear_unseen; [apply un_reset|apply pres_both; [apply pres_reset_sv|apply vecs_reset_sv]]. Qed.

  Context (Hstp : forall stp, g_stepper g = Some stp -> stepper_rel stp /\ stepper_ok stp).
  (** An attempted step makes the state variables the same. *)
  Definition tail fuel t lo hi t1 t2 force (x : list D) (r : list D * D) : M (simst D) unit :=
    on_core' (emit (EvTry t1 x t2 (fst r) (snd r))) ;;;
    (if (force || nleb (nsub t2 t1) (snd r) || nleb (nsub t2 t1) lo)%bool then
       (if nltb t2 t then sv <~ gets s_sv ;; reset_sv g sv ;;; process_model g t2 false true else ret tt) ;;;
       run_loop g fuel t lo hi t2 (nmin (nadd t2 (clip lo hi (snd r))) t) false
     else run_loop g fuel t lo hi t1 (nadd t1 (clip lo hi (snd r))) (nleb (snd r) lo)).
  Lemma loop_step fuel t lo hi t1 t2 force : nltb t1 t = true ->
    (forall t1 t2 force, mrel clear (run_loop g fuel t lo hi t1 t2 force) (run_loop g fuel t lo hi t1 t2 force)) ->
    mrelt blur clear (run_loop g (S fuel) t lo hi t1 t2 force) (run_loop g (S fuel) t lo hi t1 t2 force).
  Proof.
    intros Hlt IH. cbn [run_loop]. rewrite Hlt. eapply mrelt_bnd; [apply (blur_unseen (begin_step g t1)); [apply un_begin|apply pres_both; [apply pres_begin_step|apply vecs_begin_step]]|intros _].
    intros s1 s2 Hb. unfold bnd at 1, gets at 1. unfold bnd at 1. destruct (get_sv g (s_svo s1) s1) as [x s3| | |] eqn:Eg; try done.
    pose proof Hb as ([Hp Hf] & a & b & c & Es2 & La & Lb & Lc).
    assert (length (s_svo s1) = length (s_sv s1)) as Lo by (by rewrite (pk_sv _ _ Hp), (pk_svo _ _ Hp)).
    destruct (get_two _ _ _ _ _ Hb Lo Eg) as (-> & Hx & Hget). clear Eg.
    rewrite (bnd_goes _ _ s2 (s_svo s2) s2) by done. rewrite (bnd_goes _ _ s2 x s2) by (apply Hget; rewrite Es2; cbn; congruence).
    unfold bnd at 1, modify at 1. rewrite (bnd_goes _ _ s2 tt (put_svo x s2)) by done.
    assert (blur (put_svo x s1) (put_svo x s2)) as Hb2. { split; [split; [|done]; apply packed_svo; [congruence|done]|]. exists a, x, c. by rewrite Es2. }
    assert (length (s_sv (put_svo x s1)) = length x) as Lx by (by cbn).
    revert Hb2 Lx. generalize (put_svo x s1) (put_svo x s2). clear dependent s1 s2. clear a b c. intros s1 s2 Hb Hx.
    assert (g_stepper g = None \/ exists stp, g_stepper g = Some stp) as [Es|[stp Es]] by (destruct (g_stepper g); eauto); rewrite Es; [done|].
    destruct (Hstp stp Es) as [Hrel Hok]. unfold bnd at 1. pose proof (Hrel _ _ blur (minor_cb g) (minor_cb g) t1 x t2 (fun τ v => minor_two blur τ v (or_introl eq_refl)) s1 s2 Hb) as Hs.
    destruct (stp _ (minor_cb g) t1 x t2 s1) as [r s3| | |] eqn:Er; try done. destruct Hs as (s4 & E4 & Hb4). rewrite (bnd_goes _ _ _ _ _ E4).
    pose proof (so_len stp Hok _ _ _ _ _ _ _ _ Er) as Hlr.
    pose proof (so_pres stp Hok _ (both g) (minor_cb g) t1 x t2 _ (fun τ v => pres_both g _ (pres_minor_cb g τ v) (vecs_minor_cb g τ v)) s1) as Hv. rewrite Er in Hv. destruct Hv as [_ (V1 & _)].
    unfold bnd at 1, modify at 1. rewrite (bnd_goes _ _ s4 tt (put_sv (fst r) s4)) by done.
    assert (clear (put_sv (fst r) s3) (put_sv (fst r) s4)) as Hc.
    { destruct Hb4 as ([Hp4 Hf4] & a & b & c & -> & La & Lb & Lc). split; [|done]. split; [split; [|done]; apply packed_sv; [congruence|done]|]. exists (fst r), b, c. done. }
    revert Hc. generalize (put_sv (fst r) s3) (put_sv (fst r) s4). clear dependent s1 s2 s3 s4. intros s3 s4 Hc.
    assert (mrel clear (tail fuel t lo hi t1 t2 force x r) (tail fuel t lo hi t1 t2 force x r)) as Ht.
    { unfold tail. apply mrel_bnd; [apply clear_unseen; [apply un_on_core|apply pres_both; [apply pres_on_core', pres_emit|apply vecs_on_dyn]]|intros _]. apply mrel_if; [|apply IH].
      apply mrel_bnd; [|intros _; apply IH]. apply mrel_if; [|apply mrel_ret]. apply mrel_assoc, mrel_bnd; [apply clear_load|intros _].
      apply clear_unseen; [apply un_process|apply pres_both; [apply pres_process_model|apply vecs_process_model]]. }
    apply (Ht s3 s4 Hc).
  Qed.
  Lemma loop_clear fuel t lo hi t1 t2 force : mrel clear (run_loop g fuel t lo hi t1 t2 force) (run_loop g fuel t lo hi t1 t2 force).
  Proof.
    revert t1 t2 force. induction fuel as [|fuel IH]; intros t1 t2 force.
    - cbn [run_loop]. apply mrel_if; [apply mrel_oof|apply mrel_ret].
    - destruct (nltb t1 t) eqn:Hlt.
      + intros s1 s2 Hc. apply (loop_step fuel t lo hi t1 t2 force Hlt IH). by apply clear_blur.
      + cbn [run_loop]. rewrite Hlt. apply mrel_ret.
  Qed.
  Lemma loop_blur fuel t lo hi t1 t2 force : nltb t1 t = true -> mrelt blur clear (run_loop g fuel t lo hi t1 t2 force) (run_loop g fuel t lo hi t1 t2 force).
  Proof.
    intros Hlt. destruct fuel as [|fuel]; [cbn [run_loop]; rewrite Hlt; by intros s1 s2|]. apply loop_step; [done|]. intros. apply loop_clear.
  Qed.
  (** run on a simulator that is initialised, to a comparable time. *)
  Lemma run_blur fuel t lo hi s1 s2 s1' : blur s1 s2 -> s_init s1 = true -> nltb t (s_tprev s1) = true \/ neqb t (s_tprev s1) = true \/ nltb (s_tprev s1) t = true ->
    run g fuel t lo hi s1 = Ok tt s1' -> exists s2', run g fuel t lo hi s2 = Ok tt s2' /\ clear s1' s2'.
  Proof.
    intros Hb Hi Htot. assert (s_init s2 = true) as Hi2. { destruct Hb as (_ & a & b & c & -> & _). done. }
    assert (length (s_sv s2) = length (s_sv s1)) as Lv. { destruct Hb as (_ & a & b & c & -> & La & _). done. }
    assert (s_tprev s2 = s_tprev s1) as Et. { destruct Hb as (_ & a & b & c & -> & _). done. }
    unfold run. rewrite (bnd_goes _ _ s1 true s1) by (unfold gets; by rewrite Hi). rewrite (bnd_goes _ _ s2 true s2) by (unfold gets; by rewrite Hi2). cbn [negb].
    rewrite (bnd_goes _ _ s1 (length (s_sv s1)) s1) by done. rewrite (bnd_goes _ _ s2 (length (s_sv s1)) s2) by (unfold gets; by rewrite Lv).
    rewrite (bnd_goes _ _ s1 (s_tprev s1) s1) by done. rewrite (bnd_goes _ _ s2 (s_tprev s1) s2) by (unfold gets; by rewrite Et).
    match goal with |- bnd ?m ?k s1 = _ -> _ => set (m1 := m); set (k1 := k) end.
    assert (mrel clear (k1 tt) (k1 tt)) as Hk.
    { unfold k1. apply mrel_assoc, mrel_bnd; [apply clear_load|intros _]. apply mrel_bnd; [apply clear_unseen; [apply un_process|apply pres_both; [apply pres_process_model|apply vecs_process_model]]|intros _].
      apply mrel_modify. intros x1 x2 [([Hp Hf] & a & b & c & -> & ?) Hv]. split; [|done]. split; [split; [by destruct Hp; split|done]|]. by exists a, b, c. }
    enough (match m1 s1 with Ok u z1 => exists z2, m1 s2 = Ok u z2 /\ clear z1 z2 | _ => True end) as Hm.
    { unfold bnd. destruct (m1 s1) as [[] z1| | |]; try done. destruct Hm as (z2 & -> & Hc). intros E. specialize (Hk z1 z2 Hc). rewrite E in Hk. exact Hk. }
    unfold m1. clear m1 k1 Hk. destruct (length (s_sv s1)) as [|n] eqn:En.
    { exists s2. split; [done|]. split; [done|]. apply nil_length_inv in En. rewrite En. by apply nil_length_inv. }
    destruct (nltb t (s_tprev s1)) eqn:E1; [done|]. destruct (neqb t (s_tprev s1)) eqn:E2.
    - assert (mrelt blur clear (begin_step g t ;;; o <~ gets s_sv ;; x <~ get_sv g o ;; modify (put_sv x)) (begin_step g t ;;; o <~ gets s_sv ;; x <~ get_sv g o ;; modify (put_sv x))) as Hm; [|apply (Hm s1 s2 Hb)].
      eapply mrelt_bnd; [apply (blur_unseen (begin_step g t)); [apply un_begin|apply pres_both; [apply pres_begin_step|apply vecs_begin_step]]|intros _].
      clear dependent s1 s2. intros s1 s2 Hb. unfold bnd at 1, gets at 1. unfold bnd at 1. destruct (get_sv g (s_sv s1) s1) as [x s3| | |] eqn:Eg; try done.
      pose proof Hb as ([Hp Hf] & a & b & c & Es2 & La & Lb & Lc). destruct (get_two _ _ _ _ _ Hb eq_refl Eg) as (-> & Hx & Hget).
      exists (put_sv x s2). split; [rewrite (bnd_goes _ _ s2 (s_sv s2) s2) by done; rewrite (bnd_goes _ _ s2 x s2) by (apply Hget; rewrite Es2; done); done|].
      split; [|done]. split; [split; [|done]; by apply packed_sv|]. exists x, b, c. by rewrite Es2.
    - assert (nltb (s_tprev s1) t = true) as E3 by (by destruct Htot as [?|[?|?]]).
      assert (forall dbg c, mrel blur (debug_verify dbg c EAssert) (debug_verify dbg c EAssert)) as Hdv by (intros; apply mrel_debug).
      eapply (mrelt_bnd blur blur clear); [apply Hdv|intros _|exact Hb]. eapply mrelt_bnd; [apply Hdv|intros _]. eapply mrelt_bnd; [apply Hdv|intros _]. by apply loop_blur.
  Qed.
End junk.
