(** The order of the state variables does not matter to whole simulations: the simulator. *)
From stdpp Require Import prelude gmap.
From Coq Require Import ZArith.
From Verif Require Import Num Res Store Leaf Sched Stepper Sim SpecSched P_Store P_Prog P_Modes P_Evolve P_Rel P_Rel2 SpecHist P_Trace P_Perm P_Pack P_Redo P_Field SpecOrder P_Order.

Lemma bnd_goes {S A B} (m : M S A) (k : A -> M S B) s a s' : m s = Ok a s' -> bnd m k s = k a s'.
Proof. intros E. unfold bnd. by rewrite E. Qed.

Lemma mrel_from {S1 S2 A} (R : S1 -> S2 -> Prop) (m1 : M S1 A) m2 :
  (forall x1 x2 a y1, R x1 x2 -> m1 x1 = Ok a y1 -> exists y2, m2 x2 = Ok a y2 /\ R y1 y2) -> mrel R m1 m2.
Proof. intros Hm x1 x2 Hr. destruct (m1 x1) as [a y1| | |] eqn:E; try done. by eapply Hm. Qed.

Section sim.
  Context {D : Type} `{NumOps D} (g : cfg D) (L : list (event D)).
  (** The state signals in two orders and the sizes of the signals. *)
  Context (sc1 ar1 sc2 ar2 : list nat) (n : nat -> nat).
  Context (Hsc : sc2 ≡ₚ sc1) (Har : ar2 ≡ₚ ar1) (Hnd : NoDup (sc1 ++ ar1)) (Hone : forall z, z ∈ sc1 -> n z = 1).
  Notation zs1 := (sc1 ++ ar1).
  Notation zs2 := (sc2 ++ ar2).
  Definition pm : list nat := reorder n zs1 zs2.
  Implicit Types s : simst D.

  Record raw s1 s2 : Prop := {
    rw_dyn : dsame L pm (s_dyn s1) (s_dyn s2);
    rw_po1 : s_po1 s2 = s_po1 s1; rw_po2 : s_po2 s2 = s_po2 s1; rw_cur : s_cur s2 = s_cur s1; rw_fast : s_fast s2 = s_fast s1;
    rw_tprev : s_tprev s2 = s_tprev s1; rw_init : s_init s2 = s_init s1;
    rw_vsigs : s_vsigs s2 ≡ₚ s_vsigs s1;
    rw_scal1 : s_scal s1 = sc1; rw_arr1 : s_arr s1 = ar1; rw_scal2 : s_scal s2 = sc2; rw_arr2 : s_arr s2 = ar2;
    rw_sv : s_sv s2 = perm pm (s_sv s1); rw_svo : s_svo s2 = perm pm (s_svo s1); rw_dv : length (s_dv s2) = length (s_dv s1)
  }.
  Record inv s : Prop := {
    in_packed : packed g s;
    in_fit : derivs_fit (s_store s);
    in_size z : sig_size (s_store s) z = n z
  }.
  Definition full s1 s2 : Prop := raw s1 s2 /\ inv s1.

  Lemma inv_evo s s' : evo g s s' -> length (s_sv s') = length (s_sv s) -> length (s_svo s') = length (s_svo s) ->
    length (s_dv s') = length (s_dv s) -> inv s -> inv s'.
  Proof.
    intros He E1 E2 E3 [Hp Hf Hs]. pose proof (ev_dyn _ _ _ He) as [Hsh _]. change (shape (g_dbg g) (s_store s) (s_store s')) in Hsh. split.
    - by apply (packed_evo g s s').
    - by eapply fit_shape.
    - intros z. rewrite <- Hs. by eapply sig_size_shape.
  Qed.
  Lemma inv_both {A} (m : M (simst D) A) : pres (both g) m -> keep inv m.
  Proof.
    intros Hm s a s' Hi Hr. specialize (Hm s). rewrite Hr in Hm. destruct Hm as [He (E1 & E2 & E3)]. apply (inv_evo s s'); [done|by rewrite E1|by rewrite E2|done|done].
  Qed.
  Lemma full_raw {A} (m1 m2 : M (simst D) A) : mrel raw m1 m2 -> pres (both g) m1 -> mrel full m1 m2.
  Proof.
    intros Hm Hb s1 s2 [Hr Hi]. specialize (Hm s1 s2 Hr). destruct (m1 s1) as [a s1'| | |] eqn:E; try done. destruct Hm as (s2' & E2 & Hr').
    exists s2'. split; [done|]. split; [done|]. by eapply (inv_both m1).
  Qed.
  Lemma zs_perm : zs2 ≡ₚ zs1.
  Proof. by rewrite Hsc, Har. Qed.
  Lemma pm_perm : pm ≡ₚ seq 0 (total n zs1).
  Proof. apply reorder_perm; [done|apply zs_perm]. Qed.
  Lemma inv_width s : s_scal s = sc1 -> s_arr s = ar1 -> inv s -> width (s_store s) (s_scal s ++ s_arr s) = total n zs1.
  Proof. intros -> -> Hi. unfold width, total. f_equal. apply map_ext. intros z. apply (in_size _ Hi). Qed.

  (** ** Parts that do not touch the state vector *)
  Lemma raw_dyn d1 d2 s1 s2 : raw s1 s2 -> dsame L pm d1 d2 -> raw (put_dyn d1 s1) (put_dyn d2 s2).
  Proof. intros Hr Hd. by destruct Hr; split. Qed.
  Lemma raw_on_dyn {A} (m1 m2 : M (dyn D) A) : mrel (dsame L pm) m1 m2 -> mrel raw (on_dyn m1) (on_dyn m2).
  Proof.
    intros Hm s1 s2 Hr. specialize (Hm _ _ (rw_dyn _ _ Hr)). unfold on_dyn, lift. destruct (m1 (s_dyn s1)) as [a d1| | |]; try done.
    destruct Hm as (d2 & -> & Hd). eexists. split; [done|]. by apply raw_dyn.
  Qed.
  Lemma core_rel {A} (m1 m2 : M (core D) A) : mrel (csame L pm) m1 m2 -> mrel (dsame L pm) (on_core m1) (on_core m2).
  Proof.
    intros Hm d1 d2 [Hc Hs]. specialize (Hm _ _ Hc). unfold on_core, lift. destruct (m1 (d_core d1)) as [a c1| | |]; try done.
    destruct Hm as (c2 & -> & Hc'). eexists. split; [done|]. by split.
  Qed.
  Lemma raw_core {A} (m1 m2 : M (core D) A) : mrel (csame L pm) m1 m2 -> mrel raw (on_core' m1) (on_core' m2).
  Proof. intros Hm. by apply raw_on_dyn, core_rel. Qed.
  Lemma store_rel {A} (m1 m2 : M (store D) A) c1 c2 a c1' : csame L pm c1 c2 ->
    (forall σ', m1 (k_store c1) = Ok a σ' -> m2 (k_store c1) = Ok a σ') -> on_store m1 c1 = Ok a c1' -> exists c2', on_store m2 c2 = Ok a c2' /\ csame L pm c1' c2'.
  Proof.
    intros (E1 & E2 & E3 & E4) Hm. unfold on_store, lift. rewrite E1. destruct (m1 (k_store c1)) as [b σ'| | |]; try done. intros [= -> <-].
    rewrite (Hm _ eq_refl). eexists. split; [done|]. by split_and!.
  Qed.
  Lemma raw_store {A} (m1 m2 : M (store D) A) s1 s2 a s1' : raw s1 s2 ->
    (forall σ', m1 (s_store s1) = Ok a σ' -> m2 (s_store s1) = Ok a σ') -> on_store' m1 s1 = Ok a s1' -> exists s2', on_store' m2 s2 = Ok a s2' /\ raw s1' s2'.
  Proof.
    intros Hr Hm. unfold on_store', on_core', on_dyn, on_core, on_store, lift. destruct (rw_dyn _ _ Hr) as [(E1 & E2 & E3 & E4) Hs]. rewrite E1.
    unfold s_store, s_core in Hm. destruct (m1 (k_store (d_core (s_dyn s1)))) as [b σ'| | |]; try done. intros [= -> <-]. rewrite (Hm _ eq_refl).
    eexists. split; [done|]. apply raw_dyn; [done|]. split; [|done]. by split_and!.
  Qed.

  Lemma blind_inputs t : mrel (csame L pm) (inputs g t) (inputs g t).
  Proof.
    unfold inputs. apply mrel_bnd; [by apply blind_emit|intros _]. apply mrel_bnd; [destruct (g_inputs g); [apply blind_store|apply mrel_ret]|intros _]. apply blind_store.
  Qed.
  Lemma blind_pre_snap t : mrel (csame L pm) (pre_step (g_dbg g) (g_tree g) t ;;; snap (EvBegin t)) (pre_step (g_dbg g) (g_tree g) t ;;; snap (EvBegin t)).
  Proof. apply mrel_bnd; [apply blind_pre|intros _]. by apply blind_snap. Qed.
  Lemma raw_eval t : mrel raw (eval_model g t) (eval_model g t).
  Proof.
    unfold eval_model. destruct (g_mode g).
    - apply mrel_bnd; [apply raw_on_dyn, mrel_modify, blind_mark|intros _]. apply raw_on_dyn, blind_process_all.
    - apply mrel_bnd; [apply raw_on_dyn, mrel_modify, blind_mark|intros _].
      apply mrel_bnd; [apply mrel_gets; intros s1 s2 Hr; by rewrite (rw_cur _ _ Hr)|]. intros [[]|]; [| |apply mrel_undef].
      + apply mrel_bnd; [apply mrel_gets; intros s1 s2 Hr; by rewrite (rw_po1 _ _ Hr)|intros po]. apply mrel_bnd; [apply raw_on_dyn, blind_reuse_all|intros po'].
        apply mrel_modify. intros s1 s2 Hr. destruct Hr. by split.
      + apply mrel_bnd; [apply mrel_gets; intros s1 s2 Hr; by rewrite (rw_po2 _ _ Hr)|intros po]. apply mrel_bnd; [apply raw_on_dyn, blind_reuse_all|intros po'].
        apply mrel_modify. intros s1 s2 Hr. destruct Hr. by split.
    - apply mrel_bnd; [apply mrel_gets; intros s1 s2 Hr; by rewrite (rw_fast _ _ Hr)|intros o]. apply raw_core, blind_fast_eval.
  Qed.
  Lemma raw_process t b1 b2 : mrel raw (process_model g t b1 b2) (process_model g t b1 b2).
  Proof.
    unfold process_model. apply mrel_bnd; [apply raw_core, blind_inputs|intros _].
    apply mrel_bnd; [destruct b1; [apply raw_core, blind_pre_snap|apply mrel_ret]|intros _]. apply mrel_bnd; [apply raw_eval|intros _].
    apply mrel_bnd; [apply raw_core; by apply blind_snap|intros _]. destruct b2; [|apply mrel_ret]. apply raw_core.
    apply mrel_bnd; [apply blind_post|intros _]. by apply blind_snap.
  Qed.
  Lemma full_process t b1 b2 : mrel full (process_model g t b1 b2) (process_model g t b1 b2).
  Proof. apply full_raw; [apply raw_process|]. apply pres_both; [apply pres_process_model|apply vecs_process_model]. Qed.
  Lemma full_core {A} (m1 m2 : M (core D) A) : mrel (csame L pm) m1 m2 -> pres (core_evo (g_dbg g)) m1 -> mrel full (on_core' m1) (on_core' m2).
  Proof. intros Hm Hp. apply full_raw; [by apply raw_core|]. apply pres_both; [by apply pres_on_core'|apply vecs_on_dyn]. Qed.

  Lemma full_clear : mrel full clear_all clear_all.
  Proof.
    intros s1 s2 [Hr Hi]. destruct (clear_all s1) as [[] s1'| | |] eqn:E; try done.
    assert (inv s1') as Hi'. { eapply (inv_both clear_all); [|done|exact E]. apply pres_both; [apply pres_clear_all|apply vecs_clear_all]. }
    unfold clear_all, bnd, gets in E |- *.
    destruct (raw_store (forM (s_vsigs s1) clear_sig) (forM (s_vsigs s2) clear_sig) s1 s2 tt s1' Hr) as (s2' & E2 & Hr'); [|exact E|].
    - intros σ' Ec. rewrite (clear_perm (s_vsigs s1)); [done|by apply rw_vsigs|]. intros z Hz. by apply (pk_dom _ _ (in_packed _ Hi)).
    - exists s2'. by split.
  Qed.
  Lemma full_begin t : mrel full (begin_step g t) (begin_step g t).
  Proof.
    unfold begin_step. apply mrel_bnd; [apply full_clear|intros _]. apply mrel_bnd; [apply full_core; [apply blind_inputs|apply pres_inputs]|intros _].
    apply full_core; [apply blind_pre_snap|apply pres_pre_snap].
  Qed.

  (** ** Loading *)
  Definition load (sc ar : list nat) (x : list D) : M (store D) unit := rest <~ set_scalars g sc x ;; rest' <~ set_arrays g ar rest ;; ret tt.
  Lemma load_put sc ar F σ : (forall z, z ∈ sc -> length (F z) = 1) -> (forall z, z ∈ ar -> sig_size σ z = length (F z)) ->
    load sc ar (flat_map F (sc ++ ar)) σ = (put_scalars g F sc ;;; put_arrays g F ar) σ.
  Proof.
    intros H1 H2. unfold load. unfold bnd at 1. rewrite flat_map_app, set_scalars_put by done. unfold bnd at 1 3.
    destruct (put_scalars g F sc σ) as [[] σ1| | |] eqn:E; try done. unfold ret at 1. unfold bnd.
    rewrite <- (app_nil_r (flat_map F ar)), set_arrays_put by (intros z Hz; by rewrite (put_scalars_size _ _ _ _ _ _ _ E), H2).
    unfold bnd. by destruct (put_arrays g F ar σ1) as [[] σ2| | |].
  Qed.
  Lemma load_perm x σ σ' : length x = total n zs1 -> (forall z, sig_size σ z = n z) -> load sc1 ar1 x σ = Ok tt σ' -> load sc2 ar2 (perm pm x) σ = Ok tt σ'.
  Proof.
    intros Hx Hs. set (F := fun z => perm (places n zs1 z) x). assert (perm pm x = flat_map F zs2) as -> by apply perm_flat_map.
    rewrite (blocks_of n zs1 x Hnd Hx). fold F.
    assert (forall z, length (F z) = n z) as HF by (intros z; apply places_len).
    rewrite !load_put.
    - unfold bnd. destruct (put_scalars g F sc1 σ) as [[] σ1| | |] eqn:E1; try done. intros E2. pose proof Hnd as (Hn1 & _ & Hn2)%NoDup_app.
      assert (put_scalars g F sc2 σ = Ok tt σ1) as ->. { eapply forM_perm; [|symmetry; exact Hsc|done|exact E1]. intros z1 z2 ? ? ?. apply set_comm. }
      eapply forM_perm; [|symmetry; exact Har|done|exact E2]. intros z1 z2 ? ? ?. apply set_comm.
    - intros z Hz. rewrite HF. apply Hone. by rewrite <- Hsc.
    - intros z Hz. by rewrite HF.
    - intros z Hz. rewrite HF. by apply Hone.
    - intros z Hz. by rewrite HF.
  Qed.
  Lemma full_reset x s1 s2 s1' : full s1 s2 -> length x = total n zs1 -> reset_sv g x s1 = Ok tt s1' -> exists s2', reset_sv g (perm pm x) s2 = Ok tt s2' /\ full s1' s2'.
  Proof.
    intros Hf Hx E. assert (inv s1') as Hi'. { eapply (inv_both (reset_sv g x)); [|apply Hf|exact E]. apply pres_both; [apply pres_reset_sv|apply vecs_reset_sv]. }
    revert E. unfold reset_sv. unfold bnd at 1. pose proof (full_clear s1 s2 Hf) as Hc. destruct (clear_all s1) as [[] s3| | |]; try done.
    destruct Hc as (s4 & E4 & Hr & Hi). rewrite (bnd_goes _ _ _ _ _ E4). unfold bnd at 1, gets at 1. unfold bnd at 1, gets at 1. intros E.
    destruct (raw_store (load sc1 ar1 x) (load sc2 ar2 (perm pm x)) s3 s4 tt s1' Hr) as (s2' & E2 & Hr').
    - intros σ'. apply load_perm; [done|]. intros z. apply (in_size _ Hi).
    - rewrite (rw_scal1 _ _ Hr), (rw_arr1 _ _ Hr) in E. exact E.
    - exists s2'. split; [|by split]. unfold bnd at 1, gets at 1. unfold bnd at 1, gets at 1. rewrite (rw_scal2 _ _ Hr), (rw_arr2 _ _ Hr). exact E2.
  Qed.

  (** ** Reading *)
  Definition gather (f1 f2 : nat -> M (store D) (list D)) (sc ar : list nat) : M (store D) (list D) := x1 <~ collect f1 sc ;; x2 <~ collect f2 ar ;; ret (x1 ++ x2).
  Lemma gather_perm f1 f2 σ x σ' : reads f1 -> reads f2 -> (forall z y, z ∈ sc1 -> f1 z σ = Ok y σ -> length y = n z) -> (forall z y, z ∈ ar1 -> f2 z σ = Ok y σ -> length y = n z) ->
    gather f1 f2 sc1 ar1 σ = Ok x σ' -> length x = total n zs1 /\ σ' = σ /\ gather f1 f2 sc2 ar2 σ = Ok (perm pm x) σ.
  Proof.
    intros R1 R2 L1 L2. unfold gather, bnd. destruct (collect f1 sc1 σ) as [x1 σ1| | |] eqn:E1; try done. destruct (collect_reading _ _ _ _ _ R1 E1) as (-> & -> & A1).
    destruct (collect f2 ar1 σ) as [x2 σ2| | |] eqn:E2; try done. destruct (collect_reading _ _ _ _ _ R2 E2) as (-> & -> & A2). intros [= <- <-].
    set (F := fun z => if decide (z ∈ sc1) then reading f1 σ z else reading f2 σ z).
    assert (forall zs, (forall z, z ∈ zs -> z ∈ sc1) -> flat_map (reading f1 σ) zs = flat_map F zs) as F1.
    { intros zs Hz. apply flat_map_ext_in. intros z Hi. unfold F. by rewrite decide_True by auto. }
    assert (forall zs, (forall z, z ∈ zs -> z ∈ ar1) -> flat_map (reading f2 σ) zs = flat_map F zs) as F2.
    { intros zs Hz. apply flat_map_ext_in. intros z Hi. unfold F. rewrite decide_False; [done|]. pose proof Hnd as (_ & Hd & _)%NoDup_app. intros Hs. by apply (Hd z), Hz. }
    assert (forall z, z ∈ zs1 -> length (F z) = n z) as HF.
    { intros z [Hz|Hz]%elem_of_app; unfold F; [rewrite decide_True by done; by apply L1, A1|].
      rewrite decide_False; [by apply L2, A2|]. pose proof Hnd as (_ & Hd & _)%NoDup_app. intros Hs. by apply (Hd z). }
    rewrite (F1 sc1), (F2 ar1), <- flat_map_app by done. split; [by apply flat_map_len|]. split; [done|].
    unfold pm. rewrite perm_reorder by (done || (intros z Hz; by rewrite <- zs_perm)).
    rewrite collect_again by (intros z Hz; apply A1; by rewrite <- Hsc). rewrite collect_again by (intros z Hz; apply A2; by rewrite <- Har).
    rewrite (F1 sc2), (F2 ar2), <- flat_map_app; [done|intros z Hz; by rewrite <- Har|intros z Hz; by rewrite <- Hsc].
  Qed.
  Lemma reads_scalar : reads (get_scalar g).
  Proof. intros z y σ σ' E. by apply get_scalar_inv in E as [? _]. Qed.
  Lemma reads_array : reads (get_array g).
  Proof. intros z y σ σ' E. by apply get_array_inv in E as [? _]. Qed.
  Lemma reads_deriv (f : nat -> M (store D) (list D)) : reads f -> reads (deriv_of f).
  Proof. intros Hf z y σ σ'. by apply deriv_same. Qed.
  Lemma write_perm (x o y : list D) : length x = total n zs1 -> length o = total n zs1 -> write_prefix x o = Some y -> y = x /\ forall o', length o' = total n zs1 -> write_prefix (perm pm x) o' = Some (perm pm x).
  Proof.
    intros Hx Ho. rewrite P_Pack.write_all by congruence. intros [= <-]. split; [done|]. intros o' Ho'. apply P_Pack.write_all.
    by rewrite perm_len, pm_perm, seq_length.
  Qed.
  Lemma pm_len (x : list D) : length (perm pm x) = total n zs1.
  Proof. by rewrite perm_len, pm_perm, seq_length. Qed.
  Lemma full_sv s1 s2 : full s1 s2 -> length (s_sv s1) = total n zs1 /\ length (s_svo s1) = total n zs1 /\ length (s_dv s1) = total n zs1.
  Proof.
    intros [Hr [Hp Hf Hs]]. rewrite (pk_sv _ _ Hp), (pk_svo _ _ Hp), (pk_dv _ _ Hp). rewrite inv_width; [done|apply (rw_scal1 _ _ Hr)|apply (rw_arr1 _ _ Hr)|by split].
  Qed.
  Lemma put_same s : put_dyn (Dyn (Core (s_store s) (k_lst (s_core s)) (k_done (s_core s)) (k_log (s_core s))) (d_sdone (s_dyn s))) s = s.
  Proof. destruct s as [[[] ?]]. done. Qed.
  Lemma on_store_inv {A} (m : M (store D) A) s a s' : on_store' m s = Ok a s' -> exists σ', m (s_store s) = Ok a σ'.
  Proof.
    unfold on_store', on_core', on_dyn, on_core, on_store, lift. unfold s_store, s_core. destruct (m (k_store (d_core (s_dyn s)))) as [b σ'| | |]; try done.
    intros [= -> _]. by exists σ'.
  Qed.
  Lemma gather_full f1 f2 s1 s2 x s1' : full s1 s2 -> reads f1 -> reads f2 ->
    (forall z y, z ∈ sc1 -> f1 z (s_store s1) = Ok y (s_store s1) -> length y = n z) -> (forall z y, z ∈ ar1 -> f2 z (s_store s1) = Ok y (s_store s1) -> length y = n z) ->
    on_store' (gather f1 f2 (s_scal s1) (s_arr s1)) s1 = Ok x s1' ->
    s1' = s1 /\ length x = total n zs1 /\ on_store' (gather f1 f2 (s_scal s2) (s_arr s2)) s2 = Ok (perm pm x) s2.
  Proof.
    intros [Hr Hi] R1 R2 L1 L2. rewrite (rw_scal1 _ _ Hr), (rw_arr1 _ _ Hr), (rw_scal2 _ _ Hr), (rw_arr2 _ _ Hr). intros E.
    destruct (on_store_inv _ _ _ _ E) as (σ' & Em). destruct (gather_perm _ _ _ _ _ R1 R2 L1 L2 Em) as (Hl & -> & E2).
    rewrite (on_store_ok _ _ _ _ Em), put_same in E. injection E as <-. split; [done|]. split; [done|].
    assert (s_store s2 = s_store s1) as Es. { destruct (rw_dyn _ _ Hr) as [(E1 & _) _]. exact E1. }
    rewrite <- Es in E2. by rewrite (on_store_ok _ _ _ _ E2), put_same.
  Qed.
  Lemma full_get o s1 s2 x s1' : full s1 s2 -> length o = total n zs1 -> get_sv g o s1 = Ok x s1' ->
    s1' = s1 /\ length x = total n zs1 /\ forall o', length o' = total n zs1 -> get_sv g o' s2 = Ok (perm pm x) s2.
  Proof.
    intros Hf Ho. pose proof (full_sv _ _ Hf) as (Lv & _). unfold get_sv. unfold bnd at 1, gets at 1. unfold bnd at 1.
    assert (debug_verify (g_dbg g) (Nat.eqb (length o) (length (s_sv s1))) EAssert s1 = Ok tt s1) as ->.
    { rewrite Ho, Lv, Nat.eqb_refl. by destruct (g_dbg g). }
    unfold bnd at 1, gets at 1. unfold bnd at 1, gets at 1. unfold bnd at 1.
    destruct (on_store' _ s1) as [y s3| | |] eqn:E; try done.
    destruct (gather_full (get_scalar g) (get_array g) s1 s2 y s3 Hf reads_scalar reads_array) as (-> & Hl & E2); [| |exact E|].
    { intros z y' Hz Ez. apply get_scalar_inv in Ez as (_ & d & -> & _). by rewrite Hone. }
    { intros z y' Hz Ez. apply get_array_inv in Ez as (_ & -> & _). destruct Hf as [_ Hi]. apply (in_size _ Hi). }
    destruct (write_prefix y o) as [y'|] eqn:Ew; [|done]. intros [= <- <-]. destruct (write_perm _ _ _ Hl Ho Ew) as [-> Hw].
    split; [done|]. split; [done|]. intros o' Ho'. unfold bnd at 1, gets at 1. unfold bnd at 1.
    assert (length (s_sv s2) = total n zs1) as Lv2. { destruct Hf as [Hr _]. by rewrite (rw_sv _ _ Hr), pm_len. }
    assert (debug_verify (g_dbg g) (Nat.eqb (length o') (length (s_sv s2))) EAssert s2 = Ok tt s2) as ->.
    { rewrite Ho', Lv2, Nat.eqb_refl. by destruct (g_dbg g). }
    unfold bnd at 1, gets at 1. unfold bnd at 1, gets at 1. unfold bnd at 1. unfold gather in E2. rewrite E2, Hw by done. done.
  Qed.
  Lemma full_minor t x s1 s2 dx s1' : length x = total n zs1 -> full s1 s2 -> minor_cb g t x s1 = Ok dx s1' ->
    exists s2', minor_cb g t (perm pm x) s2 = Ok (perm pm dx) s2' /\ full s1' s2'.
  Proof.
    intros Hx Hf. unfold minor_cb. unfold bnd at 1. destruct (reset_sv g x s1) as [[] s3| | |] eqn:E3; try done.
    destruct (full_reset _ _ _ _ Hf Hx E3) as (s4 & E4 & Hf4). rewrite (bnd_goes _ _ _ _ _ E4). clear Hf E3 E4 s1 s2.
    unfold bnd at 1. pose proof (full_process t false false s3 s4 Hf4) as Hp. destruct (process_model g t false false s3) as [[] s5| | |]; try done.
    destruct Hp as (s6 & E6 & Hf6). rewrite (bnd_goes _ _ _ _ _ E6). clear Hf4 E6 s3 s4.
    unfold bnd at 1, gets at 1. unfold bnd at 1, gets at 1. unfold bnd at 1. destruct (on_store' _ s5) as [y s7| | |] eqn:E; try done.
    destruct Hf6 as [Hr Hi] eqn:Eq. clear Eq. assert (full s5 s6) as Hf by (by split).
    assert (forall z c d, s_store s5 !! z = Some c -> c_deriv c = Some d -> sig_size (s_store s5) d = n z) as Hd.
    { intros z c d Hc Hcd. rewrite (in_fit _ Hi z c d Hc Hcd). apply (in_size _ Hi). }
    destruct (gather_full (deriv_of (get_scalar g)) (deriv_of (get_array g)) s5 s6 y s7 Hf (reads_deriv _ reads_scalar) (reads_deriv _ reads_array)) as (-> & Hl & E2); [| |exact E|].
    { intros z y' Hz Ez. unfold deriv_of, bnd, gets in Ez. destruct (_ !! z) as [c|]; [|done]. destruct (c_deriv c) as [d|]; [|done].
      apply get_scalar_inv in Ez as (_ & d' & -> & _). by rewrite Hone. }
    { intros z y' Hz Ez. unfold deriv_of, bnd, gets in Ez. destruct (_ !! z) as [c|] eqn:Ec; [|done]. destruct (c_deriv c) as [d|] eqn:Ed; [|done].
      apply get_array_inv in Ez as (_ & -> & _). by eapply Hd. }
    pose proof (full_sv _ _ Hf) as (_ & _ & Lv). unfold bnd at 1, gets at 1. destruct (write_prefix y (s_dv s5)) as [y'|] eqn:Ew; [|done].
    destruct (write_perm _ _ _ Hl Lv Ew) as [-> Hw]. unfold bnd at 1, modify at 1. intros [= <- <-].
    unfold bnd at 1, gets at 1. unfold bnd at 1, gets at 1. unfold bnd at 1. unfold gather in E2. rewrite E2. unfold bnd at 1, gets at 1.
    rewrite Hw by (by rewrite (rw_dv _ _ Hr)). unfold bnd, modify, ret. eexists. split; [done|]. split.
    - destruct Hr. split; try done. cbn. by rewrite pm_len.
    - apply (inv_evo s5); try done. cbn. by rewrite Hl, Lv.
  Qed.

  (** ** The loop of run and run *)
  Lemma full_put_sv x s1 s2 : length x = total n zs1 -> full s1 s2 -> full (put_sv x s1) (put_sv (perm pm x) s2).
  Proof.
    intros Hx Hf. pose proof (full_sv _ _ Hf) as (Lv & _). destruct Hf as [Hr Hi]. split; [destruct Hr; by split|].
    apply (inv_evo s1); try done. cbn. by rewrite Hx, Lv.
  Qed.
  Lemma full_put_svo x s1 s2 : length x = total n zs1 -> full s1 s2 -> full (put_svo x s1) (put_svo (perm pm x) s2).
  Proof.
    intros Hx Hf. pose proof (full_sv _ _ Hf) as (_ & Lv & _). destruct Hf as [Hr Hi]. split; [destruct Hr; by split|].
    apply (inv_evo s1); try done. cbn. by rewrite Hx, Lv.
  Qed.
  Lemma full_load : mrel full (sv <~ gets s_sv ;; reset_sv g sv) (sv <~ gets s_sv ;; reset_sv g sv).
  Proof.
    apply mrel_from. intros s1 s2 [] s1' Hf. unfold bnd, gets. intros E. pose proof (full_sv _ _ Hf) as (Lv & _).
    destruct (full_reset _ _ _ _ Hf Lv E) as (s2' & E2 & Hf2). exists s2'. split; [|done]. destruct Hf as [Hr _]. by rewrite (rw_sv _ _ Hr).
  Qed.
  Lemma full_emit e1 e2 : same_event pm e1 e2 -> mrel full (on_core' (emit e1)) (on_core' (emit e2)).
  Proof.
    intros He. apply full_core; [|apply pres_emit]. apply mrel_modify. intros c1 c2 (E1 & E2 & E3 & E4). split_and!; try done. cbn. by apply logs_snoc.
  Qed.
  Context (Hstp : forall stp, g_stepper g = Some stp -> stepper_perm stp).
  Lemma full_loop fuel t lo hi t1 t2 force : mrel full (run_loop g fuel t lo hi t1 t2 force) (run_loop g fuel t lo hi t1 t2 force).
  Proof.
    revert t1 t2 force. induction fuel as [|fuel IH]; intros t1 t2 force; cbn [run_loop]; (apply mrel_if; [|apply mrel_ret]); [apply mrel_oof|].
    apply mrel_bnd; [apply full_begin|intros _]. apply mrel_from. intros s1 s2 a s1' Hf.
    unfold bnd at 1, gets at 1. unfold bnd at 1. destruct (get_sv g (s_svo s1) s1) as [x s3| | |] eqn:Eg; try done.
    pose proof (full_sv _ _ Hf) as (_ & Lo & _). destruct (full_get _ _ _ _ _ Hf Lo Eg) as (-> & Hx & Hget). clear Eg.
    unfold bnd at 1, modify at 1. intros E.
    assert (length (s_svo s2) = total n zs1) as Lo2. { destruct Hf as [Hr _]. by rewrite (rw_svo _ _ Hr), pm_len. }
    rewrite (bnd_goes _ _ s2 (s_svo s2) s2) by done. rewrite (bnd_goes _ _ _ _ _ (Hget _ Lo2)).
    rewrite (bnd_goes _ _ s2 tt (put_svo (perm pm x) s2)) by done. clear Hget Lo Lo2. pose proof (full_put_svo x _ _ Hx Hf) as Hf1. revert Hf1 E.
    generalize (put_svo x s1) (put_svo (perm pm x) s2). clear dependent s1 s2. intros s1 s2 Hf.
    destruct (g_stepper g) as [stp|] eqn:Es; [|done]. unfold bnd at 1.
    destruct (stp _ (minor_cb g) t1 x t2 s1) as [[y h] s3| | |] eqn:Er; try done.
    destruct (Hstp stp eq_refl _ _ full (total n zs1) pm (minor_cb g) (minor_cb g) pm_perm) with (4 := Er) (x2 := s2) as (Hy & s4 & E4 & Hf4); [|done|done|].
    { intros τ v x1 x2 k y1 Hv Hrl Ek _. by eapply full_minor. }
    rewrite (bnd_goes _ _ _ _ _ E4). cbn [fst snd]. unfold bnd at 1, modify at 1. rewrite (bnd_goes _ _ s4 tt (put_sv (perm pm y) s4)) by done.
    pose proof (full_put_sv y _ _ Hy Hf4) as Hf5. revert Hf5. generalize (put_sv y s3) (put_sv (perm pm y) s4). clear -IH Hx Hsc Har Hnd Hone.
    intros s3 s4 Hf. cbv zeta.
    match goal with |- ?m1 s3 = _ -> exists s2', ?m2 s4 = _ /\ _ => enough (mrel full m1 m2) as Hm by (intros E; specialize (Hm _ _ Hf); by rewrite E in Hm) end.
    apply mrel_bnd; [apply full_emit; by split_and!|intros _]. apply mrel_if; [|apply IH].
    apply mrel_bnd; [|intros _; apply IH]. apply mrel_if; [|apply mrel_ret].
    apply mrel_assoc, mrel_bnd; [apply full_load|intros _]. apply full_process.
  Qed.
  Lemma full_run fuel t lo hi s1 s2 s1' : full s1 s2 -> s_init s1 = true -> run g fuel t lo hi s1 = Ok tt s1' -> exists s2', run g fuel t lo hi s2 = Ok tt s2' /\ full s1' s2'.
  Proof.
    intros Hf Hi. assert (s_init s2 = true) as Hi2. { destruct Hf as [Hr _]. by rewrite (rw_init _ _ Hr). }
    unfold run. rewrite (bnd_goes _ _ s1 true s1) by (unfold gets; by rewrite Hi). rewrite (bnd_goes _ _ s2 true s2) by (unfold gets; by rewrite Hi2). cbn [negb].
    match goal with |- ?m1 s1 = _ -> exists s2', ?m2 s2 = _ /\ _ => enough (mrel full m1 m2) as Hm by (intros E; specialize (Hm _ _ Hf); by rewrite E in Hm) end.
    clear s1 s2 s1' Hf Hi Hi2.
    apply mrel_bnd. { apply mrel_gets. intros s1 s2 Hf. pose proof (full_sv _ _ Hf) as (Lv & _). destruct Hf as [Hr _]. by rewrite (rw_sv _ _ Hr), pm_len. }
    intros k. apply mrel_bnd. { apply mrel_gets. intros s1 s2 [Hr _]. by rewrite (rw_tprev _ _ Hr). } intros tp.
    apply mrel_bnd.
    - destruct k; [apply mrel_ret|]. apply mrel_if; [apply mrel_throw|]. apply mrel_if.
      + apply mrel_bnd; [apply full_begin|intros _]. apply mrel_from. intros s1 s2 [] s1' Hf.
        unfold bnd at 1, gets at 1. unfold bnd at 1. destruct (get_sv g (s_sv s1) s1) as [x s3| | |] eqn:Eg; try done.
        pose proof (full_sv _ _ Hf) as (Lo & _). destruct (full_get _ _ _ _ _ Hf Lo Eg) as (-> & Hx & Hget). intros [= <-].
        assert (length (s_sv s2) = total n zs1) as Lo2. { destruct Hf as [Hr _]. by rewrite (rw_sv _ _ Hr), pm_len. }
        rewrite (bnd_goes _ _ s2 (s_sv s2) s2) by done. rewrite (bnd_goes _ _ _ _ _ (Hget _ Lo2)). eexists. split; [done|]. by apply full_put_sv.
      + apply mrel_bnd; [apply mrel_debug|intros _]. apply mrel_bnd; [apply mrel_debug|intros _]. apply mrel_bnd; [apply mrel_debug|intros _]. apply full_loop.
    - intros _. apply mrel_assoc, mrel_bnd; [apply full_load|intros _]. apply mrel_bnd; [apply full_process|intros _].
      apply mrel_modify. intros s1 s2 [Hr Hi]. split; [destruct Hr; by split|]. destruct Hi as [Hp ? ?]. split; [by destruct Hp; split|done|done].
  Qed.

  (** ** init after SimulatorBase::init *)
  Definition after (t0 : D) : M (simst D) unit :=
    match g_mode g with
    | MFast =>
        o0 <~ gets s_fast ;;
        debug_verify (g_dbg g) (match o0 with [] => true | _ => false end) EAssert ;;;
        on_core' (inputs g t0) ;;;
        on_core' (pre_step (g_dbg g) (g_tree g) t0 ;;; snap (EvBegin t0)) ;;;
        r <~ on_core' (fast_schedule (g_dbg g) (leaves (g_tree g)) t0) ;;
        modify (fun s => put_fast (s_fast s ++ fst r) s) ;;;
        verify (Nat.eqb (snd r) (length (leaves (g_tree g)))) EFast ;;;
        on_core' (snap (EvEval t0)) ;;;
        clear_all ;;;
        process_model g t0 true true
    | _ =>
        n <~ gets (fun s => length (s_sv s)) ;;
        (match g_mode g, n with
         | MReuse, S _ =>
             p1 <~ gets s_po1 ;; p2 <~ gets s_po2 ;;
             debug_verify (g_dbg g) (match p1 with [] => true | _ => false end) EAssert ;;;
             debug_verify (g_dbg g) (match p2 with [] => true | _ => false end) EAssert ;;;
             modify (fun s => put_po (s_po1 s ++ nodes (g_tree g)) (s_po2 s) (Some true) s)
         | _, _ => ret tt
         end) ;;;
        process_model g t0 true true
    end.
  Lemma full_after t : mrel full (after t) (after t).
  Proof.
    assert (forall m : M (simst D) unit, m = (n <~ gets (fun s => length (s_sv s)) ;;
        (match g_mode g, n with
         | MReuse, S _ =>
             p1 <~ gets s_po1 ;; p2 <~ gets s_po2 ;;
             debug_verify (g_dbg g) (match p1 with [] => true | _ => false end) EAssert ;;;
             debug_verify (g_dbg g) (match p2 with [] => true | _ => false end) EAssert ;;;
             modify (fun s => put_po (s_po1 s ++ nodes (g_tree g)) (s_po2 s) (Some true) s)
         | _, _ => ret tt
         end) ;;;
        process_model g t true true) -> mrel full m m) as Hm.
    { intros m ->. apply mrel_bnd. { apply mrel_gets. intros s1 s2 Hf. pose proof (full_sv _ _ Hf) as (Lv & _). destruct Hf as [Hr _]. by rewrite (rw_sv _ _ Hr), pm_len. }
      intros k. apply mrel_bnd; [|intros _; apply full_process]. destruct (g_mode g), k; try apply mrel_ret.
      apply mrel_bnd; [apply mrel_gets; intros s1 s2 [Hr _]; by rewrite (rw_po1 _ _ Hr)|intros p1]. apply mrel_bnd; [apply mrel_gets; intros s1 s2 [Hr _]; by rewrite (rw_po2 _ _ Hr)|intros p2].
      apply mrel_bnd; [apply mrel_debug|intros _]. apply mrel_bnd; [apply mrel_debug|intros _]. apply mrel_modify. intros s1 s2 [Hr Hi].
      split; [destruct Hr; split; try done; cbn; congruence|]. destruct Hi as [Hp ? ?]. split; [by destruct Hp; split|done|done]. }
    unfold after. destruct (g_mode g) eqn:Em; [exact (Hm _ eq_refl)..|]. clear Hm.
    apply mrel_bnd; [apply mrel_gets; intros s1 s2 [Hr _]; by rewrite (rw_fast _ _ Hr)|intros o]. apply mrel_bnd; [apply mrel_debug|intros _].
    apply mrel_bnd; [apply full_core; [apply blind_inputs|apply pres_inputs]|intros _]. apply mrel_bnd; [apply full_core; [apply blind_pre_snap|apply pres_pre_snap]|intros _].
    apply mrel_bnd; [apply full_core; [apply blind_fast_schedule|apply pres_fast_loop]|intros r].
    apply mrel_bnd. { apply mrel_modify. intros s1 s2 [Hr Hi]. split; [destruct Hr; split; try done; cbn; congruence|]. destruct Hi as [Hp ? ?]. split; [by destruct Hp; split|done|done]. }
    intros _. apply mrel_bnd; [apply mrel_verify|intros _]. apply mrel_bnd; [apply full_core; [by apply blind_snap|apply pres_snap]|intros _].
    apply mrel_bnd; [apply full_clear|intros _]. apply full_process.
  Qed.
End sim.

Section start.
  Context {D : Type} `{NumOps D} (g : cfg D) (it : list nat -> list nat).
  Context (Hi1 : forall l, g_iter g l ≡ₚ l) (Hi2 : forall l, it l ≡ₚ l).
  Lemma init_after t s : init g t s = (base_init g t ;;; after g t) s.
  Proof. unfold init, after, simulator_init, fast_init. by destruct (g_mode g). Qed.
  Lemma resize_nil k : resize g k [] = replicate k (g_junk g).
  Proof. unfold resize. by destruct k. Qed.
  Lemma perm_same p k (x : D) : p ≡ₚ seq 0 k -> perm p (replicate k x) = replicate k x.
  Proof.
    assert (forall j i, i < j -> nth i (replicate j x) n0 = x) as Hn. { induction j as [|j IH]; intros i Hi; [lia|]. destruct i; [done|]. cbn. apply IH. lia. }
    intros Hp. symmetry. apply replicate_as_elem_of. split; [by rewrite perm_len, Hp, seq_length|]. unfold perm. intros y Hy. apply elem_of_list_In, in_map_iff in Hy as (i & <- & Hi).
    apply elem_of_list_In in Hi. rewrite Hp in Hi. apply elem_of_seq in Hi. apply Hn. lia.
  Qed.

  Notation all := (linked_signals (g_tree g)).
  Definition scals (σ : store D) : list nat := List.filter (is_scalar_state σ) all.
  Definition arrs (σ : store D) : list nat := List.filter (is_array_state σ) all.
  Lemma states_nodup σ : NoDup (g_iter g (scals σ) ++ g_iter g (arrs σ)).
  Proof. rewrite (Hi1 (scals σ)), (Hi1 (arrs σ)). apply filter_states. apply NoDup_remove_dups. Qed.
  Lemma scals_one σ z : z ∈ g_iter g (scals σ) -> sig_size σ z = 1.
  Proof.
    rewrite (Hi1 (scals σ)). intros Hz%elem_of_list_In. apply filter_In in Hz as [_ Hz]. unfold is_scalar_state, sig_size in *. destruct (σ !! z) as [c|]; [|done].
    by destruct (c_kind c).
  Qed.
  Lemma scals_perm σ : it (scals σ) ≡ₚ g_iter g (scals σ).
  Proof. by rewrite Hi1, Hi2. Qed.
  Lemma arrs_perm σ : it (arrs σ) ≡ₚ g_iter g (arrs σ).
  Proof. by rewrite Hi1, Hi2. Qed.
  Lemma states_total σ : length (scals σ) + sum_list (map (sig_size σ) (arrs σ)) = total (sig_size σ) (g_iter g (scals σ) ++ g_iter g (arrs σ)).
  Proof.
    rewrite total_app. f_equal; [|by rewrite (total_perm _ _ _ (Hi1 (arrs σ)))]. rewrite (total_perm _ _ _ (Hi1 (scals σ))).
    assert (forall z, z ∈ scals σ -> sig_size σ z = 1) as H1 by (intros z Hz; apply scals_one; by rewrite Hi1).
    unfold total. induction (scals σ) as [|z l IH]; [done|]. cbn. rewrite H1 by apply elem_of_list_here. rewrite <- IH; [done|]. intros z' Hz'. apply H1. by apply elem_of_list_further.
  Qed.
  Definition fully (σ : store D) (L : list (event D)) : simst D -> simst D -> Prop :=
    full g L (g_iter g (scals σ)) (g_iter g (arrs σ)) (it (scals σ)) (it (arrs σ)) (sig_size σ).
  Lemma base_full t d0 s1 : (g_dbg g = true -> store_ok (k_store (d_core d0))) -> derivs_fit (k_store (d_core d0)) -> base_init g t (new_sim d0) = Ok tt s1 ->
    exists s2, base_init (with_iter it g) t (new_sim d0) = Ok tt s2 /\ fully (k_store (d_core d0)) (k_log (d_core d0)) s1 s2.
  Proof.
    intros Hok Hfit E. set (σ := k_store (d_core d0)). set (L := k_log (d_core d0)).
    assert (inv g (sig_size σ) s1) as Hinv.
    { pose proof (pres_base_init g t (new_sim d0)) as Hev. rewrite E in Hev. destruct Hev as [Hsh _]. change (shape (g_dbg g) σ (s_store s1)) in Hsh. split.
      - by eapply packed_base.
      - by eapply fit_shape.
      - intros z. by eapply sig_size_shape. }
    revert E. unfold base_init. unfold bnd at 1, modify at 1. cbv zeta.
    change (s_store (new_sim d0)) with σ. fold (scals σ) (arrs σ). set (k := length (scals σ) + sum_list (map (sig_size σ) (arrs σ))).
    cbn [s_dyn s_po1 s_po2 s_cur s_fast s_vsigs s_scal s_arr s_sv s_svo s_dv s_init new_sim app]. rewrite resize_nil.
    set (a1 := Simst _ _ _ _ _ _ _ _ _ _ _ _ _). unfold bnd at 1. destruct (clear_all a1) as [[] b1| | |] eqn:Ec; try done.
    unfold modify at 1. intros [= E1].
    set (a2 := Simst d0 [] [] None [] t (it all) (it (scals σ)) (it (arrs σ)) (replicate k (g_junk g)) (replicate k (g_junk g)) (replicate k (g_junk g)) false).
    assert (raw L (g_iter g (scals σ)) (g_iter g (arrs σ)) (it (scals σ)) (it (arrs σ)) (sig_size σ) a1 a2) as Hr.
    { assert (pm (g_iter g (scals σ)) (g_iter g (arrs σ)) (it (scals σ)) (it (arrs σ)) (sig_size σ) ≡ₚ seq 0 k) as Hpm.
      { unfold k. rewrite states_total. apply pm_perm; [apply scals_perm|apply arrs_perm|apply states_nodup]. }
      split; try done; cbn.
      - split; [|done]. split_and!; try done. exists [], []. by rewrite !app_nil_r.
      - by rewrite Hi1, Hi2.
      - symmetry. by apply perm_same.
      - symmetry. by apply perm_same. }
    assert (exists b2, clear_all a2 = Ok tt b2 /\ raw L (g_iter g (scals σ)) (g_iter g (arrs σ)) (it (scals σ)) (it (arrs σ)) (sig_size σ) b1 b2) as (b2 & Ec2 & Hrb).
    { unfold clear_all, bnd, gets in Ec |- *. eapply raw_store; [exact Hr| |exact Ec]. intros σ' Em. rewrite (clear_perm (s_vsigs a1)); [exact Em| |].
      - apply (rw_vsigs _ _ _ _ _ _ _ _ Hr).
      - by eapply cleared_dom. }
    exists (Simst (s_dyn b2) (s_po1 b2) (s_po2 b2) (s_cur b2) (s_fast b2) (s_tprev b2) (s_vsigs b2) (s_scal b2) (s_arr b2) (s_sv b2) (s_svo b2) (s_dv b2) true).
    split.
    - rewrite (bnd_goes _ _ (new_sim d0) tt a2).
      + rewrite (bnd_goes _ _ _ _ _ Ec2). done.
      + unfold modify. cbv zeta. change (s_store (new_sim d0)) with σ. cbn [with_iter g_tree g_iter g_junk]. fold (scals σ) (arrs σ). fold k.
        cbn [s_dyn s_po1 s_po2 s_cur s_fast s_vsigs s_scal s_arr s_sv s_svo s_dv s_init new_sim app].
        change (resize (with_iter it g) k []) with (resize g k []). by rewrite resize_nil.
    - split; [|done]. rewrite <- E1. destruct Hrb. by split.
  Qed.
  Lemma run_iter fuel t lo hi s : s_init s = true -> run (with_iter it g) fuel t lo hi s = run g fuel t lo hi s.
  Proof. intros Hi. unfold run. rewrite !(bnd_goes _ _ s true s) by (unfold gets; by rewrite Hi). done. Qed.
  Lemma after_iter t s : after (with_iter it g) t s = after g t s.
  Proof. done. Qed.
End start.
