(** The callback of the steppers computes the derivatives the block equations define. *)
From stdpp Require Import prelude gmap.
From Coq Require Import ZArith.
From Verif Require Import Num Res Store Leaf Sched Stepper Sim SpecSched P_Store P_Prog P_Modes P_Conf P_Sched P_Eval P_Lib P_Fast P_Sim P_Evolve
  P_Simulated P_Rel P_Rel2 SpecHist P_Trace SpecRun P_Log P_Pack P_Repeat SpecBlock SpecAgain P_Over P_Redo SpecField.
Local Open Scope num_scope.

Section law.
  Context {D : Type} `{NumOps D}.
  Implicit Types (σ : store D) (l : leaf D).
  Lemma shows_law l t m m' σ : shows σ (act l t m) m' -> law l t m σ.
  Proof. intros Hs. split; [|by exists m']. destruct Hs as (ws & Hc & Hw). by eapply ceval_equation. Qed.
  Lemma law_same l t m m' σ : same_member m m' -> law l t m σ -> law l t m' σ.
  Proof.
    intros Hm [He (m1 & Hs)]. split.
    - revert He. destruct Hm as [->|(t0 & x0 & t0' & x0' & y & -> & ->)]; [done|]. unfold equation. destruct (l_cls l); try done.
      intros (so & v & _ & E & _). done.
    - pose proof (act_same l t m m' Hm) as Hp. destruct Hs as (ws & Hc & Hw).
      assert (forall (p p' : prog D (lstate D)), prel same_member p p' -> forall a ws, ceval (value σ) p = Some (a, ws) -> exists a', ceval (value σ) p' = Some (a', ws)) as Hgen.
      { clear. intros p p' Hpp. induction Hpp as [a a' Ha|s k k' Hk IH|s v p p' Hp IH|c e p p' Hp IH|e|u]; intros b ws Hc; cbn in Hc |- *; try done.
        - injection Hc as <- <-. by eexists.
        - destruct (value σ s) as [v|]; [|done]. by eapply IH.
        - destruct (ceval (value σ) p) as [[a1 w1]|] eqn:E; [|done]. injection Hc as <- <-.
          destruct (IH _ _ eq_refl) as (a' & ->). by eexists.
        - destruct c; [|done]. by eapply IH. }
      destruct (Hgen _ _ Hp _ _ Hc) as (a' & Hc'). exists a', ws. done.
  Qed.
End law.

(** The derivative signal of a state has the size of the state. *)
Definition derivs_fit {D} (σ : store D) : Prop := forall z c d, σ !! z = Some c -> c_deriv c = Some d -> sig_size σ d = sig_size σ z.

Section minor.
  Context {D : Type} `{NumOps D} (g : cfg D) (Hw : wf_tree (g_tree g)) (Hg : g_dbg g = true).
  Implicit Types (s : simst D) (σ : store D).
  Lemma fit_shape dbg σ σ' : shape dbg σ σ' -> derivs_fit σ -> derivs_fit σ'.
  Proof.
    intros Hs Hf z c d Hc Hd. destruct (shape_inv _ _ _ z c Hs Hc) as (c0 & Hc0 & Hk & Hd0).
    rewrite !(sig_size_shape _ _ _ _ Hs). apply (Hf z c0); [done|]. by rewrite <- Hd0.
  Qed.
  Lemma get_value_inv z v σ σ' : get_value true z σ = Ok v σ' -> value σ z = Some v.
  Proof.
    unfold get_value, value. destruct (σ !! z) as [c|]; [|done]. cbn. destruct (negb _); [done|].
    destruct (c_asg c); [|done]. cbn. destruct (c_val c); [|done]. by intros [= -> _].
  Qed.
  Lemma ext_pack σ τ zs : ext σ τ -> (forall z, z ∈ zs -> exists v, value σ z = Some v) -> pack τ zs = pack σ zs.
  Proof.
    intros He. induction zs as [|z zs IH]; intros Hz; [done|]. rewrite !pack_cons. destruct (Hz z) as [v Ev]; [apply elem_of_list_here|].
    rewrite Ev, (ext_value _ _ _ _ He Ev). f_equal. apply IH. intros z' Hz'. apply Hz. by apply elem_of_list_further.
  Qed.
  Lemma inputs_shown t c c' : inputs g t c = Ok tt c' ->
    (forall f, g_inputs g = Some f -> shows (k_store c') (f t) tt) /\ shows (k_store c') (g_icb g t) tt /\ k_lst c' = k_lst c.
  Proof.
    unfold inputs. rewrite Hg. unfold bnd, emit, modify, on_store, lift. destruct (g_inputs g) as [f|]; cbn [k_store].
    - destruct (run_prog true (f t) _) as [[] σ1| | |] eqn:E1; try done. cbn [k_store]. destruct (run_prog true _ σ1) as [[] σ2| | |] eqn:E2; try done.
      intros [= <-]. cbn. split_and!; [|eapply run_prog_shows; [exact E2|apply ext_refl]|done].
      intros f' [= <-]. eapply run_prog_shows; [exact E1|]. by eapply run_prog_ext.
    - unfold ret. cbn [k_store]. destruct (run_prog true _ _) as [[] σ2| | |] eqn:E2; try done.
      intros [= <-]. cbn. split_and!; [done|eapply run_prog_shows; [exact E2|apply ext_refl]|done].
  Qed.
  Lemma derivs_of (get : nat -> M (store D) (list D)) zs σ ys :
    (forall z y, get z σ = Ok y σ -> exists v, value σ z = Some v /\ flat v = y /\ length y = sig_size σ z) ->
    derivs_fit σ ->
    Forall2 (fun z y => deriv_of get z σ = Ok y σ) zs ys ->
    exists ds, Forall2 (fun z d => exists c v, σ !! z = Some c /\ c_deriv c = Some d /\ value σ d = Some v) zs ds /\ concat ys = pack σ ds /\ length (concat ys) = width σ zs.
  Proof.
    intros Hget Hfit. induction 1 as [|z y zs ys Hzy _ IH]; [by exists []|]. destruct IH as (ds & Hds & E & El).
    unfold deriv_of, bnd, gets in Hzy. destruct (σ !! z) as [c|] eqn:Ec; [|done]. destruct (c_deriv c) as [d|] eqn:Ed; [|done].
    destruct (Hget _ _ Hzy) as (v & Ev & Ef & Ey). exists (d :: ds). split_and!.
    - constructor; [by exists c, v|done].
    - cbn [concat]. by rewrite pack_cons, Ev, Ef, E.
    - cbn [concat]. rewrite app_length, El, Ey. unfold width. cbn. by rewrite (Hfit z c d Ec Ed).
  Qed.
  Lemma minor_instant t x s dx s' : ready g s -> packed g s -> derivs_fit (s_store s) -> length x = length (s_sv s) -> minor_cb g t x s = Ok dx s' ->
    instant (s_store s) g (s_scal s ++ s_arr s) t (lst_of (s_core s)) x dx (s_store s').
  Proof.
    intros Hr Hp Hfit Hl. unfold minor_cb. unfold bnd at 1.
    destruct (reset_ok g x s Hp Hl) as (s1 & E1 & Hpk & Hset & _ & _ & Hlst & _). rewrite E1.
    pose proof (pres_reset_sv g x s) as V1. rewrite E1 in V1. pose proof (packed_reset g x s tt s1 Hp E1) as Hp1.
    unfold bnd at 1. destruct (process_model g t false false s1) as [[] s4| | |] eqn:E4; try done.
    pose proof (pres_process_model g t false false s1) as V4. rewrite E4 in V4. pose proof (packed_process g _ _ _ _ _ _ Hp1 E4) as Hp4.
    assert (evo g s s4) as V04 by (by etrans).
    unfold process_model in E4. unfold bnd at 1 in E4. unfold on_core', on_dyn, on_core in E4. unfold lift at 1 in E4. unfold lift at 1 in E4.
    change (d_core (s_dyn s1)) with (s_core s1) in E4.
    destruct (inputs g t (s_core s1)) as [[] c2| | |] eqn:E2; try done. set (s2 := put_dyn _ s1) in E4.
    unfold bnd at 1, ret at 1 in E4. unfold bnd at 1 in E4. destruct (eval_model g t s2) as [[] s3| | |] eqn:E3; try done.
    assert (s_store s4 = s_store s3 /\ s_core s2 = c2) as [Es Ec2]. { split; [|done]. unfold bnd, snap, lift, gets, modify, ret in E4. cbn in E4. by injection E4 as <-. }
    clear E4. destruct (inputs_shown _ _ _ E2) as (I1 & I2 & I3). destruct (inputs_ext g Hg t _ _ E2) as [X12 _].
    assert (ready g s2) as Hr2. { pose proof (ready_evo g Hw _ _ V1 Hr) as Hr1. exact Hr1. }
    destruct (eval_ext g Hw Hg t s2 s3 Hr2 E3) as [X23 _]. change (s_store s2) with (k_store (s_core s2)) in X23. rewrite Ec2 in X23.
    assert (ext (s_store s1) (s_store s3)) as X13 by (by eapply ext_trans).
    assert (s_scal s4 = s_scal s /\ s_arr s4 = s_arr s) as [Ess Esa] by (split; [apply (ev_scal _ _ _ V04)|apply (ev_arr _ _ _ V04)]).
    assert (s_scal s1 = s_scal s /\ s_arr s1 = s_arr s) as [Es1 Ea1] by (split; [apply (ev_scal _ _ _ V1)|apply (ev_arr _ _ _ V1)]).
    assert (forall z, z ∈ s_scal s ++ s_arr s -> exists v, value (s_store s1) z = Some v) as Hval.
    { destruct Hset as [H1 H2]. rewrite Es1 in H1. rewrite Ea1 in H2. intros z [Hz|Hz]%elem_of_app; [destruct (H1 z Hz); eauto|destruct (H2 z Hz) as (? & ? & _); eauto]. }
    unfold bnd at 1, gets at 1. unfold bnd at 1, gets at 1. unfold bnd at 1. rewrite Ess, Esa.
    set (m := bnd (collect (deriv_of (get_scalar g)) (s_scal s)) _).
    destruct (m (s_store s4)) as [y σ'| | |] eqn:Em; [|unfold on_store', on_core', on_dyn, on_core, on_store, lift; unfold s_store, s_core in Em; cbn; rewrite Em; done..].
    rewrite (on_store_ok m s4 y σ' Em). unfold m, bnd in Em.
    destruct (collect _ (s_scal s) (s_store s4)) as [x1 σ1| | |] eqn:F1; try done.
    apply collect_inv in F1 as (-> & ys1 & -> & Hy1); [|intros z y' σa σb; apply deriv_same; intros ? ? ? ? E; by apply get_scalar_inv in E as [? _]].
    destruct (collect _ (s_arr s) (s_store s4)) as [x2 σ2| | |] eqn:F2; try done.
    apply collect_inv in F2 as (-> & ys2 & -> & Hy2); [|intros z y' σa σb; apply deriv_same; intros ? ? ? ? E; by apply get_array_inv in E as [? _]].
    injection Em as <- <-.
    pose proof (ev_dyn _ _ _ V04) as [Hsh _]. change (shape (g_dbg g) (s_store s) (s_store s4)) in Hsh. pose proof (fit_shape _ _ _ Hsh Hfit) as Hfit4.
    destruct (derivs_of (get_scalar g) (s_scal s) (s_store s4) ys1) as (ds1 & D1 & P1 & L1); [|done|done|].
    { intros z y' E. apply get_scalar_inv in E as (_ & d & -> & E). rewrite Hg in E. pose proof (get_value_inv _ _ _ _ E) as Ev. exists (VS d). split_and!; [done|done|].
      unfold sig_size. unfold value in Ev. destruct (s_store s4 !! z) as [c|] eqn:Ec; [|done]. destruct (c_asg c); [|done].
      pose proof (pk_ok _ _ Hp4 Hg z c Ec) as [_ Hok]. destruct (Hok _ Ev) as [Hk _]. by destruct (c_kind c). }
    destruct (derivs_of (get_array g) (s_arr s) (s_store s4) ys2) as (ds2 & D2 & P2 & L2); [|done|done|].
    { intros z y' E. apply get_array_inv in E as (_ & El & E). rewrite Hg in E. exists (VA y'). split_and!; [by eapply get_value_inv|done|done]. }
    unfold bnd at 1, gets at 1.
    match goal with |- context [write_prefix ?a ?b] => assert (write_prefix a b = Some a) as -> end.
    { apply P_Pack.write_all. cbn. rewrite app_length, L1, L2, <- width_app. rewrite (pk_dv _ _ Hp4), Ess, Esa. done. }
    unfold bnd, modify, ret. intros [= <- <-]. cbn. change (k_store (d_core (s_dyn s4))) with (s_store s4).
    match goal with |- instant _ _ _ _ _ _ _ ?σ => change σ with (s_store s4) end. rewrite Es in *. split.
    - rewrite (ext_pack _ _ _ X13 Hval), <- Hpk. done.
    - intros z Hz. destruct (Hval z Hz) as [v Ev]. exists v. by eapply ext_value.
    - intros f Hf. eapply shows_ext; [by apply I1|done].
    - by eapply shows_ext.
    - intros l Hin Hb. destruct (eval_evaluated g Hw Hg l Hin t s2 s3 Hr2 E3) as [[_ He] _].
      rewrite Ec2 in He. assert (lst_of c2 (l_id l) = lst_of (s_core s) (l_id l)) as El. { unfold lst_of. by rewrite I3, Hlst. }
      rewrite El in He. destruct He as [He|[[He|He] _]]; [right; by eapply shows_law|by left|congruence].
    - exists (ds1 ++ ds2). split; [|by rewrite pack_app, P1, P2]. eapply Forall2_impl; [by apply Forall2_app|].
      intros z d (c & v & Hc & Hd & Hv). destruct (shape_inv _ _ _ z c Hsh Hc) as (c0 & Hc0 & _ & Hd0). exists c0, v. split; [done|]. split; [by rewrite <- Hd0|done].
    - intros z v Hv. unfold value in Hv. destruct (s_store s3 !! z) as [c|] eqn:Ec; [|done]. destruct (c_asg c); [|done].
      pose proof (pk_ok _ _ Hp4 Hg) as Hk4. rewrite Es in Hk4. pose proof (Hk4 z c Ec) as [_ Hok]. destruct (Hok _ Hv) as [Hk1 Hk2].
      destruct (shape_inv _ _ _ z c Hsh Ec) as (c0 & Hc0 & Hk & _). exists c0. rewrite <- Hk. done.
  Qed.
End minor.
