(** The steps of run follow the differential equation of the model. *)
From stdpp Require Import prelude gmap.
From Coq Require Import ZArith.
From Verif Require Import Num Res Store Leaf Sched Stepper Sim SpecSched P_Store P_Prog P_Modes P_Conf P_Sched P_Eval P_Lib P_Fast P_Sim P_Evolve
  P_Simulated P_Rel P_Rel2 SpecHist P_Trace SpecRun P_Log P_Pack P_Repeat SpecBlock SpecAgain P_Over P_Redo SpecField P_Field P_Life P_Grow.
Local Open Scope num_scope.

Lemma same_member_sym {D} (m m' : lstate D) : same_member m m' -> same_member m' m.
Proof. intros [->|(t0 & x0 & t0' & x0' & y & -> & ->)]; [by left|right]. by exists t0', x0', t0, x0, y. Qed.

(** A state together with a proof that it has a property. *)
Lemma obeys_of {D} (stp : stepper D) {S} (J : S -> Prop) (f : D -> list D -> M S (list D)) (F : D -> list D -> list D -> Prop) t0 x t1 y h a b : stepper_rel stp ->
  (forall t v, keep J (f t v)) -> (forall t v p k q, J p -> length v = length x -> f t v p = Ok k q -> F t v k) -> J a ->
  stp S f t0 x t1 a = Ok (y, h) b -> obeys stp F t0 x t1 y h.
Proof.
  intros Hs Hk HF Ha E.
  set (f' := fun t v (p : {s | J s}) =>
    match f t v (proj1_sig p) as r return f t v (proj1_sig p) = r -> res {s | J s} (list D) with
    | Ok k q => fun Eq => Ok k (exist J q (Hk t v _ _ _ (proj2_sig p) Eq))
    | _ => fun _ => OOF
    end eq_refl).
  assert (forall t v p k q, f' t v p = Ok k q -> f t v (proj1_sig p) = Ok k (proj1_sig q)) as Hf'.
  { intros t v p k q. unfold f'. generalize (Hk t v (proj1_sig p)). intros Hg. 
    assert (forall r (Er : f t v (proj1_sig p) = r), match r as r return f t v (proj1_sig p) = r -> res {s | J s} (list D) with
      | Ok k q => fun Eq => Ok k (exist J q (Hg k q (proj2_sig p) Eq)) | _ => fun _ => OOF end Er = Ok k q -> r = Ok k (proj1_sig q)) as Hgen.
    { intros [k' q'|?|?|] Er; [|done..]. intros [= <- <-]. done. }
    apply (Hgen _ eq_refl). }
  pose proof (Hs S {s | J s} (fun p p' => p = proj1_sig p') f f' t0 x t1) as Hr.
  assert (forall t v, mrel (fun p p' => p = proj1_sig p') (f t v) (f' t v)) as Hm.
  { intros t v p p' ->. destruct (f t v (proj1_sig p')) as [k q| | |] eqn:Ef; try done.
    assert (forall r (Er : f t v (proj1_sig p') = r), r = Ok k q -> exists y2, match r as r return f t v (proj1_sig p') = r -> res {s | J s} (list D) with
      | Ok k q => fun Eq => Ok k (exist J q (Hk t v (proj1_sig p') k q (proj2_sig p') Eq)) | _ => fun _ => OOF end Er = Ok k y2 /\ q = proj1_sig y2) as Hgen.
    { intros [k1 q1| | |] Er; [|done..]. intros [= -> ->]. eexists. split; [reflexivity|done]. }
    apply (Hgen _ eq_refl Ef). }
  specialize (Hr Hm a (exist J a Ha) eq_refl). rewrite E in Hr. destruct Hr as (b' & Eb & _).
  exists {s | J s}, f', (exist J a Ha), b'. split; [|exact Eb].
  intros t v p k q Hl Ef. apply Hf' in Ef. eapply HF; [apply (proj2_sig p)|done|exact Ef].
Qed.

Section steps.
  Context {D : Type} `{NumOps D} (g : cfg D) (Hw : wf_tree (g_tree g)) (Hg : g_dbg g = true).
  Context (Hst : forall l, l ∈ leaves (g_tree g) -> steady l).
  Context (stp : stepper D) (Hs : g_stepper g = Some stp) (Hok : stepper_ok stp) (Hrel : stepper_rel stp).
  Implicit Types s : simst D.

  Lemma instant_same σ0 zs t (m m' : nat -> lstate D) x dx σ : (forall b, same_member (m b) (m' b)) -> instant σ0 g zs t m x dx σ -> instant σ0 g zs t m' x dx σ.
  Proof.
    intros Hm [H1 H2 H3 H4 H5 H6 H7]. split; try done. intros l Hl Hb. destruct (H5 l Hl Hb) as [Hx|Hx]; [by left|right]. by eapply law_same.
  Qed.
  Lemma instant_shape dbg σ0 σ1 zs t (m : nat -> lstate D) x dx σ : shape dbg σ0 σ1 -> instant σ1 g zs t m x dx σ -> instant σ0 g zs t m x dx σ.
  Proof.
    intros Hsh [H1 H2 H3 H4 H5 (ds & H6 & H6') H7]. split; try done.
    - exists ds. split; [|done]. eapply Forall2_impl; [exact H6|]. intros z d (c & v & Hc & Hd & Hv).
      destruct (shape_inv _ _ _ z c Hsh Hc) as (c0 & Hc0 & _ & Hd0). exists c0, v. split; [done|]. split; [by rewrite <- Hd0|done].
    - intros z v Hv. destruct (H7 z v Hv) as (c & Hc & Hk1 & Hk2). destruct (shape_inv _ _ _ z c Hsh Hc) as (c0 & Hc0 & Hk & _). exists c0. by rewrite <- Hk.
  Qed.
  (** One attempt. *)
  Lemma attempt_obeys σ0 t1 x t2 sb y h s1 : shape (g_dbg g) σ0 (s_store sb) -> ready g sb -> packed g sb -> derivs_fit (s_store sb) -> length x = length (s_sv sb) ->
    stp _ (minor_cb g) t1 x t2 sb = Ok (y, h) s1 ->
    obeys stp (fun t v k => field σ0 g (s_scal sb ++ s_arr sb) t (lst_of (s_core sb)) v k) t1 x t2 y h.
  Proof.
    intros Hsh0 Hr Hp Hf Hl. apply (obeys_of stp (fun s => near g sb s /\ packed g s /\ length (s_sv s) = length (s_sv sb))); [done| | |].
    - intros t v s k s' (Hn & Hps & Hls) E. split; [exact (near_minor g Hw Hg Hst sb Hr t v s k s' Hn E)|].
      split; [|]. { eapply both_packed; [|exact Hps|exact E]. by apply pres_both; [apply pres_minor_cb|apply vecs_minor_cb]. }
      pose proof (vecs_minor_cb g t v s) as Hv. rewrite E in Hv. destruct Hv as (-> & _). done.
    - intros t v s k s' (Hn & Hps & Hls) Hlv E. exists (s_store s').
      pose proof (nr_evo _ _ _ Hn) as He. rewrite <- (ev_scal _ _ _ He), <- (ev_arr _ _ _ He).
      eapply instant_same; [intros b; apply same_member_sym, (nr_mem _ _ _ Hn)|].
      pose proof (ev_dyn _ _ _ He) as [Hsh _]. change (shape (g_dbg g) (s_store sb) (s_store s)) in Hsh.
      eapply instant_shape; [etrans; [exact Hsh0|exact Hsh]|].
      eapply minor_instant; [done|done| |done| |by rewrite Hlv, Hl, Hls|exact E].
      + by eapply ready_evo.
      + by eapply fit_shape.
    - split; [apply near_self|]. done.
  Qed.
End steps.

(** The state vector is what the Integrators keep. *)
Section held.
  Context {D : Type} `{NumOps D} (g : cfg D) (Hw : wf_tree (g_tree g)) (Hg : g_dbg g = true).
  Implicit Types s : simst D.
  Definition keeps_val (l : leaf D) (z : nat) (m : lstate D) (v : val D) : Prop :=
    match m with
    | LInteg v' _ => v' = v /\ (exists T, l_cls l = CInteg T) /\ h_out (l_h l) = Some z
    | LUser vs => exists i, keeps_in l i z /\ vs !! i = Some v
    | _ => False
    end.
  Definition held (c : core D) (zs : list nat) (x : list D) : Prop := exists vals, x = concat (map flat vals) /\
    Forall2 (fun z v => exists l, l ∈ leaves (g_tree g) /\ keeps_val l z (lst_of c (l_id l)) v) zs vals.
  Lemma shows_pbind {A B} σ (p : prog D A) (k : A -> prog D B) b : shows σ (pbind p k) b -> exists a, shows σ p a /\ shows σ (k a) b.
  Proof.
    induction p as [a|s k' IH|s v p IH|c e p IH|e|u]; cbn [pbind]; intros Hs.
    - exists a. split; [|done]. exists []. split; [done|]. intros s v Hin. by apply elem_of_nil in Hin.
    - apply shows_get in Hs as (v & Hv & Hs). destruct (IH v Hs) as (a & (ws & E & Hws) & Hb). exists a. split; [|done]. exists ws. cbn. by rewrite Hv.
    - apply shows_set in Hs as [Hv Hs]. destruct (IH Hs) as (a & (ws & E & Hws) & Hb). exists a. split; [|done]. exists ((s, v) :: ws). cbn. rewrite E.
      split; [done|]. intros s' v' [[= -> ->]|Hin]%elem_of_cons; [done|by apply Hws].
    - apply shows_debug in Hs as [-> Hs]. destruct (IH Hs) as (a & (ws & E & Hws) & Hb). exists a. split; [|done]. exists ws. by cbn.
    - destruct Hs as (ws & E & _). done.
    - by apply shows_ub in Hs.
  Qed.
  Lemma pack_vals (σ : store D) zs vals : Forall2 (fun z v => value σ z = Some v) zs vals -> pack σ zs = concat (map flat vals).
  Proof. induction 1 as [|z v zs vals Hv _ IH]; [done|]. rewrite pack_cons, Hv, IH. done. Qed.
  Lemma near_held s0 s zs x : near g s0 s -> held (s_core s0) zs x -> held (s_core s) zs x.
  Proof.
    intros Hn (vals & -> & Hv). exists vals. split; [done|]. eapply Forall2_impl; [exact Hv|]. intros z v (l & H1 & E).
    exists l. split; [done|]. pose proof (nr_mem _ _ _ Hn (l_id l)) as Hm.
    destruct Hm as [Em|(t0 & x0 & t0' & x0' & y & E1 & _)]; [by rewrite Em|]. by rewrite E1 in E.
  Qed.
  Lemma begin_held t s sb zs x : begin_step g t s = Ok tt sb -> held (s_core s) zs x -> pack (s_store sb) zs = x.
  Proof.
    intros E (vals & -> & Hv). apply pack_vals. revert E. unfold begin_step. unfold bnd at 1.
    destruct (clear_all s) as [[] s1| | |] eqn:E1; try done. unfold bnd at 1.
    destruct (on_core' (inputs g t) s1) as [[] s2| | |] eqn:E2; try done. intros E3.
    apply clear_inv in E1 as (_ & L1 & _).
    assert (k_lst (s_core s2) = k_lst (s_core s1)) as L2.
    { unfold on_core', on_dyn, on_core, lift in E2. destruct (inputs g t _) as [[] c| | |] eqn:Ei; try done. injection E2 as <-.
      by destruct (inputs_shown g Hg _ _ _ Ei) as (_ & _ & ?). }
    rewrite Hg in E3. unfold on_core', on_dyn, on_core, lift, bnd in E3. rewrite pre_each in E3.
    destruct (each _ _ _ _ (d_core (s_dyn s2))) as [[] c1| | |] eqn:Ee; try done. injection E3 as <-.
    destruct (each_spec _ _ _ _ _ Ee (wf_leaves _ Hw)) as (_ & _ & H3 & _).
    eapply Forall2_impl; [exact Hv|]. intros z v (l & Hl & Em). specialize (H3 l Hl).
    assert (lst_of (d_core (s_dyn s2)) (l_id l) = lst_of (s_core s) (l_id l)) as Em2. { unfold lst_of, s_core in *. by rewrite L2, L1. }
    rewrite Em2 in H3. destruct (lst_of (s_core s) (l_id l)) as [|?|? ?|? ? ? ?|v' b|vs]; try done; cbn in Em.
    - destruct Em as (-> & [T Hc] & Ho). unfold pre in H3. rewrite Hc, Ho in H3. cbn in H3. apply shows_set in H3 as [? _]. done.
    - destruct Em as (i & Hk & Hi). unfold keeps_in in Hk. unfold pre in H3. destruct (l_cls l); try done.
      apply shows_pbind in H3 as (vs' & H3 & _). exact (proj1 (Hk t vs vs' _) H3 v Hi).
  Qed.
  Lemma post_held t a s s' zs : (forall z, z ∈ zs -> integral g z) -> process_model g t a true s = Ok tt s' -> held (s_core s') zs (pack (s_store s') zs).
  Proof.
    intros Hi E. unfold process_model in E. unfold bnd at 1 in E. destruct (on_core' (inputs g t) s) as [[] s1| | |]; try done.
    unfold bnd at 1 in E. match type of E with match ?m with _ => _ end = _ => destruct m as [[] s2| | |]; try done end.
    unfold bnd at 1 in E. destruct (eval_model g t s2) as [[] s3| | |]; try done.
    unfold bnd at 1 in E. destruct (on_core' (snap (EvEval t)) s3) as [[] s4| | |]; try done.
    rewrite Hg in E. unfold on_core', on_dyn, on_core, lift, bnd in E. rewrite post_each in E.
    destruct (each _ _ _ _ (d_core (s_dyn s4))) as [[] c1| | |] eqn:Ee; try done. injection E as <-.
    destruct (each_spec _ _ _ _ _ Ee (wf_leaves _ Hw)) as (_ & _ & H3 & _).
    assert (exists vals, Forall2 (fun z v => value (k_store c1) z = Some v /\ exists l, l ∈ leaves (g_tree g) /\ keeps_val l z (lst_of c1 (l_id l)) v) zs vals) as (vals & Hv).
    { clear Ee. induction zs as [|z zs IH]; [by exists []|]. destruct IH as (vals & Hvals); [intros z' Hz'; apply Hi; by apply elem_of_list_further|].
      destruct (Hi z) as [(l & T & Hl & Hc & Ho)|(l & i & Hl & Hk)]; [apply elem_of_list_here|..]; specialize (H3 l Hl); unfold post in H3.
      - rewrite Hc in H3.
        destruct (lst_of (d_core (s_dyn s4)) (l_id l)) as [|v|ts xs|f t0 x0 y|v b|vs] eqn:Em; cbn in H3; try (by apply shows_ub in H3).
        rewrite Ho in H3. cbn in H3. apply shows_get in H3 as (v' & Hv' & H3). apply shows_ret in H3.
        exists (v' :: vals). constructor; [|done]. split; [done|]. exists l. split; [done|].
        match goal with |- keeps_val _ _ ?m _ => change (keeps_val l z (lst_of c1 (l_id l)) v') end. rewrite H3. cbn. split; [done|]. split; [by exists T|done].
      - pose proof Hk as Hk'. unfold keeps_in in Hk'. destruct (l_cls l); try done.
        destruct (lst_of (d_core (s_dyn s4)) (l_id l)) as [|v|ts xs|f t0 x0 y|v b|vs] eqn:Em; try (by apply shows_ub in H3).
        apply shows_pbind in H3 as (vs' & H3 & H4). apply shows_ret in H4. destruct (proj2 (Hk' t vs vs' _) H3) as (v & Hv & Hvs).
        exists (v :: vals). constructor; [|done]. split; [done|]. exists l. split; [done|]. rewrite H4. by exists i. }
    exists vals. split.
    - apply pack_vals. eapply Forall2_impl; [exact Hv|]. by intros z v [? _].
    - eapply Forall2_impl; [exact Hv|]. by intros z v [_ ?].
  Qed.
End held.

Section loop.
  Context {D : Type} `{NumOps D} (g : cfg D) (Hw : wf_tree (g_tree g)) (Hg : g_dbg g = true).
  Context (Hst : forall l, l ∈ leaves (g_tree g) -> steady l).
  Context (stp : stepper D) (Hs : g_stepper g = Some stp) (Hok : stepper_ok stp) (Hrel : stepper_rel stp).
  Implicit Types s : simst D.
  Lemma moves_evals b es r : forallb (is_eval (D:=D)) es = true -> moves_in b (es ++ r) = moves_in b r.
  Proof. induction es as [|e es IH]; [done|]. cbn. intros [He Hes]%andb_true_iff. destruct e; try done. by apply IH. Qed.
  (** What follows the loop. *)
  Definition after (tl : list (event D)) : Prop := moves_in None tl = [] /\ match tl with e :: _ => is_begin e = false | [] => True end.
  Definition begins (v : list (event D)) : Prop := match v with e :: _ => is_begin e = true | [] => False end.
  Lemma loop_moves σ0 zs fuel t lo hi t1 t2 force s s' : shape (g_dbg g) σ0 (s_store s) -> ready g s -> packed g s -> derivs_fit (s_store s) -> s_scal s ++ s_arr s = zs ->
    run_loop g fuel t lo hi t1 t2 force s = Ok tt s' ->
    exists v, marks (s_log s') = marks (s_log s) ++ v /\ ((t1 <? t) = true -> begins v) /\ ((t1 <? t) = false -> v = [] /\ s' = s) /\
      forall tl, after tl -> Forall (along σ0 g zs stp) (moves_in None (v ++ tl)) /\
        ((t1 <? t) = true -> (forall z, z ∈ zs -> integral g z) -> forall x, held g (s_core s) zs x ->
           exists te, (te <? t) = false /\ chained t1 x (moves_in None (v ++ tl)) te (s_sv s')).
  Proof.
    revert t1 t2 force s. induction fuel as [|fuel IH]; intros t1 t2 force s Hsh0 Hr Hp Hf Hz; cbn [run_loop]; (destruct (t1 <? t) eqn:Et;
      [|intros [= <-]; exists []; split; [by rewrite app_nil_r|]; split; [done|]; split; [done|]; intros tl [Htl _]; cbn; rewrite Htl; split; [constructor|done]]);
      [done|].
    unfold bnd at 1. destruct (begin_step g t1 s) as [[] sb| | |] eqn:Eb; try done.
    unfold bnd at 1, gets at 1. unfold bnd at 1. destruct (get_sv g (s_svo sb) sb) as [x sb'| | |] eqn:Eg; try done.
    pose proof (get_sv_same _ _ _ _ _ Eg) as ->. unfold bnd at 1, modify at 1. rewrite Hs.
    unfold bnd at 1. destruct (stp _ (minor_cb g) t1 x t2 (put_svo x sb)) as [[y new_h] s1| | |] eqn:E1; try done. cbn [fst snd].
    unfold bnd at 1, modify at 1. unfold bnd at 1.
    destruct (on_core' (emit (EvTry t1 x t2 y new_h)) (put_sv y s1)) as [[] s2| | |] eqn:E2; try done. cbv zeta.
    pose proof (packed_begin _ _ _ _ _ Hp Eb) as Hpb.
    assert (keep (near g s) (stp _ (minor_cb g) t1 x t2)) as Hks.
    { apply stepper_keep; [done|]. intros t' x'. exact (near_minor g Hw Hg Hst s Hr t' x'). }
    assert (near g s sb) as Hnb. { exact (near_begin g Hw Hg Hst s Hr t1 s tt sb (near_self g s) Eb). }
    assert (near g s s2) as Hn2.
    { eapply (near_emit g Hw s Hr); [|exact E2]. assert (near g s s1) as Hn1.
      { eapply Hks; [|exact E1]. eapply (near_same g Hw s Hr (put_svo x)); [done|intros ?; by split|exact Hnb|reflexivity]. }
      eapply (near_same g Hw s Hr (put_sv y)); [done|intros ?; by split|exact Hn1|reflexivity]. }
    pose proof (get_sv_len g _ _ _ _ Eg) as Hlx. pose proof (packed_svo g x sb Hlx Hpb) as Hps.
    pose proof (nr_evo _ _ _ Hnb) as Vb. pose proof (nr_evo _ _ _ Hn2) as V2.
    assert (forall s0, evo g s s0 -> derivs_fit (s_store s0)) as Hfit. { intros s0 V. pose proof (ev_dyn _ _ _ V) as [Hsh _]. by eapply fit_shape. }
    assert (forall s0, evo g s s0 -> shape (g_dbg g) σ0 (s_store s0)) as Hsha. { intros s0 V. pose proof (ev_dyn _ _ _ V) as [Hsh _]. etrans; [exact Hsh0|exact Hsh]. }
    assert (forall s0, evo g s s0 -> s_scal s0 ++ s_arr s0 = zs) as Hlay. { intros s0 V. by rewrite (ev_scal _ _ _ V), (ev_arr _ _ _ V). }
    assert (x = pack (s_store sb) zs) as Ex.
    { rewrite <- (Hlay sb Vb). exact (get_pack g Hg _ _ _ _ Hpb (eq_trans (pk_svo _ _ Hpb) (eq_sym (pk_sv _ _ Hpb))) Eg). }
    assert (packed g s2) as Hp2.
    { eapply packed_core; [apply pres_emit| |exact E2].
      pose proof (so_pres stp Hok _ (both g) (minor_cb g) t1 x t2 _ (fun τ v => pres_both g _ (pres_minor_cb g τ v) (vecs_minor_cb g τ v)) (put_svo x sb)) as Hb.
      rewrite E1 in Hb. destruct Hb as [He (V1 & V2' & V3)]. pose proof (so_len stp Hok _ _ _ _ _ _ _ _ E1) as Hlr. cbn [fst] in Hlr.
      apply packed_sv; [|by apply (packed_evo g (put_svo x sb) s1); rewrite ?V1, ?V2'].
      rewrite V1, Hlr, Hlx. change (s_sv (put_svo x sb)) with (s_sv sb). by rewrite (pk_sv _ _ Hpb), (pk_svo _ _ Hpb). }
    assert (s_sv s2 = y) as Ey. { injection E2 as <-. done. }
    assert (exists es, forallb is_eval es = true /\ marks (s_log s2) = marks (s_log s) ++ EvBegin t1 (s_store sb) (members (s_core sb)) :: es ++ [EvTry t1 x t2 y new_h]) as (es & Hes & Em2).
    { destruct (adds_stepper g stp t1 x t2 Hrel _ _ _ E1) as (vs & Evs & Hvs). exists (marks vs). split; [by apply evaluations_marks|].
      injection E2 as <-. change (marks (s_log s1 ++ [EvTry t1 x t2 y new_h]) = marks (s_log s) ++ EvBegin t1 (s_store sb) (members (s_core sb)) :: marks vs ++ [EvTry t1 x t2 y new_h]).
      rewrite marks_app, marks_one, Evs, marks_app. cbn [is_mark]. change (s_log (put_svo x sb)) with (s_log sb). rewrite (begin_marks _ _ _ _ Eb).
      rewrite <- !app_assoc. done. }
    set (mv := fun rest : list (event D) => Move t1 x (Some (t1, s_store sb, members (s_core sb))) t2 y new_h (match rest with e :: _ => negb (is_begin e) | [] => true end)).
    assert (forall rest tl, moves_in None ((EvBegin t1 (s_store sb) (members (s_core sb)) :: es ++ [EvTry t1 x t2 y new_h] ++ rest) ++ tl) =
      mv (rest ++ tl) :: moves_in None (rest ++ tl)) as Hhd.
    { intros rest tl. cbn [app moves_in]. rewrite <- app_assoc, moves_evals by done. done. }
    assert (forall rest, along σ0 g zs stp (mv rest)) as Hal.
    { intros rest. exists (s_store sb), (members (s_core sb)). split; [done|]. split; [exact Ex|].
      pose proof (attempt_obeys g Hw Hg Hst stp Hrel σ0 t1 x t2 (put_svo x sb) y new_h s1 (Hsha sb Vb)) as Ho.
      assert (ready g (put_svo x sb)) as Hrb. { pose proof (ready_evo g Hw _ _ Vb Hr) as Hrb. exact Hrb. }
      specialize (Ho Hrb Hps (Hfit sb Vb)). change (s_sv (put_svo x sb)) with (s_sv sb) in Ho.
      specialize (Ho (eq_trans Hlx (eq_trans (pk_svo _ _ Hpb) (eq_sym (pk_sv _ _ Hpb)))) E1).
      change (s_scal (put_svo x sb) ++ s_arr (put_svo x sb)) with (s_scal sb ++ s_arr sb) in Ho. rewrite (Hlay sb Vb) in Ho.
      destruct Ho as (S & f & a & b & Hf' & Hr'). exists S, f, a, b. split; [|exact Hr']. intros t' v' p k q Hl' E'.
      destruct (Hf' t' v' p k q Hl' E') as (σ & Hi). exists σ. eapply instant_same; [|exact Hi]. intros b'. rewrite member_lst. by left. }
    assert (forall x0, held g (s_core s) zs x0 -> x = x0) as Hx0.
    { intros x0 Hh. rewrite Ex. by eapply begin_held. }
    destruct (force || (t2 - t1 <=? new_h) || (t2 - t1 <=? lo)).
    - unfold bnd at 1. destruct (t2 <? t) eqn:Et2.
      + unfold bnd at 1, gets at 1. unfold bnd at 1. destruct (reset_sv g (s_sv s2) s2) as [[] s3| | |] eqn:E3; try done.
        destruct (process_model g t2 false true s3) as [[] s4| | |] eqn:E4; try done. intros Hl.
        pose proof (pres_reset_sv g (s_sv s2) s2) as V3. rewrite E3 in V3. pose proof (pres_process_model g t2 false true s3) as V4. rewrite E4 in V4.
        assert (evo g s s4) as V5 by (etrans; [apply (nr_evo _ _ _ Hn2)|]; by etrans).
        destruct (IH t2 (nmin (t2 + clip lo hi new_h) t) false s4) as (v & Ev & Hop & Hno & Hre); [by apply Hsha| | |by apply Hfit|by apply Hlay|exact Hl|].
        { exact (ready_evo g Hw _ _ V5 Hr). }
        { eapply packed_process; [|exact E4]. by eapply packed_reset. }
        destruct (major_marks _ _ _ _ E4) as (σe & me & Em4).
        destruct (adds_reset g _ _ _ _ E3) as (v3 & Ev3 & ->). rewrite app_nil_r in Ev3.
        exists (EvBegin t1 (s_store sb) (members (s_core sb)) :: es ++ [EvTry t1 x t2 y new_h] ++ [EvEval t2 σe me; EvStep t2 (s_store s4) (members (s_core s4))] ++ v).
        split; [|split; [|split; [done|]]].
        * rewrite Ev, Em4, Ev3, Em2. by repeat (rewrite <- ?app_assoc; cbn [app]).
        * done.
        * intros tl Htl. rewrite Hhd. destruct (Hre tl Htl) as [Ha1 Ha2]. split; [constructor; [apply Hal|exact Ha1]|].
          intros _ Hint x0 Hh. rewrite <- (Hx0 x0 Hh). destruct (Ha2 Et2 Hint (pack (s_store s4) zs)) as (te & Hte & Hch); [by eapply post_held|].
          exists te. split; [done|]. split; [done|]. split; [done|]. cbn [mv mv_ok app is_begin negb mv_to mv_result moves_in].
          assert (pack (s_store s4) zs = y) as <-; [|exact Hch].
          destruct (reset_ok g (s_sv s2) s2 Hp2 eq_refl) as (s3' & E3' & Hpk & Hset & _). rewrite E3 in E3'. injection E3' as <-.
          rewrite (Hlay s2 V2) in Hpk. rewrite Ey in Hpk. rewrite <- Hpk. apply ext_pack.
          { pose proof (grow_process g Hg t2 false true s3) as Hgr. rewrite E4 in Hgr. exact Hgr. }
          assert (evo g s s3) as V03 by (etrans; [exact V2|exact V3]). destruct Hset as [K1 K2]. rewrite <- (Hlay s3 V03).
          intros z [Hz'|Hz']%elem_of_app; [destruct (K1 z Hz'); eauto|destruct (K2 z Hz') as (? & ? & _); eauto].
      + unfold ret at 1. intros Hl.
        destruct (IH t2 (nmin (t2 + clip lo hi new_h) t) false s2) as (v & Ev & _ & Hno & _); [by apply Hsha| |done|by apply Hfit|by apply Hlay|exact Hl|].
        { exact (ready_evo g Hw _ _ (nr_evo _ _ _ Hn2) Hr). }
        destruct (Hno Et2) as [-> Es']. rewrite app_nil_r in Ev.
        exists (EvBegin t1 (s_store sb) (members (s_core sb)) :: es ++ [EvTry t1 x t2 y new_h] ++ []).
        split; [by rewrite Ev, Em2|]. split; [done|]. split; [done|].
        intros tl [Ht1 Ht2]. rewrite Hhd. cbn [app]. rewrite Ht1. split; [constructor; [apply Hal|constructor]|].
        intros _ Hint x0 Hh. rewrite <- (Hx0 x0 Hh). exists t2. split; [done|]. split; [done|]. split; [done|].
        assert (mv_ok (mv tl) = true) as ->. { cbn. destruct tl; [done|]. by rewrite Ht2. } cbn. split; [done|]. by rewrite Es', Ey.
    - intros Hl.
      destruct (IH t1 (t1 + clip lo hi new_h) (new_h <=? lo) s2) as (v & Ev & Hop & _ & Hre); [by apply Hsha| |done|by apply Hfit|by apply Hlay|exact Hl|].
      { exact (ready_evo g Hw _ _ (nr_evo _ _ _ Hn2) Hr). }
      exists (EvBegin t1 (s_store sb) (members (s_core sb)) :: es ++ [EvTry t1 x t2 y new_h] ++ v).
      split; [rewrite Ev, Em2; by repeat (rewrite <- ?app_assoc; cbn [app])|]. split; [done|]. split; [done|].
      intros tl Htl. rewrite Hhd. destruct (Hre tl Htl) as [Ha1 Ha2]. split; [constructor; [apply Hal|exact Ha1]|].
      intros _ Hint x0 Hh. destruct (Ha2 Et Hint x0) as (te & Hte & Hch); [by eapply near_held|]. exists te. split; [done|]. split; [done|]. split; [by apply Hx0|].
      assert (mv_ok (mv (v ++ tl)) = false) as ->; [|exact Hch]. specialize (Hop Et). cbn. destruct v as [|e v]; [done|]. cbn in Hop |- *. by rewrite Hop.
  Qed.
End loop.
