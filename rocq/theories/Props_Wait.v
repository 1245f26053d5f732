(** What a block waits for: C13. *)
From stdpp Require Import prelude gmap strings.
From Coq Require Import ZArith QArith.
From Verif Require Import Num NumQ Res Name Store Leaf Sched World Api Steps P_Steps P_Ops P_World
  P_Compile P_Frame Props_World Ex_Models.

Local Open Scope nat_scope.

Section wait.
  Context {D : Type} `{NumOps D}.
  Notation W := (M (world D)).
  Implicit Types w : world D.

  Definition req (ls : list (nat * N)) (s : nat) : Prop := exists f, (s, f) ∈ ls /\ N.land f fRequired ≠ 0%N.

  Lemma lor_req f g : N.land (N.lor f g) fRequired ≠ 0%N <-> N.land f fRequired ≠ 0%N \/ N.land g fRequired ≠ 0%N.
  Proof.
    rewrite N.land_lor_distr_l. destruct (decide (N.land f fRequired = 0%N)) as [E|E].
    - rewrite E, N.lor_0_l. naive_solver.
    - split; [by left|]. intros _ Hz. apply N.lor_eq_0_iff in Hz as [? ?]. done.
  Qed.
  Lemma req_link ls s f s' : req (link_pair ls s f) s' <-> req ls s' \/ (s' = s /\ N.land f fRequired ≠ 0%N).
  Proof.
    induction ls as [|[s1 f1] ls IH]; cbn.
    - unfold req. setoid_rewrite elem_of_list_singleton. setoid_rewrite elem_of_nil. naive_solver.
    - assert (forall x g l, req ((x, g) :: l) s' <-> (s' = x /\ N.land g fRequired ≠ 0%N) \/ req l s') as Hc.
      { intros x g l. unfold req. setoid_rewrite elem_of_cons. naive_solver. }
      destruct (Nat.eqb_spec s1 s) as [->|Hne]; rewrite !Hc; [rewrite lor_req|rewrite IH]; naive_solver.
  Qed.
  Lemma req_add_links w f m ls s' : N.land f fRequired ≠ 0%N ->
    req (add_links w f m ls) s' <-> req ls s' \/ (s' ∈ m.*2 /\ vsig w s').
  Proof.
    intros Hf. unfold add_links. revert ls. induction m as [|e m IH]; intros ls; cbn [fold_left fmap list_fmap].
    - rewrite elem_of_nil. naive_solver.
    - rewrite IH, elem_of_cons. destruct (vsigb w (snd e)) eqn:Ev.
      + apply vsigb_spec in Ev. rewrite req_link. naive_solver.
      + assert (~ vsig w (snd e)) by (rewrite <- vsigb_spec, Ev; done). naive_solver.
  Qed.
  Lemma req_add_outs w f m ls s' : N.land f fRequired = 0%N -> req (add_links w f m ls) s' <-> req ls s'.
  Proof.
    intros Hf. unfold add_links. revert ls. induction m as [|e m IH]; intros ls; cbn [fold_left]; [done|].
    rewrite IH. destruct (vsigb w (snd e)); [|done]. rewrite req_link. naive_solver.
  Qed.
  Lemma req_drop ls s s' : NoDup ls.*1 -> req (map_pair ls s drop_req) s' <-> req ls s' /\ s' ≠ s.
  Proof.
    intros Hnd. assert (forall x g l, req ((x, g) :: l) s' <-> (s' = x /\ N.land g fRequired ≠ 0%N) \/ req l s') as Hc.
    { intros x g l. unfold req. setoid_rewrite elem_of_cons. naive_solver. }
    induction ls as [|[s1 f1] ls IH]; cbn.
    - unfold req. setoid_rewrite elem_of_nil. naive_solver.
    - apply NoDup_cons in Hnd as [Hn Hnd]. cbn in Hn. destruct (Nat.eqb_spec s1 s) as [->|Hne]; rewrite !Hc.
      + assert (N.land (drop_req f1) fRequired = 0%N) as E.
        { unfold drop_req. apply N.bits_inj. intros n. rewrite N.land_spec, N.ldiff_spec, N.bits_0.
          destruct (N.testbit fRequired n), (N.testbit f1 n); done. }
        rewrite E. assert (req ls s' -> s' ≠ s) as Hne.
        { intros (f & Hin & _) ->. apply Hn. apply elem_of_list_fmap. by exists (s, f). }
        naive_solver.
      + rewrite IH by done. naive_solver.
  Qed.
  Lemma req_add ls s s' : req (map_pair ls s add_req) s' <-> req ls s' \/ (s' = s /\ s ∈ ls.*1).
  Proof.
    assert (forall x g l, req ((x, g) :: l) s' <-> (s' = x /\ N.land g fRequired ≠ 0%N) \/ req l s') as Hc.
    { intros x g l. unfold req. setoid_rewrite elem_of_cons. naive_solver. }
    induction ls as [|[s1 f1] ls IH]; cbn.
    - unfold req. setoid_rewrite elem_of_nil. naive_solver.
    - destruct (Nat.eqb_spec s1 s) as [->|Hne]; rewrite !Hc.
      + assert (N.land (add_req f1) fRequired ≠ 0%N) as E by (unfold add_req; apply lor_req; by right).
        rewrite elem_of_cons. naive_solver.
      + rewrite IH, elem_of_cons. naive_solver.
  Qed.

  (** Partial correctness. *)
  Definition tri {A} (P : world D -> Prop) (m : W A) (Q : A -> world D -> Prop) : Prop :=
    forall w, P w -> match m w with Ok a w' => Q a w' | _ => True end.
  Lemma tri_bnd {A B} P (m : W A) (Q : A -> world D -> Prop) (k : A -> W B) (R : B -> world D -> Prop) :
    tri P m Q -> (forall a, tri (Q a) (k a) R) -> tri P (bnd m k) R.
  Proof. intros Hm Hk w Hw. unfold bnd. specialize (Hm w Hw). destruct (m w); [by apply Hk|done..]. Qed.
  Lemma tri_pre {A} (P P' : world D -> Prop) (m : W A) Q : (forall w, P w -> P' w) -> tri P' m Q -> tri P m Q.
  Proof. intros Hp Hm w Hw. apply Hm. auto. Qed.
  Lemma tri_post {A} P (m : W A) (Q Q' : A -> world D -> Prop) : (forall a w, Q a w -> Q' a w) -> tri P m Q -> tri P m Q'.
  Proof. intros Hq Hm w Hw. specialize (Hm w Hw). destruct (m w); [auto|done..]. Qed.

  Ltac skip := let r := fresh "r" in intros r; cbn beta; try clear r.

  Section track.
  Context (K : list kind) (b : nat) (c : cls D) (im om : list (string * nat)).
  Definition valued (s : nat) : Prop := exists k, K !! s = Some k /\ k ≠ KBus.
  (** The signals are of kinds [K]; block [b], of class [c], is connected to [im] and
      [om], waits for the signals in [X], and its handles satisfy [HP]. *)
  Definition trk (X : nat -> Prop) (L : nat -> Prop) (HP : handles -> Prop) w : Prop :=
    so_kind <$> w_sigs w = K /\
    exists o, w_blks w !! b = Some o /\ bo_cls o = c /\ bo_ibus o = im /\ bo_obus o = om /\
      NoDup (bo_linked o).*1 /\ (forall s, req (bo_linked o) s <-> X s) /\ (forall s, L s -> s ∈ (bo_linked o).*1) /\ HP (bo_h o).

  Lemma kind_at w s : so_kind <$> w_sigs w = K -> so_kind <$> w_sigs w !! s = K !! s.
  Proof. intros <-. by rewrite list_lookup_fmap. Qed.
  Lemma vsig_valued w s : so_kind <$> w_sigs w = K -> vsig w s <-> valued s.
  Proof.
    intros HK. unfold vsig, valued. rewrite <- (kind_at w s HK). destruct (w_sigs w !! s) as [o|]; cbn.
    - split; [intros (? & [= <-] & Hk); exists (so_kind o); split; [done|by destruct (so_kind o)]|].
      intros (? & [= <-] & Hk). exists o. split; [done|by destruct (so_kind o)].
    - naive_solver.
  Qed.
  Lemma trk_equiv (X X' : nat -> Prop) L HP w : (forall s, X s <-> X' s) -> trk X L HP w -> trk X' L HP w.
  Proof.
    intros HX (HK & o & ? & ? & ? & ? & ? & Hr & ? & ?). split; [done|]. exists o. split_and!; try done.
    intros s. by rewrite Hr.
  Qed.
  Lemma trk_L X L HP w s : trk X L HP w -> L s -> exists o, w_blks w !! b = Some o /\ s ∈ (bo_linked o).*1.
  Proof. intros (_ & o & ? & _ & _ & _ & _ & _ & Hl & _) Hs. eauto. Qed.

  Lemma tri_link X L HP s f : (f = N.lor fInput fRequired \/ f = fOutput) ->
    tri (trk X L HP) (link_signal b s f)
        (fun _ => trk (fun x => X x \/ (x = s /\ valued s /\ f = N.lor fInput fRequired)) (fun x => L x \/ (x = s /\ valued s)) HP).
  Proof.
    intros Hf w (HK & o & Ho & Hc & Hi & Hoo & Hnd & Hr & Hl & HH). pose proof (link_signal_eq b s f w) as He.
    destruct (link_signal b s f w) as [u w'|?|?|]; [|done..]. destruct He as [_ ->]. split; [done|].
    eexists. split; [by rewrite (upd_lookup _ _ _ _ Ho)|]. cbn. split_and!; [done|done|done| | | |done].
    - destruct (vsigb w s); [by apply link_pair_nodup|done].
    - intros x. pose proof (vsig_valued w s HK) as Hv. rewrite <- vsigb_spec in Hv. destruct (vsigb w s).
      + rewrite req_link, Hr. destruct Hf as [-> | ->]; [|cbn; naive_solver].
        assert (N.land (N.lor fInput fRequired) fRequired ≠ 0%N) by done. naive_solver.
      + rewrite Hr. naive_solver.
    - intros x Hx. pose proof (vsig_valued w s HK) as Hv. rewrite <- vsigb_spec in Hv. destruct (vsigb w s).
      + rewrite link_pair_ids. case_bool_decide; [naive_solver|]. rewrite elem_of_app, elem_of_list_singleton. naive_solver.
      + naive_solver.
  Qed.
  Lemma trk_blk X L HP w o : trk X L HP w -> w_blks w !! b = Some o -> bo_ibus o = im /\ bo_obus o = om /\ HP (bo_h o).
  Proof. intros (_ & o' & Ho & _ & ? & ? & _ & _ & _ & ?) Ho'. simplify_eq. done. Qed.
  Lemma tri_input_at X L HP i : tri (trk X L HP) (input_at b i)
    (fun s w => trk (fun x => X x \/ (x = s /\ valued s)) (fun x => L x \/ (x = s /\ valued s)) HP w /\ exists lb, im !! i = Some (lb, s)).
  Proof.
    intros w Hw. unfold input_at, bnd, get_blk. destruct (w_blks w !! b) as [o|] eqn:Ho; [|done].
    destruct (trk_blk _ _ _ _ _ Hw Ho) as (Hi & _ & _). rewrite Hi. unfold at_index.
    destruct (im !! i) as [[lb s]|] eqn:Ei; [|done]. cbn.
    pose proof (tri_link X L HP s (N.lor fInput fRequired) (or_introl eq_refl) w Hw) as Hl.
    destruct (link_signal b s _ w) as [u w'|?|?|]; [|done..]. cbn. split; [|by eexists].
    eapply trk_equiv; [|exact Hl]. naive_solver.
  Qed.
  Lemma tri_input_lb X L HP lb : dot_free lb -> tri (trk X L HP) (input_lb b lb)
    (fun s w => trk (fun x => X x \/ (x = s /\ valued s)) (fun x => L x \/ (x = s /\ valued s)) HP w /\ first_entry im lb s).
  Proof.
    intros Hd w Hw. unfold input_lb, bnd, get_blk. destruct (w_blks w !! b) as [o|] eqn:Ho; [|done].
    destruct (trk_blk _ _ _ _ _ Hw Ho) as (Hi & _ & _). rewrite Hi. unfold at_label. cbn [at_fuel].
    rewrite cut_dot_free by done. cbn [fst snd]. destruct (find_label im lb) as [s|] eqn:Ei; [|done]. cbn.
    pose proof (tri_link X L HP s (N.lor fInput fRequired) (or_introl eq_refl) w Hw) as Hl.
    destruct (link_signal b s _ w) as [u w'|?|?|]; [|done..]. cbn. split; [|by apply find_label_first].
    eapply trk_equiv; [|exact Hl]. naive_solver.
  Qed.
  Lemma tri_output_at X L HP i : tri (trk X L HP) (output_at b i)
    (fun s w => trk X (fun x => L x \/ (x = s /\ valued s)) HP w /\ exists lb, om !! i = Some (lb, s)).
  Proof.
    intros w Hw. unfold output_at, bnd, get_blk. destruct (w_blks w !! b) as [o|] eqn:Ho; [|done].
    destruct (trk_blk _ _ _ _ _ Hw Ho) as (_ & Hi & _). rewrite Hi. unfold at_index.
    destruct (om !! i) as [[lb s]|] eqn:Ei; [|done]. cbn.
    pose proof (tri_link X L HP s fOutput (or_intror eq_refl) w Hw) as Hl.
    destruct (link_signal b s _ w) as [u w'|?|?|]; [|done..]. cbn. split; [|by eexists].
    eapply trk_equiv; [|exact Hl]. intros x. split; [|by left]. intros [?|(_ & _ & E)]; [done|by vm_compute in E].
  Qed.
  Lemma tri_bind_handle (P : world D -> Prop) T s : (forall w, P w -> so_kind <$> w_sigs w = K) ->
    tri P (bind_handle T s) (fun _ w => P w /\ exists k, K !! s = Some k /\ ty_fits T k = true).
  Proof.
    intros HK w Hw. unfold bind_handle, bnd, get_sig. pose proof (kind_at w s (HK w Hw)) as Hk.
    destruct (w_sigs w !! s) as [o|]; [|done]. cbn in Hk. unfold verify. destruct (ty_fits T (so_kind o)) eqn:Ef; [|done]. cbn. eauto.
  Qed.
  Lemma fits_valued T s : (exists k, K !! s = Some k /\ ty_fits T k = true) -> valued s.
  Proof. intros (k & Hk & Hf). exists k. split; [done|]. intros ->. by destruct T. Qed.
  Lemma tri_upd_h X L (HP HP' : handles -> Prop) g : (forall h, HP h -> HP' (g h)) ->
    tri (trk X L HP) (upd_blk b (fun x => set_h (g (bo_h x)) x)) (fun _ => trk X L HP').
  Proof.
    intros Hg w (HK & o & Ho & Hc & Hi & Hoo & Hnd & Hr & Hl & HH). cbn. split; [done|].
    eexists. cbn. rewrite list_lookup_alter, Ho. split; [done|]. cbn. split_and!; auto.
  Qed.

  (** The binding steps.  Inputs bound by typed members are required already. *)
  Definition X0 (s : nat) : Prop := s ∈ im.*2 /\ valued s.
  Lemma im_at i lb s : im !! i = Some (lb, s) -> s ∈ im.*2.
  Proof. intros Hi. apply elem_of_list_fmap. exists (lb, s). split; [done|]. by eapply elem_of_list_lookup_2. Qed.
  Lemma im_first lb s : first_entry im lb s -> s ∈ im.*2.
  Proof. intros (i & Hi & _). by eapply im_at. Qed.
  Definition any : nat -> Prop := fun _ => False.

  Lemma tri_bind_in T L (HP HP' : handles -> Prop) : (forall h lb s, im !! 0 = Some (lb, s) -> HP h ->
      HP' (Handles (Some s) (h_out h) (h_x1 h) (h_x2 h) (h_delay h) (h_initial h) (h_trig h))) ->
    tri (trk X0 L HP) (bind_in b T) (fun _ => trk X0 L HP').
  Proof.
    intros Hh. unfold bind_in. eapply tri_bnd; [apply tri_input_at|]. intros s.
    eapply tri_bnd; [apply tri_bind_handle; by intros w [[? _] _]|]. skip.
    intros w [[Ht [lb Hlb]] _]. eapply (tri_upd_h X0 L HP HP' (fun h => Handles (Some s) (h_out h) (h_x1 h) (h_x2 h) (h_delay h) (h_initial h) (h_trig h))).
    { intros h Hp. by eapply Hh. }
    destruct Ht as (HK & o & ? & ? & ? & ? & ? & Hr & Hl & ?). split; [done|]. exists o. split_and!; try done; [|intros x Hx; apply Hl; by left].
    intros x. rewrite Hr. apply im_at in Hlb. unfold X0. naive_solver.
  Qed.
  Lemma tri_bind_out T X L (HP HP' : handles -> Prop) : (forall h lb s, om !! 0 = Some (lb, s) -> valued s -> HP h ->
      HP' (Handles (h_in h) (Some s) (h_x1 h) (h_x2 h) (h_delay h) (h_initial h) (h_trig h))) ->
    tri (trk X L HP) (bind_out b T) (fun _ => trk X (fun x => L x \/ exists lb, om !! 0 = Some (lb, x)) HP').
  Proof.
    intros Hh. unfold bind_out. eapply tri_bnd; [apply tri_output_at|]. intros s.
    eapply tri_bnd; [apply tri_bind_handle; by intros w [[? _] _]|]. skip.
    intros w [[Ht [lb Hlb]] Hf]. apply fits_valued in Hf.
    eapply (tri_upd_h X _ HP HP' (fun h => Handles (h_in h) (Some s) (h_x1 h) (h_x2 h) (h_delay h) (h_initial h) (h_trig h))).
    { intros h Hp. by eapply Hh. }
    destruct Ht as (HK & o & ? & ? & ? & ? & ? & Hr & Hl & ?). split; [done|]. exists o. split_and!; try done.
    intros x Hx. apply Hl. destruct Hx as [?|[lb' E]]; [by left|]. simplify_eq. by right.
  Qed.
  (** Member [g] of block [b] bound to an input found by index or by label. *)
  Definition yes (_ : handles) : Prop := True.
  Lemma tri_member (fnd : W nat) T g (k : W unit) L (R : unit -> world D -> Prop) :
    tri (trk X0 L yes) fnd (fun s w => trk (fun x => X0 x \/ (x = s /\ valued s)) L yes w /\ s ∈ im.*2) ->
    tri (trk X0 L yes) k R ->
    tri (trk X0 L yes) (s <~ fnd ;; r <~ bind_handle T s ;; upd_blk b (fun x => set_h (g s (bo_h x)) x) ;;; k) R.
  Proof.
    intros Hf Hk. eapply tri_bnd; [exact Hf|]. intros s. cbn beta.
    eapply tri_bnd; [apply tri_bind_handle; by intros w [[? _] _]|]. skip.
    eapply tri_bnd; [|skip; exact Hk]. intros w [[Ht Hin] _].
    apply (tri_upd_h X0 L yes yes (g s)); [done|]. eapply trk_equiv; [|exact Ht]. unfold X0. naive_solver.
  Qed.
  Lemma trk_weak X (L L' : nat -> Prop) (HP HP' : handles -> Prop) w :
    (forall s, L' s -> L s) -> (forall h, HP h -> HP' h) -> trk X L HP w -> trk X L' HP' w.
  Proof.
    intros Hl HH (HK & o & ? & ? & ? & ? & ? & Hr & ? & ?). split; [done|]. exists o. split_and!; auto.
  Qed.
  Lemma find_at i L : tri (trk X0 L yes) (input_at b i) (fun s w => trk (fun x => X0 x \/ (x = s /\ valued s)) L yes w /\ s ∈ im.*2).
  Proof.
    eapply tri_post; [|apply tri_input_at]. intros s w [Ht [lb Hlb]]. split; [|by eapply im_at].
    eapply trk_weak; [| |exact Ht]; [by left|done].
  Qed.
  Lemma find_lb lb L : dot_free lb -> tri (trk X0 L yes) (input_lb b lb) (fun s w => trk (fun x => X0 x \/ (x = s /\ valued s)) L yes w /\ s ∈ im.*2).
  Proof.
    intros Hd. eapply tri_post; [|by apply tri_input_lb]. intros s w [Ht Hlb]. split; [|by eapply im_first].
    eapply trk_weak; [| |exact Ht]; [by left|done].
  Qed.
  Lemma tri_ret (P : world D -> Prop) (Q : unit -> world D -> Prop) : (forall w, P w -> Q tt w) -> tri P (ret tt) Q.
  Proof. intros Hp w Hw. cbn. auto. Qed.

  Lemma member_last (fnd : W nat) T g L (R : unit -> world D -> Prop) :
    tri (trk X0 L yes) fnd (fun s w => trk (fun x => X0 x \/ (x = s /\ valued s)) L yes w /\ s ∈ im.*2) ->
    (forall w, trk X0 L yes w -> R tt w) ->
    tri (trk X0 L yes) (s <~ fnd ;; r <~ bind_handle T s ;; upd_blk b (fun x => set_h (g s (bo_h x)) x)) R.
  Proof.
    intros Hf HR. pose proof (tri_member fnd T g (ret tt) L R Hf (tri_ret _ _ HR)) as Hm.
    intros w Hw. specialize (Hm w Hw). unfold bnd in *. destruct (fnd w) as [s w1|?|?|]; [|done..].
    destruct (bind_handle T s w1); [|done..]. exact Hm.
  Qed.
  Lemma tri_x12 L : tri (trk X0 L yes) (bind_x12 b) (fun _ => trk X0 L yes).
  Proof.
    unfold bind_x12.
    apply (tri_member (input_at b 0) TyD (fun s h => Handles (h_in h) (h_out h) (Some s) (h_x2 h) (h_delay h) (h_initial h) (h_trig h))); [apply find_at|].
    apply (member_last (input_at b 1) TyD (fun s h => Handles (h_in h) (h_out h) (h_x1 h) (Some s) (h_delay h) (h_initial h) (h_trig h))); [apply find_at|done].
  Qed.
  Ltac dotfree := intros i ch Hi; repeat (destruct i as [|i]; cbn in Hi; [injection Hi as <-; discriminate|]); discriminate Hi.
  Lemma tri_delay T L : tri (trk X0 L yes) (bind_delay b T) (fun _ => trk X0 L yes).
  Proof.
    unfold bind_delay.
    apply (tri_member (input_lb b "in") T (fun s h => Handles (Some s) (h_out h) (h_x1 h) (h_x2 h) (h_delay h) (h_initial h) (h_trig h))); [apply find_lb; dotfree|].
    apply (tri_member (input_lb b "delay") TyD (fun s h => Handles (h_in h) (h_out h) (h_x1 h) (h_x2 h) (Some s) (h_initial h) (h_trig h))); [apply find_lb; dotfree|].
    apply (member_last (input_lb b "initial") T (fun s h => Handles (h_in h) (h_out h) (h_x1 h) (h_x2 h) (h_delay h) (Some s) (h_trig h))); [apply find_lb; dotfree|done].
  Qed.
  Lemma tri_check dbg T (P : world D -> Prop) : tri P (check_inputs dbg b T) (fun _ => P).
  Proof.
    intros w Hw. unfold check_inputs, bnd, get_blk. destruct (w_blks w !! b) as [o|]; [|done].
    unfold debug_verify, verify. destruct dbg.
    - destruct (Nat.leb 1 _); [|done]. cbn [ret].
      induction (bo_ibus o) as [|e m IH]; cbn; [done|]. unfold bnd, get_sig. destruct (w_sigs w !! snd e); [|done].
      destruct (ty_fits _ _); [exact IH|done].
    - cbn [ret]. induction (bo_ibus o) as [|e m IH]; cbn; [done|]. unfold bnd, get_sig. destruct (w_sigs w !! snd e); [|done]. exact IH.
  Qed.
  Lemma tri_in T L : tri (trk X0 L yes) (bind_in b T) (fun _ => trk X0 L yes).
  Proof. by apply tri_bind_in. Qed.
  Lemma tri_out T X L : tri (trk X L yes) (bind_out b T) (fun _ => trk X L yes).
  Proof. eapply tri_post; [|apply (tri_bind_out T X L yes yes); done]. intros r w Hw. eapply trk_weak; [| |exact Hw]; [by left|done]. Qed.

  (** Memory, Integrator, TriggeredIntegrator *)
  Lemma tri_adjust_drop X L HP s : tri (trk X L HP) (adjust_link b s drop_req) (fun _ => trk (fun x => X x /\ x ≠ s) L HP).
  Proof.
    intros w (HK & o & Ho & Hc & Hi & Hoo & Hnd & Hr & Hl & HH). cbn. split; [done|].
    eexists. cbn. rewrite list_lookup_alter, Ho. split; [done|]. cbn. rewrite map_pair_ids. split_and!; try done.
    intros x. by rewrite req_drop, Hr.
  Qed.
  Lemma tri_adjust_add X (L : nat -> Prop) HP s : L s -> tri (trk X L HP) (adjust_link b s add_req) (fun _ => trk (fun x => X x \/ x = s) L HP).
  Proof.
    intros Hs w (HK & o & Ho & Hc & Hi & Hoo & Hnd & Hr & Hl & HH). cbn. split; [done|].
    eexists. cbn. rewrite list_lookup_alter, Ho. split; [done|]. cbn. rewrite map_pair_ids. split_and!; try done.
    intros x. rewrite req_add, Hr. specialize (Hl s Hs). naive_solver.
  Qed.
  Lemma tri_memory T : length im = 1 ->
    tri (trk X0 any yes) (bind_in b T ;;; bind_out b T ;;; unrequire_in b) (fun _ => trk any any yes).
  Proof.
    intros Hlen. eapply tri_bnd.
    { apply (tri_bind_in T any yes (fun h => exists lb s, im !! 0 = Some (lb, s) /\ h_in h = Some s)). intros h lb s Hs _. eauto. }
    skip. eapply tri_bnd.
    { apply (tri_bind_out T X0 any _ (fun h => exists lb s, im !! 0 = Some (lb, s) /\ h_in h = Some s)). intros h lb s Hs _ Hp. exact Hp. }
    skip. intros w Hw. unfold unrequire_in, bnd, get_blk. destruct (w_blks w !! b) as [o|] eqn:Ho; [|done].
    destruct (trk_blk _ _ _ _ _ Hw Ho) as (_ & _ & lb & s & Hs & Hin). rewrite Hin.
    pose proof (tri_adjust_drop _ _ _ s w Hw) as Hd. destruct (adjust_link b s drop_req w) as [u w'|?|?|]; [|done..].
    eapply trk_weak; [| |eapply trk_equiv; [|exact Hd]]; [by intros ? []|done|].
    intros x. split; [|done]. intros [[Hx _] Hne]. destruct im as [|e [|? ?]]; try done. cbn in Hs, Hx.
    apply elem_of_list_singleton in Hx. simplify_eq.
  Qed.
  Lemma tri_deriv X L HP T s ds : tri (trk X L HP) (set_deriv T s ds) (fun _ w => trk X L HP w /\ exists k, K !! ds = Some k /\ ty_fits T k = true).
  Proof.
    intros w (HK & Hw). unfold set_deriv, bnd, get_sig. pose proof (kind_at w ds HK) as Hkd.
    destruct (w_sigs w !! ds) as [od|]; [|done]. cbn in Hkd. unfold verify. destruct (ty_fits T (so_kind od)) eqn:Ef; [|done]. cbn [ret].
    destruct (w_sigs w !! s) as [o|] eqn:Eo; [|done]. unfold put_sig, modify. destruct (Nat.eqb _ _); [|done]. cbn. split; [|eauto].
    split; [|exact Hw]. cbn. rewrite <- HK. apply list_eq. intros i. rewrite !list_lookup_fmap. destruct (decide (i = s)) as [->|Hne].
    - rewrite list_lookup_insert by (by eapply lookup_lt_Some). by rewrite Eo.
    - by rewrite list_lookup_insert_ne.
  Qed.
  Definition first_in (x : nat) : Prop := exists lb, im !! 0 = Some (lb, x).
  Definition first_out (x : nat) : Prop := exists lb, om !! 0 = Some (lb, x).
  Lemma tri_integ T :
    tri (trk X0 any yes) (bind_out b T ;;; bind_integ b T)
        (fun _ w => trk (fun x => (X0 x /\ ~ first_in x) \/ first_out x) any yes w /\
           forall x, first_in x -> exists k, K !! x = Some k /\ ty_fits T k = true).
  Proof.
    eapply tri_bnd.
    { apply (tri_bind_out T X0 any _ (fun h => exists s, first_out s /\ h_out h = Some s)). intros h lb s Hs _ _. exists s. split; [by exists lb|done]. }
    skip. unfold bind_integ. eapply tri_bnd; [apply tri_input_at|]. intros s. cbn beta.
    intros w [Hw [lb Hlb]]. unfold bnd at 1, get_blk. destruct (w_blks w !! b) as [o|] eqn:Ho; [|done].
    destruct (trk_blk _ _ _ _ _ Hw Ho) as (_ & _ & so & Hso & Hout). rewrite Hout. revert w Hw Ho.
    intros w Hw _.
    assert (tri (trk (fun x => X0 x \/ x = s /\ valued s) (fun x => (any x \/ first_out x) \/ x = s /\ valued s) yes)
      (set_deriv T so s ;;; adjust_link b s drop_req ;;; adjust_link b so add_req)
      (fun _ w => trk (fun x => (X0 x /\ ~ first_in x) \/ first_out x) any yes w /\
           forall x, first_in x -> exists k, K !! x = Some k /\ ty_fits T k = true)) as Htri.
    { eapply tri_bnd; [apply tri_deriv|]. skip. eapply (tri_pre _ (fun w => trk (fun x => X0 x \/ x = s /\ valued s) (fun x => (any x \/ first_out x) \/ x = s /\ valued s) yes w /\ exists k, K !! s = Some k /\ ty_fits T k = true)); [done|].
      intros w2 [Hw2 Hk]. pose proof (tri_bnd _ _ _ _ _ (tri_adjust_drop (fun x => X0 x \/ x = s /\ valued s) (fun x => (any x \/ first_out x) \/ x = s /\ valued s) yes s)
        (fun _ => tri_adjust_add (fun x => (X0 x \/ x = s /\ valued s) /\ x ≠ s) (fun x => (any x \/ first_out x) \/ x = s /\ valued s) yes so (or_introl (or_intror Hso))) w2 Hw2) as Hd.
      destruct (bnd _ _ w2) as [u w3|?|?|]; [|done..]. split.
      - eapply trk_weak; [| |eapply trk_equiv; [|exact Hd]]; [by intros ? []|done|].
        intros x. assert (first_in x <-> x = s) as Hfi by (unfold first_in; naive_solver).
        assert (first_out x <-> x = so) as Hfo by (unfold first_out in *; naive_solver). rewrite Hfi, Hfo. naive_solver.
      - intros x Hx. assert (x = s) as -> by (unfold first_in in Hx; naive_solver). done. }
    apply Htri. eapply trk_weak; [| |exact Hw]; done.
  Qed.
  Lemma tri_trig X HP : tri (trk X any HP) (bind_trig b)
    (fun _ w => exists s, first_entry im "trigger" s /\ (exists k, K !! s = Some k /\ ty_fits TyB k = true) /\ trk (fun x => X x \/ x = s) any yes w).
  Proof.
    unfold bind_trig. eapply tri_bnd; [apply tri_input_lb; dotfree|]. intros s. cbn beta.
    eapply tri_bnd; [apply tri_bind_handle; by intros w [[? _] _]|]. skip. intros w [[Ht Hlb] Hf].
    pose proof (tri_upd_h (fun x => X x \/ x = s) any HP yes (fun h => Handles (h_in h) (h_out h) (h_x1 h) (h_x2 h) (h_delay h) (h_initial h) (Some s))) as Hu.
    specialize (Hu ltac:(done) w). cbn in Hu |- *. exists s. split_and!; [done|done|]. apply Hu.
    pose proof (fits_valued _ _ Hf) as Hv. eapply trk_weak; [| |eapply trk_equiv; [|exact Ht]]; [by intros ? []|done|]. naive_solver.
  Qed.
  End track.

  Definition leaf_of (b : nat) (o : blkobj D) : leaf D :=
    Leaf b (bo_cls o) (bo_ibus o) (bo_obus o) (bo_h o) (bo_linked o).
  Lemma req_required b o s : s ∈ required (leaf_of b o) <-> req (bo_linked o) s.
  Proof.
    unfold required, req. cbn. change (map fst) with (fmap (M:=list) (@fst nat N)). rewrite elem_of_list_fmap. split.
    - intros ([s' f] & -> & Hin). apply elem_of_list_filter in Hin as [Hf Hin]. eauto.
    - intros (f & Hin & Hf). exists (s, f). split; [done|]. by apply elem_of_list_filter.
  Qed.
End wait.

(** C13.  [im], [om]: the entries of the two buses, [V]: the value signals. *)
Definition waits {D} (c : cls D) (im om : list (string * nat)) (V : nat -> Prop) (s : nat) : Prop :=
  match c with
  | CMemory _ => False
  | CInteg _ => exists lb, om !! 0 = Some (lb, s)
  | CTrig _ => (exists lb, om !! 0 = Some (lb, s)) \/ first_entry im "trigger" s
  | _ => s ∈ im.*2 /\ V s
  end.
Definition is_value {D} (w : world D) (s : nat) : Prop := exists os, w_sigs w !! s = Some os /\ so_kind os ≠ KBus.

Theorem C13_required : forall D `{NumOps D} dbg (w w' : world D) b o ib oi ob oo o', wreach dbg w ->
  w_blks w !! b = Some o -> w_sigs w !! ib = Some oi -> w_sigs w !! ob = Some oo ->
  (forall T, bo_cls o = CTrig T -> T = TyD \/ T = TyA) ->
  connect dbg b ib ob w = Ok tt w' -> w_blks w' !! b = Some o' ->
  forall s, s ∈ required (leaf_of b o') <-> waits (bo_cls o) (so_mem oi) (so_mem oo) (is_value w) s.
Proof.
  intros D ? dbg w w' b o ib oi ob oo o' Hw Ho Hi Hoo HT Hc Ho' s. rewrite req_required.
  pose proof (reach_ok dbg w Hw) as Hok. rewrite (connect_split _ _ _ _ _ _ Ho) in Hc. unfold bnd in Hc.
  pose proof (block_connect_eq b ib ob w) as Hb. destruct (block_connect b ib ob w) as [u w1|?|?|]; [|done..].
  destruct Hb as (o1 & im & om & Ho1 & (oi1 & Hi1 & Ki1 & <-) & (oo1 & Hoo1 & Ko1 & <-) & Hcf & Pi & Po & Hids & ->). simplify_eq.
  destruct (ok_unbound _ Hok _ _ Ho Hcf) as (Hh & _ & _ & Hl).
  pose proof (wi_ctor _ _ (ok_wires _ Hok _ _ Ho)) as Hct.
  set (K := so_kind <$> w_sigs w).
  assert (forall x, valued K x <-> is_value w x) as HV.
  { intros x. unfold valued, is_value, K. rewrite list_lookup_fmap. destruct (w_sigs w !! x); cbn; naive_solver. }
  assert (trk K b (bo_cls o) (so_mem oi) (so_mem oo) (X0 K (so_mem oi)) any yes (conn_world w b (so_mem oi) (so_mem oo))) as Ht.
  { split; [done|]. eexists. unfold conn_world. rewrite (upd_lookup _ _ _ _ Ho). split; [done|]. cbn. rewrite Hl. split_and!; try done.
    - apply add_links_nodup, add_links_nodup, NoDup_nil_2.
    - intros x. rewrite req_add_outs, req_add_links by done. rewrite (vsig_valued K w x) by done. unfold X0.
      assert (~ req [] x) by (intros (? & ?%elem_of_nil & _); done). naive_solver. }
  assert (forall X, trk K b (bo_cls o) (so_mem oi) (so_mem oo) X any yes w' -> req (bo_linked o') s <-> X s) as Hend.
  { intros X (_ & o2 & Ho2 & _ & _ & _ & _ & Hr & _). simplify_eq. apply Hr. }
  assert (X0 K (so_mem oi) s <-> s ∈ (so_mem oi).*2 /\ is_value w s) as HX by (unfold X0; by rewrite HV).
  destruct (is_builder (bo_cls o)) eqn:Eb.
  - pose proof (rest_builder dbg (bo_cls o) b ib ob Eb (conn_world w b (so_mem oi) (so_mem oo))) as Hr. rewrite Hc in Hr.
    destruct Ht as (_ & o2 & Ho2 & _ & _ & _ & _ & Hr2 & _). destruct (ol_blk _ _ _ Hr _ _ Ho2) as (o3 & Ho3 & _ & HW).
    simplify_eq. destruct (HW ltac:(done)) as [(_ & _ & _ & _ & El) _]. rewrite El, Hr2, HX. by destruct (bo_cls o).
  - assert (forall Q, tri (trk K b (bo_cls o) (so_mem oi) (so_mem oo) (X0 K (so_mem oi)) any yes) (rest_of dbg (bo_cls o) b ib ob) Q -> Q tt w') as Hfin.
    { intros Q Htri. specialize (Htri _ Ht). by rewrite Hc in Htri. }
    destruct (bo_cls o) as [T ?|T ?|?|?|T ?|T ?|T ?|T ?|T ?| | |T|T|T ?| |T|T|? ?|?|? ? ?|] eqn:Ec; try done;
      cbn [rest_of after_connect waits] in *.
    all: try (rewrite <- HX; apply (Hend (X0 K (so_mem oi))); match type of Hend with forall X, trk _ _ ?c _ _ _ _ _ _ -> _ =>
        apply (Hfin (fun _ => trk K b c (so_mem oi) (so_mem oo) (X0 K (so_mem oi)) any yes)) end;
      first [ by apply tri_ret | apply tri_out
            | eapply tri_bnd; [apply tri_in|intros ?; apply tri_out]
            | eapply tri_bnd; [apply tri_out|intros ?; first [apply tri_check|apply tri_x12|apply tri_delay]] ]).
    + (* Memory *) cbn in Hct. destruct Hct as (_ & Hn & _). rewrite Hn in Pi.
      assert (length (so_mem oi) = 1) as Hlen.
      { unfold port_ok, NoIOLimit in Pi. cbn in Pi. apply N.eqb_eq in Pi. lia. }
      apply (Hend any). apply (Hfin (fun _ => trk K b (CMemory T) (so_mem oi) (so_mem oo) any any yes)). by apply tri_memory.
    + (* Integrator *) cbn in Hct. destruct Hct as (_ & Hn & _). rewrite Hn in Pi.
      assert (length (so_mem oi) = 1) as Hlen.
      { unfold port_ok, NoIOLimit in Pi. cbn in Pi. apply N.eqb_eq in Pi. lia. }
      pose proof (Hfin _ (tri_integ K b _ (so_mem oi) (so_mem oo) T)) as [Hq _]. rewrite (Hend _ Hq).
      split; [|by right]. intros [[[Hx _] Hne]|?]; [|done]. destruct Hne. destruct (so_mem oi) as [|[lb x] [|? ?]]; try done.
      apply elem_of_list_singleton in Hx as ->. by exists lb.
    + (* TriggeredIntegrator *) cbn in Hct. destruct Hct as (_ & Hn & _). rewrite Hn in Pi.
      assert (length (so_mem oi) = 2) as Hlen.
      { unfold port_ok, NoIOLimit in Pi. cbn in Pi. apply N.eqb_eq in Pi. lia. }
      pose proof (Hfin (fun _ w => exists x, first_entry (so_mem oi) "trigger" x /\ (exists k, K !! x = Some k /\ ty_fits TyB k = true) /\
        (forall y, first_in (so_mem oi) y -> exists k, K !! y = Some k /\ ty_fits T k = true) /\
        trk K b (CTrig T) (so_mem oi) (so_mem oo) (fun y => ((X0 K (so_mem oi) y /\ ~ first_in (so_mem oi) y) \/ first_out (so_mem oo) y) \/ y = x) any yes w)) as Hq.
      assert (exists x, first_entry (so_mem oi) "trigger" x /\ (exists k, K !! x = Some k /\ ty_fits TyB k = true) /\
        (forall y, first_in (so_mem oi) y -> exists k, K !! y = Some k /\ ty_fits T k = true) /\
        trk K b (CTrig T) (so_mem oi) (so_mem oo) (fun y => ((X0 K (so_mem oi) y /\ ~ first_in (so_mem oi) y) \/ first_out (so_mem oo) y) \/ y = x) any yes w')
        as (x & Hx & Hkx & Hfi & Hq').
      { apply Hq. intros w2 Hw2. pose proof (tri_integ K b (CTrig T) (so_mem oi) (so_mem oo) T w2 Hw2) as H1. unfold bnd in *.
        destruct (bind_out b T w2) as [? w3|?|?|]; [|done..]. destruct (bind_integ b T w3) as [? w4|?|?|]; [|done..].
        destruct H1 as [H1 H2]. pose proof (tri_trig K b (CTrig T) (so_mem oi) (so_mem oo) _ _ w4 H1) as H3.
        destruct (bind_trig b w4); [|done..]. destruct H3 as (x & ? & ? & ?). exists x. by split_and!. }
      rewrite (Hend _ Hq'). split.
      * intros [[[[Hs _] Hne]|?]| ->]; [|by left|by right]. right.
        assert (s = x) as ->; [|done]. destruct Hx as (i & Hix & _).
        destruct (so_mem oi) as [|[l1 x1] [|[l2 x2] [|? ?]]]; try done.
        assert (s ≠ x1) as Hs1 by (intros ->; apply Hne; by exists l1).
        apply elem_of_cons in Hs as [->|Hs]; [done|]. apply elem_of_list_singleton in Hs as ->. cbn.
        destruct i as [|[|i]]; cbn in Hix; [|congruence|done]. injection Hix as -> ->. exfalso.
        destruct (Hfi x) as (k & Hk & Hf); [by exists "trigger"%string|]. destruct Hkx as (k' & Hk' & Hf'). simplify_eq.
        destruct (HT T eq_refl) as [->| ->]; by destruct k'.
      * intros [?|Hs]; [by left; right|]. right. by eapply first_entry_fun.
Qed.

(** A Memory, an Integrator and a Gain from x to y, a TriggeredIntegrator whose
    trigger comes second, and a Function reading x, a bus and y. *)
Definition wait_ops : list (wop Q) :=
  [ ONewSig KScalar "x"; ONewSig KScalar "y"; ONewSig KBool "t";
    ONewBus [0] ""; ONewBus [1] ""; ONewBusL [("in", 0); ("trigger", 2)] ""; ONewBusL [("a", 0); ("b", 3); ("c", 1)] "";
    ONewBlock (CMemory TyD) (LMem (VS 0%Q)) None "m" 1 1;
    ONewBlock (CInteg TyD) (LInteg (VS 0%Q) false) None "i" 1 1;
    ONewBlock (CGain TyD (VS 2%Q)) LNone None "g" 1 1;
    ONewBlock (CTrig TyD) (LInteg (VS 0%Q) false) None "ti" 2 1;
    ONewBlock (CFunction (fun _ _ _ => PRet tt)) LNone None "f" NoIOLimit NoIOLimit ]%string.
Definition wait_world : world Q := world_of true wait_ops.
Lemma wait_reach : wreach true wait_world.
Proof. reach_ops wait_world wait_ops. Qed.
Example C13_ex :
  wreach true wait_world /\
  Forall (fun '(b, ib, ob, l) =>
    match connect true b ib ob wait_world with
    | Ok _ w' => (fun o => required (leaf_of b o)) <$> w_blks w' !! b = Some l
    | _ => False
    end) [(0, 3, 4, []); (1, 3, 4, [1]); (2, 3, 4, [0]); (3, 5, 4, [2; 1]); (4, 6, 4, [0; 1])].
Proof. split; [exact wait_reach|]. repeat (apply Forall_cons; split; [by vm_compute|]). by apply Forall_nil. Qed.
Print Assumptions C13_required.
