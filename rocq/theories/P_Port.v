(** Members of blocks are the signals of their ports, and derivative links come from
    integrators. *)
From stdpp Require Import prelude gmap strings.
From Coq Require Import ZArith.
From Verif Require Import Num Res Name Store Leaf Sched World Api Steps P_Steps P_Ops P_World P_Frame P_Bound.

Section port.
  Context {D : Type} `{NumOps D}.
  Implicit Types (w : world D).
  Notation W := (M (world D)).
  Notation yes := (fun _ : world D => True).

  (** ** Members *)
  Definition ported_blk (o : blkobj D) : Prop := ported (bo_cls o) (bo_ibus o) (bo_obus o) (bo_h o).
  Definition ports_ok w : Prop := unbound w /\ forall b o, w_blks w !! b = Some o -> ported_blk o.
  Lemma ported_none (c : cls D) im om : ported c im om no_handles.
  Proof. unfold ported, at_port, at_name. cbn. split_and!; try done. by destruct c. Qed.
  Lemma ports_upd w b f : (forall x, w_blks w !! b = Some x -> ported_blk x -> ported_blk (f x)) ->
    (forall b o, w_blks w !! b = Some o -> ported_blk o) -> forall b' o, w_blks (upd w b f) !! b' = Some o -> ported_blk o.
  Proof.
    intros Hf Hp b' o Ho. apply upd_some in Ho as (x & Hx & ->). destruct (decide (b' = b)) as [->|]; [|by eapply Hp]. eauto.
  Qed.
  Lemma ports_add w x : ported_blk x -> (forall b o, w_blks w !! b = Some o -> ported_blk o) ->
    forall b o, w_blks (addblk w x) !! b = Some o -> ported_blk o.
  Proof. intros Hx Hp b o Ho. apply addblk_some in Ho as [Ho|[_ ->]]; eauto. Qed.
  Lemma step_ports w w' : step w w' -> ports_ok w -> ports_ok w'.
  Proof.
    intros Hs [Hu Hp]. split; [by eapply step_unbound|]. destruct Hs; try exact Hp.
    - apply ports_add; [apply ported_none|done].
    - apply ports_upd; [by intros x ? Hx|]. apply ports_add; [apply ported_none|done].
    - apply ports_upd; [by intros x ? Hx|done].
    - apply ports_upd; [by intros x ? Hx|]. apply ports_upd; [by intros x ? Hx|done].
    - apply ports_upd; [by intros x ? Hx|done].
    - apply ports_upd; [|done]. intros x Hx _. rewrite H0 in Hx. injection Hx as <-. destruct (Hu b o H0 H1) as (Hh & _).
      unfold ported_blk. cbn. rewrite Hh. apply ported_none.
    - apply ports_upd; [by intros x ? Hx|done].
    - apply ports_upd; [by intros x ? Hx|done].
    - apply ports_upd; [by intros x ? Hx|done].
    - apply ports_upd; [|done]. intros x Hx Hpx. rewrite H0 in Hx. injection Hx as <-. unfold ported_blk. cbn. auto.
    - apply ports_upd; [|done]. intros x Hx Hpx. rewrite H0 in Hx. injection Hx as <-. unfold ported_blk in *. cbn. by rewrite H1 in Hpx.
  Qed.
  Lemma steps_ports w w' : steps w w' -> ports_ok w -> ports_ok w'.
  Proof. intros Hs. induction Hs; eauto using step_ports. Qed.
  Lemma reach_ports dbg w : wreach dbg w -> ports_ok w.
  Proof. intros Hr. eapply steps_ports; [by eapply reach_steps|]. split; by intros b o Ho. Qed.

  (** ** Connected integrators stay what they are. *)
  Definition integ_cls (c : cls D) : bool := match c with CInteg _ | CTrig _ => true | _ => false end.
  Definition joins (o : blkobj D) (z d : nat) : Prop :=
    bo_conn o = true /\ integ_cls (bo_cls o) = true /\ pout 0 o z /\ pin 0 o d.
  Lemma joins_step w w' b o z d : step w w' -> w_blks w !! b = Some o -> joins o z d -> exists o', w_blks w' !! b = Some o' /\ joins o' z d.
  Proof.
    intros Hs Ho Hj.
    assert (forall w b1 f, (forall x, w_blks w !! b1 = Some x -> joins x z d -> joins (f x) z d) ->
      (exists o', w_blks w !! b = Some o' /\ joins o' z d) -> exists o', w_blks (upd w b1 f) !! b = Some o' /\ joins o' z d) as Hupd.
    { intros w1 b1 f Hf (o' & Ho' & Hj'). destruct (decide (b = b1)) as [->|Hne].
      - exists (f o'). split; [by apply upd_lookup|]. by apply Hf.
      - exists o'. by rewrite upd_lookup_ne. }
    assert (forall w x, (exists o', w_blks w !! b = Some o' /\ joins o' z d) -> exists o', w_blks (addblk w x) !! b = Some o' /\ joins o' z d) as Hadd.
    { intros w1 x (o' & Ho' & Hj'). exists o'. split; [|done]. by apply lookup_app_l_Some. }
    destruct Hs; try (by exists o); repeat first [apply Hupd|apply Hadd]; try (by exists o); try (by intros x ? Hx).
    - intros x Hx [Hc _]. rewrite H0 in Hx. injection Hx as <-. congruence.
    - intros x Hx (_ & Hc & _). rewrite H0 in Hx. injection Hx as <-. by rewrite H1 in Hc.
  Qed.
  Lemma joins_steps w w' b o z d : steps w w' -> w_blks w !! b = Some o -> joins o z d -> exists o', w_blks w' !! b = Some o' /\ joins o' z d.
  Proof.
    intros Hs. revert o. induction Hs as [w|w w1 w2 H1 _ IH]; intros o Ho Hj; [by exists o|].
    destruct (joins_step _ _ _ _ _ _ H1 Ho Hj) as (o1 & Ho1 & Hj1). by eapply IH.
  Qed.
  Lemma conn_step w w' b : step w w' -> (exists o, w_blks w !! b = Some o /\ bo_conn o = true) -> exists o, w_blks w' !! b = Some o /\ bo_conn o = true.
  Proof.
    intros Hs Hj.
    assert (forall w b1 f, (forall x, bo_conn x = true -> bo_conn (f x) = true) ->
      (exists o', w_blks w !! b = Some o' /\ bo_conn o' = true) -> exists o', w_blks (upd w b1 f) !! b = Some o' /\ bo_conn o' = true) as Hupd.
    { intros w1 b1 f Hf (o' & Ho' & Hj'). destruct (decide (b = b1)) as [->|Hne].
      - exists (f o'). split; [by apply upd_lookup|]. by apply Hf.
      - exists o'. by rewrite upd_lookup_ne. }
    assert (forall w x, (exists o', w_blks w !! b = Some o' /\ bo_conn o' = true) -> exists o', w_blks (addblk w x) !! b = Some o' /\ bo_conn o' = true) as Hadd.
    { intros w1 x (o' & Ho' & Hj'). exists o'. split; [|done]. by apply lookup_app_l_Some. }
    destruct Hs; try exact Hj; repeat first [apply Hupd|apply Hadd]; try exact Hj; by intros x.
  Qed.
  Lemma conn_steps w w' b : steps w w' -> (exists o, w_blks w !! b = Some o /\ bo_conn o = true) -> exists o, w_blks w' !! b = Some o /\ bo_conn o = true.
  Proof. intros Hs. induction Hs; eauto using conn_step. Qed.

  (** ** Derivative links *)
  Definition same_deriv w (z : nat) (d : option nat) : Prop :=
    match w_sigs w !! z with Some o => so_deriv o = d | None => d = None end.
  (** No derivative link changes; new signals have none. *)
  Definition dkeep w w' : Prop :=
    length (w_sigs w) <= length (w_sigs w') /\ forall z o', w_sigs w' !! z = Some o' -> same_deriv w z (so_deriv o').
  #[local] Instance dkeep_pre : PreOrder dkeep.
  Proof.
    split.
    - intros w. split; [done|]. intros z o Ho. unfold same_deriv. by rewrite Ho.
    - intros w1 w2 w3 [L1 H1] [L2 H2]. split; [lia|]. intros z o3 Ho3. specialize (H2 z o3 Ho3). unfold same_deriv in H2.
      destruct (w_sigs w2 !! z) as [o2|] eqn:E2.
      + rewrite <- H2. by apply H1.
      + rewrite H2. unfold same_deriv. apply lookup_ge_None in E2. by rewrite (lookup_ge_None_2 (w_sigs w1)) by lia.
  Qed.
  Lemma dkeep_sigs w w' : w_sigs w' = w_sigs w -> dkeep w w'.
  Proof. intros E. split; [by rewrite E|]. intros z o Ho. rewrite E in Ho. unfold same_deriv. by rewrite Ho. Qed.
  Lemma dkeep_upd t f : wpres dkeep (upd_blk t f).
  Proof. intros w. cbn. by apply dkeep_sigs. Qed.
  Lemma dkeep_rename_sig s name : wpres dkeep (rename_sig s name).
  Proof.
    intros w. unfold rename_sig, bnd, get_sig, put_sig, modify. destruct (w_sigs w !! s) as [o|] eqn:E; [|done]. cbn.
    split; cbn; [by rewrite insert_length|]. intros z o' Ho'. unfold same_deriv. apply list_lookup_insert_Some in Ho' as [(-> & <- & _)|(Hne & Ho')].
    - by rewrite E.
    - by rewrite Ho'.
  Qed.
  Lemma dkeep_alloc_sig o : so_deriv o = None -> wpres dkeep (alloc_sig o).
  Proof.
    intros Hn w. cbn. split; cbn; [rewrite app_length; lia|]. intros z o' Ho'. unfold same_deriv. apply lookup_app_Some in Ho' as [Ho'|[Hl Ho']].
    - by rewrite Ho'.
    - apply list_lookup_singleton_Some in Ho' as [_ <-]. by rewrite lookup_ge_None_2.
  Qed.
  Lemma dkeep_alloc_blk o : wpres dkeep (alloc_blk o).
  Proof. intros w. cbn. by apply dkeep_sigs. Qed.
  Ltac ds := lazymatch goal with
    | |- wpres _ (bnd _ _) => apply wpres_bnd; [apply _| |intros ?]
    | |- wpres _ (ret _) => apply wpres_ret, _
    | |- wpres _ (throw _) => apply wpres_throw, _
    | |- wpres _ (undef _) => apply wpres_undef
    | |- wpres _ (fun _ => OOF) => by intros ?
    | |- wpres _ (verify _ _) => apply wpres_verify, _
    | |- wpres _ (debug_verify _ _ _) => apply wpres_debug, _
    | |- wpres _ (get_sig _) => apply wpres_get_sig, _
    | |- wpres _ (get_blk _) => apply wpres_get_blk, _
    | |- wpres _ (at_index _ _) => apply wpres_at_index, _
    | |- wpres _ (at_label _ _) => apply wpres_at_label, _
    | |- wpres _ (bind_handle _ _) => apply wpres_bind_handle, _
    | |- wpres _ (bus_members _) => apply wpres_bus_members, _
    | |- wpres _ (rename_sig _ _) => apply dkeep_rename_sig
    | |- wpres _ (alloc_sig _) => apply dkeep_alloc_sig; reflexivity
    | |- wpres _ (alloc_blk _) => apply dkeep_alloc_blk
    | |- wpres _ (link_signal _ _ _) => apply wpres_link_signal; [apply _|intros g; apply dkeep_upd]
    | |- wpres _ (forM _ _) => apply wpres_forM; [apply _|intros ?]
    | |- wpres _ (upd_blk _ _) => apply dkeep_upd
    | |- wpres _ (match ?x with _ => _ end) => destruct x
    end.
  Lemma dkeep_bus_entries l : wpres dkeep (bus_entries l).
  Proof. induction l as [|[lb s] l IH]; cbn [bus_entries]; [ds|]. ds; [unfold bus_entry; repeat ds|]. ds; [done|]. ds. Qed.
  Lemma dkeep_new_bus_labelled l name : wpres dkeep (new_bus_labelled l name).
  Proof. unfold new_bus_labelled. ds; [apply dkeep_bus_entries|]. ds. Qed.
  Lemma dkeep_new_bus l name : wpres dkeep (new_bus l name).
  Proof. apply dkeep_new_bus_labelled. Qed.
  Lemma dkeep_new_block c st parent name nin nout : wpres dkeep (new_block c st parent name nin nout).
  Proof. unfold new_block, link_block. repeat ds. Qed.
  Lemma dkeep_set_parent b p : wpres dkeep (set_parent b p).
  Proof. unfold set_parent, link_block. repeat ds. Qed.
  Lemma dkeep_block_connect b ib ob : wpres dkeep (block_connect b ib ob).
  Proof. unfold block_connect. repeat ds. Qed.
  Lemma dkeep_bind_out b T : wpres dkeep (bind_out b T).
  Proof. unfold bind_out, output_at. repeat ds. Qed.
  Lemma dkeep_bind_trig b : wpres dkeep (bind_trig b).
  Proof. unfold bind_trig, input_lb. repeat ds. Qed.
  Lemma dkeep_after dbg c b : integ_cls c = false -> wpres dkeep (after_connect dbg c b).
  Proof.
    intros Hc. destruct c; try done; cbn [after_connect];
      unfold bind_in, bind_out, bind_x12, bind_delay, check_inputs, unrequire_in, adjust_link, input_at, output_at, input_lb; repeat ds.
  Qed.

  (** Links change only by the connection of an integrator. *)
  Definition drv w w' : Prop :=
    length (w_sigs w) <= length (w_sigs w') /\
    forall z o', w_sigs w' !! z = Some o' -> same_deriv w z (so_deriv o') \/
      exists d b o, so_deriv o' = Some d /\ w_blks w' !! b = Some o /\ joins o z d /\ ~ exists o0, w_blks w !! b = Some o0 /\ bo_conn o0 = true.
  Definition R w w' : Prop := ports_ok w -> steps w w' /\ drv w w'.
  #[local] Instance R_pre : PreOrder R.
  Proof.
    split.
    - intros w _. split; [apply rtc_refl|]. split; [done|]. intros z o Ho. left. unfold same_deriv. by rewrite Ho.
    - intros w1 w2 w3 H1 H2 Hu. destruct (H1 Hu) as [S1 [L1 E1]]. destruct (H2 (steps_ports _ _ S1 Hu)) as [S2 [L2 E2]].
      split; [by etrans|]. split; [lia|]. intros z o3 Ho3. destruct (E2 z o3 Ho3) as [Hd|(d & b & o & Hd & Ho & Hj & Hn)].
      + unfold same_deriv in Hd. destruct (w_sigs w2 !! z) as [o2|] eqn:Ez.
        * rewrite <- Hd. destruct (E1 z o2 Ez) as [?|(d & b & o & Hd2 & Ho & Hj & Hn)]; [by left|]. right.
          destruct (joins_steps _ _ _ _ _ _ S2 Ho Hj) as (o' & Ho' & Hj'). exists d, b, o'. done.
        * left. rewrite Hd. unfold same_deriv. apply lookup_ge_None in Ez. by rewrite (lookup_ge_None_2 (w_sigs w1)) by lia.
      + right. exists d, b, o. split_and!; try done. intros Hc. apply Hn. by eapply conn_steps.
  Qed.
  Lemma drv_keep w w' : dkeep w w' -> drv w w'.
  Proof. intros [L1 E1]. split; [done|]. intros z o Ho. left. by apply E1. Qed.
  Lemma wR {A} (m : W A) (Q : A -> world D -> Prop) : doing unbound m Q -> wpres dkeep m -> wpres R m.
  Proof.
    intros Hd Hk w. specialize (Hd w). specialize (Hk w). destruct (m w); try done; intros [Hu _].
    - split; [apply Hd, Hu|by apply drv_keep].
    - split; [apply Hd, Hu|by apply drv_keep].
  Qed.
  (** IntegratorBaseT::connect links its output to its input. *)
  Lemma integ_links b T w o so s lb : w_blks w !! b = Some o -> h_out (bo_h o) = Some so -> bo_ibus o !! 0 = Some (lb, s) ->
    match bind_integ b T w with
    | Ok _ w' => exists oz, w_sigs w' !! so = Some oz /\ so_deriv oz = Some s /\
        length (w_sigs w') = length (w_sigs w) /\ forall z, z ≠ so -> w_sigs w' !! z = w_sigs w !! z
    | Exn _ w' => length (w_sigs w') = length (w_sigs w) /\
        forall z oz, w_sigs w' !! z = Some oz -> w_sigs w !! z = Some oz \/ (z = so /\ so_deriv oz = Some s)
    | _ => True
    end.
  Proof.
    intros Ho Hso Hs. unfold bind_integ, input_at. unfold bnd at 1. unfold bnd at 1, get_blk. rewrite Ho. unfold bnd at 1, at_index. rewrite Hs. cbn [snd ret].
    unfold bnd at 1. pose proof (link_signal_eq b s (N.lor fInput fRequired) w) as Hl.
    destruct (link_signal b s _ w) as [u w1|?|?|]; [|done..]. destruct Hl as [Hlt ->]. unfold ret at 1.
    unfold bnd at 1, get_blk. match goal with |- context [w_blks ?W1 !! b] => set (w1 := W1) end.
    assert (w_sigs w1 = w_sigs w) as Es by done.
    assert (exists o1, w_blks w1 !! b = Some o1 /\ bo_h o1 = bo_h o) as (o1 & Ho1 & Hh1).
    { eexists. split; [by apply upd_lookup|]. done. }
    rewrite Ho1, Hh1, Hso. unfold bnd at 1, set_deriv. unfold bnd at 1, get_sig. rewrite Es. destruct (w_sigs w !! s) as [od|] eqn:Ed; [|done].
    unfold bnd at 1, verify. destruct (ty_fits T (so_kind od)).
    2:{ cbn. split; [done|]. intros z oz Hz. by left. }
    unfold ret at 1. unfold bnd at 1, get_sig. rewrite Es. destruct (w_sigs w !! so) as [oo|] eqn:Eo; [|done].
    unfold bnd at 1, put_sig, modify. rewrite Es. unfold verify. destruct (Nat.eqb _ _).
    - unfold ret. unfold adjust_link, bnd, upd_blk, modify. cbn. eexists. split; [apply list_lookup_insert; by eapply lookup_lt_Some|]. cbn.
      split_and!; [done|by rewrite insert_length|]. intros z Hz. by rewrite list_lookup_insert_ne.
    - unfold throw. cbn. split; [by rewrite insert_length|]. intros z oz Hz. apply list_lookup_insert_Some in Hz as [(-> & <- & _)|(Hne & Hz)]; [by right|by left].
  Qed.
  Lemma integ_none b T w o : w_blks w !! b = Some o -> bo_ibus o !! 0 = None -> exists e, bind_integ b T w = Exn e w.
  Proof. intros Ho Hs. unfold bind_integ, input_at, bnd, get_blk. rewrite Ho. unfold at_index. rewrite Hs. by eexists. Qed.
  (** Derivative links of [w'] are those of [w], except that [so] may be linked to [s]. *)
  Definition dset (so s : nat) w w' : Prop :=
    length (w_sigs w) <= length (w_sigs w') /\
    forall z o', w_sigs w' !! z = Some o' -> same_deriv w z (so_deriv o') \/ (z = so /\ so_deriv o' = Some s).
  Lemma dset_keep so s w1 w2 w3 w4 : dkeep w1 w2 -> dset so s w2 w3 -> dkeep w3 w4 -> dset so s w1 w4.
  Proof.
    intros [L1 H1] [L2 H2] [L3 H3]. split; [lia|]. intros z o4 Ho4. specialize (H3 z o4 Ho4). unfold same_deriv in H3.
    destruct (w_sigs w3 !! z) as [o3|] eqn:E3.
    - rewrite <- H3. destruct (H2 z o3 E3) as [Hd|?]; [|by right]. left. unfold same_deriv in Hd. destruct (w_sigs w2 !! z) as [o2|] eqn:E2.
      + rewrite <- Hd. by apply H1.
      + rewrite Hd. unfold same_deriv. apply lookup_ge_None in E2. by rewrite (lookup_ge_None_2 (w_sigs w1)) by lia.
    - left. rewrite H3. unfold same_deriv. apply lookup_ge_None in E3. by rewrite (lookup_ge_None_2 (w_sigs w1)) by lia.
  Qed.
  Lemma dset_drv so s w w' b o : dset so s w w' -> w_blks w' !! b = Some o -> joins o so s ->
    (~ exists o0, w_blks w !! b = Some o0 /\ bo_conn o0 = true) -> drv w w'.
  Proof. intros [L1 H1] Ho Hj Hn. split; [done|]. intros z o' Ho'. destruct (H1 z o' Ho') as [?|[-> Hd]]; [by left|]. right. by exists s, b, o. Qed.

  Lemma connect_integ_gen b ib ob T (k : W unit) w o : ports_ok w -> w_blks w !! b = Some o -> integ_cls (bo_cls o) = true -> cls_ty (bo_cls o) = T ->
    wpres dkeep k -> doing (self b (bo_cls o) None true) k (fun _ => yes) ->
    match bnd (block_connect b ib ob) (fun _ => bnd (bind_out b T) (fun _ => bnd (bind_integ b T) (fun _ => k))) w with
    | Ok _ w' => drv w w' /\ exists o' z d oz, w_blks w' !! b = Some o' /\ joins o' z d /\ w_sigs w' !! z = Some oz /\ so_deriv oz = Some d
    | Exn _ w' => drv w w'
    | _ => True
    end.
  Proof.
    intros Hp Ho Hc HT Kk Dk. destruct Hp as [Hu Hp].
    unfold bnd at 1. pose proof (do_block_connect b ib ob (bo_cls o) w) as D1. pose proof (dkeep_block_connect b ib ob w) as K1.
    pose proof (block_connect_eq b ib ob w) as E1.
    destruct (block_connect b ib ob w) as [u1 w1|e1 w1|?|]; [|by apply drv_keep|done..].
    destruct D1 as [S1 F1]; [split; [done|by exists o]|].
    assert (~ exists o0, w_blks w !! b = Some o0 /\ bo_conn o0 = true) as Hn.
    { destruct E1 as (o' & im & om & Ho' & _ & _ & Hcf & _). intros (o0 & Ho0 & Hc0). congruence. }
    clear E1. unfold bnd at 1. pose proof (do_bind_out b T (bo_cls o) None HT w1 F1) as D2. pose proof (dkeep_bind_out b T w1) as K2.
    destruct (bind_out b T w1) as [u2 w2|e2 w2|?|] eqn:E2; [|apply drv_keep; by etrans|done..].
    destruct D2 as [S2 F2]. assert (dkeep w w2) as K02 by (by etrans). assert (steps w w2) as S02 by (by etrans).
    destruct (steps_ports w w2 S02) as [Hu2 Hp2]; [by split|].
    destruct (ends_out b T _ _ _ E2) as (o2 & Ho2 & [so Hso]).
    assert (bo_conn o2 = true /\ bo_cls o2 = bo_cls o) as [Hc2 Hcl2].
    { destruct F2 as (o2' & Ho2' & ? & ? & _). simplify_eq. done. }
    assert (pout 0 o2 so) as Hpo. { apply (Hp2 b o2 Ho2). done. }
    unfold bnd at 1. destruct (bo_ibus o2 !! 0) as [[lb s]|] eqn:Ei.
    2:{ destruct (integ_none b T w2 o2 Ho2 Ei) as [e ->]. by apply drv_keep. }
    assert (joins o2 so s) as Hj. { split_and!; try done; [by rewrite Hcl2|by exists lb]. }
    pose proof (integ_links b T w2 o2 so s lb Ho2 Hso Ei) as K3.
    assert (doing (self b (bo_cls o) None true) (bind_integ b T) (fun _ => self b (bo_cls o) None true)) as D3.
    { apply do_bind_integ; [done|]. destruct (bo_cls o); try done; [left|right]; eauto. }
    specialize (D3 w2 F2). destruct (bind_integ b T w2) as [u3 w3|e3 w3|?|]; [| |done..].
    - destruct D3 as [S3 F3]. destruct K3 as (oz & Hz & Hdz & L3 & Hoth).
      assert (dset so s w2 w3) as K3.
      { split; [lia|]. intros z o' Ho'. destruct (decide (z = so)) as [->|Hne]; [right; split; [done|congruence]|left].
        rewrite Hoth in Ho' by done. unfold same_deriv. by rewrite Ho'. }
      specialize (Dk w3 F3). specialize (Kk w3).
      destruct (k w3) as [u4 w4|e4 w4|?|]; [| |done..].
      + destruct Dk as [S4 _]. destruct (joins_steps w2 w4 b o2 so s) as (o4 & Ho4 & Hj4); [by etrans|done|done|].
        split; [eapply dset_drv; [by eapply dset_keep|done|done|done]|].
        destruct Kk as [L4 K4]. destruct (lookup_lt_is_Some_2 (w_sigs w4) so) as [oz4 Hz4].
        { apply lookup_lt_Some in Hz. lia. }
        exists o4, so, s, oz4. split_and!; try done. specialize (K4 _ _ Hz4). unfold same_deriv in K4. rewrite Hz in K4. congruence.
      + destruct (joins_steps w2 w4 b o2 so s) as (o4 & Ho4 & Hj4); [by etrans|done|done|].
        eapply dset_drv; [by eapply dset_keep|done|done|done].
    - destruct K3 as [L3 K3]. destruct (joins_steps w2 w3 b o2 so s) as (o4 & Ho4 & Hj4); [done|done|done|].
      eapply (dset_drv so s _ _ b o4); [|done|done|done]. eapply dset_keep; [done| |reflexivity]. split; [lia|].
      intros z o' Ho'. destruct (K3 z o' Ho') as [Hz|[-> Hz]]; [left|by right]. unfold same_deriv. by rewrite Hz.
  Qed.
  Lemma connect_integ dbg b ib ob w o : ports_ok w -> w_blks w !! b = Some o -> integ_cls (bo_cls o) = true ->
    match connect_simple dbg b ib ob w with
    | Ok _ w' => drv w w' /\ exists o' z d oz, w_blks w' !! b = Some o' /\ joins o' z d /\ w_sigs w' !! z = Some oz /\ so_deriv oz = Some d
    | Exn _ w' => drv w w'
    | _ => True
    end.
  Proof.
    intros Hp Ho Hc. rewrite (connect_simple_split _ _ _ _ _ _ Ho).
    destruct (bo_cls o) as [T ?|T ?|?|?|T ?|T ?|T ?|T ?|T ?| | |T|T|T ?| |T|T|? ?|?|? ? ?|] eqn:Ec; try done; cbn [after_connect].
    - pose proof (connect_integ_gen b ib ob T (ret tt) w o Hp Ho) as Hg. rewrite Ec in Hg.
      specialize (Hg eq_refl eq_refl (wpres_ret dkeep tt)). specialize (Hg (doing_ret tt _ _ (fun _ _ => I))).
      revert Hg. unfold bnd, ret. destruct (block_connect b ib ob w) as [u1 w1|?|?|]; try done. destruct (bind_out b T w1) as [u2 w2|?|?|]; try done.
      by destruct (bind_integ b T w2).
    - pose proof (connect_integ_gen b ib ob T (bind_trig b) w o Hp Ho) as Hg. rewrite Ec in Hg.
      by apply (Hg eq_refl eq_refl (dkeep_bind_trig b)), do_bind_trig.
  Qed.

  (** ** All operations *)
  Lemma R_connect_simple dbg b ib ob : wpres R (connect_simple dbg b ib ob).
  Proof.
    intros w. pose proof (do_connect_simple dbg b ib ob w) as Hd.
    assert (ports_ok w -> match connect_simple dbg b ib ob w with Ok _ w' | Exn _ w' => drv w w' | _ => True end) as Hr.
    { intros Hp. destruct (w_blks w !! b) as [o|] eqn:Ho.
      - destruct (integ_cls (bo_cls o)) eqn:Ec.
        + pose proof (connect_integ dbg b ib ob w o Hp Ho Ec) as Hi. destruct (connect_simple dbg b ib ob w); try done. apply Hi.
        + rewrite (connect_simple_split _ _ _ _ _ _ Ho).
          assert (wpres dkeep (block_connect b ib ob ;;; after_connect dbg (bo_cls o) b)) as Hk.
          { apply wpres_bnd; [apply _|apply dkeep_block_connect|intros _; by apply dkeep_after]. }
          specialize (Hk w). destruct (bnd _ _ w); try done; by apply drv_keep.
      - unfold connect_simple, bnd, get_blk. by rewrite Ho. }
    destruct (connect_simple dbg b ib ob w); try done; intros Hp; (split; [apply Hd; apply Hp|by apply Hr]).
  Qed.
  Lemma R_piece {A} (m : W A) (Q : A -> world D -> Prop) : doing yes m Q -> wpres dkeep m -> wpres R m.
  Proof. intros Hd. by eapply wR, doing_unbound'. Qed.
  Ltac rs := lazymatch goal with
    | |- wpres _ (bnd _ _) => apply wpres_bnd; [apply _| |intros ?]
    | |- wpres _ (ret _) => apply wpres_ret, _
    | |- wpres _ (throw _) => apply wpres_throw, _
    | |- wpres _ (undef _) => apply wpres_undef
    | |- wpres _ (fun _ => OOF) => by intros ?
    | |- wpres _ (verify _ _) => apply wpres_verify, _
    | |- wpres _ (debug_verify _ _ _) => apply wpres_debug, _
    | |- wpres _ (get_sig _) => apply wpres_get_sig, _
    | |- wpres _ (get_blk _) => apply wpres_get_blk, _
    | |- wpres _ (at_label _ _) => apply wpres_at_label, _
    | |- wpres _ (bus_members _) => apply wpres_bus_members, _
    | |- wpres _ (forM _ _) => apply wpres_forM; [apply _|intros ?]
    | |- wpres _ (connect_simple _ _ _ _) => apply R_connect_simple
    | |- wpres _ (new_bus _ _) => eapply R_piece; [apply do_new_bus|apply dkeep_new_bus]
    | |- wpres _ (rename_blk _ _) => eapply R_piece; [apply do_rename_blk|unfold rename_blk; repeat ds]
    | |- wpres _ (set_parent _ _) => eapply R_piece; [apply do_set_parent|apply dkeep_set_parent]
    | |- wpres _ (block_connect _ _ _) => eapply wR; [apply do_block_connect'|apply dkeep_block_connect]
    | |- wpres _ (match ?x with _ => _ end) => destruct x
    end.
  Lemma busmem_steps w w' b o i e : steps w w' -> w_blks w !! b = Some o -> bo_cls o = CBusMem i e ->
    exists o' i', w_blks w' !! b = Some o' /\ bo_cls o' = CBusMem i' e.
  Proof.
    intros Hs. revert o i. induction Hs as [w|w w1 w2 Hst _ IH]; intros o1 i1 Ho1 Hi1; [eauto|].
    destruct (step_blk _ _ _ _ Hst Ho1) as (o2 & Ho2 & Hc2 & _).
    destruct Hc2 as [Hc2|(i & i' & e' & Hc2 & Hc3)]; rewrite Hi1 in Hc2; [eauto|]. simplify_eq. eauto.
  Qed.
  Lemma R_build_memory dbg b lb si so : wpres R (build_memory dbg b lb si so).
  Proof.
    intros w. unfold build_memory. unfold bnd at 1, get_blk. destruct (w_blks w !! b) as [o|] eqn:Eo; [|done].
    destruct (bo_cls o) as [T ?|T ?|?|?|T ?|T ?|T ?|T ?|T ?| | |T|T|T ?| |T|T|inits excl|?|? ? ?|] eqn:Ec; try done.
    unfold bnd at 1, get_sig. destruct (w_sigs w !! si) as [os|]; [|done].
    destruct (mem_ic (so_kind os) (find_init inits lb)) as [[T v] ?|e ?|?|]; try done; [|by apply (wpres_throw R)].
    unfold bnd at 1. assert (wpres R (new_block (CMemory T) (LMem v) (bo_parent o) "" 1 1)) as Hn.
    { eapply (R_piece _ (fun _ => yes)); [apply do_new_block; cbn; eauto|apply dkeep_new_block]. }
    specialize (Hn w). destruct (new_block _ _ _ _ _ _ w) as [m w1|? ?|?|]; [|done..].
    unfold bnd at 1, upd_blk, modify. match goal with |- context [bnd _ _ ?W2] => set (w2 := W2) end.
    assert (R w w2) as H2.
    { intros Hp. destruct (Hn Hp) as [S1 D1]. destruct (busmem_steps _ _ _ _ _ _ S1 Eo Ec) as (o' & i' & Ho' & Hc').
      assert (step w1 w2) as Hst by (by eapply st_cls). split; [etrans; [done|by apply one_step]|].
      destruct D1 as [L1 D1]. split; [done|]. intros z oz Hz. destruct (D1 z oz Hz) as [?|(d & b' & ob' & Hd & Hob & Hj & Hnc)]; [by left|].
      right. destruct (joins_step _ _ _ _ _ _ Hst Hob Hj) as (o2 & Ho2 & Hj2). by exists d, b', o2. }
    assert (wpres R (rename_blk m lb ;;; ib <~ new_bus [si] "" ;; ob <~ new_bus [so] "" ;; connect_simple dbg m ib ob)) as H3 by repeat rs.
    specialize (H3 w2). destruct (bnd _ _ w2); try done; by etrans.
  Qed.
  Lemma R_build_one dbg b lb si so : wpres R (build_one dbg b lb si so).
  Proof.
    unfold build_one. rs; [rs|]. destruct (bo_cls _); try rs; [apply R_build_memory|]. unfold build_pipe, add_block_simple. repeat rs.
    eapply (R_piece _ (fun _ => yes)); [by apply do_new_block|apply dkeep_new_block].
  Qed.
  Lemma R_visit dbg n b excl im om prefix m : wpres R (visit_bus dbg n b excl im om prefix m).
  Proof.
    revert prefix m. induction n as [|n IH]; intros prefix m; cbn [visit_bus]; [rs|]. destruct (str_in excl prefix); [rs|].
    rs. destruct a as [lb s]. rs; [rs|]. destruct (is_bus _); [apply IH|]. destruct (str_in excl _); [rs|]. rs; [rs|]. rs; [rs|]. apply R_build_one.
  Qed.
  Lemma R_connect dbg b ib ob : wpres R (connect dbg b ib ob).
  Proof.
    unfold connect. rs; [rs|]. destruct (bo_cls _) eqn:Ec; try rs; [rs| |rs|]; repeat first [apply R_visit|rs].
  Qed.
  Lemma R_add_block dbg p b ib ob : wpres R (add_block dbg p b ib ob).
  Proof. unfold add_block. rs; [rs|]. destruct a; [|rs]. rs; [apply R_connect|rs]. Qed.

  (** Operations other than set_deriv_signal and connecting leave derivative links alone. *)
  Lemma dkeep_exec dbg o : match o with OConnect _ _ _ | OAddBlock _ _ _ _ | OSetDeriv _ _ _ => False | _ => True end -> wpres dkeep (exec dbg o).
  Proof.
    destruct o; try done; intros _; cbn [exec]; unfold new_signal, rename_blk, link_block, input_at, input_lb, output_at, user_link;
      repeat first [apply dkeep_new_bus|apply dkeep_new_bus_labelled|apply dkeep_new_block|apply dkeep_set_parent|ds].
  Qed.
End port.
