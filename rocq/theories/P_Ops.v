(** Client operations decompose into the steps of Steps.v: operation by operation. *)
From stdpp Require Import prelude gmap strings.
From Coq Require Import ZArith.
From Verif Require Import Num Res Name SpecName P_Name Store Leaf Sched World Api Steps P_Steps.

Section ops.
  Context {D : Type} `{NumOps D}.
  Implicit Types (w : world D) (P : world D -> Prop).
  Notation W := (M (world D)).
  Notation yes := (fun _ => True).

  Lemma doing_weaken {A} P (m : W A) (Q : A -> world D -> Prop) : doing P m Q -> doing P m (fun _ => yes).
  Proof. intros Hm. eapply doing_post; [done|]. done. Qed.

  Lemma stable_sig_lt n : stable (D:=D) (fun w => n < length (w_sigs w)).
  Proof.
    intros w w' Hs Hn. apply lookup_lt_is_Some_2 in Hn as [o Ho].
    destruct (steps_sig _ _ _ _ Hs Ho) as (o' & Ho' & _). by eapply lookup_lt_Some.
  Qed.

  Lemma do_new_signal P k name : k ≠ KBus -> doing P (new_signal k name) (fun _ => yes).
  Proof. intros Hk w _. unfold new_signal, alloc_sig. split; [|done]. apply one_step. by apply st_sig. Qed.
  Lemma do_rename_sig P s name : doing P (rename_sig s name) (fun _ w => s < length (w_sigs w)).
  Proof.
    intros w _. unfold rename_sig, bnd, get_sig. destruct (w_sigs w !! s) as [o|] eqn:E; [|done].
    cbn. split; [|rewrite insert_length; by eapply lookup_lt_Some].
    apply one_step. apply (st_name_sig w s o (emend name)); [done|]. apply emend_legal.
  Qed.
  Lemma do_rename_blk P b name : doing P (rename_blk b name) (fun _ => yes).
  Proof. apply doing_upd. intros w _. split; [|done]. apply one_step, st_name_blk, emend_legal. Qed.

  Lemma do_bus_entry P lb s :
    doing P (bus_entry lb s) (fun e w => e = (emend lb, s) /\ s < length (w_sigs w)).
  Proof.
    unfold bus_entry, valid_name. eapply doing_bnd; [apply doing_get_sig|]. intros o. cbn.
    eapply doing_bnd with (Q := fun _ w => s < length (w_sigs w)).
    - destruct (String.eqb _ _).
      + eapply doing_pre; [|apply (do_rename_sig yes)]. done.
      + apply doing_ret. intros w [Ho _]. by eapply lookup_lt_Some.
    - intros u. apply doing_ret. done.
  Qed.
  Lemma do_bus_entries P l :
    doing P (bus_entries l) (fun m w => forall e, e ∈ m -> legal_name (fst e) /\ snd e < length (w_sigs w)).
  Proof.
    eapply (doing_pre yes); [done|]. induction l as [|[lb s] l IH]; cbn [bus_entries].
    - apply doing_ret. intros w _ e He. by apply elem_of_nil in He.
    - eapply doing_bnd; [apply do_bus_entry|]. intros e0. cbn.
      eapply doing_bnd.
      + eapply doing_pre; [|eapply (doing_frame (fun w => e0 = (emend lb, s) /\ s < length (w_sigs w))); [|exact IH]].
        * by intros w Hw.
        * apply stable_and; [apply stable_pure|apply stable_sig_lt].
      + intros m. cbn. apply doing_ret. intros w [Hm [-> Hs]] e He.
        apply elem_of_cons in He as [->|He]; [|by apply Hm]. cbn. split; [apply emend_legal|done].
  Qed.
  Lemma do_new_bus_labelled P l name : doing P (new_bus_labelled l name) (fun _ => yes).
  Proof.
    unfold new_bus_labelled. eapply doing_bnd; [apply do_bus_entries|]. intros m w Hm. cbn.
    split; [|done]. apply one_step. by apply st_bus.
  Qed.
  Lemma do_new_bus P l name : doing P (new_bus l name) (fun _ => yes).
  Proof. apply do_new_bus_labelled. Qed.

  Lemma do_link_block P p b : doing P (link_block p b) (fun _ => yes).
  Proof.
    intros w _. unfold link_block, bnd, get_blk. destruct (w_blks w !! b) as [o|] eqn:Eb; [|done].
    destruct (bool_decide (bo_parent o = Some p)) eqn:Ep; cbn; [|split; [apply rtc_refl|done]].
    apply bool_decide_eq_true in Ep. destruct (w_blks w !! p) as [op|] eqn:Epp; [|done].
    destruct (bool_decide (b ∈ bo_children op)) eqn:Ec; cbn; (split; [|done]).
    - apply rtc_refl.
    - apply one_step. pose proof (st_relink w b o p op Eb Ep Epp) as Hst.
      rewrite (upd_ext w p op _ (fun x => set_children (bo_children x ++ [b]) x)) in Hst; [exact Hst|done|].
      unfold child_added. by rewrite Ec.
  Qed.
  Lemma link_block_new w p b op o :
    w_blks w !! b = Some o -> bo_parent o = Some p -> w_blks w !! p = Some op ->
    link_block p b w = Ok true (upd w p (fun x => set_children (child_added (bo_children x) b) x)).
  Proof.
    intros Hb Hp Hop. unfold link_block, bnd, get_blk. rewrite Hb. rewrite bool_decide_eq_true_2 by done.
    rewrite Hop. destruct (bool_decide (b ∈ bo_children op)) eqn:Ec; cbn.
    - f_equal. symmetry. apply upd_id. intros o' Ho'. rewrite Hop in Ho'. injection Ho' as <-. unfold child_added. rewrite Ec. by destruct op.
    - f_equal. apply (upd_ext w p op); [done|]. unfold child_added. by rewrite Ec.
  Qed.
  Lemma do_new_block P c st parent name nin nout :
    ctor_ok c st nin nout -> doing P (new_block c st parent name nin nout) (fun _ => yes).
  Proof.
    intros Hc w _. unfold new_block. destruct parent as [p|]; unfold bnd, get_blk.
    - destruct (w_blks w !! p) as [op|] eqn:Ep; [|done].
      destruct (is_submodel (bo_cls op)) eqn:Es; [|done]. cbn.
      pose proof (st_blk_in w c st p op name nin nout Hc Ep Es) as Hst. unfold addblk in Hst.
      rewrite (link_block_new _ p (length (w_blks w)) op
                 (BlkObj (valid_name name) (Some p) [] nin nout false [] [] [] c no_handles st)).
      + cbn. split; [|done]. apply one_step. exact Hst.
      + cbn. by rewrite lookup_app_r, Nat.sub_diag by lia.
      + done.
      + cbn. by rewrite lookup_app_l by (by eapply lookup_lt_Some).
    - cbn. split; [|done]. apply one_step. apply (st_blk w c st name nin nout Hc).
  Qed.
  Lemma set_parent_new w b o p op :
    w_blks w !! b = Some o -> bo_parent o = None -> w_blks w !! p = Some op -> is_submodel (bo_cls op) = true ->
    set_parent b p w = Ok true (upd (upd w b (set_par (Some p))) p
                                  (fun x => set_children (child_added (bo_children x) b) x)).
  Proof.
    intros Eb Eo Ep Es. unfold set_parent, bnd, get_blk. rewrite Ep, Es, Eb, Eo. unfold upd_blk, modify.
    change (World (w_sigs w) (alter (set_par (Some p)) b (w_blks w))) with (upd w b (set_par (Some p))).
    assert (exists op', w_blks (upd w b (set_par (Some p))) !! p = Some op') as [op' Hop'].
    { destruct (decide (b = p)) as [->|Hne]; [by rewrite (upd_lookup _ _ _ _ Ep); eauto|].
      rewrite upd_lookup_ne by done. eauto. }
    rewrite (link_block_new _ p b op' (set_par (Some p) o)); [done|by rewrite (upd_lookup _ _ _ _ Eb)|done|done].
  Qed.
  Lemma do_set_parent P b p : doing P (set_parent b p) (fun _ => yes).
  Proof.
    intros w _. destruct (w_blks w !! p) as [op|] eqn:Ep; [|unfold set_parent, bnd, get_blk; by rewrite Ep].
    destruct (is_submodel (bo_cls op)) eqn:Es; [|unfold set_parent, bnd, get_blk; by rewrite Ep, Es].
    destruct (w_blks w !! b) as [o|] eqn:Eb; [|unfold set_parent, bnd, get_blk; by rewrite Ep, Es, Eb].
    destruct (bo_parent o) as [p'|] eqn:Eo.
    - unfold set_parent, bnd, get_blk. rewrite Ep, Es, Eb, Eo.
      destruct (Nat.eqb p' p) eqn:E; [|cbn; split; [apply rtc_refl|done]].
      apply Nat.eqb_eq in E as ->. unfold upd_blk, modify.
      change (World (w_sigs w) (alter (set_par (Some p)) b (w_blks w))) with (upd w b (set_par (Some p))).
      rewrite upd_id; [|intros o' Ho'; rewrite Eb in Ho'; injection Ho' as <-; destruct o; cbn in *; by subst].
      rewrite (link_block_new w p b op o Eb Eo Ep). cbn. split; [|done].
      apply one_step. by eapply st_relink.
    - rewrite (set_parent_new w b o p op Eb Eo Ep Es). split; [|done].
      apply one_step. by apply (st_parent w b o p op).
  Qed.

  (** ** Linking *)
  Lemma vsigb_spec w s : vsigb w s = true <-> vsig w s.
  Proof.
    unfold vsigb, vsig. destruct (w_sigs w !! s) as [o|]; [|naive_solver].
    split; [intros Hb; exists o; by apply negb_true_iff in Hb|]. intros (o' & [= <-] & Ho). by rewrite Ho.
  Qed.
  Lemma link_signal_eq b s f w :
    match link_signal b s f w with
    | Ok _ w' => s < length (w_sigs w) /\
        w' = upd w b (fun x => set_linked (if vsigb w s then link_pair (bo_linked x) s f else bo_linked x) x)
    | UB _ => ~ s < length (w_sigs w)
    | _ => False
    end.
  Proof.
    unfold link_signal, bnd, get_sig, vsigb. destruct (w_sigs w !! s) as [o|] eqn:E.
    - destruct (is_bus (so_kind o)); cbn; (split; [by eapply lookup_lt_Some|]); [|done].
      symmetry. apply upd_id. intros o' _. by destruct o'.
    - by apply lookup_ge_None in E; lia.
  Qed.
  Lemma link_all_eq b f m w :
    match forM m (fun e : string * nat => link_signal b (snd e) f) w with
    | Ok _ w' => (forall e, e ∈ m -> snd e < length (w_sigs w)) /\
        w' = upd w b (fun x => set_linked (add_links w f m (bo_linked x)) x)
    | UB _ => exists e, e ∈ m /\ ~ snd e < length (w_sigs w)
    | _ => False
    end.
  Proof.
    revert w. induction m as [|e m IH]; intros w; cbn [forM].
    - cbn. split; [intros e He; by apply elem_of_nil in He|]. symmetry. apply upd_id. intros o _. by destruct o.
    - unfold bnd. pose proof (link_signal_eq b (snd e) f w) as Hl.
      destruct (link_signal b (snd e) f w) as [u w1|?|?|]; [|done| |done].
      + destruct Hl as [Hs ->]. specialize (IH (upd w b (fun x => set_linked (if vsigb w (snd e) then link_pair (bo_linked x) (snd e) f else bo_linked x) x))).
        destruct (forM m _ _) as [u2 w2|?|?|]; [|done| |done].
        * destruct IH as [Hm ->]. split.
          -- intros e' He'. apply elem_of_cons in He' as [->|He']; [done|]. by apply Hm in He'.
          -- rewrite upd_upd. done.
        * destruct IH as (e' & He' & Hn). exists e'. split; [by apply elem_of_list_further|done].
      + exists e. split; [apply elem_of_list_here|done].
  Qed.
  Lemma add_links_upd w b g f m ls : add_links (upd w b g) f m ls = add_links w f m ls.
  Proof. done. Qed.

  Definition conn_world w b (im om : list (string * nat)) : world D :=
    upd w b (fun x => set_conn im om
      (set_linked (add_links w fOutput om (add_links w (N.lor fInput fRequired) im (bo_linked x))) x)).
  (** Block::connect, all outcomes. *)
  Lemma block_connect_eq b ib ob w :
    match block_connect b ib ob w with
    | Ok _ w' => exists o im om, w_blks w !! b = Some o /\ sig_is ib KBus im w /\ sig_is ob KBus om w /\
        bo_conn o = false /\ port_ok (bo_nin o) (length im) = true /\ port_ok (bo_nout o) (length om) = true /\
        (forall e, e ∈ im ++ om -> snd e < length (w_sigs w)) /\
        w' = conn_world w b im om
    | Exn e w' => w' = w /\ (e = EReconnect \/ e = EPorts)
    | UB _ => True
    | OOF => False
    end.
  Proof.
    unfold block_connect, bus_members, bnd, get_sig, get_blk.
    destruct (w_sigs w !! ib) as [oi|] eqn:Ei; [|done]. destruct (is_bus (so_kind oi)) eqn:Ki; [|done]. cbn [ret].
    destruct (w_sigs w !! ob) as [oo|] eqn:Eo; [|done]. destruct (is_bus (so_kind oo)) eqn:Ko; [|done]. cbn [ret].
    destruct (w_blks w !! b) as [o|] eqn:Eb; [|done]. unfold verify.
    destruct (bo_conn o) eqn:Ec; cbn [negb]; [cbn; auto|]. cbn [ret].
    destruct (port_ok (bo_nin o) (length (so_mem oi))) eqn:Pi; [|cbn; auto]. cbn [ret].
    destruct (port_ok (bo_nout o) (length (so_mem oo))) eqn:Po; [|cbn; auto]. cbn [ret].
    pose proof (link_all_eq b (N.lor fInput fRequired) (so_mem oi) w) as H1.
    destruct (forM (so_mem oi) _ w) as [u w1|?|?|]; [|done|done|done]. destruct H1 as [Hm1 ->].
    pose proof (link_all_eq b fOutput (so_mem oo) (upd w b (fun x => set_linked (add_links w (N.lor fInput fRequired) (so_mem oi) (bo_linked x)) x))) as H2.
    destruct (forM (so_mem oo) _ _) as [u2 w2|?|?|]; [|done|done|done]. destruct H2 as [Hm2 ->].
    unfold upd_blk, modify. exists o, (so_mem oi), (so_mem oo). split_and!; try done.
    - exists oi. split_and!; try done. by destruct (so_kind oi).
    - exists oo. split_and!; try done. by destruct (so_kind oo).
    - intros e He. apply elem_of_app in He as [He|He]; [by apply Hm1|]. by apply Hm2 in He.
    - match goal with |- ?L = _ => change L with (upd (upd (upd w b (fun x => set_linked (add_links w (N.lor fInput fRequired) (so_mem oi) (bo_linked x)) x)) b (fun x => set_linked (add_links w fOutput (so_mem oo) (bo_linked x)) x)) b (set_conn (so_mem oi) (so_mem oo))) end.
      by rewrite !upd_upd.
  Qed.

  (** The block [b] is connected, of class [c], with trigger handle [g], and if
      [out] its output handle is bound. *)
  Definition self (b : nat) (c : cls D) (g : option nat) (out : bool) w : Prop :=
    exists o, w_blks w !! b = Some o /\ bo_conn o = true /\ bo_cls o = c /\ h_trig (bo_h o) = g /\
      (out = true -> forall so, h_out (bo_h o) = Some so -> tsig w (cls_ty c) so).
  (** Unconnected blocks have no handles yet. *)
  Definition fresh (o : blkobj D) : Prop := bo_h o = no_handles /\ bo_ibus o = [] /\ bo_obus o = [] /\ bo_linked o = [].
  Definition unbound w : Prop := forall b o, w_blks w !! b = Some o -> bo_conn o = false -> fresh o.

  Lemma upd_some w b f b' o' :
    w_blks (upd w b f) !! b' = Some o' ->
    exists o, w_blks w !! b' = Some o /\ o' = if decide (b' = b) then f o else o.
  Proof.
    destruct (decide (b' = b)) as [->|Hne].
    - cbn. rewrite list_lookup_alter. destruct (w_blks w !! b); cbn; [|done]. intros [= <-]. eauto.
    - rewrite upd_lookup_ne by done. eauto.
  Qed.
  Lemma addblk_some w x b' o' :
    w_blks (addblk w x) !! b' = Some o' -> w_blks w !! b' = Some o' \/ (b' = length (w_blks w) /\ o' = x).
  Proof. cbn. intros Hl. apply lookup_app_Some in Hl as [?|[? Hl]]; [by left|]. right.
    apply list_lookup_singleton_Some in Hl as [? <-]. split; [lia|done]. Qed.

  Definition same_wiring (o o' : blkobj D) : Prop :=
    bo_conn o' = bo_conn o /\ bo_h o' = bo_h o /\ bo_ibus o' = bo_ibus o /\ bo_obus o' = bo_obus o /\ bo_linked o' = bo_linked o.
  Lemma unbound_upd w b f : unbound w ->
    (forall x, w_blks w !! b = Some x -> bo_conn (f x) = false -> same_wiring x (f x)) -> unbound (upd w b f).
  Proof.
    intros Hu Hf b' o' Ho' Hc. apply upd_some in Ho' as (o & Ho & ->). destruct (decide (b' = b)) as [->|Hne].
    - destruct (Hf o Ho Hc) as (H1 & H2 & H3 & H4 & H5). unfold fresh. rewrite H2, H3, H4, H5. apply (Hu b); [done|congruence].
    - by eapply Hu.
  Qed.
  Lemma unbound_add w x : unbound w -> fresh x -> unbound (addblk w x).
  Proof. intros Hu Hx b o Ho Hc. apply addblk_some in Ho as [Ho|[_ ->]]; [by eapply Hu|done]. Qed.
  Lemma step_unbound w w' : step w w' -> unbound w -> unbound w'.
  Proof.
    intros Hs Hu. destruct Hs; try exact Hu;
      repeat first [apply unbound_upd | apply unbound_add]; try done;
      intros x Hx Hx2; cbn in Hx2; simplify_eq; congruence.
  Qed.
  Lemma stable_unbound : stable unbound.
  Proof. intros w w' Hs. induction Hs; [done|]. intros. eauto using step_unbound. Qed.

  (** ** Steps of a connected block *)
  Lemma do_block_connect b ib ob c :
    doing (fun w => unbound w /\ exists o, w_blks w !! b = Some o /\ bo_cls o = c)
          (block_connect b ib ob) (fun _ => self b c None true).
  Proof.
    intros w [Hu (o & Ho & Hc)]. pose proof (block_connect_eq b ib ob w) as Hb.
    destruct (block_connect b ib ob w) as [u w'|e w'|?|]; [|by destruct Hb as [-> _]; apply rtc_refl|done..].
    destruct Hb as (o' & im & om & Ho' & (oi & Hi & Ki & Mi) & (oo & Hoo & Ko & Mo) & Hcf & Pi & Po & Hids & ->).
    rewrite Ho in Ho'. injection Ho' as <-. subst. split.
    - apply one_step. eapply st_connect; eauto.
    - destruct (Hu b o Ho Hcf) as (Hh & _).
      eexists. split; [by apply upd_lookup|]. cbn. rewrite Hh. split_and!; done.
  Qed.

  (** Updates of [b] that change links or handles only. *)
  Lemma self_upd b c g out w f g' out' :
    self b c g out w ->
    (forall o, bo_conn (f o) = bo_conn o /\ bo_cls (f o) = bo_cls o) ->
    (forall o, w_blks w !! b = Some o -> h_trig (bo_h o) = g -> h_trig (bo_h (f o)) = g') ->
    (forall o, w_blks w !! b = Some o -> out' = true ->
       (out = true /\ h_out (bo_h (f o)) = h_out (bo_h o)) \/
       exists so, h_out (bo_h (f o)) = Some so /\ tsig w (cls_ty c) so) ->
    self b c g' out' (upd w b f).
  Proof.
    intros (o & Ho & Hc & Hcl & Hg & Hout) Hf Hg' Ho'. exists (f o).
    destruct (Hf o) as [Hf1 Hf2]. rewrite Hf1, Hf2. split_and!; [by apply upd_lookup|done|done|by apply Hg'|].
    intros Hout' so Hso. change (tsig w (cls_ty c) so). destruct (Ho' o Ho Hout') as [[He Hh]|(so' & Hso' & Ht)].
    - rewrite Hh in Hso. by apply Hout.
    - by simplify_eq.
  Qed.

  Lemma linked_link_pair ls s f :
    (exists f', (s, f') ∈ link_pair ls s f /\ N.land f' f = f).
  Proof.
    induction ls as [|[s' f'] ls IH]; cbn.
    - exists f. split; [apply elem_of_list_here|]. apply N.land_diag.
    - destruct (Nat.eqb_spec s' s) as [->|Hne].
      + eexists. split; [apply elem_of_list_here|]. apply N.bits_inj. intros n.
        rewrite N.land_spec, N.lor_spec. by destruct (N.testbit f' n), (N.testbit f n).
      + destruct IH as (f1 & Hf1 & Hl). exists f1. split; [by apply elem_of_list_further|done].
  Qed.

  Lemma do_link b s f c g out :
    f = N.lor fInput fRequired \/ f = fOutput ->
    doing (self b c g out) (link_signal b s f)
      (fun _ w => self b c g out w /\ s < length (w_sigs w) /\
         (vsig w s -> exists o, w_blks w !! b = Some o /\ linked_with o s f)).
  Proof.
    intros Hf w Hw. pose proof (link_signal_eq b s f w) as Hl.
    destruct (link_signal b s f w) as [u w'|?|?|]; [|done..]. destruct Hl as [Hs ->].
    pose proof Hw as (o & Ho & Hc & _).
    split; [|split; [|split; [done|]]].
    - destruct (vsigb w s) eqn:Ev.
      + apply one_step. eapply st_link; [done|done|by apply vsigb_spec|tauto].
      + rewrite upd_id; [apply rtc_refl|]. intros o' _. by destruct o'.
    - eapply self_upd; [done|..]; try done. intros o' _ Ho'. by left.
    - intros Hv. assert (vsigb w s = true) as -> by (by apply vsigb_spec).
      eexists. split; [by apply upd_lookup|]. apply linked_link_pair; done.
  Qed.

  Notation lnk b s f := (fun w => s < length (w_sigs w) /\
     (vsig w s -> exists o, w_blks w !! b = Some o /\ linked_with o s f)).
  Lemma do_at_index P m i : doing P (at_index m i) (fun s w => (exists lb, m !! i = Some (lb, s)) /\ P w).
  Proof.
    unfold at_index. destruct (m !! i) as [[lb s]|] eqn:E; [|apply doing_throw]. apply doing_ret. intros w Hw. split; [by exists lb|done].
  Qed.
  Lemma do_at_fuel P n m lb : doing P (at_fuel n m lb) (fun _ => P).
  Proof.
    revert m lb. induction n as [|n IH]; intros m lb; cbn [at_fuel]; [apply doing_oof|].
    destruct (find_label m (fst (cut_dot lb))) as [s|]; [|apply doing_throw].
    destruct (snd (cut_dot lb)) as [rest|]; [|by apply doing_ret].
    eapply doing_bnd; [apply doing_get_sig|]. intros o. cbn.
    eapply doing_bnd; [apply doing_verify|]. intros u. cbn.
    eapply doing_pre; [|apply IH]. naive_solver.
  Qed.
  Lemma do_at_label P m lb : doing P (at_label m lb) (fun _ => P).
  Proof. apply do_at_fuel. Qed.
  Lemma do_at_name P m lb : cut_dot lb = (lb, None) -> doing P (at_label m lb) (fun s w => find_label m lb = Some s /\ P w).
  Proof.
    intros Hc. unfold at_label. cbn [at_fuel]. rewrite Hc. cbn [fst snd].
    destruct (find_label m lb) as [s|]; [|apply doing_throw]. by apply doing_ret.
  Qed.

  (** [s] is where [p] says among the ports of block [b]. *)
  Definition placed (b : nat) (p : blkobj D -> nat -> Prop) (s : nat) w : Prop := exists o, w_blks w !! b = Some o /\ p o s.
  Definition pin (i : nat) (o : blkobj D) (s : nat) : Prop := exists lb, bo_ibus o !! i = Some (lb, s).
  Definition pout (i : nat) (o : blkobj D) (s : nat) : Prop := exists lb, bo_obus o !! i = Some (lb, s).
  Definition plb (lb : string) (o : blkobj D) (s : nat) : Prop := find_label (bo_ibus o) lb = Some s.
  Definition port_rel (p : blkobj D -> nat -> Prop) : Prop := forall o ls s, p o s -> p (set_linked ls o) s.
  Lemma do_link_placed b s f c g out p :
    f = N.lor fInput fRequired \/ f = fOutput -> port_rel p ->
    doing (fun w => placed b p s w /\ self b c g out w) (link_signal b s f)
      (fun _ w => self b c g out w /\ placed b p s w /\ lnk b s f w).
  Proof.
    intros Hf Hp w [(o & Ho & Hpo) Hw]. pose proof (do_link b s f c g out Hf w Hw) as Hl. pose proof (link_signal_eq b s f w) as He.
    destruct (link_signal b s f w) as [u w'|?|?|]; [|done..]. destruct He as [_ ->]. destruct Hl as (Hst & Hs & Hk).
    split_and!; try done; [|apply Hk|apply Hk]. eexists. split; [by apply upd_lookup|]. cbn.
    destruct (vsigb w s); [by apply Hp|]. by destruct o.
  Qed.

  Lemma do_input_at b i c g out :
    doing (self b c g out) (input_at b i)
      (fun s w => self b c g out w /\ placed b (pin i) s w /\ lnk b s (N.lor fInput fRequired) w).
  Proof.
    unfold input_at. eapply doing_bnd; [apply doing_get_blk|]. intros o. cbn.
    eapply doing_bnd; [apply do_at_index|]. intros s. cbn.
    eapply doing_bnd; [eapply doing_pre; [|apply (do_link_placed b s _ c g out (pin i)); [by left|by intros ?]]|].
    { intros w (Hp & Ho & Hw). split; [by exists o|done]. }
    intros u. apply doing_ret. done.
  Qed.
  Lemma do_input_lb b lb c g out : cut_dot lb = (lb, None) ->
    doing (self b c g out) (input_lb b lb)
      (fun s w => self b c g out w /\ placed b (plb lb) s w /\ lnk b s (N.lor fInput fRequired) w).
  Proof.
    intros Hc. unfold input_lb. eapply doing_bnd; [apply doing_get_blk|]. intros o. cbn.
    eapply doing_bnd; [by apply do_at_name|]. intros s. cbn.
    eapply doing_bnd; [eapply doing_pre; [|apply (do_link_placed b s _ c g out (plb lb)); [by left|by intros ?]]|].
    { intros w (Hp & Ho & Hw). split; [by exists o|done]. }
    intros u. apply doing_ret. done.
  Qed.
  Lemma do_input_any b lb c g out : doing (self b c g out) (input_lb b lb) (fun _ => self b c g out).
  Proof.
    unfold input_lb. eapply doing_bnd; [apply doing_get_blk|]. intros o. cbn.
    eapply doing_bnd; [apply do_at_label|]. intros s. cbn.
    eapply doing_bnd; [eapply doing_pre; [|apply do_link; by left]|]. { by intros w [_ Hw]. }
    intros u. apply doing_ret. by intros w [Hw _].
  Qed.
  Lemma do_output_at b i c g out :
    doing (self b c g out) (output_at b i)
      (fun s w => self b c g out w /\ placed b (pout i) s w /\ lnk b s fOutput w).
  Proof.
    unfold output_at. eapply doing_bnd; [apply doing_get_blk|]. intros o. cbn.
    eapply doing_bnd; [apply do_at_index|]. intros s. cbn.
    eapply doing_bnd; [eapply doing_pre; [|apply (do_link_placed b s _ c g out (pout i)); [by right|by intros ?]]|].
    { intros w (Hp & Ho & Hw). split; [by exists o|done]. }
    intros u. apply doing_ret. done.
  Qed.
  Lemma tsig_vsig w T s : tsig w T s -> vsig w s.
  Proof. intros (o & Ho & Ht). exists o. split; [done|]. by destruct T, (so_kind o). Qed.

  (** The handle [F] sets is one of the input handles ([f] is Input|Required) or the
      output handle. *)
  Definition h_good (o : blkobj D) w (F : handles -> handles) : Prop :=
    let h := bo_h o in let h' := F (bo_h o) in let T := cls_ty (bo_cls o) in
    new_in w o T (h_in h) (h_in h') /\ new_out w o T (h_out h) (h_out h') /\
    new_in w o TyD (h_x1 h) (h_x1 h') /\ new_in w o TyD (h_x2 h) (h_x2 h') /\
    new_in w o TyD (h_delay h) (h_delay h') /\ new_in w o T (h_initial h) (h_initial h') /\
    new_in w o TyB (h_trig h) (h_trig h') /\
    (ported (bo_cls o) (bo_ibus o) (bo_obus o) h -> ported (bo_cls o) (bo_ibus o) (bo_obus o) h').
  Lemma do_bind b c g out T s f (p : blkobj D -> nat -> Prop) (F : handles -> handles) g' out' :
    (forall w o, w_blks w !! b = Some o -> tsig w T s -> bo_cls o = c -> linked_with o s f -> p o s -> h_good o w F) ->
    (forall h, h_trig h = g -> h_trig (F h) = g') ->
    (forall h, out' = true -> (out = true /\ h_out (F h) = h_out h) \/ (h_out (F h) = Some s /\ T = cls_ty c)) ->
    doing (fun w => self b c g out w /\ placed b p s w /\ lnk b s f w)
      (r <~ bind_handle T s ;; upd_blk b (fun x => set_h (F (bo_h x)) x))
      (fun _ => self b c g' out').
  Proof.
    intros HF Hg Hout. unfold bind_handle.
    eapply doing_bnd; [eapply doing_bnd; [apply doing_get_sig|]|].
    { intros o. cbn. eapply doing_bnd; [apply doing_verify|]. intros u. cbn.
      apply (doing_ret s _ (fun _ w => tsig w T s /\ self b c g out w /\ placed b p s w /\ lnk b s f w)).
      intros w (Ht & Ho & Hw). split; [by exists o|done]. }
    intros r. cbn. apply doing_upd. intros w (Ht & Hw & (op & Hop & Hpo) & _ & Hl).
    destruct (Hl (tsig_vsig _ _ _ Ht)) as (o & Ho & Hlk). pose proof Hw as (o' & Ho' & Hc & Hcl & _).
    rewrite Ho in Ho'. injection Ho' as <-. rewrite Ho in Hop. injection Hop as <-.
    destruct (HF w o Ho Ht Hcl Hlk Hpo) as (F1 & F2 & F3 & F4 & F5 & F6 & F7 & F8).
    split.
    - apply one_step. rewrite (upd_ext w b o _ (fun x => set_h (F (bo_h o)) x)); [|done|done].
      eapply st_h; done.
    - eapply self_upd; [done|..]; [done| |].
      + intros o1 _ Ho1. by apply Hg.
      + intros o1 _ Ho1. destruct (Hout (bo_h o1) Ho1) as [?|[? ->]]; [by left|right]. by exists s.
  Qed.

  Ltac good := let Ht := fresh in let Hl := fresh in intros ? ? ? Ht <- Hl ?; unfold h_good; cbn; split_and!;
    first [by left | right; eexists; split_and!; [reflexivity|exact Ht|exact Hl] | idtac].
  (** Setting one member leaves the others where they are. *)
  Ltac placed_at := unfold ported; cbn; intros (? & ? & ? & ? & ? & ? & ?); split_and!; try done; intros ? [= <-]; done.

  Definition is_delay (c : cls D) : bool := match c with CDelay _ _ => true | _ => false end.
  Lemma do_bind_in b T c g out : cls_ty c = T -> is_delay c = false -> doing (self b c g out) (bind_in b T) (fun _ => self b c g out).
  Proof.
    intros <- Hd. unfold bind_in. eapply doing_bnd; [apply do_input_at|]. intros s. cbn.
    apply (do_bind b c g out (cls_ty c) s _ (pin 0) (fun h => Handles (Some s) (h_out h) (h_x1 h) (h_x2 h) (h_delay h) (h_initial h) (h_trig h)));
      [good; destruct (bo_cls _); try done; placed_at|done|]. intros h Ho. by left.
  Qed.
  Lemma do_bind_out b T c g : cls_ty c = T -> doing (self b c g true) (bind_out b T) (fun _ => self b c g true).
  Proof.
    intros <-. unfold bind_out. eapply doing_bnd; [apply do_output_at|]. intros s. cbn.
    apply (do_bind b c g true (cls_ty c) s _ (pout 0) (fun h => Handles (h_in h) (Some s) (h_x1 h) (h_x2 h) (h_delay h) (h_initial h) (h_trig h)));
      [good; placed_at|done|]. intros h Ho. by right.
  Qed.
  Lemma do_bind_x12 b c g out : doing (self b c g out) (bind_x12 b) (fun _ => self b c g out).
  Proof.
    unfold bind_x12. eapply doing_bnd; [apply do_input_at|]. intros s1. cbn.
    assert (forall A (m1 : W nat) (m2 : nat -> W unit) (m3 : W A) w,
      bnd m1 (fun r => bnd (m2 r) (fun _ => m3)) w = bnd (bnd m1 m2) (fun _ => m3) w) as Hassoc.
    { intros A m1 m2 m3 w. unfold bnd. by destruct (m1 w). }
    intros w Hw. rewrite Hassoc. revert w Hw.
    eapply doing_bnd.
    { apply (do_bind b c g out TyD s1 _ (pin 0) (fun h => Handles (h_in h) (h_out h) (Some s1) (h_x2 h) (h_delay h) (h_initial h) (h_trig h)) g out);
        [good; placed_at|done|]. intros h Ho. by left. }
    intros u. eapply doing_bnd; [apply do_input_at|]. intros s2. cbn.
    apply (do_bind b c g out TyD s2 _ (pin 1) (fun h => Handles (h_in h) (h_out h) (h_x1 h) (Some s2) (h_delay h) (h_initial h) (h_trig h)));
      [good; placed_at|done|]. intros h Ho. by left.
  Qed.
  Lemma do_bind_trig b c g out : doing (self b c g out) (bind_trig b) (fun _ => yes).
  Proof.
    unfold bind_trig. eapply doing_bnd; [by apply do_input_lb|]. intros s. cbn.
    eapply doing_post; [|by intros; exact I].
    intros w Hw. destruct Hw as [Hs Hl]. revert Hl Hs. intros Hl Hs.
    pose proof (do_bind b c g false TyB s (N.lor fInput fRequired) (plb "trigger") (fun h => Handles (h_in h) (h_out h) (h_x1 h) (h_x2 h) (h_delay h) (h_initial h) (Some s)) (Some s) false) as Hd.
    apply Hd; [good; placed_at|done|done|]. split; [|done].
    destruct Hs as (o & Ho & Hc & Hcl & Hg & _). exists o. done.
  Qed.
  Lemma do_bind_delay b T c g out : cls_ty c = T -> is_delay c = true -> doing (self b c g out) (bind_delay b T) (fun _ => self b c g out).
  Proof.
    intros <- Hdel. unfold bind_delay. eapply doing_bnd; [by apply do_input_lb|]. intros s1. cbn.
    assert (forall A (m1 : W nat) (m2 : nat -> W unit) (m3 : W A) w,
      bnd m1 (fun r => bnd (m2 r) (fun _ => m3)) w = bnd (bnd m1 m2) (fun _ => m3) w) as Hassoc.
    { intros A m1 m2 m3 w. unfold bnd. by destruct (m1 w). }
    intros w Hw. rewrite Hassoc. revert w Hw. eapply doing_bnd.
    { apply (do_bind b c g out (cls_ty c) s1 _ (plb "in") (fun h => Handles (Some s1) (h_out h) (h_x1 h) (h_x2 h) (h_delay h) (h_initial h) (h_trig h)) g out);
        [good; destruct (bo_cls _); try done; placed_at|done|]. intros h Ho. by left. }
    intros u. eapply doing_bnd; [by apply do_input_lb|]. intros s2. cbn.
    intros w Hw. rewrite Hassoc. revert w Hw. eapply doing_bnd.
    { apply (do_bind b c g out TyD s2 _ (plb "delay") (fun h => Handles (h_in h) (h_out h) (h_x1 h) (h_x2 h) (Some s2) (h_initial h) (h_trig h)) g out);
        [good; destruct (bo_cls _); try done; placed_at|done|]. intros h Ho. by left. }
    intros u2. eapply doing_bnd; [by apply do_input_lb|]. intros s3. cbn.
    apply (do_bind b c g out (cls_ty c) s3 _ (plb "initial") (fun h => Handles (h_in h) (h_out h) (h_x1 h) (h_x2 h) (h_delay h) (Some s3) (h_trig h)));
      [good; destruct (bo_cls _); try done; placed_at|done|]. intros h Ho. by left.
  Qed.
  Lemma do_bind_integ b T c g :
    cls_ty c = T -> (exists T', c = CInteg T') \/ ((exists T', c = CTrig T') /\ g = None) ->
    doing (self b c g true) (bind_integ b T) (fun _ => self b c g true).
  Proof.
    intros <- Hcl. unfold bind_integ. eapply doing_bnd; [apply do_input_at|]. intros s. cbn.
    eapply doing_bnd; [apply doing_get_blk|]. intros o. cbn.
    destruct (h_out (bo_h o)) as [so|] eqn:Eso; [|apply doing_undef].
    eapply (doing_bnd _ _ (fun _ => self b c g true)).
    - unfold set_deriv. eapply doing_bnd; [apply doing_get_sig|]. intros od. cbn.
      eapply doing_bnd; [apply doing_verify|]. intros u. cbn.
      eapply doing_bnd; [apply doing_get_sig|]. intros os. cbn.
      eapply (doing_bnd _ _ (fun _ => self b c g true)); [|intros u2; eapply doing_post; [apply doing_verify|]; by intros ?? [_ ?]].
      intros w (Hos & Ht & Hod & Hob & Hself & _ & _). unfold put_sig, modify.
      change (steps w (putsig w so (SigObj (so_name os) (so_kind os) (Some s) (so_mem os))) /\
              self b c g true (putsig w so (SigObj (so_name os) (so_kind os) (Some s) (so_mem os)))).
      assert (tsig w (cls_ty c) so) as Hso.
      { destruct Hself as (o' & Ho' & _ & _ & _ & Hout). rewrite Hob in Ho'. injection Ho' as <-. by apply Hout. }
      assert (step w (putsig w so (SigObj (so_name os) (so_kind os) (Some s) (so_mem os)))) as Hst.
      { destruct Hso as (os' & Hos' & Hf). rewrite Hos in Hos'. injection Hos' as <-.
        eapply (st_deriv w (cls_ty c)); [done|done|]. by exists od. }
      split; [by apply one_step|].
      destruct Hself as (o' & Ho' & Hc' & Hcl' & Hg' & Hout). exists o'. split_and!; try done.
      intros _ so' Hso'. eapply stable_tsig; [by apply one_step|]. by apply Hout.
    - intros u. unfold adjust_link.
      eapply (doing_bnd _ _ (fun _ => self b c g true)).
      + apply doing_upd. intros w Hself. pose proof Hself as (o' & Ho' & Hc' & Hcl' & Hg' & Hout). split.
        * apply one_step. eapply st_unreq; [done|done|]. rewrite Hcl'.
          destruct Hcl as [[T' ->]|[[T' ->] ->]]; done.
        * eapply self_upd; [done|..]; try done. intros. by left.
      + intros u2. apply doing_upd. intros w Hself. pose proof Hself as (o' & Ho' & Hc' & Hcl' & Hg' & Hout). split.
        * apply one_step. by eapply st_req.
        * eapply self_upd; [done|..]; try done. intros. by left.
  Qed.
  Lemma do_unrequire b c g out : (exists T, c = CMemory T) -> doing (self b c g out) (unrequire_in b) (fun _ => yes).
  Proof.
    intros [T ->]. unfold unrequire_in. eapply doing_bnd; [apply doing_get_blk|]. intros o. cbn.
    destruct (h_in (bo_h o)); [|apply doing_undef]. unfold adjust_link. apply doing_upd.
    intros w (Ho & o' & Ho' & Hc & Hcl & _). split; [|done]. apply one_step. eapply st_unreq; [done|done|]. by rewrite Hcl.
  Qed.
  Lemma do_check_inputs P dbg b T : doing P (check_inputs dbg b T) (fun _ => P).
  Proof.
    unfold check_inputs. eapply doing_bnd; [apply doing_get_blk|]. intros o. cbn.
    eapply doing_bnd; [apply doing_debug|]. intros u. cbn.
    eapply doing_pre; [|apply doing_forM]; [by intros w [_ ?]|]. intros e _.
    eapply doing_bnd; [apply doing_get_sig|]. intros os. cbn.
    eapply doing_pre; [|apply doing_debug]. by intros w [_ ?].
  Qed.
  Lemma do_connect_simple dbg b ib ob : doing unbound (connect_simple dbg b ib ob) (fun _ => yes).
  Proof.
    unfold connect_simple. eapply doing_bnd; [apply doing_get_blk|]. intros o. cbn.
    assert (doing (fun w => w_blks w !! b = Some o /\ unbound w) (block_connect b ib ob) (fun _ => self b (bo_cls o) None true)) as Hb.
    { eapply doing_pre; [|apply do_block_connect]. intros w [Ho Hu]. split; [done|]. by exists o. }
    destruct (bo_cls o) as [T ?|T ?|?|?|T ?|T ?|T ?|T ?|T ?| | |T|T|T ?| |T|T|? ?|?|? ? ?|] eqn:Ec;
      try (by eapply doing_weaken); (eapply doing_bnd; [exact Hb|intros u]);
      try (eapply doing_weaken; by apply do_bind_out);
      try (eapply doing_bnd; [by apply do_bind_out|intros u2]);
      try (eapply doing_bnd; [by apply do_bind_in|intros u2]);
      try (by eapply doing_weaken, do_check_inputs);
      try (by eapply doing_weaken, do_bind_x12);
      try (by eapply doing_weaken, do_bind_delay);
      try (by eapply doing_weaken, do_bind_out).
    - eapply doing_bnd; [by apply do_bind_out|intros u3]. apply do_unrequire. eauto.
    - eapply doing_weaken, do_bind_integ; [done|eauto].
    - eapply doing_bnd; [apply do_bind_integ; [done|eauto]|intros u3]. apply do_bind_trig.
  Qed.
  (** [unbound] is kept by everything. *)
  Lemma doing_unbound {A} (P : world D -> Prop) (m : W A) (Q : A -> world D -> Prop) :
    doing P m Q -> doing (fun w => P w /\ unbound w) m (fun a w => Q a w /\ unbound w).
  Proof. intros Hm. apply doing_frame; [apply stable_unbound|done]. Qed.
  Lemma doing_unbound' {A} (m : W A) (Q : A -> world D -> Prop) :
    doing yes m Q -> doing unbound m (fun _ => unbound).
  Proof.
    intros Hm. eapply doing_post; [eapply doing_pre; [|by apply doing_unbound]|].
    - intros w Hw. split; done.
    - by intros a w [_ ?].
  Qed.
  Lemma doing_unbound1 {A} (m : W A) (Q : A -> world D -> Prop) :
    doing unbound m Q -> doing unbound m (fun _ => unbound).
  Proof.
    intros Hm. eapply doing_post; [eapply doing_pre; [|by apply doing_unbound]|].
    - intros w Hw. split; done.
    - by intros a w [_ ?].
  Qed.

  Lemma mem_ic_ctor k iv T v u : mem_ic (D:=D) k iv = Ok (T, v) u -> True.
  Proof. done. Qed.
  Lemma do_build_memory dbg b lb si so : doing unbound (build_memory dbg b lb si so) (fun _ => unbound).
  Proof.
    unfold build_memory. eapply doing_bnd; [apply doing_get_blk|]. intros o. cbn.
    destruct (bo_cls o) as [| | | | | | | | | | | | | | | | |inits excl| | |] eqn:Ec; try apply doing_undef.
    eapply doing_bnd; [apply doing_get_sig|]. intros os. cbn.
    destruct (mem_ic (so_kind os) (find_init inits lb)) as [[T v] ?|e ?|?|];
      [|apply doing_throw|apply doing_undef|apply doing_oof].
    eapply (doing_bnd _ _ (fun _ w => (exists o i, w_blks w !! b = Some o /\ bo_cls o = CBusMem i excl) /\ unbound w)).
    - eapply doing_post; [eapply doing_pre; [|eapply (doing_frame (fun w => (exists o i, w_blks w !! b = Some o /\ bo_cls o = CBusMem i excl) /\ unbound w)); [|apply (do_new_block yes)]]|].
      + cbn. intros w (Hos & Ho & Hu). split; [done|]. split; [|done]. eauto.
      + apply stable_and; [|apply stable_unbound]. intros w w' Hs (o1 & i1 & Ho1 & Hi1).
        revert o1 i1 Ho1 Hi1. induction Hs as [w|w w1 w2 Hst _ IH]; intros o1 i1 Ho1 Hi1; [eauto|].
        destruct (step_blk _ _ _ _ Hst Ho1) as (o2 & Ho2 & Hc2 & _).
        destruct Hc2 as [Hc2|(i & i' & e & Hc2 & Hc3)]; rewrite Hi1 in Hc2; [eauto|]. simplify_eq. eauto.
      + cbn. split; [eauto|done].
      + by intros a w [_ ?].
    - intros m. cbn.
      eapply (doing_bnd _ _ (fun _ => unbound)).
      { apply doing_upd. intros w ((o1 & i1 & Ho1 & Hi1) & Hu). 
        assert (step w (upd w b (set_cls (CBusMem (erase_init inits lb) excl)))) as Hst by (by eapply st_cls).
        split; [by apply one_step|by eapply step_unbound]. }
      intros u. eapply doing_bnd; [eapply doing_unbound', do_rename_blk|]. intros u2.
      eapply doing_bnd; [eapply doing_unbound', do_new_bus|]. intros ib.
      eapply doing_bnd; [eapply doing_unbound', do_new_bus|]. intros ob.
      eapply doing_unbound1, do_connect_simple.
  Qed.
  Lemma do_add_block_simple dbg p b ib ob : doing unbound (add_block_simple dbg p b ib ob) (fun _ => unbound).
  Proof.
    unfold add_block_simple. eapply doing_bnd; [eapply doing_unbound', do_set_parent|]. intros [|].
    - eapply doing_bnd; [eapply doing_unbound1, do_connect_simple|]. intros u. by apply doing_ret.
    - by apply doing_ret.
  Qed.
  Lemma do_build_pipe dbg b lb si so : doing unbound (build_pipe dbg b lb si so) (fun _ => unbound).
  Proof.
    unfold build_pipe. eapply doing_bnd; [apply doing_get_blk|]. intros o. cbn.
    eapply doing_bnd; [apply doing_get_sig|]. intros os. cbn.
    destruct (pipe_ty (so_kind os)) as [T|]; [|apply doing_throw].
    eapply doing_bnd; [eapply doing_pre; [|eapply doing_unbound', do_new_block]|].
    { by intros w (_ & _ & ?). } { done. }
    intros m. eapply doing_bnd; [eapply doing_unbound', do_rename_blk|]. intros u2.
    eapply doing_bnd; [eapply doing_unbound', do_new_bus|]. intros ib.
    eapply doing_bnd; [eapply doing_unbound', do_new_bus|]. intros ob.
    destruct (bo_parent o) as [p|]; [|apply doing_undef].
    eapply doing_bnd; [apply do_add_block_simple|]. intros r. by apply doing_ret.
  Qed.
  Lemma do_build_one dbg b lb si so : doing unbound (build_one dbg b lb si so) (fun _ => unbound).
  Proof.
    unfold build_one. eapply doing_bnd; [apply doing_get_blk|]. intros o. cbn.
    destruct (bo_cls o); try apply doing_undef; (eapply doing_pre; [|first [apply do_build_memory|apply do_build_pipe]]);
      by intros w [_ ?].
  Qed.
  Lemma do_visit_bus dbg n b excl im om prefix m :
    doing unbound (visit_bus dbg n b excl im om prefix m) (fun _ => unbound).
  Proof.
    revert prefix m. induction n as [|n IH]; intros prefix m; cbn [visit_bus]; [apply doing_oof|].
    destruct (str_in excl prefix); [by apply doing_ret|].
    apply doing_forM. intros [lb s] _. eapply doing_bnd; [apply doing_get_sig|]. intros o. cbn.
    eapply (doing_pre unbound); [by intros w [_ ?]|].
    destruct (is_bus (so_kind o)); [apply IH|]. destruct (str_in excl (prefix +:+ lb)); [by apply doing_ret|].
    eapply doing_bnd; [apply do_at_label|]. intros si. eapply doing_bnd; [apply do_at_label|]. intros so.
    apply do_build_one.
  Qed.
  Lemma do_bus_members P b : doing P (bus_members b) (fun m w => P w).
  Proof.
    unfold bus_members. eapply doing_bnd; [apply doing_get_sig|]. intros o. cbn.
    destruct (is_bus (so_kind o)); [|apply doing_undef]. apply doing_ret. naive_solver.
  Qed.
  Lemma do_block_connect' b ib ob : doing unbound (block_connect b ib ob) (fun _ => unbound).
  Proof.
    intros w Hu. destruct (w_blks w !! b) as [o|] eqn:Eo.
    - pose proof (do_block_connect b ib ob (bo_cls o) w) as Hd.
      assert (unbound w /\ exists o', w_blks w !! b = Some o' /\ bo_cls o' = bo_cls o) as Hp by eauto.
      specialize (Hd Hp). destruct (block_connect b ib ob w); [|done..]. destruct Hd as [Hs _].
      split; [done|]. by eapply stable_unbound.
    - pose proof (block_connect_eq b ib ob w) as Hb.
      destruct (block_connect b ib ob w); [|by destruct Hb as [-> _]; apply rtc_refl|done..].
      destruct Hb as (o & ? & ? & Ho & _). congruence.
  Qed.
  Lemma do_connect dbg b ib ob : doing unbound (connect dbg b ib ob) (fun _ => unbound).
  Proof.
    unfold connect. eapply doing_bnd; [apply doing_get_blk|]. intros o. cbn beta.
    eapply (doing_pre unbound); [by intros w [_ ?]|].
    destruct (bo_cls o) eqn:Ec; try (eapply doing_unbound1, do_connect_simple).
    - eapply doing_bnd; [apply do_block_connect'|intros u]. eapply doing_bnd; [apply do_bus_members|intros im].
      eapply doing_bnd; [apply do_bus_members|intros om]. eapply doing_bnd; [apply do_visit_bus|intros u2].
      eapply doing_bnd; [apply doing_get_blk|]. intros o'. cbn beta.
      eapply doing_post; [apply doing_debug|]. by intros ? ? [_ ?].
    - eapply doing_bnd; [apply do_block_connect'|intros u]. eapply doing_bnd; [apply do_bus_members|intros im].
      eapply doing_bnd; [apply do_bus_members|intros om]. apply do_visit_bus.
  Qed.
  Lemma do_add_block dbg p b ib ob : doing unbound (add_block dbg p b ib ob) (fun _ => unbound).
  Proof.
    unfold add_block. eapply doing_bnd; [eapply doing_unbound', do_set_parent|]. intros [|].
    - eapply doing_bnd; [apply do_connect|]. intros u. by apply doing_ret.
    - by apply doing_ret.
  Qed.
  Lemma doing_drop {A} P (m : W A) (Q : A -> world D -> Prop) :
    doing P m Q -> doing P (bnd m (fun _ => ret tt)) (fun _ => yes).
  Proof. intros Hm. eapply doing_bnd; [exact Hm|]. intros a. by apply doing_ret. Qed.
  (** The port accessors work on any block: the buses of an unconnected block are empty. *)
  Lemma do_access dbg o :
    match o with OInputAt _ _ | OInputLb _ _ | OOutputAt _ _ => True | _ => False end ->
    doing unbound (exec dbg o) (fun _ => unbound).
  Proof.
    intros Ho. eapply (doing_unbound1 _ (fun _ => yes)). intros w Hu.
    assert (forall b o, w_blks w !! b = Some o -> bo_conn o = true -> self b (bo_cls o) (h_trig (bo_h o)) false w) as Hself.
    { intros b o' Ho' Hc. exists o'. done. }
    destruct o as [| | | | | | | | | |b i|b lb|b i| |]; try done; cbn [exec].
    - destruct (w_blks w !! b) as [o|] eqn:Eb; [|unfold input_at, bnd, get_blk; by rewrite Eb].
      destruct (bo_conn o) eqn:Ec.
      + apply (doing_drop _ _ _ (do_input_at b i _ _ _) w (Hself b o Eb Ec)).
      + destruct (Hu b o Eb Ec) as (_ & Hi & _). unfold input_at, bnd, get_blk. rewrite Eb, Hi. apply rtc_refl.
    - destruct (w_blks w !! b) as [o|] eqn:Eb; [|unfold input_lb, bnd, get_blk; by rewrite Eb].
      destruct (bo_conn o) eqn:Ec.
      + apply (doing_drop _ _ _ (do_input_any b lb _ _ _) w (Hself b o Eb Ec)).
      + destruct (Hu b o Eb Ec) as (_ & Hi & _). unfold input_lb, bnd, get_blk. rewrite Eb, Hi. apply rtc_refl.
    - destruct (w_blks w !! b) as [o|] eqn:Eb; [|unfold output_at, bnd, get_blk; by rewrite Eb].
      destruct (bo_conn o) eqn:Ec.
      + apply (doing_drop _ _ _ (do_output_at b i _ _ _) w (Hself b o Eb Ec)).
      + destruct (Hu b o Eb Ec) as (_ & _ & Hi & _). unfold output_at, bnd, get_blk. rewrite Eb, Hi. apply rtc_refl.
  Qed.
  Lemma do_set_deriv T x ds : doing (D:=D) yes (float_set_deriv T x ds) (fun _ => yes).
  Proof.
    unfold float_set_deriv. eapply doing_bnd; [apply doing_get_sig|]. intros o. cbn.
    destruct (ty_fits T (so_kind o)) eqn:Et; [|apply doing_undef].
    unfold set_deriv. eapply doing_bnd; [apply doing_get_sig|]. intros od. cbn.
    eapply doing_bnd; [apply doing_verify|]. intros u. cbn.
    eapply doing_bnd; [apply doing_get_sig|]. intros os. cbn.
    eapply (doing_bnd _ _ (fun _ => yes)); [|intros u2; eapply doing_post; [apply doing_verify|]; done].
    intros w (Hos & Ht & Hod & Ho & _). unfold put_sig, modify.
    change (steps w (putsig w x (SigObj (so_name os) (so_kind os) (Some ds) (so_mem os))) /\ True).
    split; [|done]. apply one_step. rewrite Hos in Ho. injection Ho as <-.
    eapply (st_deriv w T); [done|done|]. by exists od.
  Qed.
  Lemma do_user_link b x f : doing (D:=D) yes (user_link b x f) (fun _ => yes).
  Proof.
    unfold user_link. eapply doing_bnd; [apply doing_get_blk|]. intros o. cbn.
    destruct (is_user (bo_cls o)) eqn:Eu; [|apply doing_undef]. destruct (bo_conn o) eqn:Ec; [|apply doing_undef]. cbn.
    intros w [Ho _]. pose proof (link_signal_eq b x f w) as Hl.
    destruct (link_signal b x f w) as [u w'|?|?|]; [|done..]. destruct Hl as [Hs ->]. split; [|done].
    destruct (vsigb w x) eqn:Ev.
    - apply one_step. eapply st_link; [done|done|by apply vsigb_spec|auto].
    - rewrite upd_id; [apply rtc_refl|]. intros o' _. by destruct o'.
  Qed.
  Lemma do_exec dbg o : wop_ok o -> doing unbound (exec dbg o) (fun _ => unbound).
  Proof.
    intros Hok. destruct o; cbn [exec]; try (by apply (do_access dbg (OInputAt b i)));
      try (by apply (do_access dbg (OInputLb b lb))); try (by apply (do_access dbg (OOutputAt b i)));
      try apply do_connect;
      try (eapply doing_unbound'; first [apply do_rename_sig|apply do_rename_blk|apply do_set_deriv|apply do_user_link]);
      try (eapply doing_bnd; [eapply doing_unbound'; first [by apply do_new_signal|apply do_new_bus|apply do_new_bus_labelled|by apply do_new_block|apply do_set_parent|apply do_link_block]|intros x; by apply doing_ret]).
    eapply doing_bnd; [apply do_add_block|intros x; by apply doing_ret].
  Qed.
  Lemma exec_steps dbg o w : wop_ok o -> unbound w ->
    match exec dbg o w with Ok _ w' | Exn _ w' => steps w w' /\ unbound w' | _ => True end.
  Proof.
    intros Hok Hu. pose proof (do_exec dbg o Hok w Hu) as Hd. destruct (exec dbg o w); [done| |done..].
    split; [done|by eapply stable_unbound].
  Qed.
  (** Every reachable world is reached by steps. *)
  Lemma reach_steps dbg w : wreach dbg w -> steps empty_world w.
  Proof.
    intros Hr. assert (steps empty_world w /\ unbound w) as [? _]; [|done].
    induction Hr as [|w o u w' Hr [IH1 IH2] Hok He|w o e w' Hr [IH1 IH2] Hok He].
    - split; [apply rtc_refl|]. intros b o Hb. done.
    - pose proof (exec_steps dbg o w Hok IH2) as Hd. rewrite He in Hd. destruct Hd. split; [by etrans|done].
    - pose proof (exec_steps dbg o w Hok IH2) as Hd. rewrite He in Hd. destruct Hd. split; [by etrans|done].
  Qed.
  (** Invariants of steps hold in every reachable world. *)
  Lemma reach_inv dbg (I : world D -> Prop) :
    I empty_world -> (forall w w', steps empty_world w -> step w w' -> I w -> I w') -> forall w, wreach dbg w -> I w.
  Proof.
    intros H0 HI w Hr. apply reach_steps in Hr.
    assert (forall w w', steps w w' -> steps empty_world w -> I w -> I w') as Hind; [|by eapply Hind].
    clear w Hr. intros w w' Hs. induction Hs as [|w w1 w2 Hst Hs IH]; [done|]. intros He Hw.
    apply IH; [|by eapply HI]. etrans; [exact He|by apply one_step].
  Qed.
End ops.
