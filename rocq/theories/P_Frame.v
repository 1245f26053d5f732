(** What connect leaves alone. *)
From stdpp Require Import prelude gmap strings pretty.
From Coq Require Import ZArith.
From Verif Require Import Num Res Name Store Leaf Sched World Api Steps P_Steps P_Ops P_World.

Section frame.
  Context {D : Type} `{NumOps D}.
  Notation W := (M (world D)).
  Implicit Types w : world D.

  (** Operations that stay within a relation, whether they return or throw. *)
  Definition wpres {A} (R : world D -> world D -> Prop) (m : W A) : Prop :=
    forall w, match m w with Ok _ w' | Exn _ w' => R w w' | _ => True end.

  Section rules.
    Context (R : world D -> world D -> Prop) {HR : PreOrder R}.
    Lemma wpres_ret {A} (a : A) : wpres R (ret a).
    Proof. intros w. cbn. reflexivity. Qed.
    Lemma wpres_throw {A} e : wpres R (throw (A:=A) e).
    Proof. intros w. cbn. reflexivity. Qed.
    Lemma wpres_undef {A} u : wpres R (undef (A:=A) u).
    Proof. by intros w. Qed.
    Lemma wpres_bnd {A B} (m : W A) (k : A -> W B) : wpres R m -> (forall a, wpres R (k a)) -> wpres R (bnd m k).
    Proof.
      intros Hm Hk w. unfold bnd. specialize (Hm w). destruct (m w) as [a w1|e w1|?|]; [|done..].
      specialize (Hk a w1). destruct (k a w1); [..|done|done]; by etrans.
    Qed.
    Lemma wpres_verify c e : wpres R (verify c e).
    Proof. destruct c; [apply wpres_ret|apply wpres_throw]. Qed.
    Lemma wpres_debug dbg c e : wpres R (debug_verify dbg c e).
    Proof. destruct dbg; [apply wpres_verify|apply wpres_ret]. Qed.
    Lemma wpres_get_sig s : wpres R (get_sig s).
    Proof. intros w. unfold get_sig. destruct (w_sigs w !! s); [reflexivity|done]. Qed.
    Lemma wpres_get_blk b : wpres R (get_blk b).
    Proof. intros w. unfold get_blk. destruct (w_blks w !! b); [reflexivity|done]. Qed.
    Lemma wpres_forM {A} (l : list A) f : (forall a, wpres R (f a)) -> wpres R (forM l f).
    Proof. intros Hf. induction l as [|a l IH]; cbn; [apply wpres_ret|]. apply wpres_bnd; [done|by intros _]. Qed.
    Lemma wpres_at_index m i : wpres R (at_index m i).
    Proof. unfold at_index. destruct (m !! i); [apply wpres_ret|apply wpres_throw]. Qed.
    Lemma wpres_at_label m lb : wpres R (at_label m lb).
    Proof.
      unfold at_label. generalize (S (String.length lb)). intros n. revert m lb.
      induction n as [|n IH]; intros m lb; cbn; [by intros w|].
      destruct (find_label m _); [|apply wpres_throw]. destruct (snd (cut_dot lb)); [|apply wpres_ret].
      apply wpres_bnd; [apply wpres_get_sig|intros o]. apply wpres_bnd; [apply wpres_verify|]. intros _. apply IH.
    Qed.
    Lemma wpres_bind_handle T s : wpres R (bind_handle T s).
    Proof.
      apply wpres_bnd; [apply wpres_get_sig|intros o]. apply wpres_bnd; [apply wpres_verify|]. intros _. apply wpres_ret.
    Qed.
    Lemma wpres_bus_members s : wpres R (bus_members s).
    Proof. apply wpres_bnd; [apply wpres_get_sig|intros o]. destruct (is_bus (so_kind o)); [apply wpres_ret|apply wpres_undef]. Qed.
    Lemma wpres_link_signal b s f :
      (forall g, wpres R (upd_blk b (fun x => set_linked (g x) x))) -> wpres R (link_signal b s f).
    Proof.
      intros Hu. apply wpres_bnd; [apply wpres_get_sig|intros o].
      destruct (is_bus (so_kind o)); [apply wpres_ret|apply Hu].
    Qed.
  End rules.

  (** ** Everything but the links and handles of block [t] stays. *)
  Definition same_core (o o' : blkobj D) : Prop :=
    bo_name o' = bo_name o /\ bo_parent o' = bo_parent o /\ bo_children o' = bo_children o /\
    bo_nin o' = bo_nin o /\ bo_nout o' = bo_nout o /\ bo_cls o' = bo_cls o /\ bo_st o' = bo_st o /\
    (bo_conn o = true -> bo_conn o' = true /\ bo_ibus o' = bo_ibus o /\ bo_obus o' = bo_obus o).
  Record only (t : nat) w w' : Prop := {
    on_other : forall b, b ≠ t -> w_blks w' !! b = w_blks w !! b;
    on_self : forall o, w_blks w !! t = Some o -> exists o', w_blks w' !! t = Some o' /\ same_core o o';
    on_none : w_blks w !! t = None -> w_blks w' !! t = None;
    on_sigs : (fun o => (so_name o, so_kind o, so_mem o)) <$> w_sigs w' = (fun o => (so_name o, so_kind o, so_mem o)) <$> w_sigs w
  }.
  #[global] Instance only_preorder t : PreOrder (only t).
  Proof.
    split.
    - intros w. split; try done. intros o Ho. exists o. split; [done|]. by repeat split.
    - intros w1 w2 w3 [A1 A2 A3 A4] [B1 B2 B3 B4]. split.
      + intros b Hb. by rewrite B1, A1.
      + intros o Ho. destruct (A2 o Ho) as (o2 & Ho2 & (C1 & C2 & C3 & C4 & C5 & C6 & C7 & C8)).
        destruct (B2 o2 Ho2) as (o3 & Ho3 & (E1 & E2 & E3 & E4 & E5 & E6 & E7 & E8)).
        exists o3. split; [done|]. split_and!; try congruence. intros Hc. destruct (C8 Hc) as (F1 & F2 & F3).
        destruct (E8 F1) as (G1 & G2 & G3). split_and!; congruence.
      + intros Hn. auto.
      + congruence.
  Qed.
  Lemma only_upd t f : (forall o, same_core o (f o)) -> wpres (only t) (upd_blk t f).
  Proof.
    intros Hf w. cbn. split; cbn.
    - intros b Hb. by rewrite list_lookup_alter_ne.
    - intros o Ho. exists (f o). by rewrite list_lookup_alter, Ho.
    - intros Ho. by rewrite list_lookup_alter, Ho.
    - done.
  Qed.
  Ltac oupd := apply only_upd; intros o; by repeat split.
  Ltac ostep := lazymatch goal with
    | |- wpres _ (bnd _ _) => apply wpres_bnd; [apply _| |intros ?]
    | |- wpres _ (ret _) => apply wpres_ret, _
    | |- wpres _ (throw _) => apply wpres_throw, _
    | |- wpres _ (undef _) => apply wpres_undef
    | |- wpres _ (verify _ _) => apply wpres_verify, _
    | |- wpres _ (debug_verify _ _ _) => apply wpres_debug, _
    | |- wpres _ (get_sig _) => apply wpres_get_sig, _
    | |- wpres _ (get_blk _) => apply wpres_get_blk, _
    | |- wpres _ (at_index _ _) => apply wpres_at_index, _
    | |- wpres _ (at_label _ _) => apply wpres_at_label, _
    | |- wpres _ (bind_handle _ _) => apply wpres_bind_handle, _
    | |- wpres _ (bus_members _) => apply wpres_bus_members, _
    | |- wpres _ (link_signal _ _ _) => apply wpres_link_signal; [apply _|intros g; oupd]
    | |- wpres _ (forM _ _) => apply wpres_forM; [apply _|intros ?]
    | |- wpres _ (upd_blk _ _) => oupd
    end.
  Lemma only_input_at t i : wpres (only t) (input_at t i). Proof. unfold input_at. repeat ostep. Qed.
  Lemma only_input_lb t i : wpres (only t) (input_lb t i). Proof. unfold input_lb. repeat ostep. Qed.
  Lemma only_output_at t i : wpres (only t) (output_at t i). Proof. unfold output_at. repeat ostep. Qed.
  Lemma only_bind_in t T : wpres (only t) (bind_in t T).
  Proof. unfold bind_in. apply wpres_bnd; [apply _|apply only_input_at|intros s]. repeat ostep. Qed.
  Lemma only_bind_out t T : wpres (only t) (bind_out t T).
  Proof. unfold bind_out. apply wpres_bnd; [apply _|apply only_output_at|intros s]. repeat ostep. Qed.
  Lemma only_bind_x12 t : wpres (only t) (bind_x12 t).
  Proof.
    unfold bind_x12. apply wpres_bnd; [apply _|apply only_input_at|intros s].
    do 2 (apply wpres_bnd; [apply _|repeat ostep|intros ?]).
    apply wpres_bnd; [apply _|apply only_input_at|intros s']. repeat ostep.
  Qed.
  Lemma only_bind_delay t T : wpres (only t) (bind_delay t T).
  Proof.
    unfold bind_delay. do 2 (apply wpres_bnd; [apply _|apply only_input_lb|intros ?];
    do 2 (apply wpres_bnd; [apply _|repeat ostep|intros ?])).
    apply wpres_bnd; [apply _|apply only_input_lb|intros s']. repeat ostep.
  Qed.
  Lemma only_set_deriv t T s ds : wpres (only t) (set_deriv T s ds).
  Proof.
    unfold set_deriv. ostep; [ostep|]. ostep; [ostep|]. intros w. unfold bnd, get_sig.
    destruct (w_sigs w !! s) as [o|] eqn:Eo; [|done]. unfold put_sig, modify.
    assert (only t w (World (<[s := SigObj (so_name o) (so_kind o) (Some ds) (so_mem o)]> (w_sigs w)) (w_blks w))) as Ho.
    { split; cbn; [done|intros o' Ho'; exists o'; split; [done|by repeat split]|done|].
      apply list_eq. intros i. rewrite !list_lookup_fmap. destruct (decide (i = s)) as [->|Hne].
      - rewrite list_lookup_insert by (by eapply lookup_lt_Some). by rewrite Eo.
      - by rewrite list_lookup_insert_ne. }
    unfold verify. destruct (Nat.eqb _ _); exact Ho.
  Qed.
  Lemma only_float_set_deriv t T s ds : wpres (only t) (float_set_deriv T s ds).
  Proof. unfold float_set_deriv. ostep; [ostep|]. destruct (ty_fits _ _); [apply only_set_deriv|ostep]. Qed.
  Lemma only_user_link t s f : wpres (only t) (user_link t s f).
  Proof. unfold user_link. ostep; [ostep|]. destruct (is_user _ && _); [|ostep]. ostep. Qed.
  Lemma only_bind_integ t T : wpres (only t) (bind_integ t T).
  Proof.
    unfold bind_integ, adjust_link. apply wpres_bnd; [apply _|apply only_input_at|intros s]. ostep; [ostep|].
    destruct (h_out _); [|ostep]. apply wpres_bnd; [apply _|apply only_set_deriv|intros _]. repeat ostep.
  Qed.
  Lemma only_bind_trig t : wpres (only t) (bind_trig t).
  Proof. unfold bind_trig. apply wpres_bnd; [apply _|apply only_input_lb|intros s]. repeat ostep. Qed.
  Lemma only_check_inputs dbg t T : wpres (only t) (check_inputs dbg t T).
  Proof. unfold check_inputs. repeat ostep. Qed.
  Lemma only_unrequire t : wpres (only t) (unrequire_in t).
  Proof. unfold unrequire_in, adjust_link. ostep; [ostep|]. destruct (h_in _); repeat ostep. Qed.
  Lemma only_block_connect t ib ob : wpres (only t) (block_connect t ib ob).
  Proof.
    intros w. pose proof (block_connect_eq t ib ob w) as Hb. destruct (block_connect t ib ob w) as [u w'|e w'|?|]; [| |done..].
    - destruct Hb as (o & im & om & Ho & _ & _ & Hc & _ & _ & _ & ->). split; cbn.
      + intros b Hne. by rewrite list_lookup_alter_ne.
      + intros o' Ho'. rewrite list_lookup_alter, Ho'. simplify_eq. eexists. split; [done|]. repeat split; congruence.
      + intros Hn. by rewrite list_lookup_alter, Hn.
      + done.
    - destruct Hb as [-> _]. reflexivity.
  Qed.
  (** The part of connect that follows Block::connect. *)
  Definition after_connect (dbg : bool) (c : cls D) (b : nat) : W unit :=
    match c with
    | CConst T _ | CSource T _ | CSO T _ => bind_out b T
    | CSISO T _ | CGain T _ | CPipe T => bind_in b T ;;; bind_out b T
    | CDeriv => bind_in b TyD ;;; bind_out b TyD
    | CMemory T => bind_in b T ;;; bind_out b T ;;; unrequire_in b
    | CAdd T _ | CMul T _ => bind_out b T ;;; check_inputs dbg b T
    | CSub | CDiv => bind_out b TyD ;;; bind_x12 b
    | CDelay T _ => bind_out b T ;;; bind_delay b T
    | CInteg T => bind_out b T ;;; bind_integ b T
    | CTrig T => bind_out b T ;;; bind_integ b T ;;; bind_trig b
    | CSources _ | CFunction _ | CUser _ _ _ | CSubmodel | CBusMem _ _ | CBusPipe _ => ret tt
    end.
  Lemma bnd_ret (m : W unit) w : bnd m (fun _ => ret tt) w = m w.
  Proof. unfold bnd, ret. by destruct (m w) as [[] ?|?|?|]. Qed.
  Lemma connect_simple_split dbg b ib ob w o : w_blks w !! b = Some o ->
    connect_simple dbg b ib ob w = bnd (block_connect b ib ob) (fun _ => after_connect dbg (bo_cls o) b) w.
  Proof.
    intros Ho. unfold connect_simple. unfold bnd at 1, get_blk. rewrite Ho.
    destruct (bo_cls o); cbn [after_connect]; try done; by rewrite bnd_ret.
  Qed.
  Lemma only_after dbg c t : wpres (only t) (after_connect dbg c t).
  Proof.
    destruct c; cbn [after_connect]; try ostep;
      repeat (first [apply only_bind_in|apply only_bind_out|apply only_unrequire|apply only_check_inputs|apply only_bind_x12
                    |apply only_bind_delay|apply only_bind_integ|apply only_bind_trig|apply wpres_bnd; [apply _| |intros ?]]).
  Qed.
  Lemma only_connect_simple dbg t ib ob : wpres (only t) (connect_simple dbg t ib ob).
  Proof.
    intros w. destruct (w_blks w !! t) as [o|] eqn:Eo.
    - rewrite (connect_simple_split _ _ _ _ _ _ Eo).
      apply wpres_bnd; [apply _|apply only_block_connect|intros _; apply only_after].
    - unfold connect_simple, bnd at 1, get_blk. by rewrite Eo.
  Qed.

  (** ** Blocks and signals that existed before keep their wiring and their parents,
      except those of block [x]; new blocks are not submodels. *)
  Record older (x : option nat) w w' : Prop := {
    ol_blk : forall b o, w_blks w !! b = Some o -> exists o', w_blks w' !! b = Some o' /\
      (is_submodel (bo_cls o) = false -> is_submodel (bo_cls o') = false) /\
      (x ≠ Some b -> same_wiring o o' /\ bo_parent o' = bo_parent o);
    ol_new : forall b o', w_blks w !! b = None -> w_blks w' !! b = Some o' -> is_submodel (bo_cls o') = false;
    ol_sig : forall s o, w_sigs w !! s = Some o -> exists o', w_sigs w' !! s = Some o' /\
      so_kind o' = so_kind o /\ so_mem o' = so_mem o
  }.
  #[global] Instance older_preorder x : PreOrder (older x).
  Proof.
    split.
    - intros w. split.
      + intros b o Ho. exists o. split_and!; [done|done|]. intros _. by repeat split.
      + intros b o' Hn Ho. congruence.
      + intros s o Ho. eauto.
    - intros w1 w2 w3 [A1 A2 A3] [B1 B2 B3]. split.
      + intros b o Ho. destruct (A1 b o Ho) as (o2 & Ho2 & S2 & W2). destruct (B1 b o2 Ho2) as (o3 & Ho3 & S3 & W3).
        exists o3. split_and!; [done|auto|]. intros Hx. destruct (W2 Hx) as [(a1 & a2 & a3 & a4 & a5) a6].
        destruct (W3 Hx) as [(b1 & b2 & b3 & b4 & b5) b6]. split; [|congruence]. unfold same_wiring. split_and!; congruence.
      + intros b o' Hn Ho'. destruct (w_blks w2 !! b) as [o2|] eqn:E2; [|by eapply B2].
        destruct (B1 b o2 E2) as (o3 & Ho3 & S3 & _). simplify_eq. apply S3. by eapply A2.
      + intros s o Ho. destruct (A3 s o Ho) as (o2 & Ho2 & ? & ?). destruct (B3 s o2 Ho2) as (o3 & Ho3 & ? & ?).
        exists o3. split_and!; [done|congruence|congruence].
  Qed.
  Lemma older_upd x b f :
    (forall o, (is_submodel (bo_cls o) = false -> is_submodel (bo_cls (f o)) = false) /\
               (x ≠ Some b -> same_wiring o (f o) /\ bo_parent (f o) = bo_parent o)) ->
    wpres (older x) (upd_blk b f).
  Proof.
    intros Hf w. cbn. split; cbn.
    - intros b' o Ho. destruct (decide (b' = b)) as [->|Hne].
      + exists (f o). rewrite list_lookup_alter, Ho. destruct (Hf o) as [F1 F2]. by split_and!.
      + exists o. rewrite list_lookup_alter_ne by done. split_and!; [done|done|]. intros _. by repeat split.
    - intros b' o' Hn Ho'. destruct (decide (b' = b)) as [->|Hne].
      + rewrite list_lookup_alter, Hn in Ho'. done.
      + rewrite list_lookup_alter_ne in Ho' by done. congruence.
    - intros s o Ho. eauto.
  Qed.
  Lemma older_only x w w' : only x w w' -> older (Some x) w w'.
  Proof.
    intros [A1 A2 A3 A4]. split.
    - intros b o Ho. destruct (decide (b = x)) as [->|Hne].
      + destruct (A2 o Ho) as (o' & Ho' & (_ & _ & _ & _ & _ & C & _)). exists o'. split_and!; [done|by rewrite C|done].
      + exists o. rewrite A1 by done. split_and!; [done|done|]. intros _. by repeat split.
    - intros b o' Hn Ho'. destruct (decide (b = x)) as [->|Hne]; [by rewrite A3 in Ho'|]. rewrite A1 in Ho' by done. congruence.
    - intros s o Ho. assert ((fun o => (so_name o, so_kind o, so_mem o)) <$> w_sigs w' !! s = Some (so_name o, so_kind o, so_mem o)) as Hs.
      { by rewrite <- list_lookup_fmap, A4, list_lookup_fmap, Ho. }
      destruct (w_sigs w' !! s) as [o'|]; [|done]. cbn in Hs. injection Hs as ? ? ?. eauto.
  Qed.
  Lemma older_alloc_sig x o : wpres (older x) (alloc_sig o).
  Proof.
    intros w. cbn. split; cbn.
    - intros b o' Ho. exists o'. split_and!; [done|done|]. intros _. by repeat split.
    - intros b o' Hn Ho. congruence.
    - intros s o' Ho. exists o'. rewrite lookup_app_l by (by eapply lookup_lt_Some). done.
  Qed.
  Lemma older_rename_sig x s n : wpres (older x) (rename_sig s n).
  Proof.
    intros w. unfold rename_sig, bnd, get_sig. destruct (w_sigs w !! s) as [o|] eqn:Eo; [|done]. cbn. split; cbn.
    - intros b o' Ho. exists o'. split_and!; [done|done|]. intros _. by repeat split.
    - intros b o' Hn Ho. congruence.
    - intros s' o' Ho. destruct (decide (s' = s)) as [->|Hne].
      + rewrite list_lookup_insert by (by eapply lookup_lt_Some). simplify_eq. eauto.
      + rewrite list_lookup_insert_ne by done. eauto.
  Qed.
  Lemma older_new_bus_labelled x l n : wpres (older x) (new_bus_labelled l n).
  Proof.
    unfold new_bus_labelled. apply wpres_bnd; [apply _| |intros m; apply older_alloc_sig].
    induction l as [|[lb s] l IH]; cbn [bus_entries]; [apply wpres_ret, _|].
    apply wpres_bnd; [apply _| |intros e].
    - unfold bus_entry. apply wpres_bnd; [apply _|apply wpres_get_sig, _|intros o].
      apply wpres_bnd; [apply _| |intros ?; apply wpres_ret, _]. destruct (String.eqb _ _); [apply older_rename_sig|apply wpres_ret, _].
    - apply wpres_bnd; [apply _|done|intros r]. apply wpres_ret, _.
  Qed.
  Lemma older_new_bus x l n : wpres (older x) (new_bus l n).
  Proof. apply older_new_bus_labelled. Qed.
  Lemma older_alloc_blk x o : is_submodel (bo_cls o) = false -> wpres (older x) (alloc_blk o).
  Proof.
    intros Hs w. cbn. split; cbn.
    - intros b o' Ho. exists o'. rewrite lookup_app_l by (by eapply lookup_lt_Some). split_and!; [done|done|]. intros _. by repeat split.
    - intros b o' Hn Ho. apply lookup_app_Some in Ho as [?|[_ Ho]]; [congruence|].
      apply list_lookup_singleton_Some in Ho as [_ <-]. done.
    - eauto.
  Qed.
  Lemma older_link_block x p b : wpres (older x) (link_block p b).
  Proof.
    unfold link_block. apply wpres_bnd; [apply _|apply wpres_get_blk, _|intros o].
    destruct (bool_decide _); [|apply wpres_ret, _].
    apply wpres_bnd; [apply _|apply wpres_get_blk, _|intros op]. apply wpres_bnd; [apply _| |intros ?; apply wpres_ret, _].
    destruct (bool_decide _); [apply wpres_ret, _|]. apply older_upd. intros o'. split; [done|]. intros _. by repeat split.
  Qed.
  Lemma older_new_block x c st p n nin nout : is_submodel c = false -> wpres (older x) (new_block c st p n nin nout).
  Proof.
    intros Hc. unfold new_block. apply wpres_bnd; [apply _| |intros _].
    - destruct p as [p|]; [|apply wpres_ret, _]. apply wpres_bnd; [apply _|apply wpres_get_blk, _|intros op].
      destruct (is_submodel (bo_cls op)); [apply wpres_ret, _|apply wpres_undef].
    - apply wpres_bnd; [apply _|by apply older_alloc_blk|intros b]. apply wpres_bnd; [apply _| |intros _; apply wpres_ret, _].
      destruct p as [p|]; [|apply wpres_ret, _]. apply wpres_bnd; [apply _|apply older_link_block|intros _; apply wpres_ret, _].
  Qed.
  Lemma older_set_parent b p : wpres (older (Some b)) (set_parent b p).
  Proof.
    unfold set_parent. apply wpres_bnd; [apply _|apply wpres_get_blk, _|intros op].
    destruct (is_submodel (bo_cls op)); [|apply wpres_undef]. apply wpres_bnd; [apply _|apply wpres_get_blk, _|intros o].
    assert (wpres (older (Some b)) (upd_blk b (set_par (Some p)) ;;; r <~ link_block p b ;; ret true)) as Hu.
    { apply wpres_bnd; [apply _| |intros _].
      - apply older_upd. intros o'. by split.
      - apply wpres_bnd; [apply _|apply older_link_block|intros _; apply wpres_ret, _]. }
    destruct (bo_parent o) as [p'|]; [|done]. destruct (Nat.eqb p' p); [done|apply wpres_ret, _].
  Qed.
  Lemma older_connect_simple dbg t ib ob : wpres (older (Some t)) (connect_simple dbg t ib ob).
  Proof.
    intros w. pose proof (only_connect_simple dbg t ib ob w) as Ho.
    destruct (connect_simple dbg t ib ob w); try done; by apply older_only.
  Qed.
  Lemma older_rename_blk x b n : wpres (older x) (rename_blk b n).
  Proof. apply older_upd. intros o. split; [done|]. intros _. by repeat split. Qed.
  Lemma older_none x w w' : w_blks w !! x = None -> older (Some x) w w' -> older None w w'.
  Proof.
    intros Hn [A1 A2 A3]. split; [|done|done]. intros b o Ho. destruct (A1 b o Ho) as (o' & Ho' & S & Wi).
    exists o'. split_and!; [done|done|]. intros _. apply Wi. intros [= ->]. congruence.
  Qed.
  Lemma new_block_id c st p n nin nout w b w' : new_block c st p n nin nout w = Ok b w' -> b = length (w_blks w).
  Proof.
    unfold new_block, bnd, get_blk. destruct p as [p|].
    - destruct (w_blks w !! p) as [op|]; [|done]. destruct (is_submodel (bo_cls op)); [|done]. cbn.
      destruct (link_block p (length (w_blks w)) _); cbn; [|done..]. by intros [= <- _].
    - cbn. by intros [= <- _].
  Qed.
  (** new_block followed by operations on the new block *)
  Lemma older_built {B} c st p n nin nout (k : nat -> W B) : is_submodel c = false ->
    (forall b, wpres (older (Some b)) (k b)) -> wpres (older None) (bnd (new_block c st p n nin nout) k).
  Proof.
    intros Hc Hk w. unfold bnd. pose proof (older_new_block (Some (length (w_blks w))) c st p n nin nout Hc w) as H1.
    destruct (new_block c st p n nin nout w) as [b w1|e w1|?|] eqn:E; [| |done..].
    - apply new_block_id in E as ->. specialize (Hk (length (w_blks w)) w1).
      destruct (k _ w1); [..|done|done]; (eapply older_none; [by apply lookup_ge_None|by etrans]).
    - eapply older_none; [by apply lookup_ge_None|done].
  Qed.
  Lemma older_build_one dbg b lb si so : wpres (older None) (build_one dbg b lb si so).
  Proof.
    unfold build_one. apply wpres_bnd; [apply _|apply wpres_get_blk, _|intros o0].
    destruct (bo_cls o0); try apply wpres_undef; clear o0.
    - unfold build_memory. apply wpres_bnd; [apply _|apply wpres_get_blk, _|intros o].
      destruct (bo_cls o); try apply wpres_undef. apply wpres_bnd; [apply _|apply wpres_get_sig, _|intros os].
      destruct (mem_ic _ _) as [[T v] ?|?|?|]; [|apply wpres_throw, _|apply wpres_undef|by intros w].
      apply older_built; [done|]. intros m.
      apply wpres_bnd; [apply _| |intros _]. { apply older_upd. intros o'. split; [done|]. intros _. by repeat split. }
      apply wpres_bnd; [apply _|apply older_rename_blk|intros _].
      apply wpres_bnd; [apply _|apply older_new_bus|intros ib]. apply wpres_bnd; [apply _|apply older_new_bus|intros ob].
      apply older_connect_simple.
    - unfold build_pipe. apply wpres_bnd; [apply _|apply wpres_get_blk, _|intros o].
      apply wpres_bnd; [apply _|apply wpres_get_sig, _|intros os]. destruct (pipe_ty _); [|apply wpres_throw, _].
      apply older_built; [done|]. intros m. apply wpres_bnd; [apply _|apply older_rename_blk|intros _].
      apply wpres_bnd; [apply _|apply older_new_bus|intros ib]. apply wpres_bnd; [apply _|apply older_new_bus|intros ob].
      destruct (bo_parent o); [|apply wpres_undef]. apply wpres_bnd; [apply _| |intros _; apply wpres_ret, _].
      unfold add_block_simple. apply wpres_bnd; [apply _|apply older_set_parent|intros [|]; [|apply wpres_ret, _]].
      apply wpres_bnd; [apply _|apply older_connect_simple|intros _; apply wpres_ret, _].
  Qed.
  Lemma older_visit_bus dbg n b excl im om pre m : wpres (older None) (visit_bus dbg n b excl im om pre m).
  Proof.
    revert pre m. induction n as [|n IH]; intros pre m; cbn [visit_bus]; [by intros w|].
    destruct (str_in excl pre); [apply wpres_ret, _|]. apply wpres_forM; [apply _|intros [lb s]].
    apply wpres_bnd; [apply _|apply wpres_get_sig, _|intros o]. destruct (is_bus (so_kind o)); [apply IH|].
    cbv zeta. destruct (str_in excl _); [apply wpres_ret, _|].
    apply wpres_bnd; [apply _|apply wpres_at_label, _|intros si]. apply wpres_bnd; [apply _|apply wpres_at_label, _|intros so].
    apply older_build_one.
  Qed.

  (** connect is Block::connect followed by the work of the class. *)
  Definition rest_of (dbg : bool) (c : cls D) (b ib ob : nat) : W unit :=
    match c with
    | CBusMem _ excl =>
        im <~ bus_members ib ;; om <~ bus_members ob ;;
        visit_bus dbg (S ib) b excl im om "" im ;;;
        o' <~ get_blk b ;;
        debug_verify dbg (match bo_cls o' with CBusMem [] _ => true | _ => false end) EUnusedInit
    | CBusPipe excl =>
        im <~ bus_members ib ;; om <~ bus_members ob ;;
        visit_bus dbg (S ib) b excl im om "" im
    | _ => after_connect dbg c b
    end.
  Lemma connect_split dbg b ib ob w o : w_blks w !! b = Some o ->
    connect dbg b ib ob w = bnd (block_connect b ib ob) (fun _ => rest_of dbg (bo_cls o) b ib ob) w.
  Proof.
    intros Ho. unfold connect. unfold bnd at 1, get_blk. rewrite Ho.
    destruct (bo_cls o) eqn:Ec; cbn [rest_of]; try done;
      rewrite (connect_simple_split _ _ _ _ _ _ Ho), Ec; done.
  Qed.
  Definition is_builder (c : cls D) : bool := match c with CBusMem _ _ | CBusPipe _ => true | _ => false end.
  Lemma rest_builder dbg c b ib ob : is_builder c = true -> wpres (older None) (rest_of dbg c b ib ob).
  Proof.
    intros Hb. destruct c; try done; cbn [rest_of];
      (apply wpres_bnd; [apply _|apply wpres_bus_members, _|intros im]);
      (apply wpres_bnd; [apply _|apply wpres_bus_members, _|intros om]).
    - apply wpres_bnd; [apply _|apply older_visit_bus|intros _]. apply wpres_bnd; [apply _|apply wpres_get_blk, _|intros o'].
      apply wpres_debug, _.
    - apply older_visit_bus.
  Qed.
  Lemma rest_other dbg c b ib ob : is_builder c = false -> wpres (only b) (rest_of dbg c b ib ob).
  Proof. intros Hb. destruct c; try done; apply only_after. Qed.
  (** Whatever follows Block::connect, existing blocks keep their parents; the block
      stays connected to the same buses. *)
  Lemma rest_older dbg c b ib ob : wpres (older (Some b)) (rest_of dbg c b ib ob).
  Proof.
    intros w. destruct (is_builder c) eqn:Eb.
    - pose proof (rest_builder dbg c b ib ob Eb w) as Hr. destruct (rest_of dbg c b ib ob w); try done;
        destruct Hr as [A1 A2 A3]; (split; [|done|done]); intros b' o Ho; destruct (A1 _ _ Ho) as (o' & ? & ? & HW); exists o';
        (split_and!; [done|done|]); intros _; by apply HW.
    - pose proof (rest_other dbg c b ib ob Eb w) as Hr. destruct (rest_of dbg c b ib ob w); try done; by apply older_only.
  Qed.
  Lemma rest_keeps dbg c b ib ob w o : w_blks w !! b = Some o -> bo_conn o = true ->
    match rest_of dbg c b ib ob w with
    | Ok _ w' | Exn _ w' => exists o', w_blks w' !! b = Some o' /\ bo_conn o' = true /\ bo_ibus o' = bo_ibus o /\
        bo_obus o' = bo_obus o /\ bo_parent o' = bo_parent o
    | _ => True
    end.
  Proof.
    intros Ho Hc. destruct (is_builder c) eqn:Eb.
    - pose proof (rest_builder dbg c b ib ob Eb w) as Hr. destruct (rest_of dbg c b ib ob w); try done;
        destruct (ol_blk _ _ _ Hr b o Ho) as (o' & Ho' & _ & HW); destruct HW as [(E1 & E2 & E3 & E4 & E5) E6]; [done| |done|];
        exists o'; split_and!; congruence.
    - pose proof (rest_other dbg c b ib ob Eb w) as Hr. destruct (rest_of dbg c b ib ob w); try done;
        destruct (on_self _ _ _ Hr o Ho) as (o' & Ho' & (_ & E1 & _ & _ & _ & _ & _ & HW)); destruct (HW Hc) as (? & ? & ?);
        exists o'; split_and!; congruence.
  Qed.
End frame.
