(** Client operations decompose into the steps of Steps.v. *)
From stdpp Require Import prelude gmap strings.
From Coq Require Import ZArith.
From Verif Require Import Num Res Name SpecName P_Name Store Leaf Sched World Api Steps.

Section logic.
  Context {D : Type} `{NumOps D}.
  Implicit Types (w : world D) (P R : world D -> Prop).
  Notation W := (M (world D)).

  (** From a world satisfying [P], [m] performs steps, and if it returns [a], then
      [Q a] holds. *)
  Definition doing {A} (P : world D -> Prop) (m : W A) (Q : A -> world D -> Prop) : Prop :=
    forall w, P w ->
      match m w with
      | Ok a w' => steps w w' /\ Q a w'
      | Exn _ w' => steps w w'
      | UB _ | OOF => True
      end.
  (** Facts no step can undo. *)
  Definition stable (F : world D -> Prop) : Prop := forall w w', steps w w' -> F w -> F w'.

  Lemma doing_ret {A} (a : A) P (Q : A -> world D -> Prop) : (forall w, P w -> Q a w) -> doing P (ret a) Q.
  Proof. intros HQ w Hw. cbn. split; [apply rtc_refl|auto]. Qed.
  Lemma doing_bnd {A B} P (m : W A) (Q : A -> world D -> Prop) (k : A -> W B) (R : B -> world D -> Prop) :
    doing P m Q -> (forall a, doing (Q a) (k a) R) -> doing P (bnd m k) R.
  Proof.
    intros Hm Hk w Hw. specialize (Hm w Hw). unfold bnd. destruct (m w) as [a w'|e w'|u|]; [|done..].
    destruct Hm as [Hs HQ]. specialize (Hk a w' HQ). destruct (k a w') as [b w''|e w''|u|]; [|by etrans|done..].
    destruct Hk as [Hs' HR]. split; [by etrans|done].
  Qed.
  Lemma doing_post {A} P (m : W A) (Q Q' : A -> world D -> Prop) :
    doing P m Q -> (forall a w, Q a w -> Q' a w) -> doing P m Q'.
  Proof. intros Hm HQ w Hw. specialize (Hm w Hw). destruct (m w); naive_solver. Qed.
  Lemma doing_pre {A} (P P' : world D -> Prop) (m : W A) (Q : A -> world D -> Prop) :
    (forall w, P' w -> P w) -> doing P m Q -> doing P' m Q.
  Proof. intros HP Hm w Hw. apply Hm. auto. Qed.
  Lemma doing_frame {A} (F : world D -> Prop) P (m : W A) (Q : A -> world D -> Prop) :
    stable F -> doing P m Q -> doing (fun w => P w /\ F w) m (fun a w => Q a w /\ F w).
  Proof.
    intros HF Hm w [HP HFw]. specialize (Hm w HP). destruct (m w); [|done..]. naive_solver.
  Qed.
  Lemma doing_verify P c e : doing P (verify c e) (fun _ w => c = true /\ P w).
  Proof. intros w Hw. unfold verify. destruct c; cbn; [split; [apply rtc_refl|done]|apply rtc_refl]. Qed.
  Lemma doing_debug P dbg c e : doing P (debug_verify dbg c e) (fun _ w => P w).
  Proof. intros w Hw. unfold debug_verify, verify. destruct dbg, c; cbn; try split; try apply rtc_refl; done. Qed.
  Lemma doing_throw {A} P e (Q : A -> world D -> Prop) : doing P (throw e) Q.
  Proof. intros w Hw. cbn. apply rtc_refl. Qed.
  Lemma doing_undef {A} P u (Q : A -> world D -> Prop) : doing P (undef u) Q.
  Proof. intros w Hw. done. Qed.
  Lemma doing_oof {A} P (Q : A -> world D -> Prop) : doing P (fun _ => OOF) Q.
  Proof. intros w Hw. done. Qed.
  Lemma doing_get_sig P s : doing P (get_sig s) (fun o w => w_sigs w !! s = Some o /\ P w).
  Proof. intros w Hw. unfold get_sig. destruct (w_sigs w !! s) eqn:E; [|done]. split; [apply rtc_refl|done]. Qed.
  Lemma doing_get_blk P b : doing P (get_blk b) (fun o w => w_blks w !! b = Some o /\ P w).
  Proof. intros w Hw. unfold get_blk. destruct (w_blks w !! b) eqn:E; [|done]. split; [apply rtc_refl|done]. Qed.
  Lemma doing_forM {A} (I : world D -> Prop) (l : list A) f :
    (forall x, x ∈ l -> doing I (f x) (fun _ => I)) -> doing I (forM l f) (fun _ => I).
  Proof.
    induction l as [|x l IH]; intros Hf; cbn [forM]; [by apply doing_ret|].
    eapply doing_bnd; [apply Hf, elem_of_list_here|]. intros a. apply IH. intros y Hy. apply Hf.
    by apply elem_of_list_further.
  Qed.
  (** A single modification that is a step. *)
  Lemma doing_upd P b f (Q : unit -> world D -> Prop) :
    (forall w, P w -> steps w (upd w b f) /\ Q tt (upd w b f)) -> doing P (upd_blk b f) Q.
  Proof. intros Hs w Hw. unfold upd_blk, modify. apply (Hs w Hw). Qed.

  Lemma upd_ext w b o f g : w_blks w !! b = Some o -> f o = g o -> upd w b f = upd w b g.
  Proof. intros Hb He. unfold upd. f_equal. apply list_eq. intros i. destruct (decide (b = i)) as [<-|Hne].
    - rewrite !list_lookup_alter, Hb. cbn. by rewrite He.
    - by rewrite !list_lookup_alter_ne by done.
  Qed.
  Lemma upd_id w b f : (forall o, w_blks w !! b = Some o -> f o = o) -> upd w b f = w.
  Proof.
    intros Hf. unfold upd. destruct w as [ss bs]. cbn in *. f_equal. apply list_eq. intros i.
    destruct (decide (b = i)) as [<-|Hne]; [|by rewrite list_lookup_alter_ne].
    rewrite list_lookup_alter. destruct (bs !! b) eqn:E; [|done]. cbn. by rewrite Hf.
  Qed.
  Lemma upd_upd w b f g : upd (upd w b f) b g = upd w b (fun x => g (f x)).
  Proof.
    unfold upd. cbn. f_equal. apply list_eq. intros i. destruct (decide (b = i)) as [<-|Hne].
    - rewrite !list_lookup_alter. by destruct (w_blks w !! b).
    - by rewrite !list_lookup_alter_ne by done.
  Qed.
  Lemma upd_lookup w b f o : w_blks w !! b = Some o -> w_blks (upd w b f) !! b = Some (f o).
  Proof. intros Hb. cbn. by rewrite list_lookup_alter, Hb. Qed.
  Lemma upd_lookup_ne w b b' f : b ≠ b' -> w_blks (upd w b f) !! b' = w_blks w !! b'.
  Proof. intros Hb. cbn. by rewrite list_lookup_alter_ne. Qed.
  Lemma one_step w w' : step w w' -> steps w w'.
  Proof. apply rtc_once. Qed.

  (** ** Stable facts *)
  Definition kind_is (s : nat) (k : kind) w : Prop := exists o, w_sigs w !! s = Some o /\ so_kind o = k.
  Definition sig_is (s : nat) (k : kind) (m : list (string * nat)) w : Prop :=
    exists o, w_sigs w !! s = Some o /\ so_kind o = k /\ so_mem o = m.

  Lemma step_sig w w' s o : step w w' -> w_sigs w !! s = Some o ->
    exists o', w_sigs w' !! s = Some o' /\ so_kind o' = so_kind o /\ so_mem o' = so_mem o.
  Proof.
    intros Hs Ho. destruct Hs; cbn; try (by eauto).
    - exists o. by rewrite lookup_app_l by (by eapply lookup_lt_Some).
    - exists o. by rewrite lookup_app_l by (by eapply lookup_lt_Some).
    - destruct (decide (s = s0)) as [->|Hne].
      + rewrite list_lookup_insert by (by eapply lookup_lt_Some). simplify_eq. eauto.
      + rewrite list_lookup_insert_ne by done. eauto.
    - destruct (decide (s = s0)) as [->|Hne].
      + rewrite list_lookup_insert by (by eapply lookup_lt_Some). simplify_eq. eauto.
      + rewrite list_lookup_insert_ne by done. eauto.
  Qed.
  Lemma steps_sig w w' s o : steps w w' -> w_sigs w !! s = Some o ->
    exists o', w_sigs w' !! s = Some o' /\ so_kind o' = so_kind o /\ so_mem o' = so_mem o.
  Proof.
    intros Hs. revert o. induction Hs as [w|w w1 w2 H1 H2 IH]; intros o Ho; [eauto|].
    destruct (step_sig _ _ _ _ H1 Ho) as (o1 & Ho1 & Hk1 & Hm1).
    destruct (IH _ Ho1) as (o2 & Ho2 & Hk2 & Hm2). exists o2. split_and!; [done|congruence|congruence].
  Qed.
  Lemma stable_sig_is s k m : stable (sig_is s k m).
  Proof. intros w w' Hs (o & Ho & <- & <-). by destruct (steps_sig _ _ _ _ Hs Ho) as (o' & ? & ? & ?); exists o'. Qed.
  Lemma stable_kind_is s k : stable (kind_is s k).
  Proof. intros w w' Hs (o & Ho & <-). destruct (steps_sig _ _ _ _ Hs Ho) as (o' & ? & ? & ?). exists o'. done. Qed.
  Lemma stable_tsig T s : stable (fun w => tsig w T s).
  Proof. intros w w' Hs (o & Ho & HT). destruct (steps_sig _ _ _ _ Hs Ho) as (o' & ? & Hk & ?). exists o'. by rewrite Hk. Qed.
  Lemma stable_vsig s : stable (fun w => vsig w s).
  Proof. intros w w' Hs (o & Ho & HT). destruct (steps_sig _ _ _ _ Hs Ho) as (o' & ? & Hk & ?). exists o'. by rewrite Hk. Qed.
  Lemma stable_and F G : stable F -> stable G -> stable (fun w => F w /\ G w).
  Proof. intros HF HG w w' Hs [? ?]. split; eauto. Qed.
  Lemma stable_true : stable (fun _ => True).
  Proof. done. Qed.
  Lemma stable_pure (p : Prop) : stable (fun _ => p).
  Proof. by intros ? ? ? ?. Qed.

  (** The class of a block stays (a BusMemory loses initial values). *)
  Definition same_cls (c c' : cls D) : Prop :=
    c' = c \/ exists i i' e, c = CBusMem i e /\ c' = CBusMem i' e.
  Lemma step_blk w w' b o : step w w' -> w_blks w !! b = Some o ->
    exists o', w_blks w' !! b = Some o' /\ same_cls (bo_cls o) (bo_cls o') /\
      (bo_conn o = true -> bo_conn o' = true /\ bo_ibus o' = bo_ibus o /\ bo_obus o' = bo_obus o) /\
      bo_st o' = bo_st o /\ bo_nin o' = bo_nin o /\ bo_nout o' = bo_nout o.
  Proof.
    intros Hs Ho.
    assert (forall b' f (w0 : world D), w_blks w0 !! b = Some o ->
      (forall o', w_blks w0 !! b' = Some o' ->
        same_cls (bo_cls o') (bo_cls (f o')) /\
        (bo_conn o' = true -> bo_conn (f o') = true /\ bo_ibus (f o') = bo_ibus o' /\ bo_obus (f o') = bo_obus o') /\
        bo_st (f o') = bo_st o' /\ bo_nin (f o') = bo_nin o' /\ bo_nout (f o') = bo_nout o') ->
      exists o', w_blks (upd w0 b' f) !! b = Some o' /\ same_cls (bo_cls o) (bo_cls o') /\
      (bo_conn o = true -> bo_conn o' = true /\ bo_ibus o' = bo_ibus o /\ bo_obus o' = bo_obus o) /\
      bo_st o' = bo_st o /\ bo_nin o' = bo_nin o /\ bo_nout o' = bo_nout o) as Hupd.
    { intros b' f w0 Ho0 Hf. destruct (decide (b' = b)) as [->|Hne].
      - rewrite (upd_lookup _ _ _ _ Ho0). eexists. split; [done|]. by apply Hf.
      - rewrite upd_lookup_ne by done. exists o. split; [done|]. split; [by left|done]. }
    destruct Hs; cbn [addsig putsig w_blks]; try (exists o; split; [done|split; [by left|done]]).
    - exists o. cbn. rewrite lookup_app_l by (by eapply lookup_lt_Some). split; [done|split; [by left|done]].
    - apply Hupd; [cbn; by rewrite lookup_app_l by (by eapply lookup_lt_Some)|].
      intros o' _. split; [by left|done].
    - apply Hupd; [done|]. intros o' _. split; [by left|done].
    - destruct (Hupd b0 (set_par (Some p)) w Ho) as (o1 & Ho1 & Hc1 & Hn1 & Hs1 & Hi1 & Hq1).
      { intros o' _. split; [by left|done]. }
      destruct (decide (p = b)) as [->|Hne].
      + rewrite (upd_lookup _ _ _ _ Ho1). eexists. split; [done|]. done.
      + rewrite upd_lookup_ne by done. exists o1. done.
    - apply Hupd; [done|]. intros o' _. split; [by left|done].
    - apply Hupd; [done|]. intros o' Ho'. simplify_eq. split; [by left|]. split; [congruence|done].
    - apply Hupd; [done|]. intros o' _. split; [by left|done].
    - apply Hupd; [done|]. intros o' _. split; [by left|done].
    - apply Hupd; [done|]. intros o' _. split; [by left|done].
    - apply Hupd; [done|]. intros o' _. split; [by left|done].
    - apply Hupd; [done|]. intros o' Ho'. simplify_eq. split; [|done]. right. eauto 10.
  Qed.
End logic.
