(** Blocks whose connect returned hold all the signals they use. *)
From stdpp Require Import prelude gmap strings.
From Coq Require Import ZArith.
From Verif Require Import Num Res Name Store Leaf Sched World Api Steps P_Steps P_Ops P_World P_Frame SpecSized P_Sized.

Section bound.
  Context {D : Type} `{NumOps D} (dbg : bool).
  Implicit Types (w : world D).
  Notation W := (M (world D)).

  (** The members of a class that its functions use, and in a debug build the types of
      the inputs of Add and Multiply. *)
  Definition complete w (o : blkobj D) : Prop :=
    let h := bo_h o in
    match bo_cls o with
    | CConst _ _ | CSource _ _ | CSO _ _ | CInteg _ => is_Some (h_out h)
    | CSISO _ _ | CGain _ _ | CPipe _ | CDeriv | CMemory _ => is_Some (h_in h) /\ is_Some (h_out h)
    | CAdd T _ | CMul T _ => is_Some (h_out h) /\ (dbg = true -> forall e, e ∈ bo_ibus o -> tsig w T (snd e))
    | CSub | CDiv => is_Some (h_out h) /\ is_Some (h_x1 h) /\ is_Some (h_x2 h)
    | CDelay _ _ => is_Some (h_out h) /\ is_Some (h_in h) /\ is_Some (h_delay h) /\ is_Some (h_initial h)
    | CTrig _ => is_Some (h_out h) /\ is_Some (h_trig h)
    | CSources _ | CFunction _ | CUser _ _ _ | CSubmodel | CBusMem _ _ | CBusPipe _ => True
    end.
  Definition bound w : Prop := forall b o, w_blks w !! b = Some o -> bo_conn o = true -> complete w o.

  Definition hle (h h' : handles) : Prop :=
    (is_Some (h_in h) -> is_Some (h_in h')) /\ (is_Some (h_out h) -> is_Some (h_out h')) /\
    (is_Some (h_x1 h) -> is_Some (h_x1 h')) /\ (is_Some (h_x2 h) -> is_Some (h_x2 h')) /\
    (is_Some (h_delay h) -> is_Some (h_delay h')) /\ (is_Some (h_initial h) -> is_Some (h_initial h')) /\
    (is_Some (h_trig h) -> is_Some (h_trig h')).
  Lemma hle_refl h : hle h h.
  Proof. by repeat split. Qed.
  Lemma hle_trans h1 h2 h3 : hle h1 h2 -> hle h2 h3 -> hle h1 h3.
  Proof. unfold hle. intuition. Qed.
  Definition grow (t : nat) w w' : Prop :=
    forall o, w_blks w !! t = Some o -> exists o', w_blks w' !! t = Some o' /\ hle (bo_h o) (bo_h o').
  #[local] Instance grow_pre t : PreOrder (grow t).
  Proof.
    split.
    - intros w o Ho. exists o. split; [done|apply hle_refl].
    - intros w1 w2 w3 H1 H2 o Ho. destruct (H1 o Ho) as (o2 & Ho2 & E2). destruct (H2 o2 Ho2) as (o3 & Ho3 & E3).
      exists o3. split; [done|]. by eapply hle_trans.
  Qed.
  Lemma grow_upd t f : (forall o, hle (bo_h o) (bo_h (f o))) -> wpres (grow t) (upd_blk t f).
  Proof. intros Hf w o Ho. cbn. exists (f o). split; [by rewrite list_lookup_alter, Ho|done]. Qed.
  Lemma grow_put t s (o : sigobj) : wpres (grow t) (put_sig s o).
  Proof. intros w o' Ho'. cbn. exists o'. split; [done|apply hle_refl]. Qed.
  Ltac gupd := apply grow_upd; intros ?; unfold hle; cbn; repeat split; eauto.
  Ltac gs := lazymatch goal with
    | |- wpres _ (bnd _ _) => apply wpres_bnd; [apply _| |intros ?]
    | |- wpres _ (ret _) => apply wpres_ret, _
    | |- wpres _ (throw _) => apply wpres_throw, _
    | |- wpres _ (undef _) => apply wpres_undef
    | |- wpres _ (verify _ _) => apply wpres_verify, _
    | |- wpres _ (debug_verify _ _ _) => apply wpres_debug, _
    | |- wpres _ (get_sig _) => apply wpres_get_sig, _
    | |- wpres _ (get_blk _) => apply wpres_get_blk, _
    | |- wpres _ (at_index _ _) => apply wpres_at_index, _
    | |- wpres _ (at_label _ _) => apply wpres_at_label, _
    | |- wpres _ (bind_handle _ _) => apply wpres_bind_handle, _
    | |- wpres _ (bus_members _) => apply wpres_bus_members, _
    | |- wpres _ (put_sig _ _) => apply grow_put
    | |- wpres _ (link_signal _ _ _) => apply wpres_link_signal; [apply _|intros g; gupd]
    | |- wpres _ (forM _ _) => apply wpres_forM; [apply _|intros ?]
    | |- wpres _ (upd_blk _ _) => gupd
    | |- wpres _ (match ?x with _ => _ end) => destruct x
    end.
  Lemma grow_input_at t i : wpres (grow t) (input_at t i). Proof. unfold input_at. repeat gs. Qed.
  Lemma grow_input_lb t i : wpres (grow t) (input_lb t i). Proof. unfold input_lb. repeat gs. Qed.
  Lemma grow_output_at t i : wpres (grow t) (output_at t i). Proof. unfold output_at. repeat gs. Qed.
  Lemma grow_bind_in t T : wpres (grow t) (bind_in t T).
  Proof. unfold bind_in, input_at. repeat gs. Qed.
  Lemma grow_bind_out t T : wpres (grow t) (bind_out t T).
  Proof. unfold bind_out, output_at. repeat gs. Qed.
  Lemma grow_bind_x12 t : wpres (grow t) (bind_x12 t).
  Proof. unfold bind_x12, input_at. repeat gs. Qed.
  Lemma grow_bind_delay t T : wpres (grow t) (bind_delay t T).
  Proof. unfold bind_delay, input_lb. repeat gs. Qed.
  Lemma grow_bind_integ t T : wpres (grow t) (bind_integ t T).
  Proof. unfold bind_integ, adjust_link, input_at, set_deriv. repeat gs. Qed.
  Lemma grow_bind_trig t : wpres (grow t) (bind_trig t).
  Proof. unfold bind_trig, input_lb. repeat gs. Qed.
  Lemma grow_check t T : wpres (grow t) (check_inputs dbg t T).
  Proof. unfold check_inputs. repeat gs. Qed.
  Lemma grow_unrequire t : wpres (grow t) (unrequire_in t).
  Proof. unfold unrequire_in, adjust_link. repeat gs. Qed.

  (** The block at [t] exists with handle [p]. *)
  Definition hasp (p : handles -> option nat) t w : Prop := exists o, w_blks w !! t = Some o /\ is_Some (p (bo_h o)).
  Definition there t w : Prop := is_Some (w_blks w !! t).
  Definition field (p : handles -> option nat) : Prop := forall h h', hle h h' -> is_Some (p h) -> is_Some (p h').
  Lemma field_in : field h_in. Proof. by intros h h' (?&?&?&?&?&?&?). Qed.
  Lemma field_out : field h_out. Proof. by intros h h' (?&?&?&?&?&?&?). Qed.
  Lemma field_x1 : field h_x1. Proof. by intros h h' (?&?&?&?&?&?&?). Qed.
  Lemma field_x2 : field h_x2. Proof. by intros h h' (?&?&?&?&?&?&?). Qed.
  Lemma field_delay : field h_delay. Proof. by intros h h' (?&?&?&?&?&?&?). Qed.
  Lemma field_initial : field h_initial. Proof. by intros h h' (?&?&?&?&?&?&?). Qed.
  Lemma field_trig : field h_trig. Proof. by intros h h' (?&?&?&?&?&?&?). Qed.
  (** [m] returns only where [P] holds afterwards. *)
  Definition ends {A} (m : W A) (P : world D -> Prop) : Prop := forall w a w', m w = Ok a w' -> P w'.
  Lemma ends_bnd {A B} (m : W A) (k : A -> W B) P : (forall a, ends (k a) P) -> ends (bnd m k) P.
  Proof. intros Hk w b w'. unfold bnd. destruct (m w) as [a w1| | |]; try done. apply Hk. Qed.
  Lemma ends_keep {A B} (m : W A) (k : A -> W B) t p : field p -> ends m (hasp p t) -> (forall a, wpres (grow t) (k a)) -> ends (bnd m k) (hasp p t).
  Proof.
    intros Hp Hm Hk w b w'. unfold bnd. destruct (m w) as [a w1| | |] eqn:E; try done. intros E2. destruct (Hm _ _ _ E) as (o & Ho & Hh).
    specialize (Hk a w1). rewrite E2 in Hk. destruct (Hk o Ho) as (o' & Ho' & Hle). exists o'. split; [done|]. by apply (Hp _ _ Hle).
  Qed.
  (** A write of a handle after the block was looked at. *)
  Definition sees (t : nat) {A} (m : W A) : Prop := forall w a w', m w = Ok a w' -> there t w'.
  Lemma sees_keep {A B} t (m : W A) (k : A -> W B) : sees t m -> (forall a, wpres (grow t) (k a)) -> sees t (bnd m k).
  Proof.
    intros Hm Hk w b w'. unfold bnd. destruct (m w) as [a w1| | |] eqn:E; try done. intros E2. destruct (Hm _ _ _ E) as [o Ho].
    specialize (Hk a w1). rewrite E2 in Hk. destruct (Hk o Ho) as (o' & Ho' & _). by exists o'.
  Qed.
  Lemma sees_get t : sees t (get_blk t).
  Proof. intros w a w'. unfold get_blk. destruct (w_blks w !! t) as [o|] eqn:E; [|done]. intros [= <- <-]. by exists o. Qed.
  Lemma sees_input_at t i : sees t (input_at t i).
  Proof. unfold input_at. apply sees_keep; [apply sees_get|]. intros o. repeat gs. Qed.
  Lemma sees_output_at t i : sees t (output_at t i).
  Proof. unfold output_at. apply sees_keep; [apply sees_get|]. intros o. repeat gs. Qed.
  Lemma sees_input_lb t i : sees t (input_lb t i).
  Proof. unfold input_lb. apply sees_keep; [apply sees_get|]. intros o. repeat gs. Qed.
  Lemma ends_upd {A} t (m : W A) (f : A -> blkobj D -> blkobj D) p : sees t m ->
    (forall a o, is_Some (p (bo_h (f a o)))) -> ends (bnd m (fun a => upd_blk t (f a))) (hasp p t).
  Proof.
    intros Hm Hf w b w'. unfold bnd. destruct (m w) as [a w1| | |] eqn:E; try done. intros [= <- <-]. destruct (Hm _ _ _ E) as [o Ho].
    exists (f a o). cbn. split; [by rewrite list_lookup_alter, Ho|done].
  Qed.
  (** The common shape of binding a handle. *)
  Lemma ends_bind t p (m : W nat) T (f : nat -> blkobj D -> blkobj D) : sees t m -> (forall s o, is_Some (p (bo_h (f s o)))) ->
    ends (s <~ m ;; r <~ bind_handle T s ;; upd_blk t (f s)) (hasp p t).
  Proof.
    intros Hm Hf w b w'. unfold bnd at 1. destruct (m w) as [s w1| | |] eqn:E; try done. specialize (Hm _ _ _ E).
    unfold bnd. destruct (bind_handle T s w1) as [r w2| | |] eqn:E2; try done.
    assert (w2 = w1) as ->.
    { revert E2. unfold bind_handle, bnd, get_sig, verify. destruct (w_sigs w1 !! s); [|done]. destruct (ty_fits _ _); [|done]. by intros [= <- <-]. }
    intros [= <- <-]. destruct Hm as [o Ho]. exists (f s o). cbn. split; [by rewrite list_lookup_alter, Ho|done].
  Qed.
  Lemma ends_in t T : ends (bind_in t T) (hasp h_in t).
  Proof. unfold bind_in. apply (ends_bind t h_in); [apply sees_input_at|by eauto]. Qed.
  Lemma ends_out t T : ends (bind_out t T) (hasp h_out t).
  Proof. unfold bind_out. apply (ends_bind t h_out); [apply sees_output_at|by eauto]. Qed.
  Lemma ends_trig t : ends (bind_trig t) (hasp h_trig t).
  Proof. unfold bind_trig. apply (ends_bind t h_trig); [apply sees_input_lb|by eauto]. Qed.
  Lemma seq_assoc {A B C} (m : W A) (k : A -> W B) (l : B -> W C) w : bnd m (fun a => bnd (k a) l) w = bnd (bnd m k) l w.
  Proof. unfold bnd. by destruct (m w). Qed.
  Lemma ends_assoc {A B C} (m : W A) (k : A -> W B) (l : B -> W C) P : ends (bnd (bnd m k) l) P -> ends (bnd m (fun a => bnd (k a) l)) P.
  Proof. intros He w c w' E. rewrite seq_assoc in E. by eapply He. Qed.
  Lemma ends_assoc2 {A B B' C} (m : W A) (k : A -> W B) (k' : A -> W B') (l : B' -> W C) P :
    ends (bnd (bnd m (fun a => bnd (k a) (fun _ => k' a))) l) P -> ends (bnd m (fun a => bnd (k a) (fun _ => bnd (k' a) l))) P.
  Proof.
    intros He w c w' E. apply (He w c w'). rewrite <- E. unfold bnd. destruct (m w) as [a w1| | |]; [|done..]. destruct (k a w1); done.
  Qed.
  Lemma ends_x1 t : ends (bind_x12 t) (hasp h_x1 t).
  Proof.
    unfold bind_x12. apply ends_assoc2. apply ends_keep; [apply field_x1| |intros _; unfold input_at; repeat gs].
    apply (ends_bind t h_x1); [apply sees_input_at|by eauto].
  Qed.
  Lemma ends_x2 t : ends (bind_x12 t) (hasp h_x2 t).
  Proof.
    unfold bind_x12. do 3 (apply ends_bnd; intros ?).
    apply (ends_bind t h_x2); [apply sees_input_at|by eauto].
  Qed.
  Lemma ends_dx t T : ends (bind_delay t T) (hasp h_in t).
  Proof.
    unfold bind_delay. apply ends_assoc2. apply ends_keep; [apply field_in| |intros _; unfold input_lb; repeat gs].
    apply (ends_bind t h_in); [apply sees_input_lb|by eauto].
  Qed.
  Lemma ends_dd t T : ends (bind_delay t T) (hasp h_delay t).
  Proof.
    unfold bind_delay. do 3 (apply ends_bnd; intros ?). apply ends_assoc2. apply ends_keep; [apply field_delay| |intros _; unfold input_lb; repeat gs].
    apply (ends_bind t h_delay); [apply sees_input_lb|by eauto].
  Qed.
  Lemma ends_di t T : ends (bind_delay t T) (hasp h_initial t).
  Proof.
    unfold bind_delay. do 6 (apply ends_bnd; intros ?). apply (ends_bind t h_initial); [apply sees_input_lb|by eauto].
  Qed.
  (** In a debug build the inputs of Add and Multiply are looked at. *)
  Definition inputs_ok T t w : Prop := exists o, w_blks w !! t = Some o /\ forall e, e ∈ bo_ibus o -> tsig w T (snd e).
  Lemma forM_checked T (l : list (string * nat)) w u w' :
    forM l (fun e => os <~ get_sig (snd e) ;; debug_verify true (ty_fits T (so_kind os)) EType) w = Ok u w' ->
    w' = w /\ forall e, e ∈ l -> tsig w T (snd e).
  Proof.
    induction l as [|e l IH]; cbn [forM].
    - intros [= _ <-]. split; [done|]. by intros e ?%elem_of_nil.
    - unfold bnd at 1. unfold bnd at 1, get_sig at 1. destruct (w_sigs w !! snd e) as [o|] eqn:Eo; [|done].
      unfold debug_verify at 1, verify at 1. destruct (ty_fits T (so_kind o)) eqn:Ef; [|done]. unfold ret at 1.
      intros E. destruct (IH E) as [-> Hl]. split; [done|]. intros e' [->|He]%elem_of_cons; [|by apply Hl]. by exists o.
  Qed.
  Lemma ends_check t T : ends (check_inputs dbg t T) (fun w => dbg = true -> inputs_ok T t w).
  Proof.
    intros w u w' E Hd. rewrite Hd in E. revert E. unfold check_inputs. unfold bnd at 1, get_blk. destruct (w_blks w !! t) as [o|] eqn:Eo; [|done].
    unfold bnd, debug_verify at 1, verify at 1. destruct (Nat.leb 1 _); [|done]. unfold ret at 1.
    intros E. apply (forM_checked T) in E as [-> Hl]. by exists o.
  Qed.

  (** ** connect *)
  Definition ready_at t w : Prop := exists o, w_blks w !! t = Some o /\ complete w o.
  Lemma hasp_two p p' t w : hasp p t w -> hasp p' t w -> exists o, w_blks w !! t = Some o /\ is_Some (p (bo_h o)) /\ is_Some (p' (bo_h o)).
  Proof. intros (o & Ho & Hp) (o' & Ho' & Hp'). exists o. simplify_eq. done. Qed.
  Lemma after_ready t c w u w' o : after_connect dbg c t w = Ok u w' -> w_blks w' !! t = Some o -> bo_cls o = c -> complete w' o.
  Proof.
    intros E Ho Hc. unfold complete. rewrite Hc.
    assert (forall p, hasp p t w' -> is_Some (p (bo_h o))) as Hh. { intros p (o' & Ho' & Hp). simplify_eq. done. }
    destruct c; cbn [after_connect] in E; try done; split_and?; try apply Hh;
      first [ by eapply ends_out | by eapply ends_in | by eapply (ends_bnd _ _ (hasp h_out t)); [intros ?; apply ends_out|] | idtac ].
    all: try (eapply (ends_keep _ _ t h_in); [apply field_in|apply ends_in| |exact E]; intros ?; first [apply grow_bind_out|apply wpres_bnd; [apply _|apply grow_bind_out|intros ?; apply grow_unrequire]]).
    all: try (eapply (ends_keep _ _ t h_out); [apply field_out|apply ends_out| |exact E]; intros ?;
       first [apply grow_check|apply grow_bind_x12|apply grow_bind_delay|apply grow_bind_integ|apply wpres_bnd; [apply _|apply grow_bind_integ|intros ?; apply grow_bind_trig]]).
    all: try (revert E; apply (ends_bnd _ _ (hasp h_x1 t)); intros ?; apply ends_x1).
    all: try (revert E; apply (ends_bnd _ _ (hasp h_x2 t)); intros ?; apply ends_x2).
    all: try (revert E; apply (ends_bnd _ _ (hasp h_in t)); intros ?; apply ends_dx).
    all: try (revert E; apply (ends_bnd _ _ (hasp h_delay t)); intros ?; apply ends_dd).
    all: try (revert E; apply (ends_bnd _ _ (hasp h_initial t)); intros ?; apply ends_di).
    all: try (revert E; apply (ends_bnd _ _ (hasp h_trig t)); intros ?; apply ends_bnd; intros ?; apply ends_trig).
    - (* Add *) intros Hd e He. destruct (ends_bnd (bind_out t T) (fun _ => check_inputs dbg t T) _ (fun _ => ends_check t T) _ _ _ E Hd) as (o' & Ho' & Hl). simplify_eq. by apply Hl.
    - (* Mul *) intros Hd e He. destruct (ends_bnd (bind_out t T) (fun _ => check_inputs dbg t T) _ (fun _ => ends_check t T) _ _ _ E Hd) as (o' & Ho' & Hl). simplify_eq. by apply Hl.
    - (* Memory *) eapply (ends_bnd _ _ (hasp h_out t)); [|exact E]. intros ?. eapply ends_keep; [apply field_out|apply ends_out|]. intros ?. apply grow_unrequire.
  Qed.

  (** ** Operations that leave connected blocks alone *)
  Definition alike (c c' : cls D) : Prop := c' = c \/ exists i e, c' = CBusMem i e.
  Record calm w w' : Prop := {
    ca_sigs : forall s o, w_sigs w !! s = Some o -> exists o', w_sigs w' !! s = Some o' /\ so_kind o' = so_kind o;
    ca_blks : forall b o', w_blks w' !! b = Some o' -> bo_conn o' = true ->
      exists o, w_blks w !! b = Some o /\ bo_conn o = true /\ bo_h o' = bo_h o /\ bo_ibus o' = bo_ibus o /\ alike (bo_cls o) (bo_cls o')
  }.
  #[local] Instance calm_pre : PreOrder calm.
  Proof.
    split.
    - intros w. split; [by eauto|]. intros b o Ho Hc. exists o. by repeat split; auto; left.
    - intros w1 w2 w3 [A1 A2] [B1 B2]. split.
      + intros s o Ho. destruct (A1 s o Ho) as (o2 & Ho2 & E2). destruct (B1 s o2 Ho2) as (o3 & Ho3 & E3). exists o3. split; [done|congruence].
      + intros b o3 Ho3 Hc3. destruct (B2 b o3 Ho3 Hc3) as (o2 & Ho2 & Hc2 & E1 & E2 & E3). destruct (A2 b o2 Ho2 Hc2) as (o & Ho & Hc & F1 & F2 & F3).
        exists o. split_and!; try congruence. destruct E3 as [E3|E3]; [|by right]. rewrite E3. done.
  Qed.
  Lemma tsig_kinds w w' T s : (forall s o, w_sigs w !! s = Some o -> exists o', w_sigs w' !! s = Some o' /\ so_kind o' = so_kind o) -> tsig w T s -> tsig w' T s.
  Proof. intros Hk (o & Ho & Hf). destruct (Hk s o Ho) as (o' & Ho' & E). exists o'. split; [done|by rewrite E]. Qed.
  Lemma complete_alike w w' o o' : (forall s o, w_sigs w !! s = Some o -> exists o', w_sigs w' !! s = Some o' /\ so_kind o' = so_kind o) ->
    bo_h o' = bo_h o -> bo_ibus o' = bo_ibus o -> alike (bo_cls o) (bo_cls o') -> complete w o -> complete w' o'.
  Proof.
    intros Hk Eh Ei [Ec|(i & e & Ec)]; unfold complete; [|by rewrite Ec]. rewrite Ec, Eh, Ei.
    destruct (bo_cls o); try done; (intros [? Hl]; split; [done|]); intros Hd e He; eapply tsig_kinds; eauto.
  Qed.
  Lemma calm_bound w w' : calm w w' -> bound w -> bound w'.
  Proof.
    intros [H1 H2] Hb b o' Ho' Hc'. destruct (H2 b o' Ho' Hc') as (o & Ho & Hc & Eh & Ei & Ec). eapply complete_alike; eauto.
  Qed.
  Definition kb {A} (m : W A) : Prop := forall w a w', bound w -> m w = Ok a w' -> bound w'.
  Lemma kb_calm {A} (m : W A) : wpres calm m -> kb m.
  Proof. intros Hm w a w' Hb E. specialize (Hm w). rewrite E in Hm. by eapply calm_bound. Qed.
  Lemma kb_bnd {A B} (m : W A) (k : A -> W B) : kb m -> (forall a, kb (k a)) -> kb (bnd m k).
  Proof. intros Hm Hk w b w' Hb. unfold bnd. destruct (m w) as [a w1| | |] eqn:E; try done. intros E2. eapply Hk; [|exact E2]. by eapply Hm. Qed.
  Lemma calm_upd t f : (forall o, bo_conn (f o) = bo_conn o /\ bo_h (f o) = bo_h o /\ bo_ibus (f o) = bo_ibus o /\ alike (bo_cls o) (bo_cls (f o))) ->
    wpres calm (upd_blk t f).
  Proof.
    intros Hf w. cbn. split; cbn; [by eauto|]. intros b o' Ho' Hc. destruct (decide (b = t)) as [->|Hne].
    - rewrite list_lookup_alter in Ho'. destruct (w_blks w !! t) as [o|]; [|done]. injection Ho' as <-. destruct (Hf o) as (F1 & F2 & F3 & F4).
      exists o. split_and!; try done. congruence.
    - rewrite list_lookup_alter_ne in Ho' by done. exists o'. by repeat split; auto; left.
  Qed.
  Lemma calm_put s o o' w : w_sigs w !! s = Some o -> so_kind o' = so_kind o -> calm w (World (<[s := o']> (w_sigs w)) (w_blks w)).
  Proof.
    intros Ho Hk. split; cbn.
    - intros s1 o1 Ho1. destruct (decide (s = s1)) as [<-|Hne].
      + exists o'. simplify_eq. split; [apply list_lookup_insert; by eapply lookup_lt_Some|done].
      + exists o1. by rewrite list_lookup_insert_ne.
    - intros b o1 Ho1 Hc. exists o1. by repeat split; auto; left.
  Qed.
  Lemma calm_rename_sig s name : wpres calm (rename_sig s name).
  Proof. intros w. unfold rename_sig, bnd, get_sig, put_sig, modify. destruct (w_sigs w !! s) as [o|] eqn:E; [|done]. by eapply calm_put. Qed.
  Lemma calm_alloc_sig o : wpres calm (alloc_sig o).
  Proof.
    intros w. cbn. split; cbn.
    - intros s o1 Ho1. exists o1. split; [by apply lookup_app_l_Some|done].
    - intros b o1 Ho1 Hc. exists o1. by repeat split; auto; left.
  Qed.
  Lemma calm_alloc_blk o : bo_conn o = false -> wpres calm (alloc_blk o).
  Proof.
    intros Hn w. cbn. split; cbn; [by eauto|]. intros b o1 Ho1 Hc. apply lookup_app_Some in Ho1 as [Ho1|[_ Ho1]].
    - exists o1. by repeat split; auto; left.
    - apply list_lookup_singleton_Some in Ho1 as [_ <-]. congruence.
  Qed.
  Ltac cupd := apply calm_upd; intros ?; repeat split; try done; by left.
  Ltac cs := lazymatch goal with
    | |- wpres _ (bnd _ _) => apply wpres_bnd; [apply _| |intros ?]
    | |- wpres _ (ret _) => apply wpres_ret, _
    | |- wpres _ (throw _) => apply wpres_throw, _
    | |- wpres _ (undef _) => apply wpres_undef
    | |- wpres _ (fun _ => OOF) => by intros ?
    | |- wpres _ (verify _ _) => apply wpres_verify, _
    | |- wpres _ (debug_verify _ _ _) => apply wpres_debug, _
    | |- wpres _ (get_sig _) => apply wpres_get_sig, _
    | |- wpres _ (get_blk _) => apply wpres_get_blk, _
    | |- wpres _ (at_index _ _) => apply wpres_at_index, _
    | |- wpres _ (at_label _ _) => apply wpres_at_label, _
    | |- wpres _ (bus_members _) => apply wpres_bus_members, _
    | |- wpres _ (rename_sig _ _) => apply calm_rename_sig
    | |- wpres _ (alloc_sig _) => apply calm_alloc_sig
    | |- wpres _ (alloc_blk _) => apply calm_alloc_blk; reflexivity
    | |- wpres _ (link_signal _ _ _) => apply wpres_link_signal; [apply _|intros g; cupd]
    | |- wpres _ (forM _ _) => apply wpres_forM; [apply _|intros ?]
    | |- wpres _ (upd_blk _ _) => cupd
    | |- wpres _ (match ?x with _ => _ end) => destruct x
    end.
  Lemma calm_rename_blk b name : wpres calm (rename_blk b name).
  Proof. unfold rename_blk. repeat cs. Qed.
  Lemma calm_bus_entries l : wpres calm (bus_entries l).
  Proof. induction l as [|[lb s] l IH]; cbn [bus_entries]; [cs|]. cs; [unfold bus_entry; repeat cs|]. cs; [done|]. cs. Qed.
  Lemma calm_new_bus_labelled l name : wpres calm (new_bus_labelled l name).
  Proof. unfold new_bus_labelled. cs; [apply calm_bus_entries|]. cs. Qed.
  Lemma calm_new_bus l name : wpres calm (new_bus l name).
  Proof. apply calm_new_bus_labelled. Qed.
  Lemma calm_link_block p b : wpres calm (link_block p b).
  Proof. unfold link_block. repeat cs. Qed.
  Lemma calm_new_block c st parent name nin nout : wpres calm (new_block c st parent name nin nout).
  Proof. unfold new_block, link_block. repeat cs. Qed.
  Lemma calm_set_parent b p : wpres calm (set_parent b p).
  Proof. unfold set_parent, link_block. repeat cs. Qed.
  Lemma calm_at_label m lb : wpres calm (at_label m lb).
  Proof. cs. Qed.

  Lemma only_kinds t w w' : only t w w' -> forall s o, w_sigs w !! s = Some o -> exists o', w_sigs w' !! s = Some o' /\ so_kind o' = so_kind o.
  Proof.
    intros [_ _ _ E] s o Ho. pose proof (f_equal (fun l => l !! s) E) as E'. cbn in E'. rewrite !list_lookup_fmap, Ho in E'.
    destruct (w_sigs w' !! s) as [o'|]; [|done]. exists o'. split; [done|]. cbn in E'. congruence.
  Qed.
  Lemma only_bound t w w' : only t w w' -> bound w -> (forall o, w_blks w' !! t = Some o -> complete w' o) -> bound w'.
  Proof.
    intros Ho Hb Ht b o Hbo Hc. destruct (decide (b = t)) as [->|Hne]; [by apply Ht|]. rewrite (on_other _ _ _ Ho b Hne) in Hbo.
    eapply (complete_alike w); [by eapply only_kinds|done|done|by left|by eapply Hb].
  Qed.
  Lemma kb_block_connect t ib ob w a w' o : bound w -> w_blks w !! t = Some o -> (forall w o', bo_cls o' = bo_cls o -> complete w o') ->
    block_connect t ib ob w = Ok a w' -> bound w'.
  Proof.
    intros Hb Ho Hc E. pose proof (only_block_connect t ib ob w) as Hon. rewrite E in Hon. eapply only_bound; [done|done|].
    intros o' Ho'. destruct (on_self _ _ _ Hon o Ho) as (o1 & Ho1 & Hs). simplify_eq. apply Hc. apply Hs.
  Qed.
  Lemma kb_connect_simple t ib ob : kb (connect_simple dbg t ib ob).
  Proof.
    intros w a w' Hb E. pose proof (only_connect_simple dbg t ib ob w) as Hon. rewrite E in Hon. eapply only_bound; [done|done|].
    intros o' Ho'. destruct (w_blks w !! t) as [o|] eqn:Ho; [|by rewrite (on_none _ _ _ Hon Ho) in Ho'].
    destruct (on_self _ _ _ Hon o Ho) as (o1 & Ho1 & Hs). rewrite Ho1 in Ho'. injection Ho' as ->.
    rewrite (connect_simple_split _ _ _ _ _ _ Ho) in E. revert E. unfold bnd. destruct (block_connect t ib ob w) as [u w1| | |]; try done.
    intros E. eapply after_ready; [exact E|done|apply Hs].
  Qed.
  Lemma kb_add_simple p t ib ob : kb (add_block_simple dbg p t ib ob).
  Proof.
    unfold add_block_simple. apply kb_bnd; [apply kb_calm, calm_set_parent|]. intros []; [|apply kb_calm; cs].
    apply kb_bnd; [apply kb_connect_simple|intros _]. apply kb_calm; cs.
  Qed.
  Lemma kb_build_one b lb si so : kb (build_one dbg b lb si so).
  Proof.
    unfold build_one. apply kb_bnd; [apply kb_calm; cs|intros o]. destruct (bo_cls o); try (apply kb_calm; by repeat cs).
    - unfold build_memory. apply kb_bnd; [apply kb_calm; cs|intros o1]. destruct (bo_cls o1) eqn:Ec; try (apply kb_calm; by repeat cs).
      apply kb_bnd; [apply kb_calm; cs|intros os]. destruct (mem_ic _ _) as [[T v] u| | |]; try (apply kb_calm; by repeat cs).
      apply kb_bnd; [apply kb_calm, calm_new_block|intros m].
      apply kb_bnd; [apply kb_calm, calm_upd; intros x; repeat split; right; by eauto|intros _].
      apply kb_bnd; [apply kb_calm, calm_rename_blk|intros _]. do 2 (apply kb_bnd; [apply kb_calm, calm_new_bus|intros ?]). apply kb_connect_simple.
    - unfold build_pipe. do 2 (apply kb_bnd; [apply kb_calm; cs|intros ?]). destruct (pipe_ty _); [|apply kb_calm; cs].
      apply kb_bnd; [apply kb_calm, calm_new_block|intros m]. apply kb_bnd; [apply kb_calm, calm_rename_blk|intros _].
      do 2 (apply kb_bnd; [apply kb_calm, calm_new_bus|intros ?]). destruct (bo_parent _); [|apply kb_calm; cs].
      apply kb_bnd; [apply kb_add_simple|intros ?]. apply kb_calm; cs.
  Qed.
  Lemma kb_forM {A} (l : list A) f : (forall x, kb (f x)) -> kb (forM l f).
  Proof. intros Hf. induction l as [|x l IH]; cbn [forM]; [apply kb_calm; cs|]. by apply kb_bnd; [apply Hf|intros _]. Qed.
  Lemma kb_visit n b excl im om prefix m : kb (visit_bus dbg n b excl im om prefix m).
  Proof.
    revert prefix m. induction n as [|n IH]; intros prefix m; cbn [visit_bus]; [apply kb_calm; cs|]. destruct (str_in excl prefix); [apply kb_calm; cs|].
    apply kb_forM. intros [lb s]. apply kb_bnd; [apply kb_calm; cs|intros o]. destruct (is_bus (so_kind o)); [apply IH|].
    destruct (str_in excl _); [apply kb_calm; cs|]. do 2 (apply kb_bnd; [apply kb_calm, calm_at_label|intros ?]). apply kb_build_one.
  Qed.
  Lemma kb_connect t ib ob : kb (connect dbg t ib ob).
  Proof.
    intros w a w' Hb. unfold connect. unfold bnd at 1, get_blk. destruct (w_blks w !! t) as [o|] eqn:Ho; [|done].
    destruct (bo_cls o) eqn:Ec; try (by apply kb_connect_simple); unfold bnd at 1;
      (destruct (block_connect t ib ob w) as [u w1| | |] eqn:E1; try done);
      (assert (bound w1) as Hb1 by (eapply kb_block_connect; [exact Hb|exact Ho| |exact E1]; intros w2 o' Eo; unfold complete; by rewrite Eo, Ec));
      clear -Hb1; revert w1 a w' Hb1.
    - change (kb (im <~ bus_members ib ;; om <~ bus_members ob ;; visit_bus dbg (S ib) t excl im om "" im ;;;
        o' <~ get_blk t ;; debug_verify dbg (match bo_cls o' with CBusMem [] _ => true | _ => false end) EUnusedInit)).
      do 2 (apply kb_bnd; [apply kb_calm; cs|intros ?]). apply kb_bnd; [apply kb_visit|intros _]. apply kb_calm. repeat cs.
    - change (kb (im <~ bus_members ib ;; om <~ bus_members ob ;; visit_bus dbg (S ib) t excl im om "" im)).
      do 2 (apply kb_bnd; [apply kb_calm; cs|intros ?]). apply kb_visit.
  Qed.
  Lemma kb_exec o : kb (exec dbg o).
  Proof.
    destruct o; cbn [exec]; try (apply kb_calm; unfold new_signal, input_at, input_lb, output_at, user_link; repeat first
      [apply calm_new_bus|apply calm_new_bus_labelled|apply calm_new_block|apply calm_rename_blk|apply calm_set_parent|apply calm_link_block|cs]; fail).
    - apply kb_connect.
    - apply kb_bnd; [|intros _; apply kb_calm; cs]. unfold add_block. apply kb_bnd; [apply kb_calm, calm_set_parent|]. intros []; [|apply kb_calm; cs].
      apply kb_bnd; [apply kb_connect|intros _]. apply kb_calm; cs.
    - apply kb_calm. unfold float_set_deriv, set_deriv. cs; [cs|]. cs; [|cs]. cs; [cs|]. cs; [cs|].
      intros w. unfold bnd, get_sig, put_sig, modify. destruct (w_sigs w !! s) as [o|] eqn:E; [|done].
      assert (calm w (World (<[s := SigObj (so_name o) (so_kind o) (Some ds) (so_mem o)]> (w_sigs w)) (w_blks w))) as Hc by (by eapply calm_put).
      unfold verify. by destruct (Nat.eqb _ _).
  Qed.
  Lemma built_bound w : built dbg w -> bound w.
  Proof. induction 1 as [|w o u w' _ IH _ He]; [intros b o Ho; done|]. by eapply kb_exec. Qed.
End bound.
