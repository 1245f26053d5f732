(** The hierarchy of blocks: C14 - C16. *)
From stdpp Require Import prelude gmap strings.
From Coq Require Import ZArith QArith.
From Verif Require Import Num NumQ Res Name SpecName Store Leaf Sched World Api Visit Steps P_Steps P_Ops P_World
  P_Sched P_Compile P_Frame Ex_Models.

Local Open Scope nat_scope.

(** [child_of w b p]: [p] is the parent of [b]. *)
Definition child_of {D} (w : world D) (b p : nat) : Prop := exists o, w_blks w !! b = Some o /\ bo_parent o = Some p.

(** C14 *)
Theorem C14_views : forall D `{NumOps D} dbg (w : world D) p op, wreach dbg w -> w_blks w !! p = Some op ->
  NoDup (bo_children op) /\ forall b, b ∈ bo_children op <-> child_of w b p.
Proof.
  intros D ? dbg w p op Hw Hp. destruct (ok_tree _ (reach_ok dbg w Hw)) as [T1 T2 T3]. split; [by eapply T3|].
  intros b. split.
  - intros Hb. destruct (T1 _ _ _ Hp Hb) as (o & ? & ?). by exists o.
  - intros (o & Ho & Hpo). destruct (T2 _ _ _ Ho Hpo) as (op' & ? & _ & ?). by simplify_eq.
Qed.

Lemma step_child {D} `{NumOps D} (w w' : world D) b p : step w w' -> child_of w b p -> child_of w' b p.
Proof.
  intros Hs (o & Ho & Hp).
  assert (forall b' f (w0 : world D), child_of w0 b p -> (forall x, w_blks w0 !! b' = Some x -> bo_parent x = Some p -> bo_parent (f x) = Some p) ->
    child_of (upd w0 b' f) b p) as Hupd.
  { intros b' f w0 (o0 & Ho0 & Hp0) Hf. destruct (decide (b' = b)) as [->|Hne].
    - exists (f o0). split; [by apply upd_lookup|]. by apply Hf.
    - exists o0. by rewrite upd_lookup_ne. }
  assert (forall x, child_of (addblk w x) b p) as Hadd.
  { intros x. exists o. split; [|done]. cbn. by rewrite lookup_app_l by (by eapply lookup_lt_Some). }
  assert (child_of w b p) as Hc by (by exists o).
  destruct Hs as [| | | |?|? ? ? p' op| |? b' o' p' op Hb Hn|? b' o' p' op Hb Hn| | | | | |]; try (apply Hupd; [done|by intros ?]); try (by exists o).
  all: try apply Hadd.
  all: try (apply Hupd; [apply Hadd|done]).
  apply Hupd; [|done]. apply Hupd; [done|]. intros x Hx Hpx. congruence.
Qed.
Lemma steps_child {D} `{NumOps D} (w w' : world D) b p : steps w w' -> child_of w b p -> child_of w' b p.
Proof. intros Hr. induction Hr as [|w w1 w2 H1 _ IH]; [done|]. intros Hc. eapply IH, step_child; done. Qed.
(** A parent once set stays, whatever the client does and even if it throws. *)
Theorem C14_parent_kept : forall D `{NumOps D} dbg (w w' : world D) o b p, wreach dbg w -> wop_ok o ->
  exec dbg o w = Ok tt w' \/ (exists e, exec dbg o w = Exn e w') -> child_of w b p -> child_of w' b p.
Proof.
  intros D ? dbg w w' o b p Hw Hok He. pose proof (exec_steps dbg o w Hok (ok_unbound _ (reach_ok dbg w Hw))) as Hs.
  apply steps_child. destruct He as [He|[e He]]; rewrite He in Hs; by destruct Hs.
Qed.
(** A second parent is refused and nothing changes; a first one is set. *)
Theorem C14_set_parent : forall D `{NumOps D} dbg (w : world D) b o p op ib ob, wreach dbg w ->
  w_blks w !! b = Some o -> w_blks w !! p = Some op -> is_submodel (bo_cls op) = true ->
  (forall p', bo_parent o = Some p' -> p' ≠ p -> set_parent b p w = Ok false w /\ add_block dbg p b ib ob w = Ok false w) /\
  (bo_parent o = Some p -> set_parent b p w = Ok true w) /\
  (bo_parent o = None -> exists w', set_parent b p w = Ok true w' /\ child_of w' b p /\
     forall b' p', b' ≠ b -> child_of w' b' p' <-> child_of w b' p').
Proof.
  intros D ? dbg w b o p op ib ob Hw Ho Hp Hs. split_and!.
  - intros p' Hp' Hne. assert (set_parent b p w = Ok false w) as E.
    { unfold set_parent, bnd, get_blk. rewrite Hp, Hs, Ho, Hp'. apply Nat.eqb_neq in Hne. by rewrite Hne. }
    split; [done|]. unfold add_block, bnd. by rewrite E.
  - intros Hpar. unfold set_parent, bnd, get_blk. rewrite Hp, Hs, Ho, Hpar, Nat.eqb_refl. unfold upd_blk, modify.
    change (World (w_sigs w) (alter (set_par (Some p)) b (w_blks w))) with (upd w b (set_par (Some p))).
    rewrite upd_id; [|intros o' Ho'; rewrite Ho in Ho'; injection Ho' as <-; destruct o; cbn in *; by subst].
    rewrite (link_block_new w p b op o Ho Hpar Hp). cbn. f_equal. apply upd_id. intros op' Hop'. rewrite Hp in Hop'. injection Hop' as <-.
    unfold child_added. destruct (t_parent _ (ok_tree _ (reach_ok dbg w Hw)) _ _ _ Ho Hpar) as (op2 & Hop2 & _ & Hin).
    rewrite Hp in Hop2. injection Hop2 as <-. rewrite bool_decide_true by done. by destruct op.
  - intros Hn. rewrite (set_parent_new w b o p op Ho Hn Hp Hs). eexists. split; [done|].
    assert (forall (w0 : world D) f b' p', (forall x, bo_parent (f x) = bo_parent x) -> child_of (upd w0 p f) b' p' <-> child_of w0 b' p') as Hu.
    { intros w0 f b' p' Hf. unfold child_of. destruct (decide (p = b')) as [->|Hne].
      - cbn. rewrite list_lookup_alter. destruct (w_blks w0 !! b') as [x|]; cbn; [|done].
        split; intros (? & [= <-] & E); eexists; (split; [done|]); [by rewrite Hf in E|by rewrite Hf].
      - by rewrite upd_lookup_ne. }
    split.
    + apply Hu; [done|]. exists (set_par (Some p) o). split; [by apply upd_lookup|done].
    + intros b' p' Hne. rewrite Hu by done. unfold child_of. by rewrite upd_lookup_ne.
Qed.

(** C15.  [above w b a]: [a] is a proper ancestor of [b]. *)
Definition above {D} (w : world D) : nat -> nat -> Prop := tc (child_of w).
Definition forest {D} (w : world D) : Prop := forall b, ~ above w b b.

Section forest.
  Context {D : Type} `{NumOps D}.
  Implicit Types w : world D.

  (** The submodels of [w'] are submodels of [w] with the same parents. *)
  Definition kin w w' : Prop := forall b o', w_blks w' !! b = Some o' -> is_submodel (bo_cls o') = true ->
    exists o, w_blks w !! b = Some o /\ is_submodel (bo_cls o) = true /\ bo_parent o = bo_parent o'.
  #[global] Instance kin_preorder : PreOrder kin.
  Proof.
    split; [intros w b o ? ?; by exists o|]. intros w1 w2 w3 H1 H2 b o3 Ho3 Hs3.
    destruct (H2 b o3 Ho3 Hs3) as (o2 & Ho2 & Hs2 & E2). destruct (H1 b o2 Ho2 Hs2) as (o1 & ? & ? & ?). exists o1. by rewrite <- E2.
  Qed.
  Lemma kin_above w w' a b : tree_ok w' -> kin w w' -> (exists o, w_blks w' !! a = Some o /\ is_submodel (bo_cls o) = true) ->
    above w' a b -> above w a b.
  Proof.
    intros HT HK Ha Hab. unfold above in *. induction Hab as [a b (o & Ho & Hp)|a c b (o & Ho & Hp) Hcb IH].
    - destruct Ha as (o' & Ho' & Hs). rewrite Ho in Ho'. injection Ho' as <-. destruct (HK _ _ Ho Hs) as (o1 & ? & ? & ?). apply tc_once. exists o1. split; congruence.
    - destruct Ha as (o' & Ho' & Hs). rewrite Ho in Ho'. injection Ho' as <-. destruct (HK _ _ Ho Hs) as (o1 & ? & ? & ?).
      destruct (t_parent _ HT _ _ _ Ho Hp) as (oc & Hoc & Hsc & _).
      apply (tc_l _ _ c); [exists o1; split; congruence|]. apply IH. eauto.
  Qed.
  Lemma above_submodel w a b : tree_ok w -> above w a b -> exists o, w_blks w !! b = Some o /\ is_submodel (bo_cls o) = true.
  Proof.
    intros HT Hab. unfold above in Hab. induction Hab as [a b (o & Ho & Hp)|a c b _ Hcb IH]; [|done].
    destruct (t_parent _ HT _ _ _ Ho Hp) as (ob & ? & ? & _). eauto.
  Qed.
  Lemma kin_forest w w' : tree_ok w' -> kin w w' -> forest w -> forest w'.
  Proof.
    intros HT HK HF b Hb. apply (HF b). eapply kin_above; [done|done| |done]. by eapply above_submodel.
  Qed.
  Lemma older_kin w w' : older None w w' -> kin w w'.
  Proof.
    intros [A1 A2 A3] b o' Ho' Hs'. destruct (w_blks w !! b) as [o|] eqn:Eo; [|by rewrite (A2 _ _ Eo Ho') in Hs'].
    destruct (A1 b o Eo) as (o2 & Ho2 & HS & HW). simplify_eq. exists o. split; [done|]. split.
    - destruct (is_submodel (bo_cls o)); [done|]. by rewrite HS in Hs'.
    - symmetry. by apply HW.
  Qed.
  Lemma only_kin t w w' : only t w w' -> kin w w'.
  Proof.
    intros [A1 A2 A3 A4] b o' Ho' Hs'. destruct (decide (b = t)) as [->|Hne].
    - destruct (w_blks w !! t) as [o|] eqn:Eo; [|by rewrite (A3 eq_refl) in Ho'].
      destruct (A2 o eq_refl) as (o2 & Ho2 & (_ & E2 & _ & _ & _ & E6 & _)). simplify_eq. exists o. split; [done|]. split; congruence.
    - rewrite A1 in Ho' by done. by exists o'.
  Qed.
  Lemma kin_connect dbg b ib ob : wpres kin (connect dbg b ib ob).
  Proof.
    intros w. destruct (w_blks w !! b) as [o|] eqn:Eo; [|unfold connect, bnd, get_blk; by rewrite Eo].
    rewrite (connect_split _ _ _ _ _ _ Eo).
    assert (wpres kin (bnd (block_connect b ib ob) (fun _ => rest_of dbg (bo_cls o) b ib ob))) as Hk; [|by apply Hk].
    apply wpres_bnd; [apply _| |intros _]; intros w1.
    - pose proof (only_block_connect b ib ob w1) as Ho. destruct (block_connect b ib ob w1); try done; by eapply only_kin.
    - destruct (is_builder (bo_cls o)) eqn:Eb.
      + pose proof (rest_builder dbg (bo_cls o) b ib ob Eb w1) as Hr. destruct (rest_of _ _ _ _ _ w1); try done; by apply older_kin.
      + pose proof (rest_other dbg (bo_cls o) b ib ob Eb w1) as Hr. destruct (rest_of _ _ _ _ _ w1); try done; by eapply only_kin.
  Qed.

  (** A new link from an unparented block. *)
  Lemma forest_link w w' b p :
    (forall x y, child_of w' x y -> child_of w x y \/ (x = b /\ y = p)) -> b ≠ p -> ~ above w p b -> forest w -> forest w'.
  Proof.
    intros HC Hne Hnb HF.
    (* a path of w' either is one of w or passes through the new link *)
    assert (forall x y, above w' x y -> above w x y \/ ((x = b \/ above w x b) /\ (p = y \/ above w p y))) as Hab.
    { intros x y Hxy. unfold above in *. induction Hxy as [x y Hc|x z y Hc _ IH].
      - destruct (HC _ _ Hc) as [Hc'|[-> ->]]; [left; by apply tc_once|right; by split; left].
      - destruct (HC _ _ Hc) as [Hc'|[-> ->]].
        + destruct IH as [IH|[[->|IH1] IH2]].
          * left. by eapply tc_l.
          * right. split; [right; by apply tc_once|done].
          * right. split; [right; by eapply tc_l|done].
        + destruct IH as [IH|[IH1 IH2]].
          * right. split; [by left|by right].
          * destruct IH1 as [->|IH1]; [done|done]. }
    intros x Hx. destruct (Hab _ _ Hx) as [Hx'|[[->|H1] [<-|H2]]].
    - by apply (HF x).
    - done.
    - done.
    - done.
    - apply Hnb. unfold above in *. by eapply tc_transitive.
  Qed.
  Lemma forest_set_parent dbg w b p : wreach dbg w -> forest w -> b ≠ p -> ~ above w p b ->
    match set_parent b p w with Ok _ w' | Exn _ w' => forest w' | _ => True end.
  Proof.
    intros Hw HF Hne Hab. destruct (w_blks w !! p) as [op|] eqn:Ep; [|unfold set_parent, bnd, get_blk; by rewrite Ep].
    destruct (is_submodel (bo_cls op)) eqn:Es; [|unfold set_parent, bnd, get_blk; by rewrite Ep, Es].
    destruct (w_blks w !! b) as [o|] eqn:Eb; [|unfold set_parent, bnd, get_blk; by rewrite Ep, Es, Eb].
    destruct (C14_set_parent D dbg w b o p op 0 0 Hw Eb Ep Es) as (H1 & H2 & H3).
    destruct (bo_parent o) as [p'|] eqn:Eo.
    - destruct (decide (p' = p)) as [->|Hne']; [by rewrite H2|]. destruct (H1 p' eq_refl Hne') as [-> _]. done.
    - destruct (H3 eq_refl) as (w' & -> & Hc & Hoth). eapply (forest_link w w' b p); [|done..].
      intros x y Hxy. destruct (decide (x = b)) as [->|Hx]; [|left; by apply Hoth].
      right. split; [done|]. destruct Hc as (o1 & Ho1 & E1), Hxy as (o2 & Ho2 & E2). congruence.
  Qed.
  Lemma forest_new_block w c st parent name nin nout : tree_ok w -> forest w ->
    match new_block c st parent name nin nout w with Ok _ w' | Exn _ w' => forest w' | _ => True end.
  Proof.
    intros HT HF. set (o := BlkObj (valid_name name) parent [] nin nout false [] [] [] c no_handles st).
    assert (forall x y, child_of (addblk w o) x y -> child_of w x y \/ (x = length (w_blks w) /\ parent = Some y)) as Hadd.
    { intros x y (o1 & Ho1 & E1). cbn in Ho1. destruct (decide (x < length (w_blks w))) as [Hx|Hx].
      - rewrite lookup_app_l in Ho1 by done. left. by exists o1.
      - right. rewrite lookup_app_r in Ho1 by lia. destruct (x - length (w_blks w)) as [|i] eqn:Ei; [|done]. cbn in Ho1.
        injection Ho1 as <-. split; [lia|done]. }
    unfold new_block. destruct parent as [p|]; unfold bnd, get_blk.
    - destruct (w_blks w !! p) as [op|] eqn:Ep; [|done]. destruct (is_submodel (bo_cls op)) eqn:Es; [|done]. cbn [ret].
      unfold alloc_blk. change (World (w_sigs w) (w_blks w ++ [BlkObj (valid_name name) (Some p) [] nin nout false [] [] [] c no_handles st])) with (addblk w o).
      rewrite (link_block_new _ p (length (w_blks w)) op o).
      + cbn [ret]. eapply (forest_link w _ (length (w_blks w)) p); [| | |done].
        * intros x y (o1 & Ho1 & E1). apply upd_some in Ho1 as (o2 & Ho2 & ->).
          destruct (Hadd x y) as [?|[? [= ?]]]; [|by left|by right]. exists o2. split; [done|]. by destruct (decide (x = p)).
        * intros <-. apply lookup_lt_Some in Ep. lia.
        * intros Ha. apply above_submodel in Ha as (o1 & Ho1 & _); [|done]. apply lookup_lt_Some in Ho1. lia.
      + cbn. by rewrite lookup_app_r, Nat.sub_diag by lia.
      + done.
      + cbn. by rewrite lookup_app_l by (by eapply lookup_lt_Some).
    - cbn [ret]. unfold alloc_blk. cbn [ret]. change (forest (addblk w o)). intros b Hb.
      assert (forall x y, above (addblk w o) x y -> above w x y) as Hab.
      { intros x y Hxy. unfold above in *. induction Hxy as [x y Hc|x z y Hc _ IH]; destruct (Hadd _ _ Hc) as [Hc'|[_ [=]]].
        - by apply tc_once.
        - by eapply tc_l. }
      apply (HF b), Hab, Hb.
  Qed.

  Lemma drop_result {A} (m : M (world D) A) {B} (v : B) w w' (P : world D -> Prop) :
    match m w with Ok _ w' | Exn _ w' => P w' | _ => True end ->
    bnd m (fun _ => ret v) w = Ok v w' \/ (exists e, bnd m (fun _ => ret v) w = Exn e w') -> P w'.
  Proof. unfold bnd. destruct (m w) as [r w1|e w1|?|]; intros HP [E|[e' E]]; cbn in E; try done; injection E; congruence. Qed.
  (** [safe o w]: the operation does not put a block below itself. *)
  Definition safe (o : wop D) w : Prop :=
    match o with OSetParent b p | OAddBlock p b _ _ => b ≠ p /\ ~ above w p b | _ => True end.
  Lemma forest_exec dbg o w w' : wreach dbg w -> forest w -> wop_ok o -> safe o w ->
    exec dbg o w = Ok tt w' \/ (exists e, exec dbg o w = Exn e w') -> forest w'.
  Proof.
    intros Hw HF Hok Hs He.
    assert (wreach dbg w') as Hw' by (destruct He as [He|[e He]]; [by eapply wr_ok|by eapply wr_exn]).
    pose proof (ok_tree _ (reach_ok dbg w' Hw')) as HT'. pose proof (ok_tree _ (reach_ok dbg w Hw)) as HT.
    assert (forall m : M (world D) unit, wpres kin m -> m w = Ok tt w' \/ (exists e, m w = Exn e w') -> forest w') as Hkin.
    { intros m Hm Hmw. specialize (Hm w). eapply kin_forest; [done| |done]. destruct Hmw as [E|[e E]]; by rewrite E in Hm. }
    assert (forall A (m : M (world D) A), wpres (older None) m -> wpres kin (bnd m (fun _ => ret tt))) as Hold.
    { intros A m Hm. apply wpres_bnd; [apply _| |intros _; apply wpres_ret, _]. intros w0. specialize (Hm w0).
      destruct (m w0); try done; by apply older_kin. }
    assert (forall A t (m : M (world D) A), wpres (only t) m -> wpres kin (bnd m (fun _ => ret tt))) as Hon.
    { intros A t m Hm. apply wpres_bnd; [apply _| |intros _; apply wpres_ret, _]. intros w0. specialize (Hm w0).
      destruct (m w0); try done; by eapply only_kin. }
    destruct o as [k n|l n|l n|c st par n nin nout|s n|b n|b p|p b|b ib ob|p b ib ob|b i|b lb|b i|T s ds|b s f]; cbn [exec] in He.
    - eapply Hkin; [|exact He]. apply Hold. apply older_alloc_sig.
    - eapply Hkin; [|exact He]. apply Hold. apply older_new_bus.
    - eapply Hkin; [|exact He]. apply Hold. apply older_new_bus_labelled.
    - eapply drop_result; [|exact He]. by apply forest_new_block.
    - eapply Hkin; [|exact He]. intros w0. pose proof (older_rename_sig None s n w0) as Ho. destruct (rename_sig s n w0); try done; by apply older_kin.
    - eapply Hkin; [|exact He]. intros w0. pose proof (older_rename_blk None b n w0) as Ho. destruct (rename_blk b n w0); try done; by apply older_kin.
    - destruct Hs as [Hne Hab]. eapply drop_result; [|exact He]. by eapply forest_set_parent.
    - eapply Hkin; [|exact He]. apply Hold. apply older_link_block.
    - eapply Hkin; [|exact He]. apply kin_connect.
    - destruct Hs as [Hne Hab]. pose proof (forest_set_parent dbg w b p Hw HF Hne Hab) as Hp. 
      eapply (drop_result _ _ _ _ (fun w' => tree_ok w' -> forest w')); [|exact He|exact HT'].
      unfold add_block. unfold bnd at 1. destruct (set_parent b p w) as [r w1|e w1|?|]; [|done..].
      assert (wpres kin (if r then connect dbg b ib ob;;; ret true else ret false)) as Hk.
      { destruct r; [|apply wpres_ret, _]. apply wpres_bnd; [apply _|apply kin_connect|intros _; apply wpres_ret, _]. }
      specialize (Hk w1). destruct ((if r then connect dbg b ib ob;;; ret true else ret false) w1); try done; intros HT1; by eapply kin_forest.
    - eapply Hkin; [|exact He]. eapply Hon. apply only_input_at.
    - eapply Hkin; [|exact He]. eapply Hon. apply only_input_lb.
    - eapply Hkin; [|exact He]. eapply Hon. apply only_output_at.
    - eapply Hkin; [|exact He]. intros w0. pose proof (only_float_set_deriv 0 T s ds w0) as Ho.
      destruct (float_set_deriv T s ds w0); try done; by eapply only_kin.
    - eapply Hkin; [|exact He]. intros w0. pose proof (only_user_link b s f w0) as Ho. destruct (user_link b s f w0); try done; by eapply only_kin.
  Qed.

  (** Chains of ancestors are no longer than the number of blocks. *)
  Lemma bounded w (l : list nat) : NoDup l -> (forall x, x ∈ l -> x < length (w_blks w)) -> length l <= length (w_blks w).
  Proof.
    intros Hn Hl. rewrite <- (seq_length (length (w_blks w)) 0). apply submseteq_length, NoDup_submseteq; [done|].
    intros x Hx. apply elem_of_seq. specialize (Hl x Hx). lia.
  Qed.
  Lemma below_chain w k b x : tree_ok w -> forest w -> b < length (w_blks w) -> below w k b x ->
    exists l, length l = S k /\ NoDup l /\ forall y, y ∈ l -> y < length (w_blks w) /\ (y = x \/ above w x y).
  Proof.
    intros HT HF Hb. induction 1 as [b|k b x y oy Hbe IH Hy Hx].
    - exists [b]. split_and!; [done|apply NoDup_singleton|]. intros y ->%elem_of_list_singleton. auto.
    - destruct (IH Hb) as (l & Hl & Hnd & Hall). destruct (t_child _ HT _ _ _ Hy Hx) as (ox & Hox & Hp).
      assert (child_of w x y) as Hc by (by exists ox).
      assert (forall z, z ∈ l -> above w x z) as Hup.
      { intros z Hz. destruct (Hall z Hz) as [_ [->|Ha]]; [by apply tc_once|by eapply tc_l]. }
      exists (x :: l). split_and!; [cbn; lia| |].
      + apply NoDup_cons. split; [|done]. intros Hin. apply (HF x). by apply Hup.
      + intros z [->|Hz]%elem_of_cons; [split; [by eapply lookup_lt_Some|by left]|]. split; [by apply Hall|right; by apply Hup].
  Qed.
  Lemma name_chain w n b : tree_ok w -> forest w -> b < length (w_blks w) -> full_name n w b = None ->
    exists l, length l = n /\ NoDup l /\ forall y, y ∈ l -> y < length (w_blks w) /\ (y = b \/ above w b y).
  Proof.
    intros HT HF. revert b. induction n as [|n IH]; intros b Hb Hn.
    - exists []. split_and!; [done|apply NoDup_nil_2|]. intros y Hy. by apply elem_of_nil in Hy.
    - cbn in Hn. apply lookup_lt_is_Some_2 in Hb as Ho. destruct Ho as [o Ho]. rewrite Ho in Hn.
      destruct (bo_parent o) as [p|] eqn:Ep; [|done]. destruct (full_name n w p) eqn:Ef; [done|].
      destruct (t_parent _ HT _ _ _ Ho Ep) as (op & Hop & _). destruct (IH p) as (l & Hl & Hnd & Hall); [by eapply lookup_lt_Some|done|].
      assert (child_of w b p) as Hc by (by exists o).
      assert (forall z, z ∈ l -> above w b z) as Hup.
      { intros z Hz. destruct (Hall z Hz) as [_ [->|Ha]]; [by apply tc_once|by eapply tc_l]. }
      exists (b :: l). split_and!; [cbn; lia| |].
      + apply NoDup_cons. split; [|done]. intros Hin. apply (HF b). by apply Hup.
      + intros z [->|Hz]%elem_of_cons; [split; [by eapply lookup_lt_Some|by left]|]. split; [by apply Hall|right; by apply Hup].
  Qed.
End forest.

(** C15.  A client that never puts a block below itself (or below one of its
    descendants) only ever builds forests, whatever else it does and even if
    operations throw; ... *)
Theorem C15_forest : forall D `{NumOps D} dbg (w w' : world D) o, wreach dbg w -> forest w -> wop_ok o -> safe o w ->
  exec dbg o w = Ok tt w' \/ (exists e, exec dbg o w = Exn e w') -> forest w'.
Proof. intros D ? dbg w w' o. apply forest_exec. Qed.
Theorem C15_empty : forall D, forest (empty_world (D:=D)).
Proof. intros D b Hb. unfold above in Hb. inversion Hb as [? ? (o & Ho & _)|? ? ? (o & Ho & _)]; done. Qed.
(** ... and in a forest the traversals of a model and the walk to the root end
    within a number of calls bounded by the number of blocks. *)
Theorem C15_ends : forall D `{NumOps D} dbg (w : world D) b, wreach dbg w -> forest w -> b < length (w_blks w) ->
  (exists tr, compile (length (w_blks w)) w b = Some tr) /\ (exists s, full_name (length (w_blks w) + 1) w b = Some s).
Proof.
  intros D ? dbg w b Hw HF Hb. pose proof (ok_tree _ (reach_ok dbg w Hw)) as HT. split.
  - apply compile_some; [done|done|]. intros k x Hx. destruct (below_chain w k b x HT HF Hb Hx) as (l & Hl & Hnd & Hall).
    pose proof (bounded w l Hnd (fun y Hy => proj1 (Hall y Hy))). lia.
  - destruct (full_name (length (w_blks w) + 1) w b) as [s|] eqn:E; [eauto|exfalso].
    destruct (name_chain w _ b HT HF Hb E) as (l & Hl & Hnd & Hall).
    pose proof (bounded w l Hnd (fun y Hy => proj1 (Hall y Hy))). lia.
Qed.
(** ex1: root 0, Add 1 and submodel 2 below it, Gain 3 below 2, Const 4 below 0. *)
Lemma ex1_blocks : (fun o => (bo_parent o, bo_children o)) <$> w_blks ex1_world =
  [(None, [1; 2; 4]); (Some 0, []); (Some 0, [3]); (Some 2, []); (Some 0, [])].
Proof. by vm_compute. Qed.
Lemma ex1_child b p : child_of ex1_world b p -> (b = 1 /\ p = 0) \/ (b = 2 /\ p = 0) \/ (b = 3 /\ p = 2) \/ (b = 4 /\ p = 0).
Proof.
  intros (o & Ho & Hp). assert (((fun o => (bo_parent o, bo_children o)) <$> w_blks ex1_world) !! b = Some (bo_parent o, bo_children o)) as Hb
    by (by rewrite list_lookup_fmap, Ho).
  rewrite ex1_blocks, Hp in Hb. clear Ho Hp.
  do 5 (destruct b as [|b]; [cbn in Hb; injection Hb; intros; subst; first [discriminate|lia]|]). done.
Qed.
Lemma ex1_above x y : above ex1_world x y -> y < x.
Proof.
  intros Hxy. unfold above in Hxy. induction Hxy as [x y Hc|x z y Hc _ IH]; apply ex1_child in Hc; lia.
Qed.
Lemma ex1_forest : forest ex1_world.
Proof. intros b Hb. apply ex1_above in Hb. lia. Qed.
Example C14_ex : wreach true ex1_world /\ (bo_children <$> w_blks ex1_world !! 0) = Some [1; 2; 4] /\
  (bo_parent <$> w_blks ex1_world !! 3) = Some (Some 2) /\
  match set_parent 3 0 ex1_world with Ok r w => r = false /\ bo_children <$> w_blks w = bo_children <$> w_blks ex1_world | _ => False end /\
  match set_parent 3 2 ex1_world with Ok r w => r = true /\ bo_children <$> w_blks w = bo_children <$> w_blks ex1_world | _ => False end.
Proof. split; [exact ex1_reach|]. by vm_compute. Qed.
Example C15_ex : wreach true ex1_world /\ forest ex1_world /\
  safe (OAddBlock 2 4 3 4) ex1_world /\ ~ safe (OSetParent 0 2) ex1_world /\
  full_name 6 ex1_world 3 = Some "/root/sub/gain"%string.
Proof.
  split_and!; [exact ex1_reach|exact ex1_forest| | |by vm_compute].
  - split; [done|]. intros Ha. apply ex1_above in Ha. lia.
  - intros [_ Ha]. apply Ha, tc_once.
    assert (((fun o => (bo_parent o, bo_children o)) <$> w_blks ex1_world) !! 2 = Some (Some 0, [3])) as Hb by (by rewrite ex1_blocks).
    rewrite list_lookup_fmap in Hb. apply fmap_Some in Hb as (o & Ho & [= Hp _]).
    exists o. split; [exact Ho|exact (eq_sym Hp)].
Qed.
(** Without that restriction the claim fails: a submodel accepts itself as parent,
    after which its full name and its traversal never end. *)
Definition loop_ops : list (wop Q) := [ ONewBlock CSubmodel LNone None "a" NoIOLimit NoIOLimit; OSetParent 0 0 ]%string.
Definition loop_world : world Q := world_of true loop_ops.
Lemma loop_reach : wreach true loop_world.
Proof. reach_ops loop_world loop_ops. Qed.
Theorem C15_refuted : exists (w : world Q) b, wreach true w /\ above w b b /\
  forall n, full_name n w b = None /\ compile n w b = None.
Proof.
  exists loop_world, 0. split; [exact loop_reach|].
  assert (exists o, w_blks loop_world !! 0 = Some o /\ bo_parent o = Some 0 /\ bo_children o = [0] /\ is_submodel (bo_cls o) = true)
    as (o & Ho & Hp & Hc & Hs) by (eexists; by vm_compute).
  split; [apply tc_once; by exists o|]. induction n as [|n [IH1 IH2]]; [done|]. cbn [full_name compile].
  rewrite Ho, Hp, Hs, Hc, IH1. split; [done|]. cbn [mapM]. by rewrite IH2.
Qed.

(** C16.  The blocks of a model with their levels, parents before children and
    children in the order in which they were added. *)
Fixpoint preorder {D} (level : nat) (tr : tree D) : list (node D * nat) :=
  match tr with
  | TLeaf l => [(NLeaf l, level)]
  | TSub b k ch => (NSub b k, level) :: concat (map (preorder (S level)) ch)
  end.
Definition within {D} (max_level : nat) (l : list (node D * nat)) : list (node D * nat) := filter (fun p => snd p <= max_level) l.
(** Calling [cb] on each element until one call returns false. *)
Fixpoint until_false {S A} (cb : A -> nat -> M S bool) (l : list (A * nat)) : M S bool :=
  match l with
  | [] => ret true
  | (a, n) :: l' => r <~ cb a n ;; if r : bool then until_false cb l' else ret false
  end.

Section visiting.
  Context {D S : Type} (cb : node D -> nat -> M S bool) (mx : nat).
  Lemma until_app l1 l2 s : until_false cb (l1 ++ l2) s = bnd (until_false cb l1) (fun r : bool => if r then until_false cb l2 else ret false) s.
  Proof.
    revert s. induction l1 as [|[a n] l1 IH]; intros s; [done|]. cbn [until_false app]. unfold bnd.
    destruct (cb a n s) as [[] s1|?|?|]; [apply IH|done..].
  Qed.
  Lemma within_app (l1 l2 : list (node D * nat)) : within mx (l1 ++ l2) = within mx l1 ++ within mx l2.
  Proof. apply filter_app. Qed.
  Lemma within_deep level tr : mx < level -> within mx (preorder (D:=D) level tr) = [].
  Proof.
    revert level. induction tr as [l|b k ch IH] using tree_ind'; intros level Hl; cbn [preorder].
    - unfold within. rewrite filter_cons_False; [done|]. cbn. lia.
    - unfold within. rewrite filter_cons_False by (cbn; lia). fold (within mx (concat (map (preorder (Datatypes.S level)) ch))).
      induction IH as [|t ch Ht _ IH2]; [done|]. cbn [map concat]. rewrite within_app, Ht, IH2 by lia. done.
  Qed.
  Lemma visit_spec level tr s : visit cb mx tr level s = until_false cb (within mx (preorder level tr)) s.
  Proof.
    revert level s. induction tr as [l|b k ch IH] using tree_ind'; intros level s; cbn [visit preorder]; unfold visit1.
    - unfold within. destruct (Nat.ltb_spec mx level) as [Hl|Hl].
      + rewrite filter_cons_False by (cbn; lia). done.
      + rewrite filter_cons_True by (cbn; lia). cbn. unfold bnd. by destruct (cb (NLeaf l) level s) as [[] ?|?|?|].
    - destruct (Nat.ltb_spec mx level) as [Hl|Hl].
      + pose proof (within_deep level (TSub b k ch) Hl) as Hd. cbn [preorder] in Hd. by rewrite Hd.
      + unfold within. rewrite filter_cons_True by (cbn; lia). fold (within mx (concat (map (preorder (Datatypes.S level)) ch))).
        cbn [until_false]. unfold bnd. destruct (cb (NSub b k) level s) as [[] s1|?|?|]; [|done..]. cbn [negb].
        destruct (Nat.ltb_spec level mx) as [Hl2|Hl2].
        * clear s Hl. revert s1. induction IH as [|t ch Ht _ IH2]; intros s1; [done|]. cbn [map concat]. rewrite within_app, until_app.
          unfold bnd. rewrite Nat.add_1_r in *. rewrite Ht. destruct (until_false cb _ s1) as [[] s2|?|?|]; [apply IH2|done..].
        * assert (within mx (concat (map (preorder (Datatypes.S level)) ch)) = []) as ->; [|done].
          clear IH. induction ch as [|t ch IH]; [done|]. cbn [map concat]. rewrite within_app, within_deep, IH by lia. done.
  Qed.
End visiting.

(** Visiting calls [cb] on those blocks, in that order, until a call returns false;
    [cb] may do anything (throw, or change a state of its own). *)
Theorem C16_visit : forall D S (cb : node D -> nat -> M S bool) max_level level tr s,
  visit cb max_level tr level s = until_false cb (within max_level (preorder level tr)) s.
Proof. intros D S cb mx level tr s. apply visit_spec. Qed.
(** Seen through a callback that records its calls and answers [p]: the calls are
    those up to and including the first to be answered false, and the result says
    whether there was one. *)
Definition recording {D} (p : node D -> nat -> bool) : node D -> nat -> M (list (node D * nat)) bool :=
  fun n level log => Ok (p n level) (log ++ [(n, level)]).
Theorem C16_calls : forall D (p : node D -> nat -> bool) max_level level tr,
  exists r calls rest, visit (recording p) max_level tr level [] = Ok r calls /\
    filter (fun c => snd c <= max_level) (preorder level tr) = calls ++ rest /\
    (r = true -> rest = [] /\ Forall (fun c => p (fst c) (snd c) = true) calls) /\
    (r = false -> exists before c, calls = before ++ [c] /\ p (fst c) (snd c) = false /\
       Forall (fun c => p (fst c) (snd c) = true) before).
Proof.
  intros D p mx level tr. setoid_rewrite visit_spec. fold (within mx (preorder level tr)).
  assert (forall l log, exists r calls rest, until_false (recording p) l log = Ok r (log ++ calls) /\ l = calls ++ rest /\
    (r = true -> rest = [] /\ Forall (fun c => p (fst c) (snd c) = true) calls) /\
    (r = false -> exists before c, calls = before ++ [c] /\ p (fst c) (snd c) = false /\
       Forall (fun c => p (fst c) (snd c) = true) before)) as Hl; [|exact (Hl _ [])].
  induction l as [|[n k] l IH]; intros log.
  - exists true, [], []. rewrite app_nil_r. split_and!; done.
  - cbn [until_false]. unfold bnd, recording at 1. destruct (p n k) eqn:E.
    + destruct (IH (log ++ [(n, k)])) as (r & calls & rest & H1 & -> & H2 & H3). exists r, ((n, k) :: calls), rest.
      rewrite H1, <- app_assoc. split_and!; [done|done| |].
      * intros Hr. destruct (H2 Hr) as [-> Hf]. split; [done|]. by constructor.
      * intros Hr. destruct (H3 Hr) as (before & c & -> & Hc & Hf). exists ((n, k) :: before), c. split_and!; [done|done|]. by constructor.
    + exists false, [(n, k)], l. split_and!; try done. intros _. exists [], (n, k). split_and!; [done|done|]. constructor.
Qed.
(** The blocks so ordered are the blocks of the tree, a block's level being its depth. *)
Theorem C16_blocks : forall D (tr : tree D) level, map fst (preorder level tr) = nodes tr.
Proof.
  intros D tr. induction tr as [l|b k ch IH] using tree_ind'; intros level; [done|]. cbn. f_equal.
  induction IH as [|t ch Ht _ IH2]; [done|]. cbn. by rewrite map_app, Ht, IH2.
Qed.
Example C16_ex :
  let seen p mx := match visit (recording p) mx ex1_tree 0 [] with Ok r l => (r, map (fun c => (node_id (fst c), snd c)) l) | _ => (true, []) end in
  seen (fun _ _ => true) 32 = (true, [(0, 0); (1, 1); (2, 1); (3, 2); (4, 1)]) /\
  seen (fun _ _ => true) 1 = (true, [(0, 0); (1, 1); (2, 1); (4, 1)]) /\
  seen (fun n _ => negb (Nat.eqb (node_id n) 3)) 32 = (false, [(0, 0); (1, 1); (2, 1); (3, 2)]).
Proof. by vm_compute. Qed.
(** Siblings are in the order in which they were added: a client operation only
    appends to the list of a submodel ... *)
Lemma step_children {D} `{NumOps D} (w w' : world D) p o : step w w' -> w_blks w !! p = Some o ->
  exists o', w_blks w' !! p = Some o' /\ bo_children o `prefix_of` bo_children o'.
Proof.
  intros Hs Ho.
  assert (forall b' f (w0 : world D), (exists o', w_blks w0 !! p = Some o' /\ bo_children o `prefix_of` bo_children o') ->
    (forall x, bo_children x `prefix_of` bo_children (f x)) ->
    exists o', w_blks (upd w0 b' f) !! p = Some o' /\ bo_children o `prefix_of` bo_children o') as Hupd.
  { intros b' f w0 (o0 & Ho0 & Hp0) Hf. destruct (decide (b' = p)) as [->|Hne].
    - exists (f o0). split; [by apply upd_lookup|]. etrans; [exact Hp0|apply Hf].
    - exists o0. by rewrite upd_lookup_ne. }
  assert (forall x, exists o', w_blks (addblk w x) !! p = Some o' /\ bo_children o `prefix_of` bo_children o') as Hadd.
  { intros x. exists o. split; [|done]. cbn. by rewrite lookup_app_l by (by eapply lookup_lt_Some). }
  assert (forall (x : blkobj D) b, bo_children x `prefix_of` child_added (bo_children x) b) as Hca.
  { intros x b. unfold child_added. destruct (bool_decide _); [done|by exists [b]]. }
  assert (exists o', w_blks w !! p = Some o' /\ bo_children o `prefix_of` bo_children o') as Hc by (by exists o).
  destruct Hs; try (by exists o); try apply Hadd; repeat (apply Hupd; [|by intros ?; cbn]); try done; try apply Hadd.
Qed.
Theorem C16_insertion : forall D `{NumOps D} dbg (w w' : world D) x p o, wreach dbg w -> wop_ok x ->
  exec dbg x w = Ok tt w' \/ (exists e, exec dbg x w = Exn e w') -> w_blks w !! p = Some o ->
  exists o' new, w_blks w' !! p = Some o' /\ bo_children o' = bo_children o ++ new.
Proof.
  intros D ? dbg w w' x p o Hw Hok He. pose proof (exec_steps dbg x w Hok (ok_unbound _ (reach_ok dbg w Hw))) as Hs.
  assert (steps w w') as Hst by (destruct He as [He|[e He]]; rewrite He in Hs; by destruct Hs). clear Hs He Hw.
  intros Ho. assert (exists o', w_blks w' !! p = Some o' /\ bo_children o `prefix_of` bo_children o') as (o' & Ho' & [nw Hnw]); [|eauto].
  revert o Ho. induction Hst as [|w w1 w2 H1 _ IH]; intros o Ho; [eauto|].
  destruct (step_children _ _ _ _ H1 Ho) as (o1 & Ho1 & Hp1). destruct (IH _ Ho1) as (o2 & Ho2 & Hp2).
  exists o2. split; [done|]. by etrans.
Qed.
(** ... and [visit], like the simulators, meets them in that order. *)
Definition root_id {D} (tr : tree D) : nat := match tr with TLeaf l => l_id l | TSub b _ _ => b end.
Theorem C16_siblings : forall D (w : world D) b b' k ch, compile_model w b = Some (TSub b' k ch) ->
  exists o, b' = b /\ w_blks w !! b = Some o /\ map root_id ch = bo_children o.
Proof.
  intros D w b b' k ch. unfold compile_model. generalize (length (w_blks w)). intros n. cbn [compile].
  destruct (w_blks w !! b) as [o|] eqn:Ho; [|done]. destruct (is_submodel (bo_cls o)); [|done].
  destruct (mapM (compile n w) (bo_children o)) as [ch'|] eqn:Em; [|done]. intros [= <- _ <-]. exists o. split_and!; [done|done|].
  apply mapM_Some in Em. induction Em as [|x t xs ts Hx _ IH]; [done|]. cbn. f_equal; [|exact IH].
  destruct n; [done|]. cbn [compile] in Hx. destruct (w_blks w !! x) as [ox|]; [|done].
  destruct (is_submodel (bo_cls ox)); [|by injection Hx as <-]. destruct (mapM _ _); [|done]. by injection Hx as <-.
Qed.
Example C16_siblings_ex : match ex1_tree with TSub b _ ch => (b, map root_id ch) | _ => (1, []) end = (0, [1; 2; 4]) /\
  option_map bo_children (w_blks ex1_world !! 0) = Some [1; 2; 4].
Proof. by vm_compute. Qed.
Print Assumptions C14_views.
Print Assumptions C14_parent_kept.
Print Assumptions C14_set_parent.
Print Assumptions C15_forest.
Print Assumptions C15_ends.
Print Assumptions C15_refuted.
Print Assumptions C16_visit.
Print Assumptions C16_calls.
Print Assumptions C16_blocks.
Print Assumptions C16_insertion.
Print Assumptions C16_siblings.
