(** C72: lifetimes of blocks. *)
From stdpp Require Import prelude gmap strings.
From Coq Require Import QArith ZArith.
From Verif Require Import Num NumQ Res Store Leaf Sched P_Sched Stepper Sim Visit World Api P_World P_Ops P_Compile Props_Forest Dead P_Dead P_Dead2 Ex_Models.
Local Open Scope nat_scope.

(** Block [b] can be used: it and everything below it still exist, and in a debug build
    everything above it too. *)
Definition usable {D} (dbg : bool) (w : world D) (dead : gset nat) (b : nat) : Prop :=
  (forall x, x = b \/ above w x b -> x ∉ dead) /\ (dbg = true -> forall a, above w b a -> a ∉ dead).

Section usable.
  Context {D : Type} `{NumOps D}.
  Context (d0 dbg : bool) (w : world D) (Hw : wreach d0 w) (Hf : forest w) (b : nat) (tr : tree D) (Hb : compile_model w b = Some tr).
  Lemma above_linear x a : above w x b -> above w x a -> (a = b \/ above w a b) \/ above w b a.
  Proof.
    unfold above. intros H1. revert a. induction H1 as [x b' (o & Ho & Hp)|x y b' (o & Ho & Hp) Hyb IH]; intros a Ha.
    - inversion Ha as [? ? (o' & Ho' & Hp')|? z ? (o' & Ho' & Hp') Hz]; subst.
      + left. left. congruence.
      + right. assert (z = b') as -> by congruence. done.
    - inversion Ha as [? ? (o' & Ho' & Hp')|? z ? (o' & Ho' & Hp') Hz]; subst.
      + left. right. assert (a = y) as -> by congruence. done.
      + assert (z = y) as -> by congruence. by apply IH.
  Qed.
  Lemma usable_fine dead x : usable dbg w dead b -> x ∈ ids tr -> fine dbg w dead x.
  Proof.
    intros [U1 U2] Hx. apply (ids_above d0 w Hw b tr x Hb) in Hx. split; [by apply U1|]. intros Hd a Ha.
    destruct Hx as [->|Hx]; [by apply U2|]. destruct (above_linear x a Hx Ha) as [H1|H1]; [by apply U1|by apply U2].
  Qed.
  Lemma usable_calls dead : usable dbg w dead b -> calls dbg w dead (ids tr).
  Proof.
    intros U x Hx. pose proof (usable_fine dead x U Hx) as Hfx. split; [exact (proj1 Hfx)|]. intros S s.
    destruct (ids_named d0 w Hw Hf b tr x Hb Hx) as [nm Hn].
    destruct (call_cases (S:=S) dbg w dead x nm Hn) as [[H1 _]|[_ H2]]; [apply H1|by destruct H2].
  Qed.
  (** A property of [S] decided by the blocks holds for all [S] or none. *)
  Lemma call_cases' dead x : x ∈ ids tr -> (fine dbg w dead x /\ forall S (s : S), use_blk dbg w dead x s = Ok tt s) \/
    (~ fine dbg w dead x /\ forall S (s : S), use_blk dbg w dead x s = UB UDead).
  Proof.
    intros Hx. destruct (ids_named d0 w Hw Hf b tr x Hb Hx) as [nm Hn].
    destruct (call_cases (S:=unit) dbg w dead x nm Hn) as [[_ H1]|[_ H1]]; [left|right]; (split; [done|]); intros S s;
      destruct (call_cases (S:=S) dbg w dead x nm Hn) as [[H2 H3]|[H2 H3]]; first [done|by destruct H3|by destruct H1].
  Qed.
  Lemma unusable_partly dead : ~ usable dbg w dead b -> partly dbg w dead (ids tr).
  Proof.
    intros U. split.
    - intros x Hx. destruct (call_cases' dead x Hx) as [[_ ?]|[_ ?]]; auto.
    - assert (forall l : list nat, (forall x, x ∈ l -> x ∈ ids tr) -> (forall x, x ∈ l -> fine dbg w dead x) \/ exists x, x ∈ l /\ ~ fine dbg w dead x) as Hl.
      { induction l as [|x l IH]; intros Hl; [left; intros x Hx; by apply elem_of_nil in Hx|].
        destruct (call_cases' dead x (Hl x (elem_of_list_here _ _))) as [[H1 _]|[H1 _]]; [|right; exists x; split; [apply elem_of_list_here|done]].
        destruct IH as [IH|(y & Hy & IH)]; [intros y Hy; apply Hl; by apply elem_of_list_further| |].
        - left. intros y [->|Hy]%elem_of_cons; [done|by apply IH].
        - right. exists y. split; [by apply elem_of_list_further|done]. }
      destruct (Hl (ids tr)) as [Hl'|(x & Hx & Hnx)]; [done| |].
      + exfalso. apply U. split.
        * intros x Hx. apply (ids_above d0 w Hw b tr x Hb) in Hx. by apply Hl'.
        * intros Hd a Ha. assert (b ∈ ids tr) as Hbi by (apply (ids_above d0 w Hw b tr b Hb); by left). destruct (Hl' b Hbi) as [_ H2]. by apply H2.
      + exists x. split; [done|]. destruct (call_cases' dead x Hx) as [[? _]|[_ ?]]; done.
  Qed.
  Lemma unusable_release dead : ~ usable false w dead b -> exists x, x ∈ ids tr /\ x ∈ dead.
  Proof.
    intros U. destruct (decide (Exists (fun x => x ∈ dead) (ids tr))) as [He|He].
    - apply Exists_exists in He as (x & Hx & Hd). by exists x.
    - exfalso. apply U. split; [|done]. intros x Hx Hd. apply He. apply Exists_exists. exists x. split; [|done].
      by apply (ids_above d0 w Hw b tr x Hb).
  Qed.
End usable.

Lemma usable_release {D} dbg (w : world D) dead b : usable dbg w dead b -> usable false w dead b.
Proof. intros [U1 U2]. by split. Qed.

(** C72.  As long as a model can be used, the simulator does exactly what it does in
    the rest of this development, where blocks live for ever: nothing else is ever
    accessed, and the blocks a simulator remembers remain blocks of the model. *)
Theorem C72_alive : forall D `{NumOps D} dbg (w : world D) b (g : cfg D) dead, wreach dbg w -> forest w ->
  compile_model w b = Some (g_tree g) -> (forall stp, g_stepper g = Some stp -> steps_alike stp) ->
  usable (g_dbg g) w dead b ->
  (forall d, stored g (new_sim d)) /\
  (forall s, stored g s ->
    (forall t0, linit w dead g t0 s = init g t0 s /\ forall s', init g t0 s = Ok tt s' -> stored g s') /\
    (forall fuel t lo hi, lrun w dead g fuel t lo hi s = run g fuel t lo hi s /\ forall s', run g fuel t lo hi s = Ok tt s' -> stored g s') /\
    (forall t b1 b2, lprocess_model w dead g t b1 b2 s = process_model g t b1 b2 s)).
Proof.
  intros D ? dbg w b g dead Hw Hf Hb Hs U. pose proof (usable_calls dbg (g_dbg g) w Hw Hf b _ Hb dead U) as Hc. split; [apply stored_new|].
  intros s Hst. split_and!.
  - intros t0. destruct (init_al w dead g Hc t0 s Hst) as [H1 H2]. split; [done|]. intros s'. apply H2.
  - intros fuel t lo hi. destruct (run_al w dead g Hs Hc fuel t lo hi s Hst) as [H1 H2]. split; [done|]. intros s'. apply H2.
  - intros t b1 b2. by apply (process_al w dead g Hc t b1 b2 s).
Qed.

(** When it cannot be used, init is undefined whatever the state ... *)
Theorem C72_init_dead : forall D `{NumOps D} dbg (w : world D) b (g : cfg D) dead t0 s, wreach dbg w -> forest w ->
  compile_model w b = Some (g_tree g) -> ~ usable (g_dbg g) w dead b -> linit w dead g t0 s = UB UDead.
Proof.
  intros D ? dbg w b g dead t0 s Hw Hf Hb U. pose proof (unusable_partly dbg (g_dbg g) w Hw Hf b _ Hb dead U) as Hp.
  unfold linit. unfold bnd at 1. unfold lvisit_all. unfold bnd at 1. by rewrite lvisit_dead.
Qed.
Definition not_ok {S A} (r : res S A) : Prop := match r with Ok _ _ => False | _ => True end.
Lemma not_ok_l {S A B} (m : M S A) (k : A -> M S B) s : not_ok (m s) -> not_ok (bnd m k s).
Proof. unfold bnd. by destruct (m s). Qed.
Lemma not_ok_r {S A B} (m : M S A) (k : A -> M S B) s : (forall a s', not_ok (k a s')) -> not_ok (bnd m k s).
Proof. intros Hk. unfold bnd. destruct (m s); [apply Hk|done..]. Qed.
Lemma not_ok_dyn {D A} (m : M (dyn D) A) s : not_ok (m (s_dyn s)) -> not_ok (on_dyn m s).
Proof. unfold on_dyn, lift. by destruct (m (s_dyn s)). Qed.
Lemma not_ok_core {D A} (m : M (core D) A) s : not_ok (m (d_core (s_dyn s))) -> not_ok (on_core' m s).
Proof. intros Hm. apply not_ok_dyn. unfold on_core, lift. by destruct (m _). Qed.
(** ... and no run and no evaluation that comes to an end does so normally.  The
    FastSimulator calls the submodels only in pre_step and post_step, and does not
    look above the block in a debug build when it evaluates. *)
Theorem C72_run_dead : forall D `{NumOps D} dbg (w : world D) b (g : cfg D) dead s, wreach dbg w -> forest w ->
  compile_model w b = Some (g_tree g) -> ~ usable (match g_mode g with MFast => false | _ => g_dbg g end) w dead b ->
  (forall fuel t lo hi, not_ok (lrun w dead g fuel t lo hi s)) /\
  (forall t b1 b2, (g_mode g = MFast -> b1 || b2 = true) -> not_ok (lprocess_model w dead g t b1 b2 s)).
Proof.
  intros D ? dbg w b g dead s Hw Hf Hb U.
  assert (~ usable (g_dbg g) w dead b) as U'. { destruct (g_mode g); [done..|]. intros U'. by apply U, (usable_release (g_dbg g)). }
  assert (forall t b1 b2 s, (g_mode g = MFast -> b1 || b2 = true) -> not_ok (lprocess_model w dead g t b1 b2 s)) as HP.
  { clear s. intros t b1 b2 s Hm. unfold lprocess_model. apply not_ok_r. intros _ s1. apply not_ok_r. intros _ s2.
    destruct (g_mode g) eqn:Em.
    - apply not_ok_r. intros _ s3. apply not_ok_l. unfold leval_model. rewrite Em. destruct (g_dbg g) eqn:Ed.
      + apply not_ok_r. intros _ s4. apply not_ok_r. intros _ s5. unfold lvisit_all. apply not_ok_l. rewrite lvisit_dead; [done|].
        rewrite Ed. by apply (unusable_partly dbg true w Hw Hf b _ Hb).
      + apply not_ok_l, not_ok_dyn, lmark_dead. by apply (unusable_release dbg w Hw b).
    - apply not_ok_r. intros _ s3. apply not_ok_l. unfold leval_model. rewrite Em. destruct (g_dbg g) eqn:Ed.
      + apply not_ok_r. intros _ s4. apply not_ok_r. intros cur s5. apply not_ok_r. intros _ s6. unfold lvisit_all. apply not_ok_l. rewrite lvisit_dead; [done|].
        rewrite Ed. by apply (unusable_partly dbg true w Hw Hf b _ Hb).
      + apply not_ok_l, not_ok_dyn, lmark_dead. by apply (unusable_release dbg w Hw b).
    - destruct (unusable_release dbg w Hw b _ Hb dead U) as (x & Hx & Hd). destruct b1.
      + apply not_ok_l, not_ok_core, not_ok_l. apply lpre_dead. by exists x.
      + specialize (Hm eq_refl). cbn in Hm. subst b2. do 3 (apply not_ok_r; intros _ ?).
        apply not_ok_core, not_ok_l. apply lpost_dead. by exists x. }
  split; [|intros t b1 b2; apply HP].
  intros fuel t lo hi. unfold lrun. apply not_ok_r. intros ini s1. destruct (negb ini).
  - by rewrite (C72_init_dead D dbg w b g dead t s1 Hw Hf Hb U').
  - apply not_ok_r. intros n s2. apply not_ok_r. intros tp s3. apply not_ok_r. intros _ s4. apply not_ok_r. intros sv s5. apply not_ok_r. intros _ s6.
    apply not_ok_l. apply HP. intros _. by destruct n.
Qed.

(** A visit that is limited in depth does not touch what lies deeper. *)
Theorem C72_visit : forall D `{NumOps D} dbg0 dbg (w : world D) b tr dead S (cb : node D -> nat -> M S bool) mx s, wreach dbg0 w -> forest w ->
  compile_model w b = Some tr ->
  (forall n lv, (n, lv) ∈ preorder 0 tr -> lv <= mx -> fine dbg w dead (node_id n)) ->
  lvisit dbg w dead cb mx tr 0 s = visit cb mx tr 0 s.
Proof.
  intros D ? dbg0 dbg w b tr dead S cb mx s Hw Hf Hb Hl. rewrite lvisit_spec by lia. rewrite visit_spec.
  assert (forall p, p ∈ within mx (preorder 0 tr) -> forall s : S, use_blk dbg w dead (node_id (fst p)) s = Ok tt s) as Hu.
  { intros [n lv] Hp s0. unfold within in Hp. apply elem_of_list_filter in Hp as [Hlv Hp]. cbn [fst snd] in *.
    assert (node_id n ∈ ids tr) as Hn. { unfold ids. apply elem_of_list_fmap. exists n. split; [done|]. rewrite <- (preorder_nodes 0 tr). apply elem_of_list_fmap. by exists (n, lv). }
    destruct (call_cases' dbg0 dbg w Hw Hf b tr Hb dead (node_id n) Hn) as [[_ H1]|[H1 _]]; [apply H1|]. exfalso. apply H1. by apply (Hl n lv). }
  revert s. induction (within mx (preorder 0 tr)) as [|[n lv] l IH]; intros s; [done|]. cbn [until_false]. apply bnd_eq.
  - apply bnd_tt. apply (Hu (n, lv)). apply elem_of_list_here.
  - intros r s' _. destruct r; [|done]. apply IH. intros p Hp. apply Hu. by apply elem_of_list_further.
Qed.

(** Destroying a child does not take it out of its parent: the model cannot be
    initialised any more although the rest of it is there. *)
Theorem C72_unlink_refuted :
  ~ forall D `{NumOps D} dbg (w : world D) b (g : cfg D) dead t0 s, wreach dbg w -> forest w ->
    compile_model w b = Some (g_tree g) -> b ∉ dead -> (forall x, x ∈ dead -> above w x b) ->
    linit w dead g t0 s <> UB UDead.
Proof.
  intros HC. set (g := Cfg false MDefault ex1_tree None (fun _ => PRet tt) None (fun x => x) 0%Q).
  apply (HC Q _ true ex1_world 0 g {[3]} 0%Q (new_sim ex1_dyn) ex1_reach ex1_forest).
  - vm_compute. reflexivity.
  - apply not_elem_of_singleton. lia.
  - intros x ->%elem_of_singleton. unfold above. eapply tc_l; [|apply tc_once].
    + eexists. split; [vm_compute; reflexivity|]. reflexivity.
    + eexists. split; [vm_compute; reflexivity|]. reflexivity.
  - apply (C72_init_dead Q true ex1_world 0 g {[3]} 0%Q (new_sim ex1_dyn) ex1_reach ex1_forest).
    + vm_compute. reflexivity.
    + intros [U _]. apply (U 3); [|apply elem_of_singleton; reflexivity]. right. unfold above. eapply tc_l; [|apply tc_once].
      * eexists. split; [vm_compute; reflexivity|]. reflexivity.
      * eexists. split; [vm_compute; reflexivity|]. reflexivity.
Qed.

(** Two models side by side:
      blocks 0 top, 1 submodel of top, 2 Integrator and 3 Gain below 1, 4 another model, 5 Const below 4 *)
Definition ex72_ops : list (wop Q) :=
  [ ONewSig KScalar "x"; ONewSig KScalar "y"; ONewSig KScalar "z";
    ONewBus [0] ""; ONewBus [1] ""; ONewBus [2] ""; ONewBus [] "";
    ONewBlock CSubmodel LNone None "top" NoIOLimit NoIOLimit;
    ONewBlock CSubmodel LNone (Some 0) "sub" NoIOLimit NoIOLimit;
    ONewBlock (CInteg TyD) (LInteg (VS 5%Q) false) (Some 1) "int" 1 1;
    ONewBlock (CGain TyD (VS (-2)%Q)) LNone (Some 1) "gain" 1 1;
    ONewBlock CSubmodel LNone None "other" NoIOLimit NoIOLimit;
    ONewBlock (CConst TyD (VS 7%Q)) LNone (Some 4) "const" 0 1;
    OConnect 2 4 3; OConnect 3 3 4; OConnect 5 6 5 ]%string.
Definition ex72_world : world Q := world_of true ex72_ops.
Definition ex72_tree : tree Q := default (TSub 0 [] []) (compile_model ex72_world 1).
Definition ex72_cfg (dbg : bool) (m : mode) : cfg Q := Cfg dbg m ex72_tree None (fun _ => PRet tt) (Some rk4) (fun x => x) 0%Q.
Lemma ex72_reach : wreach true ex72_world.
Proof. reach_ops ex72_world ex72_ops. Qed.
Lemma ex72_model dbg m : compile_model ex72_world 1 = Some (g_tree (ex72_cfg dbg m)).
Proof. unfold ex72_cfg. cbn [g_tree]. vm_compute. reflexivity. Qed.
Lemma ex72_parents : bo_parent <$> w_blks ex72_world = [None; Some 0; Some 1; Some 1; None; Some 4].
Proof. vm_compute. reflexivity. Qed.
Lemma parents_child {D} (w : world D) l b p : bo_parent <$> w_blks w = l -> child_of w b p <-> l !! b = Some (Some p).
Proof.
  intros <-. rewrite list_lookup_fmap. unfold child_of. split.
  - intros (o & -> & Ho). cbn. by rewrite Ho.
  - destruct (w_blks w !! b) as [o|]; cbn; [|done]. intros [= Ho]. by exists o.
Qed.
Lemma ex72_child b p : child_of ex72_world b p -> (b = 1 /\ p = 0) \/ (b = 2 /\ p = 1) \/ (b = 3 /\ p = 1) \/ (b = 5 /\ p = 4).
Proof.
  intros Hc. apply (parents_child _ _ _ _ ex72_parents) in Hc.
  do 6 (destruct b as [|b]; [cbn in Hc; injection Hc; intros; subst; first [discriminate|lia]|]). done.
Qed.
Lemma ex72_above x y : above ex72_world x y -> y < x /\ x <> 4 /\ (x = 5 -> y = 4) /\ (x <> 5 -> y = 0 \/ y = 1).
Proof. intros Hxy. unfold above in Hxy. induction Hxy as [x y Hc|x z y Hc _ IH]; apply ex72_child in Hc; lia. Qed.
Lemma ex72_forest : forest ex72_world.
Proof. intros b Hb. apply ex72_above in Hb. lia. Qed.
(** With "other" and its Const gone, the submodel can be used in both builds; with "top" gone as
    well, in a release build only. *)
Example C72_ex :
  (forall dbg, usable dbg ex72_world {[4; 5]} 1) /\ usable false ex72_world {[0; 4; 5]} 1 /\ ~ usable true ex72_world {[0; 4; 5]} 1 /\
  (forall dbg m, is_ok ((linit ex72_world {[4; 5]} (ex72_cfg dbg m) 0%Q ;;; lrun ex72_world {[4; 5]} (ex72_cfg dbg m) 10 1%Q (1#100)%Q 10%Q) (new_sim (initial_dyn ex72_world))) = true) /\
  (forall m, is_ok (linit ex72_world {[0; 4; 5]} (ex72_cfg false m) 0%Q (new_sim (initial_dyn ex72_world))) = true /\
             linit ex72_world {[0; 4; 5]} (ex72_cfg true m) 0%Q (new_sim (initial_dyn ex72_world)) = UB UDead) /\
  (forall dbg m stp, g_stepper (ex72_cfg dbg m) = Some stp -> steps_alike stp).
Proof.
  assert (forall x, x = 1 \/ above ex72_world x 1 -> x = 1 \/ x = 2 \/ x = 3) as Hb.
  { intros x [->|Hx]; [lia|]. unfold above in Hx. inversion Hx as [? ? Hc|? z ? Hc Hz]; subst.
    - apply ex72_child in Hc. lia.
    - apply ex72_child in Hc. pose proof (ex72_above z 1 Hz). lia. }
  split_and!.
  - intros dbg. split.
    + intros x Hx. apply Hb in Hx. rewrite elem_of_union, !elem_of_singleton. lia.
    + intros _ a Ha. apply ex72_above in Ha. rewrite elem_of_union, !elem_of_singleton. lia.
  - split; [|intros E; discriminate E]. intros x Hx. apply Hb in Hx. rewrite !elem_of_union, !elem_of_singleton. lia.
  - intros [_ U]. apply (U eq_refl 0); [|rewrite !elem_of_union, !elem_of_singleton; lia].
    apply tc_once. apply (parents_child _ _ _ _ ex72_parents). reflexivity.
  - intros [] []; vm_compute; reflexivity.
  - intros m. split; [destruct m; vm_compute; reflexivity|].
    destruct m; vm_compute; reflexivity.
  - intros dbg m stp E. injection E as <-. apply rk4_alike.
Qed.
(** A visit of ex1 down to level 1 does not notice that the Gain at level 2 is gone. *)
Example C72_visit_ex :
  (forall n lv, (n, lv) ∈ preorder 0 ex1_tree -> lv <= 1 -> fine true ex1_world {[3]} (node_id n)) /\
  length (within 1 (preorder 0 ex1_tree)) = 4 /\ length (preorder 0 ex1_tree) = 5.
Proof.
  split_and!; [|vm_compute; reflexivity..].
  intros n lv Hn Hlv. assert (forallb (fun p => Nat.ltb 1 (snd p) || negb (Nat.eqb (node_id (fst p)) 3)) (preorder 0 ex1_tree) = true) as E by (vm_compute; reflexivity).
  revert Hn E. generalize (preorder 0 ex1_tree). intros l Hn E. apply elem_of_list_In in Hn. rewrite forallb_forall in E. specialize (E _ Hn). cbn [fst snd] in E.
  apply orb_true_iff in E as [E|E]; [apply Nat.ltb_lt in E; lia|]. apply negb_true_iff, Nat.eqb_neq in E. split; [by rewrite elem_of_singleton|].
  intros _ a Ha. rewrite elem_of_singleton. intros ->. revert Ha. generalize (node_id n). intros x Ha. unfold above in Ha.
  assert (forall x y, tc (child_of ex1_world) x y -> y <> 3) as Hn3; [|by apply (Hn3 _ _ Ha)].
  clear. intros x y Hxy. induction Hxy as [x y Hc|x z y Hc _ IH]; [apply ex1_child in Hc; lia|done].
Qed.
Print Assumptions C72_alive.
Print Assumptions C72_init_dead.
Print Assumptions C72_run_dead.
Print Assumptions C72_visit.
Print Assumptions C72_unlink_refuted.
