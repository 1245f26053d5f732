(** FastSimulator evaluates the model twice when it is initialised, Simulator once. *)
From stdpp Require Import prelude gmap.
From Coq Require Import ZArith.
From Verif Require Import Num Res Store Leaf Sched Stepper Sim SpecSched P_Store P_Prog P_Modes P_Conf P_Sched P_Eval P_Lib P_Fast P_Sim P_Evolve
  P_Simulated P_Rel P_Rel2 SpecHist P_Trace SpecRun P_Log P_Pack P_Repeat SpecAgain P_Over P_Redo.
Local Open Scope num_scope.

(** Signals change only by being assigned. *)
Definition wide {D} (σ σ' : store D) : Prop :=
  ext σ σ' /\ (forall x, σ' !! x = σ !! x \/ assigned σ' x = true) /\ (forall x, σ !! x = None -> σ' !! x = None).
Section wide.
  Context {D : Type} `{NumOps D}.
  Lemma wide_refl (σ : store D) : wide σ σ.
  Proof. split_and!; [apply ext_refl|by left|done]. Qed.
  Lemma ext_assigned (σ σ' : store D) x : ext σ σ' -> assigned σ x = true -> assigned σ' x = true.
  Proof.
    intros He. unfold assigned. destruct (σ !! x) as [c|] eqn:E; [|done]. intros Ha. destruct (He x c E) as (c' & -> & _ & _ & E'). by rewrite E'.
  Qed.
  Lemma wide_trans (σ1 σ2 σ3 : store D) : wide σ1 σ2 -> wide σ2 σ3 -> wide σ1 σ3.
  Proof.
    intros (A1 & A2 & A3) (B1 & B2 & B3). split_and!; [by eapply ext_trans| |auto]. intros x.
    destruct (B2 x) as [E|?]; [|by right]. destruct (A2 x) as [E'|Ha]; [left; congruence|]. right. by apply (ext_assigned _ _ _ B1).
  Qed.
  Global Instance wide_pre : PreOrder (@wide D).
  Proof. split; [intros σ; apply wide_refl|intros σ1 σ2 σ3; apply wide_trans]. Qed.
  Lemma wide_set x v : pres (@wide D) (set_value true x v).
  Proof.
    intros σ. unfold set_value. destruct (σ !! x) as [c|] eqn:E; [|done]. destruct (negb _); [done|]. cbn [andb].
    destruct (negb _); [reflexivity|]. destruct (c_asg c) eqn:Ea; [reflexivity|]. destruct (negb _); [reflexivity|]. split_and!.
    - intros y d Hd. destruct (decide (y = x)) as [->|Hne].
      + rewrite lookup_insert. rewrite E in Hd. injection Hd as <-. eexists. split; [done|]. cbn. split; [done|]. split; [done|]. by rewrite Ea.
      + rewrite lookup_insert_ne by done. by exists d.
    - intros y. unfold assigned. destruct (decide (y = x)) as [->|Hne]; [right; by rewrite lookup_insert|left; by rewrite lookup_insert_ne].
    - intros y Hy. rewrite lookup_insert_ne; [done|]. intros ->. congruence.
  Qed.
  Lemma wide_prog {A} (p : prog D A) : pres wide (run_prog true p).
  Proof.
    induction p as [a|s k IH|s v k IH|b e k IH|e|u]; cbn [run_prog].
    - by apply pres_ret; apply _.
    - apply pres_bnd; [apply _| |done]. intros σ. unfold get_value. destruct (σ !! s) as [c|]; [|done]. cbn [andb].
      destruct (negb (payload_size_ok c)); [reflexivity|]. destruct (negb (c_asg c)); [reflexivity|]. by destruct (c_val c).
    - apply pres_bnd; [apply _|apply wide_set|done].
    - apply pres_bnd; [apply _|apply pres_debug, _|done].
    - by apply pres_throw; apply _.
    - by apply pres_undef.
  Qed.
  Definition cwide (c c' : core D) : Prop := wide (k_store c) (k_store c').
  Global Instance cwide_pre : PreOrder cwide.
  Proof. split; [intros c; apply wide_refl|intros c1 c2 c3; apply wide_trans]. Qed.
  Lemma cwide_leaf ev l p : pres cwide (run_leaf true ev l p).
  Proof.
    intros c. unfold run_leaf. pose proof (wide_prog (p (lst_of c (l_id l))) (k_store c)) as Hp. by destruct (run_prog true _ _).
  Qed.
  Lemma cwide_each ev p ls : pres cwide (each true ev p ls).
  Proof. unfold each. apply pres_forM; [apply _|]. intros l. apply cwide_leaf. Qed.
  Lemma cwide_store {A} (p : prog D A) : pres cwide (on_store (run_prog true p)).
  Proof. intros c. unfold on_store, lift. pose proof (wide_prog p (k_store c)) as Hp. by destruct (run_prog true p _). Qed.
  Lemma cwide_inputs g t : g_dbg g = true -> pres cwide (inputs g t).
  Proof.
    intros Hg. unfold inputs. rewrite Hg. apply pres_bnd; [apply _|intros c; apply wide_refl|intros _].
    apply pres_bnd; [apply _| |intros _; apply cwide_store]. destruct (g_inputs g); [apply cwide_store|apply pres_ret, _].
  Qed.
End wide.

(** Members. *)
Section members.
  Context {D : Type} `{NumOps D}.
  Definition first_deriv (m : lstate D) : Prop := exists t0 x0 y, m = LDeriv true t0 x0 y.
  (** [l] never changes its members. *)
  Definition inert (l : leaf D) : Prop := forall t m, returns (eq m) (pre l t m) /\ returns (eq m) (act l t m) /\ returns (eq m) (post l t m).
  Lemma inert_or (l : leaf D) : steady_class l -> inert l \/ forall t m, returns (fun m' => ~ first_deriv m') (post l t m).
  Proof.
    assert (forall m : lstate D, returns (D:=D) (eq m) (PRet m)) as Hr by done.
    assert (forall (m : lstate D) s (p : prog D (val D)), returns (eq m) (pbind p (fun v => PSet s v (PRet m)))) as Hb.
    { intros m s p. eapply returns_bind; [apply returns_true|]. intros v _. done. }
    assert (forall (m : lstate D) (p : prog D unit), returns (eq m) (pbind p (fun _ => PRet m))) as Hb'.
    { intros m p. eapply returns_bind; [apply returns_true|]. intros v _. done. }
    unfold steady_class, inert, pre, act, post, with_h, pset_opt. intros Hc.
    destruct (l_cls l) as [ty v|ty f|f|f|ty f|ty f|ty k|ty ini|ty ini| | |ty|ty|ty life| |ty|ty|inits ex|ex|ua up upo|] eqn:El; try done.
    all: try (left; intros t m; split; [done|split; [|done]]; try done; try apply Hb').
    - by destruct (h_out (l_h l)).
    - destruct (h_out (l_h l)); [apply Hb|done].
    - destruct (h_in (l_h l)); [|done]. destruct (h_out (l_h l)); [|done]. intros x. apply Hb.
    - destruct (h_out (l_h l)); [apply Hb|done].
    - destruct (h_in (l_h l)); [|done]. destruct (h_out (l_h l)); [|done]. intros x. by destruct (gain_val k x).
    - destruct (h_out (l_h l)); [|done]. by apply returns_fold.
    - destruct (h_out (l_h l)); [|done]. by apply returns_fold.
    - destruct (h_x1 (l_h l)); [|done]. destruct (h_x2 (l_h l)); [|done]. destruct (h_out (l_h l)); [|done]. intros x y. by destruct (vop2 nsub x y).
    - destruct (h_x1 (l_h l)); [|done]. destruct (h_x2 (l_h l)); [|done]. destruct (h_out (l_h l)); [|done]. intros x y. by destruct (vop2 ndiv x y).
    - destruct (h_in (l_h l)); [|done]. destruct (h_out (l_h l)); [|done]. intros x. done.
    - right. intros t m. destruct (h_in (l_h l)); [|done]. intros x (? & ? & ? & E). discriminate E.
    - right. intros t m. destruct m as [|v|ts xs|f t0 x0 y|v b|vs]; try done. unfold delay_post, with_h. destruct (h_in (l_h l)); [|done].
      destruct (Nat.ltb _ _); [done|]. intros x (? & ? & ? & E). discriminate E.
    - right. intros t m. unfold deriv_post, with_h. cbn. destruct (h_in (l_h l)); [|done]. intros v. destruct v; try done.
      intros (? & ? & ? & E). discriminate E.
    - right. intros t m. destruct m as [|v|ts xs|f t0 x0 y|v b|vs]; try done. destruct (h_out (l_h l)); [|done]. intros x (? & ? & ? & E). discriminate E.
    - right. intros t m. destruct m as [|v|ts xs|f t0 x0 y|v b|vs]; try done. eapply returns_bind; [apply returns_true|]. intros vs' _ (? & ? & ? & E). discriminate E.
  Qed.
End members.

Lemma leaf_by_id' {D} (L : list (leaf D)) l l' : NoDup (map l_id L) -> l ∈ L -> l' ∈ L -> l_id l = l_id l' -> l = l'.
Proof.
  induction L as [|x L IH]; cbn; intros Hn Hl Hl' He; [by apply elem_of_nil in Hl|].
  apply NoDup_cons in Hn as [Hx Hn]. apply elem_of_cons in Hl as [->|Hl], Hl' as [->|Hl']; auto; exfalso; apply Hx.
  - rewrite He. by apply elem_of_list_fmap_1.
  - rewrite <- He. by apply elem_of_list_fmap_1.
Qed.
(** The first pass leads from [c1] to [c2]; its signals [vs] are cleared in [c3];
    the second pass leads from there to [c5]. *)
Section twice.
  Context {D : Type} `{NumOps D} (g : cfg D) (t : D) (Hw : wf_tree (g_tree g)) (Hg : g_dbg g = true).
  Context (Hst : forall l, l ∈ leaves (g_tree g) -> steady_class l).
  Context (vs : list nat) (ls : list (leaf D)) (Hls : ls ≡ₚ leaves (g_tree g)).
  Context (c1 c1a c1b c2 c3 c3a c3b c5 : core D).
  Context (Hc1 : forall z, z ∈ vs -> assigned (k_store c1) z = false).
  Context (E1 : inputs g t c1 = Ok tt c1a) (E1' : pre_step true (g_tree g) t c1a = Ok tt c1b) (E2 : acts true t ls c1b = Ok tt c2).
  Context (Hl3 : forall b, lst_of c3 b = lst_of c2 b).
  Context (Hfr : forall z, z ∉ vs -> k_store c3 !! z = k_store c2 !! z).
  Context (Hcl : forall z, z ∈ vs -> exists c, k_store c2 !! z = Some c /\ k_store c3 !! z = Some (clear_cell c)).
  Context (E3 : inputs g t c3 = Ok tt c3a) (E3' : pre_step true (g_tree g) t c3a = Ok tt c3b) (E5 : acts true t ls c3b = Ok tt c5).

  Lemma ls_nodup : NoDup (map l_id ls).
  Proof. rewrite Hls. by apply wf_leaves. Qed.
  Lemma pass_wide (a a1 a2 b : core D) : inputs g t a = Ok tt a1 -> pre_step true (g_tree g) t a1 = Ok tt a2 -> acts true t ls a2 = Ok tt b ->
    wide (k_store a) (k_store b).
  Proof.
    intros A1 A2 A3. pose proof (cwide_inputs g t Hg a) as B1. rewrite A1 in B1.
    rewrite pre_each in A2. pose proof (cwide_each (fun b => EvPre b t) (fun l => pre l t) (leaves (g_tree g)) a1) as B2. rewrite A2 in B2.
    rewrite acts_each in A3. pose proof (cwide_each (fun b => EvAct b t) (fun l => act l t) ls a2) as B3. rewrite A3 in B3.
    eapply wide_trans; [exact B1|]. eapply wide_trans; [exact B2|exact B3].
  Qed.
  Lemma pass_members (a a1 a2 b : core D) : inputs g t a = Ok tt a1 -> pre_step true (g_tree g) t a1 = Ok tt a2 -> acts true t ls a2 = Ok tt b ->
    (forall i, same_member (lst_of a i) (lst_of b i)) /\
    (forall i, (forall l, l ∈ leaves (g_tree g) -> l_id l = i -> inert l) -> lst_of b i = lst_of a i).
  Proof.
    intros A1 A2 A3. rewrite pre_each in A2. rewrite acts_each in A3.
    destruct (inputs_ext g Hg t _ _ A1) as [_ B1].
    assert (forall i, lst_of a1 i = lst_of a i) as B1'.
    { revert A1. unfold inputs. unfold bnd, emit, modify, on_store, lift. destruct (g_inputs g) as [f|]; cbn [k_store].
      - destruct (run_prog _ (f t) _); try done. destruct (run_prog _ (g_icb g t) _) as [[] ?| | |]; try done. by intros [= <-].
      - unfold ret. destruct (run_prog _ (g_icb g t) _) as [[] ?| | |]; try done. by intros [= <-]. }
    destruct (each_spec _ _ _ _ _ A2 (wf_leaves _ Hw)) as (_ & _ & B2 & B2').
    destruct (each_spec _ _ _ _ _ A3 ls_nodup) as (_ & _ & B3 & B3').
    assert (forall i, i ∉ map l_id (leaves (g_tree g)) -> lst_of b i = lst_of a i) as Hno.
    { intros i Hi. rewrite B3' by (by rewrite Hls). rewrite B2' by done. apply B1'. }
    split.
    - intros i. destruct (decide (i ∈ map l_id (leaves (g_tree g)))) as [Hi|Hi]; [|left; by apply Hno].
      apply elem_of_list_fmap in Hi as (l & -> & Hl). pose proof (steady_library l (Hst l Hl)) as Hs.
      assert (l ∈ ls) as Hl' by (by rewrite Hls).
      rewrite <- B1'. eapply same_member_trans; [exact (returns_shows _ _ _ _ (proj1 (Hs t _)) (B2 l Hl))|exact (returns_shows _ _ _ _ (proj2 (Hs t _)) (B3 l Hl'))].
    - intros i Hin. destruct (decide (i ∈ map l_id (leaves (g_tree g)))) as [Hi|Hi]; [|by apply Hno].
      apply elem_of_list_fmap in Hi as (l & -> & Hl). specialize (Hin l Hl eq_refl).
      assert (l ∈ ls) as Hl' by (by rewrite Hls). destruct (Hin t (lst_of a1 (l_id l))) as (I1 & _ & _). destruct (Hin t (lst_of a2 (l_id l))) as (_ & I2 & _).
      pose proof (returns_shows _ _ _ _ I2 (B3 l Hl')) as J2. pose proof (returns_shows _ _ _ _ I1 (B2 l Hl)) as J1. cbn beta in J1, J2. by rewrite <- J2, <- J1.
  Qed.

  (** Signals compared: those that are cleared and those not assigned by the first pass. *)
  Definition fresh_sig (x : nat) : Prop := x ∈ vs \/ assigned (k_store c2) x = false.
  Lemma restart_cover : cover fresh_sig c1 c3.
  Proof.
    pose proof (pass_wide _ _ _ _ E1 E1' E2) as (W1 & W2 & W3). destruct (pass_members _ _ _ _ E1 E1' E2) as [M1 _].
    split; [|intros b; rewrite Hl3; apply M1]. intros x. destruct (k_store c1 !! x) as [c|] eqn:Ec.
    - destruct (W1 x c Ec) as (c' & Ec' & K1 & K2 & K3). destruct (decide (x ∈ vs)) as [Hx|Hx].
      + destruct (Hcl x Hx) as (c'' & Hc'' & ->). rewrite Ec' in Hc''. injection Hc'' as <-. cbn. split; [done|]. split; [done|].
        pose proof (Hc1 x Hx) as Ha. unfold assigned in Ha. rewrite Ec in Ha. rewrite Ha. done.
      + rewrite Hfr, Ec' by done. split; [done|]. split; [done|]. split.
        * intros Ha. by rewrite (K3 Ha).
        * intros [?|Ha]; [done|]. unfold assigned in Ha. rewrite Ec' in Ha. rewrite Ha. destruct (c_asg c) eqn:E; [|done]. rewrite (K3 eq_refl) in Ha. congruence.
    - destruct (decide (x ∈ vs)) as [Hx|Hx].
      + destruct (Hcl x Hx) as (c'' & Hc'' & _). rewrite (W3 x Ec) in Hc''. done.
      + by rewrite Hfr, (W3 x Ec).
  Qed.
  Lemma pass_cover : cover fresh_sig c2 c5.
  Proof.
    destruct (wrel_inputs fresh_sig g g t Hg Hg eq_refl eq_refl _ _ _ _ _ _ restart_cover E1 E3) as [_ R1].
    destruct (wrel_pre fresh_sig (g_tree g) t _ _ _ _ _ _ R1 E1' E3') as [_ R2].
    by destruct (wrel_acts fresh_sig ls t _ _ _ _ _ _ R2 E2 E5) as [_ R3].
  Qed.
  (** Ending the step: from the state after the first pass and from the one after the second. *)
  Context (cd cd' c6 c6' : core D) (Hd : same_state c2 cd) (H6 : same_state c5 c6).
  Context (Ed : post_step true (g_tree g) t cd = Ok tt cd') (E6 : post_step true (g_tree g) t c6 = Ok tt c6').
  Lemma twice_same : same_state cd' c6'.
  Proof.
    assert (cover fresh_sig cd c6) as C0.
    { destruct pass_cover as [P1 P2], Hd as [D1 D2], H6 as [G1 G2]. split; [by rewrite <- D1, <- G1|]. intros b. rewrite <- D2, <- G2. apply P2. }
    destruct (wrel_post fresh_sig (g_tree g) t _ _ _ _ _ _ C0 Ed E6) as [_ [C1 C2]].
    pose proof (pass_wide _ _ _ _ E1 E1' E2) as (W1 & W2 & W3). pose proof (pass_wide _ _ _ _ E3 E3' E5) as W5.
    pose proof Ed as Fd. pose proof E6 as F6. rewrite post_each in Fd, F6.
    pose proof (cwide_each (fun b => EvPost b t) (fun l => post l t) (leaves (g_tree g)) cd) as V. rewrite Fd in V. destruct V as (V1 & V2 & V3).
    pose proof (cwide_each (fun b => EvPost b t) (fun l => post l t) (leaves (g_tree g)) c6) as V6. rewrite F6 in V6.
    assert (wide (k_store c3) (k_store c6')) as (U1 & U2 & U3).
    { eapply wide_trans; [exact W5|]. destruct H6 as [-> _]. exact V6. }
    destruct Hd as [Sd Ld], H6 as [S6 L6]. rewrite <- Sd in V1, V2, V3. split.
    - apply map_eq. intros x. specialize (C1 x). destruct (k_store cd' !! x) as [c|] eqn:Ec, (k_store c6' !! x) as [c'|] eqn:Ec'; try done.
      destruct C1 as (K1 & K2 & K3 & K4). f_equal. destruct (c_asg c) eqn:Ea.
      { destruct (K3 eq_refl) as [K5 K6]. destruct c, c'; cbn in *; congruence. }
      destruct (k_store c2 !! x) as [e|] eqn:Ee; [|rewrite (V3 x Ee) in Ec; done].
      assert (assigned (k_store c2) x = false) as Hf.
      { destruct (assigned (k_store c2) x) eqn:Eas; [|done]. apply (ext_assigned _ _ _ V1) in Eas. unfold assigned in Eas. rewrite Ec in Eas. congruence. }
      assert (c_asg c' = false) as Ha' by (apply K4; by right).
      assert (c_asg e = false) as Hae by (unfold assigned in Hf; by rewrite Ee in Hf).
      destruct (V2 x) as [V|V]; [|unfold assigned in V; rewrite Ec in V; congruence]. rewrite Ec, Ee in V. injection V as ->.
      destruct (U2 x) as [U|U]; [|unfold assigned in U; rewrite Ec' in U; congruence]. rewrite Ec' in U.
      destruct (decide (x ∈ vs)) as [Hx|Hx].
      + destruct (Hcl x Hx) as (e' & He' & Hc3). rewrite Ee in He'. injection He' as <-. rewrite Hc3 in U. injection U as ->. unfold clear_cell. destruct e; cbn in *; congruence.
      + rewrite Hfr, Ee in U by done. by injection U as ->.
    - intros b. destruct (pass_members _ _ _ _ E1 E1' E2) as [_ M2]. destruct (pass_members _ _ _ _ E3 E3' E5) as [_ M5].
      destruct (each_spec _ _ _ _ _ Fd (wf_leaves _ Hw)) as (_ & _ & Pd & Pd'). destruct (each_spec _ _ _ _ _ F6 (wf_leaves _ Hw)) as (_ & _ & P6 & P6').
      destruct (decide (b ∈ map l_id (leaves (g_tree g)))) as [Hb|Hb].
      + apply elem_of_list_fmap in Hb as (l & -> & Hl). destruct (inert_or l (Hst l Hl)) as [Hi|Hp].
        * assert (forall l', l' ∈ leaves (g_tree g) -> l_id l' = l_id l -> inert l') as Hi'.
          { intros l' Hl' E. by rewrite (leaf_by_id' _ _ _ (wf_leaves _ Hw) Hl' Hl E). }
          destruct (Hi t (lst_of cd (l_id l))) as (_ & _ & I1). destruct (Hi t (lst_of c6 (l_id l))) as (_ & _ & I2).
          pose proof (returns_shows _ _ _ _ I1 (Pd l Hl)) as J1. pose proof (returns_shows _ _ _ _ I2 (P6 l Hl)) as J2. cbn beta in J1, J2.
          rewrite <- J1, <- J2, <- Ld, <- L6, (M5 _ Hi'), Hl3. done.
        * destruct (C2 (l_id l)) as [->|(t0 & x0 & t0' & x0' & y & E & _)]; [done|]. exfalso.
          eapply (returns_shows _ _ _ _ (Hp t _) (Pd l Hl)). rewrite E. unfold first_deriv. eauto.
      + rewrite Pd', P6' by done. rewrite <- Ld, <- L6, M5, Hl3; [done|]. intros l Hl <-. exfalso. apply Hb, elem_of_list_fmap. eauto.
  Qed.
End twice.

Section first.
  Context {D : Type} `{NumOps D}.
  Lemma nonb_run dbg t (c : core D) ls c' cm : legal_run dbg t c ls c' -> same_state c cm -> (forall l, l ∈ nonb ls -> l_id l ∉ k_done cm) ->
    exists cm', legal_run dbg t cm (nonb ls) cm' /\ same_state c' cm'.
  Proof.
    intros Hr Hs. induction Hr as [|ls c1 l c2 H1 IH Hd Hi Ha]; intros Hnd; [exists cm; by split; [constructor|]|].
    pose proof (legal_run_basic dbg t _ _ _ (lr_snoc _ _ _ _ _ _ _ H1 Hd Hi Ha)) as (Hn & _).
    assert (nonb (ls ++ [l]) = nonb ls ++ nonb [l]) as En by (unfold nonb; apply filter_app).
    rewrite En in Hnd |- *. destruct IH as (cm1 & Hm1 & Hs1). { intros x Hx. apply Hnd, elem_of_app. by left. }
    unfold nonb at 2. rewrite filter_cons, filter_nil. destruct (decide (is_builder (l_cls l) = false)) as [Hb|Hb].
    - destruct (activate_same _ _ _ _ _ _ Hs1 Ha) as (cm2 & Hm2 & Hs2). exists (mark_done (l_id l) cm2). split; [|done].
      apply lr_snoc with (c1 := cm1); [done| |by destruct Hs1 as [<- _]|done].
      pose proof (legal_run_basic dbg t _ _ _ Hm1) as (_ & _ & -> & _). intros Hin. apply elem_of_union in Hin as [Hin|Hin].
      + apply elem_of_list_to_set, elem_of_list_fmap in Hin as (x & Ex & Hx). rewrite map_app, NoDup_app in Hn. destruct Hn as (_ & Hn & _).
        apply (Hn (l_id l)); [|by apply elem_of_list_singleton]. rewrite Ex. apply elem_of_list_fmap_1. unfold nonb in Hx. by apply elem_of_list_filter in Hx as [_ Hx].
      + revert Hin. apply Hnd. apply elem_of_app. right. unfold nonb. rewrite filter_cons, filter_nil. rewrite decide_True by done. by apply elem_of_list_singleton.
    - apply not_false_is_true in Hb. destruct (builder_activate dbg t l c1 Hb) as (c2' & Ha' & Hs').
      rewrite Ha in Ha'. injection Ha' as <-. rewrite app_nil_r. exists cm1. split; [done|]. eapply same_state_trans; [|exact Hs1].
      apply same_state_sym in Hs'. exact Hs'.
  Qed.
  Lemma default_first tr t (d d1 : dyn D) ls c2 : wf_tree tr -> store_ok (k_store (d_core d)) ->
    (forall l, l ∈ leaves tr -> local (dom (k_store (d_core d))) l) ->
    legal_run true t (d_core d) ls c2 -> ls ≡ₚ leaves tr -> evaluate true tr t d = Ok tt d1 -> same_state c2 (d_core d1).
  Proof.
    intros Hw Hok Hloc Hr Hls He. destruct (evaluate_ok _ _ _ _ _ _ Hw He) as (ls1 & Hr1 & Hin1 & Hex1).
    set (cm := d_core (mark_unprocessed tr d)) in *.
    assert (same_state (d_core d) cm) as Hcm.
    { unfold cm. split; [by rewrite marked_store|]. intros b. unfold lst_of. by rewrite marked_lst. }
    assert (forall l, l ∈ nonb ls -> l ∈ leaves tr /\ is_builder (l_cls l) = false) as Hnb.
    { intros l Hl. unfold nonb in Hl. apply elem_of_list_filter in Hl as [? Hl]. rewrite Hls in Hl. done. }
    destruct (nonb_run true t _ _ _ cm Hr Hcm) as (cm' & Hrm & Hsm).
    { intros l Hl. destruct (Hnb l Hl) as [? Hb]. unfold cm. rewrite marked_leaf by done. by rewrite Hb. }
    assert (exhausted (leaves tr) cm') as Hex.
    { intros l Hl. left. destruct (is_builder (l_cls l)) eqn:E.
      - eapply legal_run_done_mono; [exact Hrm|]. unfold cm. by apply marked_leaf.
      - apply legal_run_basic in Hrm as (_ & _ & -> & _). apply elem_of_union_l, elem_of_list_to_set, elem_of_list_fmap. exists l. split; [done|].
        unfold nonb. apply elem_of_list_filter. split; [done|]. by rewrite Hls. }
    destruct (confluence t cm (leaves tr) (nonb ls) cm' ls1 (d_core d1)) as (_ & Hst & Hl & _); try done.
    { unfold cm. by rewrite marked_store. } { by apply wf_leaves. }
    { intros l Hl. unfold cm. rewrite marked_store by done. by apply Hloc. }
    { intros l Hl. by apply Hnb. }
    eapply same_state_trans; [exact Hsm|]. split; [done|]. intros b. unfold lst_of. by rewrite Hl.
  Qed.
End first.
