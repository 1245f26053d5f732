(** No undefined behaviour: the steppers, initialisation, and models built by clients. *)
From stdpp Require Import prelude gmap strings.
From Coq Require Import ZArith.
From Verif Require Import Num NumOrd Res Name Store Leaf Sched Stepper Sim World Api Steps Util P_Steps P_Ops P_Store P_World P_Frame SpecSized P_Sized SpecSim P_Modes P_Compile SpecSafe P_Bound P_Safe P_Safe2.

(** ** Steppers *)
Section steppers.
  Context {D : Type} `{NumOps D}.
  Lemma va_length (x y : list D) n : length x = n -> length y = n -> length (va x y) = n.
  Proof. intros E1 E2. unfold va. rewrite zip_with_length. lia. Qed.
  Lemma vs_length (x y : list D) n : length x = n -> length y = n -> length (vs x y) = n.
  Proof. intros E1 E2. unfold vs. rewrite zip_with_length. lia. Qed.
  Lemma vk_length k (x : list D) n : length x = n -> length (vk k x) = n.
  Proof. intros E. unfold vk. by rewrite map_length. Qed.
  Lemma call_safe {S} (I : S -> Prop) (U : ub -> Prop) (cb : D -> list D -> M S (list D)) n :
    (forall (t : D) (x : list D) (z : S), length x = n -> I z ->
       match cb t x z with Ok r z' => I z' /\ length r = n | Exn _ z' => I z' | UB u => U u | OOF => True end) ->
    forall m t x, m = n -> length x = n -> safe U I (call cb m t x) (fun r => length r = n).
  Proof.
    intros Hcb m t x -> Hx. unfold call. eapply safe_bnd with (P := fun r => length r = n).
    - intros z Hz. specialize (Hcb t x z Hx Hz). done.
    - intros r Hr. rewrite (proj2 (Nat.eqb_eq _ _) Hr). by apply safe_ret.
  Qed.
  Ltac len := repeat first [assumption | apply va_length | apply vs_length | apply vk_length].
  Ltac calls Hc := repeat (eapply safe_bnd; [apply Hc; [assumption|len]|]; let f := fresh "f" in let Hf := fresh "Hf" in intros f Hf).
  Lemma euler_safe : stepper_safe (D:=D) euler.
  Proof.
    intros S I U cb n Hn Hcb t1 x t2 z Hx Hz. pose proof (call_safe I U cb n Hcb) as Hc. revert z Hz. change (safe U I (euler S cb t1 x t2) (fun r => length (fst r) = n)).
    unfold euler. calls Hc. apply safe_ret. cbn [fst]. len.
  Qed.
  Lemma rk4_safe : stepper_safe (D:=D) rk4.
  Proof.
    intros S I U cb n Hn Hcb t1 x t2 z Hx Hz. pose proof (call_safe I U cb n Hcb) as Hc. revert z Hz. change (safe U I (rk4 S cb t1 x t2) (fun r => length (fst r) = n)).
    unfold rk4. calls Hc. apply safe_ret. cbn [fst]. len.
  Qed.
  Lemma rkf45_safe : stepper_safe (D:=D) rkf45.
  Proof.
    intros S I U cb n Hn Hcb t1 x t2 z Hx Hz. pose proof (call_safe I U cb n Hcb) as Hc. revert z Hz. change (safe U I (rkf45 S cb t1 x t2) (fun r => length (fst r) = n)).
    unfold rkf45. calls Hc.
    match goal with |- safe _ _ (match max_coeff (map nabs ?v) with _ => _ end) _ => assert (length v = n) as Hv by len; set (w := v) in * end.
    destruct w as [|a w]; [done|]. cbn [max_coeff map]. apply safe_ret. cbn [fst]. len.
  Qed.
End steppers.

(** ** Initialisation of a new simulator *)
Section init.
  Context {D : Type} `{NumOrd D} (g : cfg D) (σ0 : store D).
  Notation tr := (g_tree g).
  Notation K := (kof σ0).
  Record env : Prop := {
    en_dbg : g_dbg g = true;
    en_leaf : forall l, l ∈ leaves tr -> leaf_ok K l;
    en_ids : forall l l', l ∈ leaves tr -> l' ∈ leaves tr -> l_id l = l_id l' -> l = l';
    en_in : forall f t, g_inputs g = Some f -> harmless K (fun _ => True) (f t);
    en_icb : forall t, harmless K (fun _ => True) (g_icb g t);
    en_stp : forall stp, g_stepper g = Some stp -> stepper_safe stp;
    en_der : forall z c d, σ0 !! z = Some c -> c_deriv c = Some d -> K d = Some (c_kind c);
    en_lnk : forall z, z ∈ linked_signals tr -> is_Some (K z);
    en_iter : forall l, g_iter g l ≡ₚ l;
    en_reuse : g_mode g = MReuse -> exists z d, z ∈ linked_signals tr /\ (stat σ0 z = Some (KScalar, Some d) \/ exists m, stat σ0 z = Some (KArray (S m), Some d))
  }.
  Context (E : env).
  Definition SCof := g_iter g (List.filter (is_scalar_state σ0) (linked_signals tr)).
  Definition ARof := g_iter g (List.filter (is_array_state σ0) (linked_signals tr)).
  Definition VSof := g_iter g (linked_signals tr).
  Lemma SC_ok z : z ∈ SCof -> exists d, stat σ0 z = Some (KScalar, Some d).
  Proof.
    unfold SCof. rewrite (en_iter E). intros Hz. apply elem_of_list_In, filter_In in Hz as [_ Hz]. unfold is_scalar_state, stat in *.
    destruct (σ0 !! z) as [[k d a p]|]; [|done]. cbn in *. destruct k, d; try done. by eexists.
  Qed.
  Lemma AR_ok z : z ∈ ARof -> exists n d, stat σ0 z = Some (KArray n, Some d).
  Proof.
    unfold ARof. rewrite (en_iter E). intros Hz. apply elem_of_list_In, filter_In in Hz as [_ Hz]. unfold is_array_state, stat in *.
    destruct (σ0 !! z) as [[k d a p]|]; [|done]. cbn in *. destruct k, d; try done. by eexists _, _.
  Qed.
  Lemma VS_ok z : z ∈ VSof -> is_Some (K z).
  Proof. unfold VSof. rewrite (en_iter E). apply (en_lnk E). Qed.
  Notation FIg := (FI g σ0 SCof ARof VSof).
  Lemma state_stat σ : SI σ0 σ -> (forall z, is_scalar_state σ z = is_scalar_state σ0 z) /\ (forall z, is_array_state σ z = is_array_state σ0 z).
  Proof.
    intros [Hs _]. split; intros z; specialize (Hs z); unfold stat, is_scalar_state, is_array_state in *; destruct (σ !! z), (σ0 !! z); cbn in *; try done; by injection Hs as -> ->.
  Qed.
  Lemma clear_list_ok vs : (forall z, z ∈ vs -> is_Some (K z)) -> forall σ, SI σ0 σ -> exists σ', forM vs clear_sig σ = Ok tt σ' /\ SI σ0 σ'.
  Proof.
    induction vs as [|z vs IH]; intros Hv σ Hσ; [by exists σ|]. destruct (Hv z) as [k Hk]; [apply elem_of_list_here|].
    destruct (SI_at σ0 σ z k Hσ Hk) as (c & Hc & _). pose proof (safe_clear σ0 (fun _ => True) z k Hk σ Hσ) as Hs.
    cbn [forM]. unfold bnd. unfold clear_sig in *. rewrite Hc in *. destruct Hs as [Hs _]. apply IH; [|done]. intros z' Hz'. by apply Hv, elem_of_list_further.
  Qed.
  Definition NNof := length SCof + sum_list (map (sig_size σ0) ARof).
  Lemma sum_perm (f : nat -> nat) l l' : l ≡ₚ l' -> sum_list (map f l) = sum_list (map f l').
  Proof. induction 1; cbn; lia. Qed.
  Lemma NN_eq σ : SI σ0 σ -> length (List.filter (is_scalar_state σ) (linked_signals tr)) + sum_list (map (sig_size σ) (List.filter (is_array_state σ) (linked_signals tr))) = NNof.
  Proof.
    intros Hσ. destruct (state_stat σ Hσ) as [E1 E2]. unfold NNof, SCof, ARof.
    rewrite (filter_ext _ _ E1), (filter_ext _ _ E2). f_equal; [symmetry; apply Permutation_length, (en_iter E)|].
    rewrite (sum_perm _ _ _ (en_iter E _)). f_equal. apply map_ext. intros z. by apply (stat_size σ0).
  Qed.
  Lemma NN_pos : g_mode g = MReuse -> NNof ≠ 0.
  Proof.
    intros Hm. destruct (en_reuse E Hm) as (z & d & Hz & Hst). unfold NNof. destruct Hst as [Hst|[m Hst]].
    - assert (z ∈ SCof) as Hin.
      { unfold SCof. rewrite (en_iter E). apply elem_of_list_In, filter_In. split; [by apply elem_of_list_In|]. unfold is_scalar_state, stat in *.
        destruct (σ0 !! z) as [[k d' a p]|]; [|done]. cbn in *. by injection Hst as -> ->. }
      destruct SCof; [by apply elem_of_nil in Hin|]. cbn. lia.
    - assert (z ∈ ARof) as Hin.
      { unfold ARof. rewrite (en_iter E). apply elem_of_list_In, filter_In. split; [by apply elem_of_list_In|]. unfold is_array_state, stat in *.
        destruct (σ0 !! z) as [[k d' a p]|]; [|done]. cbn in *. by injection Hst as -> ->. }
      pose proof (size_array σ0 z _ _ Hst) as Hsz. induction ARof as [|a l IH]; [by apply elem_of_nil in Hin|]. cbn. apply elem_of_cons in Hin as [->|Hin]; [lia|]. specialize (IH Hin). lia.
  Qed.
  Lemma base_safe t d : DI g σ0 d -> exists s1, base_init g t (new_sim d) = Ok tt s1 /\ FIg false s1 /\ s_po1 s1 = [] /\ s_po2 s1 = [] /\ s_fast s1 = [].
  Proof.
    intros [Hσ Hm]. set (σ := k_store (d_core d)) in *. destruct (clear_list_ok VSof VS_ok σ Hσ) as (σ' & Ec & Hσ').
    pose proof (NN_eq σ Hσ) as HN. destruct (state_stat σ Hσ) as [E1 E2].
    assert (length (resize g (length (List.filter (is_scalar_state σ) (linked_signals tr)) + sum_list (map (sig_size σ) (List.filter (is_array_state σ) (linked_signals tr)))) []) = NNof) as Hlen.
    { rewrite HN. unfold resize. cbn [length]. destruct (Nat.eqb_spec 0 NNof) as [<-|]; [done|]. apply replicate_length. }
    unfold base_init, clear_all, on_store', on_core', on_dyn, on_core, on_store, lift, bnd, gets, modify.
    cbn [s_vsigs s_dyn s_core s_store new_sim app d_core k_store s_core]. unfold s_store, s_core. cbn [s_dyn d_core]. fold σ. fold VSof. rewrite Ec.
    eexists. split; [reflexivity|]. split; [|done]. split; try done.
    - cbn. unfold SCof. by rewrite (filter_ext _ _ E1).
    - cbn. unfold ARof. by rewrite (filter_ext _ _ E2).
    - by intros l ?%elem_of_nil.
    - by intros l ?%elem_of_nil.
    - by intros l ?%elem_of_nil.
  Qed.
  Notation U := (allowed g σ0).
  Lemma pm_safe t b1 b2 : safe U (FIg true) (process_model g t b1 b2) (fun _ => True).
  Proof. destruct E. by apply process_model_safe. Qed.
  Lemma FI_up s : g_mode g ≠ MReuse -> FIg false s -> FIg true s.
  Proof. intros Hm []. by split. Qed.
  Lemma init_safe t d : DI g σ0 d -> match init g t (new_sim d) with Ok _ s | Exn _ s => FIg true s | UB u => U u | OOF => True end.
  Proof.
    intros Hdi. destruct (base_safe t d Hdi) as (s1 & E1 & Hs1 & P1 & P2 & P3).
    assert (forall {A} (m : M (simst D) A) s, safe U (FIg true) m (fun _ => True) -> FIg true s -> match m s with Ok _ s | Exn _ s => FIg true s | UB u => U u | OOF => True end) as Hgo.
    { intros A m s Hm Hs. specialize (Hm s Hs). destruct (m s); naive_solver. }
    assert (g_mode g ≠ MFast -> match simulator_init g t (new_sim d) with Ok _ s | Exn _ s => FIg true s | UB u => U u | OOF => True end) as Hsim.
    { intros Hnf. unfold simulator_init. unfold bnd at 1. rewrite E1. destruct (g_mode g) eqn:Em; [| |done].
      - unfold bnd at 1 2. unfold gets. cbn [ret]. unfold ret. apply Hgo; [apply pm_safe|]. apply FI_up; [by rewrite Em|done].
      - pose proof (NN_pos Em) as Hp. pose proof (fi_sv _ _ _ _ _ _ _ Hs1) as Hl. fold NNof in Hl.
        unfold bnd at 1 2. unfold gets at 1. destruct (length (s_sv s1)) as [|n] eqn:En; [congruence|].
        unfold bnd at 1 2 3 4. unfold gets. rewrite P1, P2. unfold debug_verify. replace (if g_dbg g then _ else _) with (ret (S := simst D) tt) by (by destruct (g_dbg g)).
        unfold ret, modify. apply Hgo; [apply pm_safe|]. destruct Hs1. split; cbn; try done. rewrite P1. cbn. intros l Hl'. by apply nodes_leaves. }
    unfold init. destruct (g_mode g) eqn:Em; [by apply Hsim|by apply Hsim|].
    unfold fast_init. unfold bnd at 1. rewrite E1. assert (FIg true s1) as Hs by (apply FI_up; [by rewrite Em|done]). clear Hsim.
    apply Hgo; [|done]. destruct E as [Hd Hl Hi H1 H2 H3 H4 H5 H6 H7]. 
    eapply safe_bnd; [by apply (safe_gets _ _ _ (fun _ => True))|]. intros o0 _. rewrite Hd. eapply safe_seq; [apply safe_debug|].
    eapply safe_seq; [apply on_core_safe'; by apply inputs_safe|]. eapply safe_seq. { rewrite <- Hd. by apply pre_snap_safe. }
    eapply safe_bnd; [apply on_core_safe'; unfold fast_schedule; apply fast_loop_safe; [..|by intros ? ?|by intros ? ?%elem_of_nil]; done|]. intros r Hr.
    eapply safe_seq. { apply (safe_modify _ _ _ (fun _ => True)); [|done]. intros s []. split; cbn; try done. intros ls [Hx|Hx]%elem_of_app; eauto. }
    eapply safe_seq; [apply safe_verify|]. eapply safe_seq; [apply on_core_safe', snap_safe|].
    eapply safe_seq; [|apply pm_safe]. apply clear_all_safe. apply VS_ok.
  Qed.
  Lemma run_safe' n t lo hi s : FIg true s -> match run g n t lo hi s with Ok _ s | Exn _ s => FIg true s | UB u => U u | OOF => True end.
  Proof.
    intros Hs. assert (safe U (FIg true) (run g n t lo hi) (fun _ => True)) as Hr.
    { pose proof SC_ok. pose proof AR_ok. pose proof VS_ok. destruct E. by apply run_safe. }
    specialize (Hr s Hs). destruct (run g n t lo hi s); naive_solver.
  Qed.

  Definition SInv (s : simst D) : Prop :=
    DI g σ0 (s_dyn s) /\ (s_init s = false -> s = new_sim (s_dyn s)) /\ (s_init s = true -> FIg true s).
  Lemma FI_SInv s : FIg true s -> SInv s.
  Proof. intros Hs. split; [apply Hs|]. split; [|done]. pose proof (fi_init _ _ _ _ _ _ _ Hs). congruence. Qed.
  Lemma inv_init t s : SInv s -> s_init s = false -> match init g t s with Ok _ s | Exn _ s => SInv s | UB u => U u | OOF => True end.
  Proof.
    intros (Hd & Hn & _) Hi. rewrite (Hn Hi). pose proof (init_safe t (s_dyn s) Hd) as Hr. destruct (init g t _); try done; by apply FI_SInv.
  Qed.
  Lemma inv_run n t lo hi s : SInv s -> match run g n t lo hi s with Ok _ s | Exn _ s => SInv s | UB u => U u | OOF => True end.
  Proof.
    intros Hs. destruct (s_init s) eqn:Ei.
    - destruct Hs as (_ & _ & Hf). pose proof (run_safe' n t lo hi s (Hf Ei)) as Hr. destruct (run g _ _ _ _ _); try done; by apply FI_SInv.
    - unfold run. unfold bnd at 1. unfold gets at 1. rewrite Ei. cbn [negb]. by apply inv_init.
  Qed.
End init.

(** ** Models built by clients *)
Section built.
  Context {D : Type} `{NumOrd D} (w : world D) (b : nat).
  Lemma kinds_of_world z : kof (initial_store w) z = sig_kinds w z.
  Proof. unfold kof, sig_kinds. rewrite initial_lookup. destruct (w_sigs w !! z) as [o|]; [|done]. by destruct (is_bus _). Qed.
  Lemma careful_ext {A} (U : ub -> Prop) K K' (Q : A -> Prop) (p : prog D A) : (forall z, K' z = K z) -> careful U K Q p -> careful U K' Q p.
  Proof.
    intros HK. induction p as [a|s k IH|s v p IH|c e p IH|e|u]; cbn; try done.
    - intros (kd & E & Hc). exists kd. rewrite HK. split; [done|]. intros v Hv Hs. by apply IH, Hc.
    - intros (kd & E & Hf & Hc). exists kd. rewrite HK. split; [done|]. split; [done|]. by apply IH.
    - intros Hc E. by apply IH, Hc.
  Qed.
  Lemma misfits_ext (l : leaf D) : misfits (kof (initial_store w)) l -> misfits (sig_kinds w) l.
  Proof. unfold misfits. destruct (l_cls l); try done; destruct T; try done; intros (e & n & x & He & Hn & Hv); exists e, n, x; by rewrite <- kinds_of_world. Qed.
  Lemma tsig_hty T h : (forall s, h = Some s -> tsig w T s) -> is_Some h -> hty (kof (initial_store w)) T h.
  Proof.
    intros Ht [s ->]. destruct (Ht s eq_refl) as (o & Ho & Hf). exists s, (so_kind o). split; [done|]. split; [|done].
    rewrite kinds_of_world. unfold sig_kinds. rewrite Ho. by destruct T, (so_kind o).
  Qed.
  Lemma initial_mem i o : w_blks w !! i = Some o -> lst_of (initial_core w) i = bo_st o.
  Proof.
    intros Ho. unfold lst_of, initial_core. cbn. erewrite elem_of_list_to_map_1; [reflexivity| |].
    - rewrite fmap_imap. unfold compose. cbn. replace (imap (fun n _ => n) (w_blks w)) with (seq 0 (length (w_blks w))); [apply NoDup_seq|].
      apply list_eq. intros j. rewrite list_lookup_imap. destruct (decide (j < length (w_blks w))) as [Hj|Hj].
      + rewrite lookup_seq_lt by done. apply lookup_lt_is_Some_2 in Hj as [x ->]. done.
      + rewrite lookup_seq_ge by lia. rewrite lookup_ge_None_2 by lia. done.
    - apply elem_of_lookup_imap. by exists i, o.
  Qed.
  Context (g : cfg D) (Pp : proper w b g).
  Notation K := (kof (initial_store w)).
  Lemma p_ok : world_ok w.
  Proof. eapply reach_ok, built_reach, (pp_built _ _ _ Pp). Qed.
  Lemma p_leaf l : l ∈ leaves (g_tree g) -> leaf_ok K l /\ mem_ok K l (lst_of (initial_core w) (l_id l)).
  Proof.
    intros Hl. destruct (pp_leaf _ _ _ Pp l Hl) as (o & Ho & Hconn & Hty & Hus).
    destruct (compile_leaf _ _ _ _ l (pp_tree _ _ _ Pp) Hl) as (o' & Ho' & _ & El). rewrite Ho in Ho'. injection Ho' as <-.
    rewrite (initial_mem _ _ Ho). pose proof (ok_wires _ p_ok _ _ Ho) as Hw. pose proof (built_bound _ w (pp_built _ _ _ Pp) _ _ Ho Hconn) as Hb.
    rewrite El. clear El. generalize (l_id l). intros i. destruct Hw as [_ _ _ _ _ _ _ Win Wout Wx1 Wx2 Wd Wi Wt Wc].
    assert (forall T h, in_ok w o T h -> is_Some h -> hty K T h) as Hin. { intros T h Hi. apply tsig_hty. intros s Hs. apply (Hi s Hs). }
    assert (is_Some (h_out (bo_h o)) -> hty K (cls_ty (bo_cls o)) (h_out (bo_h o))) as Hout. { apply tsig_hty. intros s Hs. apply (Wout s Hs). }
    assert (forall A (Q : A -> Prop) (p : prog D A), harmless (sig_kinds w) Q p -> harmless K Q p) as HK. { intros A Q p. apply careful_ext, kinds_of_world. }
    unfold leaf_ok, mem_ok, complete, ctor_typed, user_harmless, Api.ctor_ok in *. cbn [l_cls l_h l_ibus l_obus].
    destruct (bo_cls o) as [T v|T f|f|f|T f|T f|T k|T v|T v| | |T|T|T life| |T|T|inits ex|ex|ua up upo|] eqn:Ec; cbn [cls_ty] in *.
    - split; [|done]. split; auto.
    - split; [|done]. split; auto.
    - split; [|done]. auto.
    - split; [|done]. auto.
    - destruct Hb. split; [|done]. repeat split; auto.
    - split; [|done]. split; auto.
    - destruct Hb. split; [|done]. repeat split; auto.
    - destruct Hb as [Ho1 Hib], Hty. split; [|done]. repeat split; auto. intros e He. apply tsig_hty; [|by eexists]. intros s [= <-]. auto.
    - destruct Hb as [Ho1 Hib], Hty. split; [|done]. repeat split; auto. intros e He. apply tsig_hty; [|by eexists]. intros s [= <-]. auto.
    - destruct Hb as (? & ? & ?). split; [|done]. repeat split; auto.
    - destruct Hb as (? & ? & ?). split; [|done]. repeat split; auto.
    - destruct Hb. split; [|done]. split; auto.
    - destruct Hb. split; [split; auto|]. destruct Wc as [[v Hv] _]. exists v. split; eauto.
    - destruct Hb as (? & ? & ? & ?). split; [repeat split; auto|]. destruct Wc as [-> _]. exists [], []. split; [done|]. split; [done|constructor].
    - destruct Hb. split; [split; auto|]. destruct Wc as [[y Hv] _]. by exists true, None, None, y.
    - destruct Hty. split; [split; auto|]. destruct Wc as [[v Hv] _]. exists v, false. split; eauto.
    - destruct Hty, Hb. split. { repeat split; auto. apply tsig_hty; [|done]. intros s Hs. apply (Wt T s eq_refl Hs). } destruct Wc as [[v Hv] _]. exists v, false. split; eauto.
    - done.
    - done.
    - split; [done|]. destruct Wc as [vs Hv]. destruct Hus as (P & HP & Hs). exists vs, P. split; [done|]. split; [auto|]. intros t vs' Hvs. destruct (Hs t vs' Hvs) as (? & ? & ?). auto.
    - done.
  Qed.
  Lemma p_linked z : z ∈ linked_signals (g_tree g) -> vsig w z.
  Proof.
    intros Hz. unfold linked_signals in Hz. rewrite elem_of_remove_dups in Hz. apply elem_of_concat_map in Hz as (n & Hn & Hz).
    assert (forall n' b' tr nd, compile n' w b' = Some tr -> nd ∈ nodes tr -> exists o, w_blks w !! node_id nd = Some o /\ node_linked nd = bo_linked o) as Hc.
    { clear. induction n' as [|n IH]; intros b' tr nd Hc Hnd; [done|]. cbn in Hc.
      destruct (w_blks w !! b') as [o|] eqn:Eb; [|done]. destruct (is_submodel (bo_cls o)).
      - destruct (mapM (compile n w) (bo_children o)) as [ch|] eqn:Em; [|done]. injection Hc as <-. cbn in Hnd.
        apply elem_of_cons in Hnd as [->|Hnd]; [by exists o|]. apply elem_of_concat_map in Hnd as (t & Ht & Hx). apply mapM_Some in Em.
        apply elem_of_list_lookup in Ht as [i Hi]. destruct (Forall2_lookup_r _ _ _ _ _ Em Hi) as (c & Hc & Hct). by eapply IH.
      - injection Hc as <-. apply elem_of_list_singleton in Hnd as ->. by exists o. }
    destruct (Hc _ _ _ n (pp_tree _ _ _ Pp) Hn) as (o & Ho & El). rewrite El in Hz. eapply wi_vsig; [by eapply (ok_wires _ p_ok)|]. exact Hz.
  Qed.
  Lemma p_env : env g (initial_store w).
  Proof.
    pose proof Pp as [Hb Ht Hd Hl Hi Hc Hs Hit Hr]. split; try done.
    - intros l Hl'. by apply p_leaf.
    - intros l l' Hl1 Hl2 Ei. pose proof (wf_leaves _ (compile_wf w (ok_tree _ p_ok) _ _ _ Ht)) as Hnd. 
      apply elem_of_list_lookup in Hl1 as [i Hi1]. apply elem_of_list_lookup in Hl2 as [j Hj].
      assert (i = j) as ->; [|congruence]. eapply NoDup_lookup; [exact Hnd| |]; rewrite list_lookup_fmap; [rewrite Hi1; reflexivity|]. rewrite Hj. cbn. by rewrite Ei.
    - intros f t Hf. eapply careful_ext; [apply kinds_of_world|]. by apply Hi.
    - intros t. eapply careful_ext; [apply kinds_of_world|]. apply Hc.
    - intros z c d Hz Hcd. rewrite initial_lookup in Hz. destruct (w_sigs w !! z) as [o|] eqn:Eo; [|done]. destruct (is_bus (so_kind o)) eqn:Ek; [done|]. injection Hz as <-. cbn in *.
      destruct (built_alike _ _ Hb z o d Eo Hcd) as (od & Hod & E). rewrite kinds_of_world. unfold sig_kinds. rewrite Hod, E, Ek. done.
    - intros z Hz. destruct (p_linked z Hz) as (o & Ho & Hk). rewrite kinds_of_world. unfold sig_kinds. rewrite Ho, Hk. by eexists.
    - intros Hm. destruct (Hr Hm) as (n & z & f & o & Hn & Hz & Ho & [d Hd'] & Hk). exists z, d. split.
      + unfold linked_signals. rewrite elem_of_remove_dups, elem_of_concat_map. exists n. split; [done|]. apply elem_of_list_In, in_map_iff. exists (z, f). split; [done|]. by apply elem_of_list_In.
      + unfold stat. rewrite initial_lookup, Ho. destruct Hk as [Hk|[m Hk]]; rewrite Hk; cbn; rewrite Hd'; [by left|right; by exists m].
  Qed.
  Lemma p_first : SInv g (initial_store w) (new_sim (initial_dyn w)).
  Proof.
    split; [|done]. split; [split; [done|apply initial_ok]|]. intros l Hl. by apply p_leaf.
  Qed.
End built.

Section driven.
  Context {D : Type} `{NumOrd D} (w : world D) (b : nat).
  Lemma driven_proper g s : driven w b g s -> proper w b g.
  Proof. by induction 1. Qed.
  Lemma driven_inv g s : driven w b g s -> SInv g (initial_store w) s.
  Proof.
    induction 1 as [g Hp|g0 s0 g Hd IH Hp|g s t s' Hd IH Hi Hl|g s fuel t lo hi s' Hd IH Hl].
    - by eapply p_first.
    - split; [|done]. destruct IH as [IH _]. pose proof (driven_proper _ _ Hd) as Hp0. assert (g_tree g = g_tree g0) as Et. { pose proof (pp_tree _ _ _ Hp). pose proof (pp_tree _ _ _ Hp0). congruence. }
      unfold DI, CI in *. rewrite Et. exact IH.
    - pose proof (inv_init g (initial_store w) (p_env w b g (driven_proper _ _ Hd)) t s IH Hi) as Hr. destruct (init g t s); cbn in Hl; try done; by subst.
    - pose proof (inv_run g (initial_store w) (p_env w b g (driven_proper _ _ Hd)) fuel t lo hi s IH) as Hr. destruct (run g fuel t lo hi s); cbn in Hl; try done; by subst.
  Qed.
End driven.
