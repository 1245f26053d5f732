(** No undefined behaviour: evaluation and the simulators. *)
From stdpp Require Import prelude gmap strings.
From Coq Require Import ZArith.
From Verif Require Import Num NumOrd Res Name Store Leaf Sched Stepper Sim World Api Steps P_Steps P_Ops P_Store P_World P_Frame SpecSized P_Sized SpecSim P_Modes SpecSafe P_Bound P_Safe.

Section sim.
  Context {D : Type} `{NumOrd D} (g : cfg D) (σ0 : store D).
  Notation tr := (g_tree g).
  Notation K := (kof σ0).
  Context (Hd : g_dbg g = true).
  Context (Hleaf : forall l, l ∈ leaves tr -> leaf_ok K l).
  Context (Hids : forall l l', l ∈ leaves tr -> l' ∈ leaves tr -> l_id l = l_id l' -> l = l').
  Context (Hin : forall f t, g_inputs g = Some f -> harmless K (fun _ => True) (f t)).
  Context (Hicb : forall t, harmless K (fun _ => True) (g_icb g t)).
  Context (Hstp : forall stp, g_stepper g = Some stp -> stepper_safe stp).
  Context (Hder : forall z c d, σ0 !! z = Some c -> c_deriv c = Some d -> K d = Some (c_kind c)).
  Definition allowed (u : ub) : Prop := u = UArith /\ exists l, l ∈ leaves tr /\ misfits (kof σ0) l.
  Notation U := allowed.

  Definition CI (c : core D) : Prop := SI σ0 (k_store c) /\ forall l, l ∈ leaves tr -> mem_ok K l (lst_of c (l_id l)).
  Lemma harmless_U {A} (Q : A -> Prop) (p : prog D A) : harmless K Q p -> careful U K Q p.
  Proof. by apply careful_weak. Qed.
  Lemma on_store_safe {A} (m : M (store D) A) Q : safe U (SI σ0) m Q -> safe U CI (on_store m) Q.
  Proof. apply safe_lift; [by intros c [? _]|]. intros c σ [_ Hm] Hσ. by split. Qed.
  Lemma emit_safe e : safe U CI (emit e) (fun _ => True).
  Proof. by apply safe_modify. Qed.
  Lemma snap_safe e : safe U CI (snap e) (fun _ => True).
  Proof. by apply safe_modify. Qed.
  Lemma run_leaf_safe (l : leaf D) ev p : l ∈ leaves tr -> (forall st, mem_ok K l st -> careful (misfit K l) K (mem_ok K l) (p st)) -> safe U CI (run_leaf true ev l p) (fun _ => True).
  Proof.
    intros Hl Hp c [Hσ Hm]. unfold run_leaf.
    assert (careful U K (mem_ok K l) (p (lst_of c (l_id l)))) as Hc.
    { eapply careful_weak; [| |by apply Hp, Hm]; [|done]. intros u [-> Hmis]. split; [done|]. by exists l. }
    pose proof (safe_prog σ0 U _ _ Hc (k_store c) Hσ) as Hr. destruct (run_prog true _ _) as [st σ|e σ|u|]; try done. destruct Hr as [Hσ' Hst].
    split; [|done]. split; [done|]. intros l' Hl'. unfold lst_of. cbn. destruct (decide (l_id l = l_id l')) as [E|E].
    - rewrite <- E, lookup_insert. by rewrite <- (Hids l l' Hl Hl' E).
    - rewrite lookup_insert_ne by done. by apply Hm.
  Qed.
  Lemma activate_safe l t : l ∈ leaves tr -> safe U CI (activate true l t) (fun _ => True).
  Proof. intros Hl. apply run_leaf_safe; [done|]. intros st Hst. apply act_safe; [by apply Hleaf|done]. Qed.
  Lemma pre_step_safe' t' : (forall l, l ∈ leaves t' -> l ∈ leaves tr) -> forall t, safe U CI (pre_step true t' t) (fun _ => True).
  Proof.
    revert t'. fix IH 1. intros [l|b k ch] Hs t; cbn [pre_step].
    - apply run_leaf_safe; [apply Hs; by apply elem_of_list_singleton|]. intros st Hst. apply pre_safe; [apply Hleaf, Hs; by apply elem_of_list_singleton|done].
    - cbn in Hs. induction ch as [|c ch IHch]; [by apply safe_ret|]. cbn in Hs. eapply safe_seq.
      + apply IH. intros l Hl. apply Hs, elem_of_app. by left.
      + apply IHch. intros l Hl. apply Hs, elem_of_app. by right.
  Qed.
  Lemma post_step_safe' t' : (forall l, l ∈ leaves t' -> l ∈ leaves tr) -> forall t, safe U CI (post_step true t' t) (fun _ => True).
  Proof.
    revert t'. fix IH 1. intros [l|b k ch] Hs t; cbn [post_step].
    - apply run_leaf_safe; [apply Hs; by apply elem_of_list_singleton|]. intros st Hst. apply post_safe; [apply Hleaf, Hs; by apply elem_of_list_singleton|done].
    - cbn in Hs. induction ch as [|c ch IHch]; [by apply safe_ret|]. cbn in Hs. eapply safe_seq.
      + apply IH. intros l Hl. apply Hs, elem_of_app. by left.
      + apply IHch. intros l Hl. apply Hs, elem_of_app. by right.
  Qed.
  Lemma inputs_safe t : safe U CI (inputs g t) (fun _ => True).
  Proof.
    unfold inputs. rewrite Hd. eapply safe_seq; [apply emit_safe|]. eapply safe_seq with (P := fun _ => True).
    - destruct (g_inputs g) as [f|] eqn:E; [|by apply safe_ret]. apply on_store_safe, safe_prog, harmless_U. by apply Hin.
    - apply on_store_safe, safe_prog, harmless_U, Hicb.
  Qed.
  Lemma leaf_process_safe l t : l ∈ leaves tr -> safe U CI (leaf_process true l t) (fun _ => True).
  Proof.
    intros Hl c Hc. unfold leaf_process. destruct (_ || _); [done|]. revert c Hc. eapply safe_seq; [by apply activate_safe|]. eapply safe_seq; [by apply (safe_modify _ _ _ (fun _ => True))|]. by apply safe_ret.
  Qed.

  Definition DI (d : dyn D) : Prop := CI (d_core d).
  Lemma on_core_safe {A} (m : M (core D) A) Q : safe U CI m Q -> safe U DI (on_core m) Q.
  Proof. by apply safe_lift. Qed.
  Lemma process_safe' t' : (forall l, l ∈ leaves t' -> l ∈ leaves tr) -> forall t, safe U DI (process true t' t) (fun _ => True).
  Proof.
    revert t'. fix IH 1. intros [l|b k ch] Hs t; cbn [process].
    - apply on_core_safe, leaf_process_safe, Hs. by apply elem_of_list_singleton.
    - eapply safe_bnd; [by apply (safe_gets _ _ _ (fun _ => True))|]. intros p _. destruct p; [by apply safe_ret|].
      eapply safe_seq; [by apply (safe_modify _ _ _ (fun _ => True))|]. cbn in Hs. generalize 0. induction ch as [|c ch IHch]; intros n; [by apply safe_ret|]. cbn in Hs.
      eapply safe_bnd; [apply IH; intros l Hl; apply Hs, elem_of_app; by left|]. intros k1 _. eapply safe_bnd; [by apply (safe_gets _ _ _ (fun _ => True))|]. intros q _.
      eapply safe_seq with (P := fun _ => True); [destruct q; [by apply safe_ret|by apply safe_modify]|]. apply IHch. intros l Hl. apply Hs, elem_of_app. by right.
  Qed.
  Lemma process_all_safe t : safe U DI (process_all true tr t) (fun _ => True).
  Proof.
    unfold process_all. generalize (S (length (leaves tr))). intros n. induction n as [|n IH]; cbn [process_loop]; [apply safe_oof|].
    eapply safe_bnd; [by apply process_safe'|]. intros [|k] _; [by apply safe_ret|done].
  Qed.
  Lemma mark_core t' : forall d : dyn D, k_store (d_core (mark_unprocessed t' d)) = k_store (d_core d) /\ k_lst (d_core (mark_unprocessed t' d)) = k_lst (d_core d).
  Proof.
    revert t'. fix IH 1. intros [l|b k ch] d; cbn [mark_unprocessed]; [done|].
    assert (forall d, k_store (d_core (fold_left (fun d c => mark_unprocessed c d) ch d)) = k_store (d_core d) /\
      k_lst (d_core (fold_left (fun d c => mark_unprocessed c d) ch d)) = k_lst (d_core d)) as Hf.
    { induction ch as [|c ch IHch]; intros d'; [done|]. cbn. destruct (IHch (mark_unprocessed c d')) as [-> ->]. apply IH. }
    apply (Hf (Dyn (d_core d) (d_sdone d ∖ {[b]}))).
  Qed.
  Lemma mark_DI d : DI d -> DI (mark_unprocessed tr d).
  Proof. intros [H1 H2]. destruct (mark_core tr d) as [E1 E2]. unfold DI, CI, lst_of. rewrite E1, E2. done. Qed.
  Definition nodes_in (po : list (node D)) : Prop := forall l, NLeaf l ∈ po -> l ∈ leaves tr.
  Lemma reuse_pass_safe po t : nodes_in po -> safe U DI (reuse_pass true po t) nodes_in.
  Proof.
    induction po as [|n po IH]; intros Hpo; cbn [reuse_pass]; [apply safe_ret; by intros l ?%elem_of_nil|].
    assert (nodes_in po) as Hpo'. { intros l Hl. by apply Hpo, elem_of_list_further. }
    eapply safe_bnd; [by apply (safe_gets _ _ _ (fun _ => True))|]. intros p _. destruct p; [by apply IH|].
    eapply safe_seq with (P := fun _ => True).
    { destruct n as [l|b k]; cbn [node_process]; [|by apply safe_modify]. eapply safe_seq; [|by apply safe_ret]. apply on_core_safe, leaf_process_safe, Hpo, elem_of_list_here. }
    eapply safe_bnd; [by apply (safe_gets _ _ _ (fun _ => True))|]. intros q _. eapply safe_bnd; [by apply IH|]. intros r Hr. apply safe_ret. destruct q; [|done].
    intros l [E|Hl]%elem_of_cons; [apply Hpo; rewrite E; apply elem_of_list_here|by apply Hr].
  Qed.
  Lemma reuse_loop_safe n po t acc : nodes_in po -> nodes_in acc -> safe U DI (reuse_loop true n po t acc) nodes_in.
  Proof.
    intros Hpo. revert acc. induction n as [|n IH]; intros acc Hacc; cbn [reuse_loop]; [apply safe_oof|]. eapply safe_bnd; [by apply reuse_pass_safe|]. intros r Hr.
    destruct r as [|x r]; [by apply safe_ret|]. apply IH. intros l [Hl|Hl]%elem_of_app; [by apply Hacc|by apply Hr].
  Qed.
  Lemma reuse_all_safe po t : nodes_in po -> safe U DI (reuse_all true po t) nodes_in.
  Proof.
    intros Hpo. unfold reuse_all. eapply safe_bnd; [apply reuse_loop_safe; [done|by intros l ?%elem_of_nil]|]. intros acc Hacc.
    eapply safe_bnd with (P := nodes_in). { apply safe_gets. intros d _ l Hl. apply Hpo. apply elem_of_list_In, filter_In in Hl as [Hl _]. by apply elem_of_list_In. }
    intros rest Hrest. eapply safe_seq; [apply safe_debug|]. apply safe_ret. intros l [Hl|Hl]%elem_of_app; auto.
  Qed.
  Definition leaves_in (po : list (leaf D)) : Prop := forall l, l ∈ po -> l ∈ leaves tr.
  Lemma fast_pass_safe po t n : leaves_in po -> safe U CI (fast_pass true po t n) leaves_in.
  Proof.
    revert n. induction po as [|l po IH]; intros n Hpo; cbn [fast_pass]; [apply safe_ret; by intros l ?%elem_of_nil|].
    assert (leaves_in po) as Hpo'. { intros l' Hl. by apply Hpo, elem_of_list_further. }
    destruct n as [|n]; [apply safe_ret; by intros l' ?%elem_of_nil|]. eapply safe_bnd; [by apply (safe_gets _ _ _ (fun _ => True))|]. intros p _. destruct p; [by apply IH|].
    eapply safe_bnd; [apply leaf_process_safe, Hpo, elem_of_list_here|]. intros k _. eapply safe_bnd; [by apply (safe_gets _ _ _ (fun _ => True))|]. intros q _.
    destruct q; [|apply safe_ret; by intros l' ?%elem_of_nil]. eapply safe_bnd; [by apply IH|]. intros r Hr. apply safe_ret.
    intros l' [->|Hl]%elem_of_cons; [apply Hpo, elem_of_list_here|by apply Hr].
  Qed.
  Definition order_in (o : list (list (leaf D))) : Prop := forall ls, ls ∈ o -> leaves_in ls.
  Lemma fast_loop_safe n po t acc a : leaves_in po -> order_in acc -> safe U CI (fast_loop true n po t acc a) (fun r => order_in (fst r)).
  Proof.
    intros Hpo. revert acc a. induction n as [|n IH]; intros acc a Hacc; cbn [fast_loop]; [apply safe_oof|].
    eapply safe_bnd; [by apply (safe_gets _ _ _ (fun _ => True))|]. intros [|m] _; [by apply safe_ret|]. eapply safe_bnd; [by apply fast_pass_safe|]. intros r Hr.
    assert (order_in (acc ++ [r])) as Ho. { intros ls [Hl|Hl]%elem_of_app; [by apply Hacc|]. by apply elem_of_list_singleton in Hl as ->. }
    destruct (Nat.eqb _ _); [by apply IH|by apply safe_ret].
  Qed.
  Lemma fast_eval_safe o t : order_in o -> safe U CI (fast_eval true o t) (fun _ => True).
  Proof. intros Ho. apply safe_forM. intros ls Hls. apply safe_forM. intros l Hl. apply activate_safe. by apply (Ho ls). Qed.

  (** ** Simulators whose lists of state signals are [SC] and [AR]. *)
  Context (SC AR VS : list nat).
  Context (HSC : forall z, z ∈ SC -> exists d, stat σ0 z = Some (KScalar, Some d)).
  Context (HAR : forall z, z ∈ AR -> exists n d, stat σ0 z = Some (KArray n, Some d)).
  Context (HVS : forall z, z ∈ VS -> is_Some (K z)).
  Notation NN := (length SC + sum_list (map (sig_size σ0) AR)).
  Record FI (cur : bool) (s : simst D) : Prop := {
    fi_dyn : DI (s_dyn s);
    fi_scal : s_scal s = SC;
    fi_arr : s_arr s = AR;
    fi_vs : s_vsigs s = VS;
    fi_sv : length (s_sv s) = NN;
    fi_svo : length (s_svo s) = NN;
    fi_dv : length (s_dv s) = NN;
    fi_po1 : nodes_in (s_po1 s);
    fi_po2 : nodes_in (s_po2 s);
    fi_fast : order_in (s_fast s);
    fi_cur : cur = true -> g_mode g = MReuse -> is_Some (s_cur s);
    fi_init : s_init s = true
  }.
  Notation I := (FI true).
  Lemma on_dyn_safe {A} c (m : M (dyn D) A) Q : safe U DI m Q -> safe U (FI c) (on_dyn m) Q.
  Proof. apply safe_lift; [by intros s []|]. intros s d [] Hd'. by split. Qed.
  Lemma on_core_safe' {A} c (m : M (core D) A) Q : safe U CI m Q -> safe U (FI c) (on_core' m) Q.
  Proof. intros Hm. by apply on_dyn_safe, on_core_safe. Qed.
  Lemma on_store_safe' {A} c (m : M (store D) A) Q : safe U (SI σ0) m Q -> safe U (FI c) (on_store' m) Q.
  Proof. intros Hm. by apply on_core_safe', on_store_safe. Qed.
  Lemma eval_model_safe t : safe U I (eval_model g t) (fun _ => True).
  Proof.
    unfold eval_model. rewrite Hd. destruct (g_mode g) eqn:Em.
    - eapply safe_seq; [apply on_dyn_safe, (safe_modify _ _ _ (fun _ => True)); [apply mark_DI|done]|]. apply on_dyn_safe, process_all_safe.
    - eapply safe_seq; [apply on_dyn_safe, (safe_modify _ _ _ (fun _ => True)); [apply mark_DI|done]|].
      eapply safe_bnd with (P := fun c => is_Some c). { apply safe_gets. intros s Hs. by apply (fi_cur _ _ Hs). }
      intros cur [b ->]. destruct b.
      + eapply safe_bnd with (P := nodes_in); [apply safe_gets; intros s Hs; apply Hs|]. intros po Hpo. eapply safe_bnd; [by apply on_dyn_safe, reuse_all_safe|].
        intros po' Hpo'. apply safe_modify; [|done]. intros s []. split; cbn; eauto.
      + eapply safe_bnd with (P := nodes_in); [apply safe_gets; intros s Hs; apply Hs|]. intros po Hpo. eapply safe_bnd; [by apply on_dyn_safe, reuse_all_safe|].
        intros po' Hpo'. apply safe_modify; [|done]. intros s []. split; cbn; eauto.
    - eapply safe_bnd with (P := order_in); [apply safe_gets; intros s Hs; apply Hs|]. intros o Ho. by apply on_core_safe', fast_eval_safe.
  Qed.
  Lemma pre_snap_safe t c : safe U (FI c) (on_core' (pre_step (g_dbg g) tr t ;;; snap (EvBegin t))) (fun _ => True).
  Proof. rewrite Hd. apply on_core_safe'. eapply safe_seq; [by apply pre_step_safe'|apply snap_safe]. Qed.
  Lemma post_snap_safe t c : safe U (FI c) (on_core' (post_step (g_dbg g) tr t ;;; snap (EvStep t))) (fun _ => True).
  Proof. rewrite Hd. apply on_core_safe'. eapply safe_seq; [by apply post_step_safe'|apply snap_safe]. Qed.
  Lemma process_model_safe t b1 b2 : safe U I (process_model g t b1 b2) (fun _ => True).
  Proof.
    unfold process_model. eapply safe_seq; [apply on_core_safe', inputs_safe|]. eapply safe_seq with (P := fun _ => True); [destruct b1; [apply pre_snap_safe|by apply safe_ret]|].
    eapply safe_seq; [apply eval_model_safe|]. eapply safe_seq; [apply on_core_safe', snap_safe|]. destruct b2; [apply post_snap_safe|by apply safe_ret].
  Qed.
  Lemma clear_list_safe : safe U (SI σ0) (forM VS clear_sig) (fun _ => True).
  Proof. apply safe_forM. intros z Hz. destruct (HVS z Hz) as [k Hk]. by eapply safe_clear. Qed.
  Lemma clear_all_safe c : safe U (FI c) clear_all (fun _ => True).
  Proof.
    unfold clear_all. eapply safe_bnd with (P := fun vs => vs = VS); [apply safe_gets; intros s Hs; apply Hs|]. intros vs ->. apply on_store_safe', clear_list_safe.
  Qed.
  (** Sizes are static. *)
  Lemma stat_size σ z : SI σ0 σ -> sig_size σ z = sig_size σ0 z.
  Proof.
    intros [Hs _]. specialize (Hs z). unfold stat, sig_size in *. destruct (σ !! z), (σ0 !! z); cbn in *; try done. injection Hs as -> _. done.
  Qed.
  Lemma stat_kof z k d : stat σ0 z = Some (k, d) -> K z = Some k.
  Proof. unfold stat, kof. destruct (σ0 !! z); [|done]. cbn. congruence. Qed.
  Lemma set_scalars_safe ss sv : (forall z, z ∈ ss -> z ∈ SC) -> length ss <= length sv ->
    safe U (SI σ0) (set_scalars g ss sv) (fun r => length r = length sv - length ss).
  Proof.
    revert sv. induction ss as [|z ss IH]; intros sv Hss Hl; cbn [set_scalars]; [apply safe_ret; cbn; lia|].
    destruct sv as [|x sv]; [cbn in Hl; lia|]. rewrite Hd. destruct (HSC z) as [d Hz]; [apply Hss, elem_of_list_here|].
    eapply safe_seq; [eapply safe_set; [by eapply stat_kof|done]|]. cbn. apply IH; [|cbn in Hl; lia]. intros z' Hz'. by apply Hss, elem_of_list_further.
  Qed.
  Lemma set_arrays_safe aa sv : (forall z, z ∈ aa -> z ∈ AR) -> sum_list (map (sig_size σ0) aa) <= length sv ->
    safe U (SI σ0) (set_arrays g aa sv) (fun _ => True).
  Proof.
    revert sv. induction aa as [|z aa IH]; intros sv Haa Hl; cbn [set_arrays]; [by apply safe_ret|].
    eapply safe_bnd with (P := fun n => n = sig_size σ0 z). { apply safe_gets. intros σ Hσ. by apply stat_size. }
    intros n ->. cbn in Hl. destruct (Nat.leb_spec (sig_size σ0 z) (length sv)); [|lia]. rewrite Hd.
    destruct (HAR z) as (m & d & Hz); [apply Haa, elem_of_list_here|].
    eapply safe_seq; [eapply safe_set; [by eapply stat_kof|done]|]. apply IH; [|rewrite drop_length; lia]. intros z' Hz'. by apply Haa, elem_of_list_further.
  Qed.
  Lemma reset_sv_safe sv c : length sv = NN -> safe U (FI c) (reset_sv g sv) (fun _ => True).
  Proof.
    intros Hl. unfold reset_sv. eapply safe_seq; [apply clear_all_safe|].
    eapply safe_bnd with (P := fun x => x = SC); [apply safe_gets; intros s Hs; apply Hs|]. intros ss ->.
    eapply safe_bnd with (P := fun x => x = AR); [apply safe_gets; intros s Hs; apply Hs|]. intros aa ->.
    apply on_store_safe'. eapply safe_bnd; [apply set_scalars_safe; [done|lia]|]. intros r Hr. eapply safe_seq; [|by apply safe_ret]. cbn in Hr. apply set_arrays_safe; [done|lia].
  Qed.
  Lemma get_scalar_safe z : K z = Some KScalar -> safe U (SI σ0) (get_scalar g z) (fun r => length r = 1).
  Proof. intros Hz. unfold get_scalar. rewrite Hd. eapply safe_bnd; [by eapply safe_get|]. intros v [Hv _]. by destruct v. Qed.
  Lemma get_array_safe z n : K z = Some (KArray n) -> safe U (SI σ0) (get_array g z) (fun r => length r = n).
  Proof.
    intros Hz. unfold get_array. eapply safe_bnd with (P := fun n => n = sig_size σ0 z). { apply safe_gets. intros σ Hσ. by apply stat_size. }
    intros m ->. rewrite Hd. eapply safe_bnd; [by eapply safe_get|]. intros v [Hv Hs]. destruct v as [| | |x]; try done. cbn in Hs. apply Nat.eqb_eq in Hs.
    assert (sig_size σ0 z = n) as ->. { unfold kof in Hz. unfold sig_size. destruct (σ0 !! z) as [c|]; [|done]. cbn in Hz. by injection Hz as ->. }
    rewrite (proj2 (Nat.eqb_eq _ _) Hs). by apply safe_ret.
  Qed.
  Lemma collect_safe (f : nat -> M (store D) (list D)) zs (n : nat -> nat) : (forall z, z ∈ zs -> safe U (SI σ0) (f z) (fun r => length r = n z)) ->
    safe U (SI σ0) (collect f zs) (fun r => length r = sum_list (map n zs)).
  Proof.
    induction zs as [|z zs IH]; intros Hf; cbn [collect]; [by apply safe_ret|]. eapply safe_bnd; [apply Hf, elem_of_list_here|]. intros x Hx.
    eapply safe_bnd; [apply IH; intros z' Hz'; by apply Hf, elem_of_list_further|]. intros r Hr. apply safe_ret. rewrite app_length. cbn in *. lia.
  Qed.
  Lemma sum_ones (zs : list nat) : sum_list (map (fun _ => 1) zs) = length zs.
  Proof. induction zs; cbn; [done|]. lia. Qed.
  Lemma size_array z n d : stat σ0 z = Some (KArray n, d) -> sig_size σ0 z = n.
  Proof. unfold stat, sig_size. destruct (σ0 !! z); [|done]. cbn. intros [= -> _]. done. Qed.
  Lemma read_safe : safe U (SI σ0) (x1 <~ collect (get_scalar g) SC ;; x2 <~ collect (get_array g) AR ;; ret (x1 ++ x2)) (fun r => length r = NN).
  Proof.
    eapply safe_bnd; [apply (collect_safe _ _ (fun _ => 1)); intros z Hz; destruct (HSC z Hz) as [d Hs]; by eapply get_scalar_safe, stat_kof|]. intros x1 H1.
    eapply safe_bnd; [apply (collect_safe _ _ (sig_size σ0)); intros z Hz; destruct (HAR z Hz) as (n & d & Hs); rewrite (size_array _ _ _ Hs); by eapply get_array_safe, stat_kof|].
    intros x2 H2. apply safe_ret. rewrite app_length, H2. rewrite sum_ones in H1. lia.
  Qed.
  Lemma deriv_of_safe get z k d n : stat σ0 z = Some (k, Some d) -> safe U (SI σ0) (get d) (fun r => length r = n) -> safe U (SI σ0) (deriv_of get z) (fun r => length r = n).
  Proof.
    intros Hz Hg. unfold deriv_of. eapply safe_bnd with (P := fun o => o = Some d).
    - apply safe_gets. intros σ [Hs _]. specialize (Hs z). rewrite Hz in Hs. unfold stat in Hs. destruct (σ !! z); [|done]. cbn in Hs. congruence.
    - intros o ->. done.
  Qed.
  Lemma stat_deriv z k d : stat σ0 z = Some (k, Some d) -> K d = Some k.
  Proof. unfold stat. destruct (σ0 !! z) as [c|] eqn:E; [|done]. cbn. intros [= <- Hcd]. by eapply Hder. Qed.
  Lemma derivs_safe : safe U (SI σ0) (x1 <~ collect (deriv_of (get_scalar g)) SC ;; x2 <~ collect (deriv_of (get_array g)) AR ;; ret (x1 ++ x2)) (fun r => length r = NN).
  Proof.
    eapply safe_bnd; [apply (collect_safe _ _ (fun _ => 1)); intros z Hz; destruct (HSC z Hz) as [d Hs]; eapply deriv_of_safe; [exact Hs|]; by eapply get_scalar_safe, stat_deriv|]. intros x1 H1.
    eapply safe_bnd; [apply (collect_safe _ _ (sig_size σ0)); intros z Hz; destruct (HAR z Hz) as (n & d & Hs); rewrite (size_array _ _ _ Hs); eapply deriv_of_safe; [exact Hs|]; by eapply get_array_safe, stat_deriv|].
    intros x2 H2. apply safe_ret. rewrite app_length, H2. rewrite sum_ones in H1. lia.
  Qed.
  Lemma write_same (x arr : list D) : length x = length arr -> exists r, write_prefix x arr = Some r /\ length r = length arr.
  Proof. intros E. unfold write_prefix. rewrite E, Nat.leb_refl. eexists. split; [done|]. rewrite app_length, drop_length. lia. Qed.
  Lemma get_sv_safe arr c : length arr = NN -> safe U (FI c) (get_sv g arr) (fun r => length r = NN).
  Proof.
    intros Hl. unfold get_sv. eapply safe_bnd; [by apply (safe_gets _ _ _ (fun _ => True))|]. intros n _. rewrite Hd. eapply safe_seq; [apply safe_debug|].
    eapply safe_bnd with (P := fun x => x = SC); [apply safe_gets; intros s Hs; apply Hs|]. intros ss ->.
    eapply safe_bnd with (P := fun x => x = AR); [apply safe_gets; intros s Hs; apply Hs|]. intros aa ->.
    eapply safe_bnd; [apply on_store_safe', read_safe|]. intros x Hx. cbn in Hx. destruct (write_same x arr) as (r & -> & Hr); [congruence|]. apply safe_ret. congruence.
  Qed.
  Lemma minor_cb_safe t sv : length sv = NN -> safe U I (minor_cb g t sv) (fun r => length r = NN).
  Proof.
    intros Hl. unfold minor_cb. eapply safe_seq; [by apply reset_sv_safe|]. eapply safe_seq; [apply process_model_safe|].
    eapply safe_bnd with (P := fun x => x = SC); [apply safe_gets; intros s Hs; apply Hs|]. intros ss ->.
    eapply safe_bnd with (P := fun x => x = AR); [apply safe_gets; intros s Hs; apply Hs|]. intros aa ->.
    eapply safe_bnd; [apply on_store_safe', derivs_safe|]. intros x Hx. cbn in Hx. eapply safe_bnd with (P := fun dv => length dv = NN); [apply safe_gets; intros s Hs; apply Hs|]. intros dv Hdv.
    destruct (write_same x dv) as (r & -> & Hr); [congruence|]. eapply safe_seq; [|apply safe_ret; congruence].
    apply (safe_modify _ _ _ (fun _ => True)); [|done]. intros s []. split; cbn; try done. congruence.
  Qed.
  Lemma begin_step_safe t : safe U I (begin_step g t) (fun _ => True).
  Proof. unfold begin_step. eapply safe_seq; [apply clear_all_safe|]. eapply safe_seq; [apply on_core_safe', inputs_safe|]. apply pre_snap_safe. Qed.
  Lemma run_loop_safe n t lo hi t1 t2 force : NN ≠ 0 -> is_Some (g_stepper g) -> safe U I (run_loop g n t lo hi t1 t2 force) (fun _ => True).
  Proof.
    intros Hn [stp Estp]. revert t1 t2 force. induction n as [|n IH]; intros t1 t2 force; cbn [run_loop]; (destruct (nltb t1 t); [|by apply safe_ret]); [apply safe_oof|].
    eapply safe_seq; [apply begin_step_safe|]. eapply safe_bnd with (P := fun o => length o = NN); [apply safe_gets; intros s Hs; apply Hs|]. intros o Ho.
    eapply safe_bnd; [by apply get_sv_safe|]. intros x Hx. eapply safe_seq. { apply (safe_modify _ _ _ (fun _ => True)); [|done]. intros s []. split; cbn; try done. }
    rewrite Estp. eapply safe_bnd with (P := fun r => length (fst r) = NN).
    { intros s Hs. apply (Hstp stp Estp _ I U (minor_cb g) NN Hn); [|done|done]. intros t' y z Hy Hz. by apply (minor_cb_safe t' y Hy z Hz). }
    intros [v nh] Hv. cbn in Hv. eapply safe_seq. { apply (safe_modify _ _ _ (fun _ => True)); [|done]. intros s []. split; cbn; try done. }
    eapply safe_seq; [apply on_core_safe', emit_safe|]. cbn [snd]. destruct (_ || _ || _); [|apply IH]. eapply safe_seq with (P := fun _ => True); [|apply IH].
    destruct (nltb t2 t); [|by apply safe_ret]. eapply safe_bnd with (P := fun o => length o = NN); [apply safe_gets; intros s Hs; apply Hs|]. intros sv Hsv.
    eapply safe_seq; [by apply reset_sv_safe|]. apply process_model_safe.
  Qed.
  Lemma run_safe n t lo hi : safe U I (run g n t lo hi) (fun _ => True).
  Proof.
    unfold run. eapply safe_bnd with (P := fun b => b = true); [apply safe_gets; intros s Hs; apply Hs|]. intros ini ->. cbn [negb].
    eapply safe_bnd with (P := fun m => m = NN); [apply safe_gets; intros s Hs; apply Hs|]. intros m Hm.
    eapply safe_bnd; [by apply (safe_gets _ _ _ (fun _ => True))|]. intros tp _. eapply safe_seq with (P := fun _ => True).
    - destruct m as [|m]; [by apply safe_ret|]. destruct (nltb t tp); [apply safe_throw|]. destruct (neqb t tp).
      + eapply safe_seq; [apply begin_step_safe|]. eapply safe_bnd with (P := fun o => length o = NN); [apply safe_gets; intros s Hs; apply Hs|]. intros o Ho.
        eapply safe_bnd; [by apply get_sv_safe|]. intros x Hx. apply safe_modify; [|done]. intros s []. by split.
      + rewrite Hd. eapply safe_bnd; [apply safe_debug|]. intros ? Es. do 2 (eapply safe_seq; [apply safe_debug|]). apply run_loop_safe; [lia|].
        cbn in Es. destruct (g_stepper g); [by eexists|done].
    - eapply safe_bnd with (P := fun o => length o = NN); [apply safe_gets; intros s Hs; apply Hs|]. intros sv Hsv. eapply safe_seq; [by apply reset_sv_safe|].
      eapply safe_seq; [apply process_model_safe|]. apply safe_modify; [|done]. intros s []. by split.
  Qed.
End sim.
