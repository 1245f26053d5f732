(** A sub-step that is tried again starts from the same state. *)
From stdpp Require Import prelude gmap.
From Coq Require Import ZArith.
From Verif Require Import Num Res Store Leaf Sched Stepper Sim SpecSched P_Store P_Prog P_Modes P_Conf P_Sched P_Eval P_Lib P_Fast P_Sim P_Evolve
  P_Simulated P_Rel P_Rel2 SpecHist P_Trace SpecRun P_Log P_Pack P_Repeat SpecAgain P_Over.
Local Open Scope num_scope.

Section eval.
  Context {D : Type} `{NumOps D} (g : cfg D) (Hw : wf_tree (g_tree g)) (Hg : g_dbg g = true).
  Implicit Types s : simst D.
  Lemma ready_evo s s' : evo g s s' -> ready g s -> ready g s'.
  Proof.
    intros Hev. unfold ready. destruct (g_mode g) eqn:Em; [done| |by rewrite (ev_fast _ _ _ Hev)].
    intros [Hc|Ho]; [left; by apply (ev_none _ _ _ Hev Em)|right; by apply (ev_ord _ _ _ Hev)].
  Qed.
  Lemma eval_ext t s s' : ready g s -> eval_model g t s = Ok tt s' ->
    ext (s_store s) (s_store s') /\ forall b, lst_of (s_core s') b = lst_of (s_core s) b \/
      exists l, l ∈ leaves (g_tree g) /\ l_id l = b /\ shows (s_store s') (act l t (lst_of (s_core s) b)) (lst_of (s_core s') b).
  Proof.
    intros Hr He. unfold s_store. destruct (g_mode g) eqn:Em.
    3:{ unfold ready in Hr. rewrite Em in Hr. unfold eval_model in He. rewrite Em in He. unfold bnd, gets, on_core', on_dyn, on_core, lift in He.
      rewrite fast_eval_acts, acts_each, Hg in He. change (d_core (s_dyn s)) with (s_core s) in He.
      destruct (each _ _ _ _ (s_core s)) as [[] c1| | |] eqn:Ee; try done. injection He as <-.
      destruct (each_spec _ _ _ _ _ Ee) as (H1 & H2 & H3 & H4); [rewrite Hr; by apply wf_leaves|].
      split; [exact H1|]. intros b. destruct (decide (b ∈ map l_id (concat (s_fast s)))) as [Hi|Hi]; [|left; by apply H4].
      right. apply elem_of_list_fmap in Hi as (l & -> & Hl). exists l. split; [by rewrite <- Hr|]. split; [done|]. by apply (H3 l). }
    all: assert (ordered g s) as Ho.
    1:{ unfold ordered. by rewrite Em. }
    2:{ unfold ready in Hr. rewrite Em in Hr. destruct Hr as [Hc|Ho]; [|done]. exfalso. unfold eval_model in He. rewrite Em in He.
        unfold bnd, gets, on_dyn, lift, modify in He. cbn in He. by rewrite Hc in He. }
    all: pose proof (eval_model_spec g t s Hw Ho) as Hs; rewrite He in Hs; destruct Hs as ((ls & Hrun & Hin & Hex) & Ho').
    all: rewrite Hg in Hrun; destruct (legal_each _ _ _ _ Hrun) as (H1 & H2 & H3).
    all: assert (forall b, lst_of (d_core (mark_unprocessed (g_tree g) (s_dyn s))) b = lst_of (s_core s) b) as Hml by
      (intros b; unfold lst_of; by rewrite marked_lst).
    all: rewrite marked_store in H1 by done; split; [exact H1|]; intros b.
    all: destruct (decide (b ∈ map l_id ls)) as [Hi|Hi]; [right|left; rewrite <- Hml; by apply H3].
    all: apply elem_of_list_fmap in Hi as (l & -> & Hl); exists l; split; [by apply Hin|]; split; [done|]; rewrite <- Hml; by apply (H2 l).
  Qed.
End eval.

Section near.
  Context {D : Type} `{NumOps D} (g : cfg D) (Hw : wf_tree (g_tree g)) (Hg : g_dbg g = true).
  Context (Hst : forall l, l ∈ leaves (g_tree g) -> steady l).
  Context (s0 : simst D) (Hr0 : ready g s0).
  Implicit Types s : simst D.
  (** Differs from [s0] only in what the next step overwrites. *)
  Record near s : Prop := {
    nr_evo : evo g s0 s;
    nr_out x c : x ∉ s_vsigs s0 -> s_store s0 !! x = Some c -> c_asg c = true -> s_store s !! x = Some c;
    nr_mem b : same_member (lst_of (s_core s0) b) (lst_of (s_core s) b)
  }.
  Lemma near_self : near s0.
  Proof. split; [reflexivity|done|intros b; by left]. Qed.
  (** Steps that leave the other signals alone and keep the members. *)
  Definition gentle s s' : Prop :=
    (forall x c, x ∉ s_vsigs s -> s_store s !! x = Some c -> c_asg c = true -> s_store s' !! x = Some c) /\
    (forall b, same_member (lst_of (s_core s) b) (lst_of (s_core s') b)).
  Lemma near_gentle {A} (m : M (simst D) A) : pres (evo g) m -> (forall s a s', ready g s -> m s = Ok a s' -> gentle s s') -> keep near m.
  Proof.
    intros Hm Hn s a s' [He Ho Hb] E. pose proof (Hm s) as Hp. rewrite E in Hp.
    destruct (Hn s a s' (ready_evo g Hw _ _ He Hr0) E) as [H1 H2]. split; [by etrans| |].
    - intros x c Hx Hc Ha. apply H1; [by rewrite (ev_vsigs _ _ _ He)|by apply Ho|done].
    - intros b. by eapply same_member_trans.
  Qed.
  Lemma ext_gentle s s' : ext (s_store s) (s_store s') -> (forall b, same_member (lst_of (s_core s) b) (lst_of (s_core s') b)) -> gentle s s'.
  Proof.
    intros He Hb. split; [|done]. intros x c _ Hc Ha. destruct (He x c Hc) as (c' & Hc' & _ & _ & E). by rewrite <- (E Ha).
  Qed.
  Lemma near_same f : (forall s, s_dyn (f s) = s_dyn s) -> (forall s, evo g s (f s)) -> keep near (modify f).
  Proof.
    intros Hf He. apply near_gentle; [by apply pres_modify|]. intros s a s' _ [= _ <-]. split.
    - intros x c _ Hc _. unfold s_store, s_core. by rewrite Hf.
    - intros b. unfold s_core. rewrite Hf. by left.
  Qed.
  Lemma near_store {A} (m : M (store D) A) : pres (shape (g_dbg g)) m ->
    (forall σ a σ', m σ = Ok a σ' -> ext σ σ') -> keep near (on_store' m).
  Proof.
    intros Hm He. apply near_gentle; [by apply pres_on_store'|]. intros s a s' _. unfold on_store', on_core', on_dyn, on_core, on_store, lift.
    destruct (m _) as [y σ| | |] eqn:E; try done. intros [= _ <-]. apply ext_gentle; [by apply (He _ _ _ E)|]. intros b. by left.
  Qed.
  Lemma near_quiet (m : M (core D) unit) : pres (core_evo (g_dbg g)) m ->
    (forall c c', m c = Ok tt c' -> ext (k_store c) (k_store c') /\ forall b, same_member (lst_of c b) (lst_of c' b)) -> keep near (on_core' m).
  Proof.
    intros Hm He. apply near_gentle; [by apply pres_on_core'|]. intros s [] s' _. unfold on_core', on_dyn, on_core, lift.
    destruct (m _) as [[] c| | |] eqn:E; try done. intros [= <-]. destruct (He _ _ E) as [H1 H2]. by apply ext_gentle.
  Qed.
  Lemma near_clear : keep near clear_all.
  Proof.
    apply near_gentle; [apply pres_clear_all|]. intros s [] s' _. unfold clear_all, bnd, gets, on_store', on_core', on_dyn, on_core, on_store, lift.
    change (k_store (d_core (s_dyn s))) with (s_store s). destruct (forM _ _ _) as [[] σ| | |] eqn:E; try done. intros [= <-].
    destruct (clear_sigs _ _ (cleared_dom _ _ _ E)) as (σ' & E' & Hfr & _). rewrite E in E'. injection E' as <-. split; [|intros b; by left].
    intros x c Hx Hc Ha. change (s_store (put_dyn _ _)) with σ. by rewrite Hfr.
  Qed.
  Lemma inputs_ext t c c' : inputs g t c = Ok tt c' -> ext (k_store c) (k_store c') /\ forall b, same_member (lst_of c b) (lst_of c' b).
  Proof.
    unfold inputs. rewrite Hg. unfold bnd, emit, modify, on_store, lift. destruct (g_inputs g) as [f|]; cbn [k_store].
    - destruct (run_prog true (f t) _) as [[] σ1| | |] eqn:E1; try done. cbn [k_store]. destruct (run_prog true _ σ1) as [[] σ2| | |] eqn:E2; try done.
      intros [= <-]. split; [|intros b; by left]. eapply ext_trans; by eapply run_prog_ext.
    - unfold ret. cbn [k_store]. destruct (run_prog true _ _) as [[] σ2| | |] eqn:E2; try done.
      intros [= <-]. split; [|intros b; by left]. by eapply run_prog_ext.
  Qed.
  Lemma near_inputs t : keep near (on_core' (inputs g t)).
  Proof. apply near_quiet; [apply pres_inputs|]. apply inputs_ext. Qed.
  Lemma near_pre t : keep near (on_core' (pre_step (g_dbg g) (g_tree g) t ;;; snap (EvBegin t))).
  Proof.
    apply near_quiet; [apply pres_pre_snap|]. intros c c'. rewrite Hg. unfold bnd. rewrite pre_each.
    destruct (each _ _ _ _ c) as [[] c1| | |] eqn:Ee; try done. intros [= <-].
    destruct (each_spec _ _ _ _ _ Ee (wf_leaves _ Hw)) as (H1 & H2 & H3 & H4). split; [exact H1|]. intros b.
    change (same_member (lst_of c b) (lst_of c1 b)).
    destruct (decide (b ∈ map l_id (leaves (g_tree g)))) as [Hi|Hi]; [|left; by apply H4].
    apply elem_of_list_fmap in Hi as (l & -> & Hl). eapply returns_shows; [|by apply (H3 l)]. by apply (Hst l Hl).
  Qed.
  Lemma near_eval t : keep near (eval_model g t).
  Proof.
    apply near_gentle; [apply pres_eval_model|]. intros s [] s' Hr E. destruct (eval_ext g Hw Hg t s s' Hr E) as [H1 H2].
    apply ext_gentle; [done|]. intros b. destruct (H2 b) as [->|(l & Hl & <- & Hs)]; [by left|]. eapply returns_shows; [|exact Hs]. by apply (Hst l Hl).
  Qed.
  Lemma near_snap ev : keep near (on_core' (snap ev)).
  Proof. apply near_quiet; [apply pres_snap|]. intros c c' [= <-]. split; [apply ext_refl|]. intros b. by left. Qed.
  Lemma near_emit e : keep near (on_core' (emit e)).
  Proof. apply near_quiet; [apply pres_emit|]. intros c c' [= <-]. split; [apply ext_refl|]. intros b. by left. Qed.
  Lemma near_minor_eval t : keep near (process_model g t false false).
  Proof.
    unfold process_model. apply keep_bnd; [apply near_inputs|intros _]. apply keep_bnd; [apply keep_ret|intros _].
    apply keep_bnd; [apply near_eval|intros _]. apply keep_bnd; [apply near_snap|intros _; apply keep_ret].
  Qed.
  Lemma set_ext x v (σ : store D) u σ' : set_value true x v σ = Ok u σ' -> ext σ σ'.
  Proof. intros E. apply (run_prog_ext (PSet x v (PRet tt)) σ tt). cbn. unfold bnd. rewrite E. by destruct u. Qed.
  Lemma scalars_ext zs x σ r σ' : set_scalars g zs x σ = Ok r σ' -> ext σ σ'.
  Proof.
    revert x σ. induction zs as [|z zs IH]; intros x σ; cbn [set_scalars]; [intros [= _ <-]; apply ext_refl|]. destruct x as [|y x]; [done|].
    rewrite Hg. unfold bnd. destruct (set_value true z (VS y) σ) as [u σ1| | |] eqn:E; try done. intros Hr. eapply ext_trans; [by eapply set_ext|by eapply IH].
  Qed.
  Lemma arrays_ext zs x σ r σ' : set_arrays g zs x σ = Ok r σ' -> ext σ σ'.
  Proof.
    revert x σ. induction zs as [|z zs IH]; intros x σ; cbn [set_arrays]; [intros [= _ <-]; apply ext_refl|].
    unfold bnd at 1, gets at 1. destruct (Nat.leb _ _); [|done]. rewrite Hg.
    unfold bnd. destruct (set_value true z _ σ) as [u σ1| | |] eqn:E; try done. intros Hr. eapply ext_trans; [by eapply set_ext|by eapply IH].
  Qed.
  Lemma near_reset x : keep near (reset_sv g x).
  Proof.
    unfold reset_sv. apply keep_bnd; [apply near_clear|intros _]. apply keep_bnd; [apply keep_gets|intros zs].
    apply keep_bnd; [apply keep_gets|intros az]. apply near_store.
    - apply pres_bnd; [apply _|apply pres_set_scalars|intros r]. apply pres_bnd; [apply _|apply pres_set_arrays|intros ?; apply pres_ret, _].
    - intros σ [] σ'. unfold bnd. destruct (set_scalars g zs x σ) as [r σ1| | |] eqn:E1; try done.
      destruct (set_arrays g az r σ1) as [r2 σ2| | |] eqn:E2; try done. intros [= <-]. eapply ext_trans; [by eapply scalars_ext|by eapply arrays_ext].
  Qed.
  Lemma near_get_sv arr : keep near (get_sv g arr).
  Proof. intros s a s' Hn E. by rewrite (get_sv_same _ _ _ _ _ E). Qed.
  Lemma deriv_same (f : nat -> M (store D) (list D)) z y σ1 σ2 : (forall z y σ1 σ2, f z σ1 = Ok y σ2 -> σ2 = σ1) -> deriv_of f z σ1 = Ok y σ2 -> σ2 = σ1.
  Proof. intros Hf. unfold deriv_of, bnd, gets. destruct (match σ1 !! z with Some c => c_deriv c | None => None end) as [d|]; [apply Hf|done]. Qed.
  Lemma near_minor t x : keep near (minor_cb g t x).
  Proof.
    unfold minor_cb. apply keep_bnd; [apply near_reset|intros _]. apply keep_bnd; [apply near_minor_eval|intros _].
    apply keep_bnd; [apply keep_gets|intros zs]. apply keep_bnd; [apply keep_gets|intros az].
    apply keep_bnd.
    { apply near_store.
      - apply pres_bnd; [apply _|apply pres_collect; intros s; apply pres_deriv_of, pres_get_scalar|intros x1].
        apply pres_bnd; [apply _|apply pres_collect; intros s; apply pres_deriv_of, pres_get_array|intros ?; apply pres_ret, _].
      - intros σ a σ'. unfold bnd. destruct (collect _ zs σ) as [x1 σ1| | |] eqn:E1; try done.
        apply collect_inv in E1 as (-> & _); [|intros z y σa σb; apply deriv_same; intros ? ? ? ? E; by apply get_scalar_inv in E as [? _]].
        destruct (collect _ az σ) as [x2 σ2| | |] eqn:E2; try done.
        apply collect_inv in E2 as (-> & _); [|intros z y σa σb; apply deriv_same; intros ? ? ? ? E; by apply get_array_inv in E as [? _]].
        intros [= _ <-]. apply ext_refl. }
    intros y. apply keep_bnd; [apply keep_gets|intros dv]. destruct (write_prefix y dv); [|apply keep_undef].
    apply keep_bnd; [|intros _; apply keep_ret]. apply near_same; [done|]. intros s. by split.
  Qed.
  Lemma near_begin t : keep near (begin_step g t).
  Proof. unfold begin_step. apply keep_bnd; [apply near_clear|intros _]. apply keep_bnd; [apply near_inputs|intros _; apply near_pre]. Qed.
End near.

(** Beginning a step in states that differ only in what it overwrites. *)
Section begin.
  Context {D : Type} `{NumOps D} (g : cfg D) (Hg : g_dbg g = true).
  Implicit Types s : simst D.
  Definition seen (vs : list nat) : nat -> Prop := fun x => x ∈ vs.
  Lemma clear_inv s s' : clear_all s = Ok tt s' -> s_vsigs s' = s_vsigs s /\ k_lst (s_core s') = k_lst (s_core s) /\
    (forall z, z ∉ s_vsigs s -> s_store s' !! z = s_store s !! z) /\ (forall z, z ∈ s_vsigs s -> exists c, s_store s !! z = Some c /\ s_store s' !! z = Some (clear_cell c)).
  Proof.
    unfold clear_all, bnd, gets, on_store', on_core', on_dyn, on_core, on_store, lift.
    change (k_store (d_core (s_dyn s))) with (s_store s). destruct (forM _ _ _) as [[] σ| | |] eqn:E; try done. intros [= <-].
    pose proof (cleared_dom _ _ _ E) as Hd.
    destruct (clear_sigs _ _ Hd) as (σ' & E' & Hfr & Hcl). rewrite E in E'. injection E' as <-. split; [done|]. split; [done|].
    split; [exact Hfr|]. intros z Hz. pose proof (Hd z Hz) as Hx. apply elem_of_dom in Hx as [c Hc]. exists c. split; [done|]. by apply Hcl.
  Qed.
  Lemma clear_cover s0 s s1 s1' : near g s0 s -> clear_all s0 = Ok tt s1 -> clear_all s = Ok tt s1' -> cover (seen (s_vsigs s0)) (s_core s1) (s_core s1').
  Proof.
    intros Hn E E'. destruct (clear_inv _ _ E) as (_ & Hl & Hfr & Hcl), (clear_inv _ _ E') as (_ & Hl' & Hfr' & Hcl').
    rewrite (ev_vsigs _ _ _ (nr_evo _ _ _ Hn)) in Hfr', Hcl'. destruct (ev_dyn _ _ _ (nr_evo _ _ _ Hn)) as [Hsh _].
    split; [|intros b; unfold lst_of; rewrite Hl, Hl'; apply (nr_mem _ _ _ Hn)]. intros x.
    change (k_store (s_core s1)) with (s_store s1). change (k_store (s_core s1')) with (s_store s1').
    destruct (decide (x ∈ s_vsigs s0)) as [Hx|Hx].
    - destruct (Hcl x Hx) as (c & Hc & ->), (Hcl' x Hx) as (c' & Hc' & ->).
      destruct (sh_cell _ _ _ Hsh x c Hc) as (c2 & Hc2 & Hs). change (k_store (d_core (s_dyn s))) with (s_store s) in Hc2. rewrite Hc' in Hc2.
      injection Hc2 as <-. destruct Hs as [E1 E2]. cbn. done.
    - rewrite Hfr, Hfr' by done. destruct (s_store s0 !! x) as [c|] eqn:Hc.
      + destruct (sh_cell _ _ _ Hsh x c Hc) as (c2 & Hc2 & E1 & E2). change (k_store (d_core (s_dyn s))) with (s_store s) in Hc2. rewrite Hc2.
        split; [done|]. split; [done|]. split; [|done]. intros Ha. pose proof (nr_out _ _ _ Hn x c Hx Hc Ha) as E3. rewrite Hc2 in E3. by injection E3 as ->.
      + pose proof (sh_none _ _ _ Hsh x Hc) as E1. change (k_store (d_core (s_dyn s))) with (s_store s) in E1. by rewrite E1.
  Qed.
  Lemma core_wrel V (m : M (core D) unit) s s1 s' s1' : wrel (cover V) m m -> cover V (s_core s) (s_core s') ->
    on_core' m s = Ok tt s1 -> on_core' m s' = Ok tt s1' -> cover V (s_core s1) (s_core s1').
  Proof.
    intros Hm Hc. unfold on_core', on_dyn, on_core, lift. change (d_core (s_dyn s)) with (s_core s). change (d_core (s_dyn s')) with (s_core s').
    destruct (m (s_core s)) as [[] c| | |] eqn:E; try done. destruct (m (s_core s')) as [[] c'| | |] eqn:E'; try done.
    intros [= <-] [= <-]. by destruct (Hm _ _ _ _ _ _ Hc E E').
  Qed.
  Lemma begin_cover t s0 s s1 s1' : near g s0 s -> begin_step g t s0 = Ok tt s1 -> begin_step g t s = Ok tt s1' ->
    cover (seen (s_vsigs s0)) (s_core s1) (s_core s1').
  Proof.
    intros Hn. unfold begin_step. rewrite Hg. unfold bnd at 1. destruct (clear_all s0) as [[] a1| | |] eqn:E1; try done.
    unfold bnd at 1. destruct (on_core' (inputs g t) a1) as [[] a2| | |] eqn:E2; try done. intros E3.
    unfold bnd at 1. destruct (clear_all s) as [[] b1| | |] eqn:F1; try done.
    unfold bnd at 1. destruct (on_core' (inputs g t) b1) as [[] b2| | |] eqn:F2; try done. intros F3.
    pose proof (clear_cover _ _ _ _ Hn E1 F1) as H1. pose proof (core_wrel _ _ _ _ _ _ (wrel_inputs _ g g t Hg Hg eq_refl eq_refl) H1 E2 F2) as H2.
    eapply core_wrel; [|exact H2|exact E3|exact F3]. apply wrel_bnd; [apply wrel_pre|intros _; apply wrel_snap].
  Qed.
  Lemma get_pack arr s x s' : packed g s -> length arr = length (s_sv s) -> get_sv g arr s = Ok x s' -> x = pack (s_store s) (s_scal s ++ s_arr s).
  Proof.
    intros Hp Hl E. assert (states_set s) as Hs.
    { revert E. unfold get_sv. unfold bnd at 1, gets at 1. unfold bnd at 1. rewrite Hl, Nat.eqb_refl.
      assert (debug_verify (g_dbg g) true EAssert s = Ok tt s) as -> by (by destruct (g_dbg g)).
      unfold bnd at 1, gets at 1. unfold bnd at 1, gets at 1. unfold bnd at 1.
      set (m := bnd (collect (get_scalar g) (s_scal s)) _).
      destruct (m (s_store s)) as [y σ'| | |] eqn:Em; [|unfold on_store', on_core', on_dyn, on_core, on_store, lift; unfold s_store, s_core in Em; cbn; rewrite Em; done..].
      intros _. unfold m, bnd in Em.
      destruct (collect (get_scalar g) (s_scal s) (s_store s)) as [x1 σ1| | |] eqn:E2; try done.
      destruct (collect_inv _ _ _ _ _ (fun z y a b E => proj1 (get_scalar_inv g z y a b E)) E2) as (-> & ys & _ & Hys).
      destruct (collect (get_array g) (s_arr s) (s_store s)) as [x2 σ2| | |] eqn:E3; try done.
      destruct (collect_inv _ _ _ _ _ (fun z y a b E => proj1 (get_array_inv g z y a b E)) E3) as (-> & zs & _ & Hzs).
      assert (forall z v, get_value (g_dbg g) z (s_store s) = Ok v (s_store s) -> value (s_store s) z = Some v) as Hv.
      { intros z v. rewrite Hg. unfold get_value, value. destruct (s_store s !! z) as [c|]; [|done]. cbn. destruct (negb _); [done|].
        destruct (c_asg c); [|done]. cbn. destruct (c_val c); [|done]. by intros [= ->]. }
      split.
      - intros z Hz. apply elem_of_list_lookup in Hz as [i Hi]. destruct (Forall2_lookup_l _ _ _ _ _ Hys Hi) as (y' & _ & Ey).
        apply get_scalar_inv in Ey as (_ & d & _ & Ed). exists d. by apply Hv.
      - intros z Hz. apply elem_of_list_lookup in Hz as [i Hi]. destruct (Forall2_lookup_l _ _ _ _ _ Hzs Hi) as (y' & _ & Ey).
        apply get_array_inv in Ey as (_ & Ly & Ed). exists y'. split; [by apply Hv|done]. }
    rewrite (get_sv_ok g arr s Hp Hs Hl) in E. by injection E as <- _.
  Qed.
  Lemma pack_same V (σ σ' : store D) zs : over V σ σ' -> (forall z, z ∈ zs -> V z) -> pack σ' zs = pack σ zs.
  Proof.
    intros Ho Hv. unfold pack. f_equal. apply map_ext_in. intros z Hz%elem_of_list_In. by rewrite (over_value V _ _ _ Ho (Hv z Hz)).
  Qed.
End begin.

Section redo.
  Context {D : Type} `{NumOps D} (g : cfg D) (Hw : wf_tree (g_tree g)) (Hg : g_dbg g = true).
  Context (Hst : forall l, l ∈ leaves (g_tree g) -> steady l).
  Context (Hstp : forall stp, g_stepper g = Some stp -> stepper_ok stp /\ stepper_rel stp).
  Implicit Types s : simst D.
  Definition is_eval (e : event D) : bool := match e with EvEval _ _ _ => true | _ => false end.
  Lemma starts_evals b es r : forallb is_eval es = true -> starts_in b (es ++ r) = starts_in b r.
  Proof. induction es as [|e es IH]; [done|]. cbn. intros [He Hes]%andb_true_iff. destruct e; try done. by apply IH. Qed.
  Lemma evaluations_marks v : evaluations v -> forallb is_eval (marks v) = true.
  Proof.
    intros (vs & -> & Hvs). induction Hvs as [|v vs (t & acts & σ & ms & ->) _ IH]; [done|]. cbn [concat].
    change (EvInputs t :: map (fun b => EvAct b t) acts ++ [EvEval t σ ms]) with ([EvInputs t] ++ map (fun b => EvAct b t) acts ++ [EvEval t σ ms]).
    rewrite !marks_app, !marks_one, marks_quiet by done. cbn. exact IH.
  Qed.
  (** What follows the loop. *)
  Definition ending (tl : list (event D)) : Prop := starts_in None tl = [] /\ match tl with e :: _ => is_begin e = false | [] => True end.
  Definition redone (V : nat -> Prop) (l : list (start D)) : Prop :=
    forall i a a', l !! i = Some a -> l !! S i = Some a' -> st_ok a = false -> alike V a a'.
  Lemma redone_cons V a l : (st_ok a = false -> match l with a' :: _ => alike V a a' | [] => True end) -> redone V l -> redone V (a :: l).
  Proof.
    intros Ha Hl [|i] x x' E E' Hx; cbn in E, E'; [|by eapply Hl]. injection E as <-. destruct l as [|y l]; [done|]. injection E' as <-. by apply Ha.
  Qed.
  (** The first attempt of what is recorded. *)
  Definition opens (t1 : D) s (v : list (event D)) : Prop :=
    exists sb x es t2 y h rest, begin_step g t1 s = Ok tt sb /\ get_sv g (s_svo sb) sb = Ok x sb /\ forallb is_eval es = true /\
      v = EvBegin t1 (s_store sb) (members (s_core sb)) :: es ++ EvTry t1 x t2 y h :: rest.
  Lemma loop_redone V fuel t lo hi t1 t2 force s s' : (forall x, V x <-> x ∈ s_vsigs s) -> ready g s -> packed g s ->
    run_loop g fuel t lo hi t1 t2 force s = Ok tt s' ->
    exists v, marks (s_log s') = marks (s_log s) ++ v /\ ((t1 <? t) = true -> opens t1 s v) /\ ((t1 <? t) = false -> v = []) /\
      forall tl, ending tl -> redone V (starts_in None (v ++ tl)).
  Proof.
    revert t1 t2 force s. induction fuel as [|fuel IH]; intros t1 t2 force s HV Hr Hp; cbn [run_loop]; (destruct (t1 <? t) eqn:Et;
      [|intros [= <-]; exists []; split; [by rewrite app_nil_r|]; split; [done|]; split; [done|]; intros tl [Htl _]; cbn; rewrite Htl; by intros i a a' E]);
      [done|].
    unfold bnd at 1. destruct (begin_step g t1 s) as [[] sb| | |] eqn:Eb; try done.
    unfold bnd at 1, gets at 1. unfold bnd at 1. destruct (get_sv g (s_svo sb) sb) as [x sb'| | |] eqn:Eg; try done.
    pose proof (get_sv_same _ _ _ _ _ Eg) as ->. unfold bnd at 1, modify at 1. destruct (g_stepper g) as [stp|] eqn:Es; [|done].
    unfold bnd at 1. destruct (stp _ (minor_cb g) t1 x t2 (put_svo x sb)) as [[y new_h] s1| | |] eqn:E1; try done. cbn [fst snd].
    unfold bnd at 1, modify at 1. unfold bnd at 1.
    destruct (on_core' (emit (EvTry t1 x t2 y new_h)) (put_sv y s1)) as [[] s2| | |] eqn:E2; try done. cbv zeta.
    destruct (Hstp _ eq_refl) as [Hok Hrel]. pose proof (packed_begin _ _ _ _ _ Hp Eb) as Hpb.
    assert (keep (near g s) (stp _ (minor_cb g) t1 x t2)) as Hks.
    { apply stepper_keep; [done|]. intros t' x'. exact (near_minor g Hw Hg Hst s Hr t' x'). }
    assert (near g s sb) as Hnb. { exact (near_begin g Hw Hg Hst s Hr t1 s tt sb (near_self g s) Eb). }
    assert (near g s s2) as Hn2.
    { eapply (near_emit g Hw s Hr); [|exact E2]. assert (near g s s1) as Hn1.
      { eapply Hks; [|exact E1]. eapply (near_same g Hw s Hr (put_svo x)); [done|intros ?; by split|exact Hnb|reflexivity]. }
      eapply (near_same g Hw s Hr (put_sv y)); [done|intros ?; by split|exact Hn1|reflexivity]. }
    assert (packed g s2) as Hp2.
    { eapply packed_core; [apply pres_emit| |exact E2].
      pose proof (get_sv_len g _ _ _ _ Eg) as Hlx. pose proof (packed_svo g x sb Hlx Hpb) as Hps.
      pose proof (so_pres stp Hok _ (both g) (minor_cb g) t1 x t2 _ (fun τ v => pres_both g _ (pres_minor_cb g τ v) (vecs_minor_cb g τ v)) (put_svo x sb)) as Hb.
      rewrite E1 in Hb. destruct Hb as [He (V1 & V2 & V3)]. pose proof (so_len stp Hok _ _ _ _ _ _ _ _ E1) as Hlr. cbn [fst] in Hlr.
      apply packed_sv; [|by apply (packed_evo g (put_svo x sb) s1); rewrite ?V1, ?V2].
      rewrite V1, Hlr, Hlx. change (s_sv (put_svo x sb)) with (s_sv sb). by rewrite (pk_sv _ _ Hpb), (pk_svo _ _ Hpb). }
    assert (exists es, forallb is_eval es = true /\ marks (s_log s2) = marks (s_log s) ++ EvBegin t1 (s_store sb) (members (s_core sb)) :: es ++ [EvTry t1 x t2 y new_h]) as (es & Hes & Em2).
    { destruct (adds_stepper g stp t1 x t2 Hrel _ _ _ E1) as (vs & Evs & Hvs). exists (marks vs). split; [by apply evaluations_marks|].
      injection E2 as <-. change (marks (s_log s1 ++ [EvTry t1 x t2 y new_h]) = marks (s_log s) ++ EvBegin t1 (s_store sb) (members (s_core sb)) :: marks vs ++ [EvTry t1 x t2 y new_h]).
      rewrite marks_app, marks_one, Evs, marks_app. cbn [is_mark]. change (s_log (put_svo x sb)) with (s_log sb). rewrite (begin_marks _ _ _ _ Eb).
      rewrite <- !app_assoc. done. }
    assert (forall rest tl, starts_in None ((EvBegin t1 (s_store sb) (members (s_core sb)) :: es ++ [EvTry t1 x t2 y new_h] ++ rest) ++ tl) =
      Start t1 x (Some (t1, s_store sb, members (s_core sb))) (match rest ++ tl with e :: _ => negb (is_begin e) | [] => true end) :: starts_in None (rest ++ tl)) as Hhd.
    { intros rest tl. cbn [app starts_in]. rewrite <- app_assoc, starts_evals by done. done. }
    destruct (force || (t2 - t1 <=? new_h) || (t2 - t1 <=? lo)).
    - unfold bnd at 1. destruct (t2 <? t) eqn:Et2.
      + unfold bnd at 1, gets at 1. unfold bnd at 1. destruct (reset_sv g (s_sv s2) s2) as [[] s3| | |] eqn:E3; try done.
        destruct (process_model g t2 false true s3) as [[] s4| | |] eqn:E4; try done. intros Hl.
        pose proof (pres_reset_sv g (s_sv s2) s2) as V3. rewrite E3 in V3. pose proof (pres_process_model g t2 false true s3) as V4. rewrite E4 in V4.
        assert (evo g s s4) as V5 by (etrans; [apply (nr_evo _ _ _ Hn2)|]; by etrans).
        destruct (IH t2 (nmin (t2 + clip lo hi new_h) t) false s4) as (v & Ev & Hop & Hno & Hre); [| | |exact Hl|].
        { intros z. rewrite (ev_vsigs _ _ _ V5). apply HV. }
        { exact (ready_evo g Hw _ _ V5 Hr). }
        { eapply packed_process; [|exact E4]. by eapply packed_reset. }
        destruct (major_marks _ _ _ _ E4) as (σe & me & Em4).
        destruct (adds_reset g _ _ _ _ E3) as (v3 & Ev3 & ->). rewrite app_nil_r in Ev3.
        exists (EvBegin t1 (s_store sb) (members (s_core sb)) :: es ++ [EvTry t1 x t2 y new_h] ++ [EvEval t2 σe me; EvStep t2 (s_store s4) (members (s_core s4))] ++ v).
        split; [|split; [|split; [done|]]].
        * rewrite Ev, Em4, Ev3, Em2. by repeat (rewrite <- ?app_assoc; cbn [app]).
        * intros _. by exists sb, x, es, t2, y, new_h, ([EvEval t2 σe me; EvStep t2 (s_store s4) (members (s_core s4))] ++ v).
        * intros tl Htl. rewrite Hhd. apply redone_cons; [done|]. cbn [app starts_in]. by apply Hre.
      + unfold ret at 1. intros Hl.
        destruct (IH t2 (nmin (t2 + clip lo hi new_h) t) false s2) as (v & Ev & _ & Hno & _); [| |done|exact Hl|].
        { intros z. rewrite (ev_vsigs _ _ _ (nr_evo _ _ _ Hn2)). apply HV. }
        { exact (ready_evo g Hw _ _ (nr_evo _ _ _ Hn2) Hr). }
        rewrite (Hno Et2), app_nil_r in Ev.
        exists (EvBegin t1 (s_store sb) (members (s_core sb)) :: es ++ [EvTry t1 x t2 y new_h] ++ []).
        split; [by rewrite Ev, Em2|]. split; [intros _; by exists sb, x, es, t2, y, new_h, []|]. split; [done|].
        intros tl [Ht1 Ht2]. rewrite Hhd. apply redone_cons; [|by cbn; rewrite Ht1; intros i a a' E]. cbn. destruct tl; [done|]. by rewrite Ht2.
    - intros Hl.
      destruct (IH t1 (t1 + clip lo hi new_h) (new_h <=? lo) s2) as (v & Ev & Hop & _ & Hre); [| |done|exact Hl|].
      { intros z. rewrite (ev_vsigs _ _ _ (nr_evo _ _ _ Hn2)). apply HV. }
      { exact (ready_evo g Hw _ _ (nr_evo _ _ _ Hn2) Hr). }
      destruct (Hop Et) as (sb2 & x2 & es2 & t2' & y2 & h2 & rest & Eb2 & Eg2 & Hes2 & ->).
      exists (EvBegin t1 (s_store sb) (members (s_core sb)) :: es ++ [EvTry t1 x t2 y new_h] ++ (EvBegin t1 (s_store sb2) (members (s_core sb2)) :: es2 ++ EvTry t1 x2 t2' y2 h2 :: rest)).
      split; [rewrite Ev, Em2; by repeat (rewrite <- ?app_assoc; cbn [app])|].
      split; [intros _; by exists sb, x, es, t2, y, new_h, (EvBegin t1 (s_store sb2) (members (s_core sb2)) :: es2 ++ EvTry t1 x2 t2' y2 h2 :: rest)|].
      split; [done|]. intros tl Htl. rewrite Hhd. apply redone_cons; [|by apply Hre]. intros _. cbn [app starts_in]. rewrite <- app_assoc, starts_evals by done.
      cbn [app starts_in].
      pose proof (begin_cover g Hg t1 s s2 sb sb2 Hn2 Eb Eb2) as [Ho Hm].
      split; [done|]. split.
      + cbn. pose proof (packed_begin _ _ _ _ _ Hp2 Eb2) as Hpb2.
        rewrite (get_pack g Hg _ _ _ _ Hpb (eq_trans (pk_svo _ _ Hpb) (eq_sym (pk_sv _ _ Hpb))) Eg), (get_pack g Hg _ _ _ _ Hpb2 (eq_trans (pk_svo _ _ Hpb2) (eq_sym (pk_sv _ _ Hpb2))) Eg2).
        pose proof (nr_evo _ _ _ Hnb) as Vb. pose proof (pres_begin_step g t1 s2) as Vb2. rewrite Eb2 in Vb2.
        assert (evo g s sb2) as Vb3 by (etrans; [apply (nr_evo _ _ _ Hn2)|done]).
        rewrite (ev_scal _ _ _ Vb3), (ev_arr _ _ _ Vb3), (ev_scal _ _ _ Vb), (ev_arr _ _ _ Vb).
        eapply pack_same; [exact Ho|]. intros z Hz. unfold seen. by eapply state_linked.
      + exists t1, (s_store sb), (members (s_core sb)), (s_store sb2), (members (s_core sb2)). split; [done|]. split; [done|]. split.
        * intros z Hz. eapply over_value; [exact Ho|]. by apply HV.
        * intros b. rewrite !member_lst. apply Hm.
  Qed.
End redo.
