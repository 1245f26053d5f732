(** A well-built model: the pieces of a simulation. *)
From stdpp Require Import prelude gmap strings.
From Coq Require Import ZArith.
From Verif Require Import Num Res Store Leaf Sched Stepper Sim SpecSched P_Store P_Prog P_Sched P_Modes P_Conf P_Eval P_Fast P_Sim P_Evolve P_Log P_Trace P_Pack SpecGoes P_Goes.
Local Open Scope nat_scope.

Section sim.
  Context {D : Type} `{NumOps D} (g : cfg D) (K : nat -> option kind) (dv : nat -> option nat) (nxt : D -> D -> Prop) (y : duty D) (ins1 ins2 : list nat).
  Context (Hs : sane g K dv nxt y ins1 ins2).
  Implicit Types (c : core D) (l : leaf D).
  Notation tr := (g_tree g).
  Notation L := (leaves tr).
  Notation X := (made ins1 ins2 y tr).
  Notation G := (givens ins1 ins2 y tr).
  Notation zs := (concat (map (y_pre y) L)).
  Notation fine := (fine g K dv y).
  Notation has := (has g y ins1 ins2).
  Notation after := (after g y ins1 ins2).
  Let Hdbg : g_dbg g = true := sn_dbg _ _ _ _ _ _ _ Hs.
  Let Hwf : wf_tree tr := sn_wf _ _ _ _ _ _ _ Hs.

  (** An order in which the blocks find their inputs. *)
  Inductive sorted : list (leaf D) -> Prop :=
  | so_nil : sorted []
  | so_snoc ls l : sorted ls -> (forall x, x ∈ ls -> x ∈ L) -> l ∈ L -> l ∉ ls -> (forall s, s ∈ required l -> after ls s) -> sorted (ls ++ [l]).
  Lemma required_made l s : l ∈ L -> awaited g l -> s ∈ required l -> s ∈ X.
  Proof.
    intros Hl Hw Hx. destruct (sn_order _ _ _ _ _ _ _ Hs) as [rank Hr]. destruct (Hr l s Hl Hw Hx) as [Hg|(l' & Hl' & _ & Ho)]; [by apply in_given|by eapply in_out].
  Qed.
  Lemma legal_sorted τ t c ls c' : g_mode g = MFast -> legal_run true t c ls c' -> (forall x, x ∈ ls -> x ∈ L) -> fine τ c -> has c (fun s => s ∈ G) -> sorted ls.
  Proof.
    intros Hm Hr. induction Hr as [|ls c1 l c2 Hr IH Hd Hi Ha]; intros Hin Hf Hh; [constructor|].
    assert (forall x, x ∈ ls -> x ∈ L) as Hin' by (intros x Hx; apply Hin, elem_of_app; by left).
    assert (l ∈ L) as Hl by (apply Hin, elem_of_app; right; apply elem_of_list_here).
    constructor; [by apply IH|done|done| |].
    - intros Hx. apply Hd. apply legal_run_basic in Hr as (_ & _ & -> & _). apply elem_of_union_l, elem_of_list_to_set, elem_of_list_fmap. eauto.
    - intros s Hx. destruct (legal_fine g K dv nxt y ins1 ins2 Hs τ t c ls c1 Hr Hin' Hf Hh) as [_ Hh1]. apply Hh1; [eapply required_made; [done|by right|done]|]. by apply Hi.
  Qed.
  Lemma acts_sorted τ t ls : g_mode g = MFast -> sorted ls -> forall c, fine τ c -> has c (fun s => s ∈ G) -> exists c', acts true t ls c = Ok tt c' /\ fine τ c' /\ has c' (after ls).
  Proof.
    intros Hm. induction 1 as [|ls l Hso IH Hin Hl Hn Hr]; intros c Hf Hh.
    { exists c. split; [done|]. split; [done|]. intros s Hx. rewrite (Hh s Hx). unfold P_Goes.after. split; [by left|]. by intros [Hg|(l & ?%elem_of_nil & _)]. }
    destruct (IH c Hf Hh) as (c1 & E1 & Hf1 & Hh1).
    destruct (act_ok g K dv nxt y ins1 ins2 Hs τ t l c1 ls Hl Hin Hn Hf1 Hh1) as (c2 & E2 & Hf2 & Hh2).
    { intros s Hx. apply Hh1; [eapply required_made; [done|by right|done]|]. by apply Hr. }
    exists c2. split; [|done]. rewrite acts_app. unfold bnd. rewrite E1. unfold acts. cbn [forM]. unfold bnd. by rewrite E2.
  Qed.
  Definition no_builders : Prop := forall l, l ∈ L -> is_builder (l_cls l) = false.
  (** The order the simulator object has, as far as it uses one. *)
  Definition order_ok (s : simst D) : Prop :=
    match g_mode g with
    | MDefault => True
    | MReuse => no_builders /\ ordered g s
    | MFast => sorted (concat (s_fast s)) /\ (forall l, l ∈ L -> l ∈ concat (s_fast s))
    end.

  Lemma marked_fine τ (d : dyn D) : fine τ (d_core d) -> fine τ (d_core (mark_unprocessed tr d)).
  Proof.
    intros [Hg Hi]. split; [by rewrite marked_store|]. intros l Hl. unfold lst_of. rewrite marked_lst by done. by apply Hi.
  Qed.
  Lemma marked_has (d : dyn D) P : has (d_core d) P -> has (d_core (mark_unprocessed tr d)) P.
  Proof. intros Hh s Hx. rewrite marked_store by done. by apply Hh. Qed.

  Lemma marked_waits (d : dyn D) l : l ∈ L -> awaited g l \/ l_id l ∈ k_done (d_core (mark_unprocessed tr d)).
  Proof. intros Hl. destruct (is_builder (l_cls l)) eqn:Hb; [right; by apply marked_leaf|by left; left]. Qed.
  Lemma eval_ok τ t s : order_ok s -> fine τ (s_core s) -> has (s_core s) (fun x => x ∈ G) ->
    exists s', eval_model g t s = Ok tt s' /\ fine τ (s_core s') /\ has (s_core s') (fun _ => True) /\ (g_mode g ≠ MFast -> forall l, l ∈ L -> l_id l ∈ k_done (s_core s')).
  Proof.
    intros Ho Hf Hh. unfold order_ok in Ho. destruct (g_mode g) eqn:Em.
    - rewrite eval_default by done. rewrite Hdbg. pose proof (evaluate_spec true tr t (s_dyn s) Hwf) as He.
      pose proof (marked_fine τ _ Hf) as Hf0. pose proof (marked_has _ _ Hh) as Hh0.
      destruct (evaluate true tr t (s_dyn s)) as [[] d|e d|u|]; cbn [res_core eval_post] in He.
      + destruct He as (ls & Hr & Hin & Hex). exists (put_dyn d s). split; [done|].
        destruct (all_made g K dv nxt y ins1 ins2 Hs τ t _ ls _ Hr Hin Hf0 Hh0 Hex) as [Hf1 Hh1]; [intros l Hl; by apply marked_leaf|by apply marked_waits|]. split; [done|]. split; [done|]. intros _.
        apply (all_done g K dv nxt y ins1 ins2 Hs); [done|done|]. intros l Hl. destruct (marked_waits (s_dyn s) l Hl) as [Hw|Hw]; [by left|right; by eapply legal_run_done_mono].
      + by destruct (never_failed g K dv nxt y ins1 ins2 Hs τ t _ _ Hf0 Hh0 He).
      + by destruct (never_failed g K dv nxt y ins1 ins2 Hs τ t _ _ Hf0 Hh0 He).
      + by destruct (never_failed g K dv nxt y ins1 ins2 Hs τ t _ _ Hf0 Hh0 He).
    - destruct Ho as [Hb Ho]. unfold ordered in Ho. rewrite Em in Ho. destruct Ho as (po & Hp & Hc). rewrite (eval_reuse g t s po Em Hp).
      rewrite Hdbg. pose proof (reuse_all_spec true t po (mark_unprocessed tr (s_dyn s)) (proj1 Hc)) as He.
      change (reuse_all true po t (mark_unprocessed tr (s_dyn s))) with (evaluate_reuse true tr po t (s_dyn s)) in He.
      pose proof (marked_fine τ _ Hf) as Hf0. pose proof (marked_has _ _ Hh) as Hh0.
      assert (forall l, l ∈ po_leaves po -> l ∈ L) as Hsub. { intros l Hl. apply po_leaves_elem in Hl. apply nodes_leaves. by apply Hc. }
      destruct (evaluate_reuse true tr po t (s_dyn s)) as [po' d|e d|u|]; cbn [reuse_post] in He.
      + eexists. split; [done|]. assert (s_core (remember po' (put_dyn d s)) = d_core d) as ->. { unfold remember. cbn. by destruct (s_cur s) as [[]|]. }
        destruct He as ((ls & Hr & Hin & Hex) & _ & _).
        assert (exhausted L (d_core d)) as HexL by by eapply covers_exhausted.
        destruct (all_made g K dv nxt y ins1 ins2 Hs τ t _ ls _ Hr (fun l Hl => Hsub l (Hin l Hl)) Hf0 Hh0 HexL) as [Hf1 Hh1]; [intros l Hl; by apply marked_leaf|by apply marked_waits|]. split; [done|]. split; [done|]. intros _.
        apply (all_done g K dv nxt y ins1 ins2 Hs); [done|done|]. intros l Hl. destruct (marked_waits (s_dyn s) l Hl) as [Hw|Hw]; [by left|right; by eapply legal_run_done_mono].
      + destruct He as [He|(_ & _ & Hu & _)].
        * by destruct (never_failed g K dv nxt y ins1 ins2 Hs τ t _ _ Hf0 Hh0 (failed_sub _ _ _ _ _ _ Hsub He)).
        * destruct Hu. apply unproc_marked; [done|apply Hc|done].
      + by destruct (never_failed g K dv nxt y ins1 ins2 Hs τ t _ _ Hf0 Hh0 (failed_sub _ _ _ _ _ _ Hsub He)).
      + done.
    - destruct Ho as [Hso Hall]. destruct (acts_sorted τ t _ Em Hso (s_core s) Hf Hh) as (c' & E & Hf' & Hh').
      unfold eval_model. rewrite Em. unfold bnd, gets. unfold on_core', on_dyn, on_core, lift. rewrite fast_eval_acts, Hdbg.
      change (d_core (s_dyn s)) with (s_core s). rewrite E. eexists. split; [done|]. split; [done|]. split; [|done]. intros x Hx. split; [done|]. intros _.
      apply Hh'; [done|]. apply elem_of_app in Hx as [Hg|Hx]; [by left|]. apply in_flat in Hx as (l & Hl & Hx). right. exists l. split; [by apply Hall|done].
  Qed.

  (** ** Frames *)
  Definition sound s : Prop := packed g s /\ order_ok s.
  Lemma sound_both s s' : both g s s' -> sound s -> sound s'.
  Proof.
    intros [He (V1 & V2 & V3)] [Hp Ho]. split.
    - by apply (packed_evo g s s'); rewrite ?V1, ?V2, ?V3.
    - unfold order_ok in *. destruct (g_mode g) eqn:Em; [done| |].
      + destruct Ho as [Hb Ho]. split; [done|]. by apply (ev_ord _ _ _ He).
      + by rewrite (ev_fast _ _ _ He).
  Qed.
  Lemma good_both s s' : both g s s' -> good K dv (s_store s) -> good K dv (s_store s').
  Proof.
    intros [He _] (Hok & HK & Hd). pose proof (ev_dyn _ _ _ He) as [Hsh _]. change (shape (g_dbg g) (s_store s) (s_store s')) in Hsh.
    split; [by apply (sh_ok _ _ _ Hsh Hdbg)|]. split; intros x; [rewrite <- (HK x)|rewrite <- (Hd x)]; unfold kind_in, deriv_in;
      (destruct (s_store s !! x) as [c|] eqn:E; [destruct (sh_cell _ _ _ Hsh x c E) as (c' & -> & E1 & E2); cbn; congruence|by rewrite (sh_none _ _ _ Hsh x E)]).
  Qed.
  Lemma state_pk z s : packed g s -> good K dv (s_store s) -> z ∈ s_scal s ++ s_arr s <-> z ∈ zs.
  Proof.
    intros Hp (_ & HK & Hd). rewrite (pk_all _ _ Hp). rewrite (sn_states _ _ _ _ _ _ _ Hs z). unfold is_state_of. rewrite <- (HK z), <- (Hd z). unfold kind_in, deriv_in.
    destruct (s_store s !! z) as [c|] eqn:E; cbn.
    - split.
      + intros (Hl & c' & ds & [= <-] & Hk & Hds). split; [done|]. split; [by rewrite Hds|]. destruct Hk as [-> | [n ->]]; [by left|right; by exists n].
      + intros (Hl & [ds Hds] & Hk). split; [done|]. exists c, ds. split; [done|]. split; [|done]. destruct Hk as [[= ->]|[n [= ->]]]; [by left|right; by exists n].
    - split; [by intros (_ & c' & ds & ? & _)|]. by intros (_ & [ds ?] & _).
  Qed.
  Lemma state_is z s : sound s -> good K dv (s_store s) -> z ∈ s_scal s ++ s_arr s <-> z ∈ zs.
  Proof. intros [Hp _]. by apply state_pk. Qed.
  Lemma zs_given z : z ∈ zs -> z ∈ G.
  Proof. intros Hz. unfold givens. apply elem_of_app. right. apply elem_of_app. by right. Qed.
  Lemma zs_inputs z : z ∈ zs -> z ∉ ins1 ++ ins2.
  Proof.
    intros Hz Hi. pose proof (sn_once _ _ _ _ _ _ _ Hs) as Hn. unfold made, givens in Hn. rewrite <- !app_assoc in Hn. rewrite app_assoc in Hn.
    apply NoDup_app in Hn as (_ & Hn & _). apply (Hn z Hi). apply elem_of_app. by left.
  Qed.
  Lemma value_not (σ : store D) z : good K dv σ -> value σ z = None <-> assigned σ z = false.
  Proof.
    intros (Hok & _). unfold value, assigned. destruct (σ !! z) as [c|] eqn:E; [|done]. destruct (c_asg c) eqn:Ea; [|done].
    destruct (proj1 (Hok z c E) Ea) as [v ->]. done.
  Qed.

  (** ** The pieces *)
  Lemma core_ok {A} (m : M (core D) A) s a c' : m (s_core s) = Ok a c' -> exists s', on_core' m s = Ok a s' /\ s_core s' = c'.
  Proof. intros E. unfold on_core', on_dyn, on_core, lift. unfold s_core in E. cbn. rewrite E. eexists. split; done. Qed.
  Lemma snap_fine τ c ev : fine τ c -> exists c', snap ev c = Ok tt c' /\ fine τ c' /\ k_store c' = k_store c.
  Proof. intros Hf. eexists. split; [done|]. split; done. Qed.
  Lemma pres_get {A} (R : simst D -> simst D -> Prop) (m : M (simst D) A) s a s' : pres R m -> m s = Ok a s' -> R s s'.
  Proof. intros Hm E. specialize (Hm s). by rewrite E in Hm. Qed.

  Lemma done_post t : pres (fun c c' : core D => k_done c' = k_done c) (post_step true tr t).
  Proof.
    assert (PreOrder (fun c c' : core D => k_done c' = k_done c)) as Hpo. { split; [by intros c|]. intros c1 c2 c3 E1 E2. congruence. }
    generalize tr. fix IH 1. intros [l|b k ch]; cbn [post_step].
    - intros c. unfold run_leaf. by destruct (run_prog _ _ _).
    - induction ch as [|x ch IHch]; [by apply pres_ret|]. cbn. apply pres_bnd; [done|apply IH|intros _; apply IHch].
  Qed.
  Lemma process_ok τ t s (b1 b2 : bool) : sound s -> fine τ (s_core s) -> has (s_core s) (fun x => if b1 then False else x ∈ zs) -> (b2 = true -> may_end nxt τ t) ->
    exists s', process_model g t b1 b2 s = Ok tt s' /\ sound s' /\ both g s s' /\ fine (if b2 then Some t else τ) (s_core s') /\ has (s_core s') (fun _ => True) /\ (g_mode g ≠ MFast -> forall l, l ∈ L -> l_id l ∈ k_done (s_core s')).
  Proof.
    intros Hso Hf Hh Ht.
    assert (exists s', process_model g t b1 b2 s = Ok tt s' /\ fine (if b2 then Some t else τ) (s_core s') /\ has (s_core s') (fun _ => True) /\ (g_mode g ≠ MFast -> forall l, l ∈ L -> l_id l ∈ k_done (s_core s'))) as (s' & E & Hf' & Hh').
    2:{ exists s'. assert (both g s s') as Hb. { eapply pres_get; [|exact E]. apply pres_both; [apply pres_process_model|apply vecs_process_model]. }
      split; [done|]. split; [by eapply sound_both|]. done. }
    unfold process_model. rewrite Hdbg.
    destruct (inputs_ok g K dv nxt y ins1 ins2 Hs τ t (s_core s) _ Hf Hh) as (c1 & E1 & Hf1 & Hh1).
    { intros x Hx Hz. destruct b1; [done|]. by eapply zs_inputs. }
    destruct (core_ok _ _ _ _ E1) as (s1 & F1 & C1). unfold bnd at 1. rewrite F1.
    assert (order_ok s1) as Ho1.
    { eapply (sound_both s s1); [|exact Hso]. eapply pres_get; [|exact F1]. apply pres_both; [apply pres_on_core', pres_inputs|apply vecs_on_dyn]. }
    assert (exists s2, (if b1 then on_core' (pre_step true tr t ;;; snap (EvBegin t)) else ret tt) s1 = Ok tt s2 /\ order_ok s2 /\ fine τ (s_core s2) /\ has (s_core s2) (fun x => x ∈ G)) as (s2 & F2 & Ho2 & Hf2 & Hh2).
    { assert (forall P, (forall x, P x <-> x ∈ ins1 ++ ins2 \/ x ∈ zs) -> forall c, has c P -> has c (fun x => x ∈ G)) as Hall.
      { intros P HP c Hc x Hx. rewrite (Hc x Hx), HP. unfold givens. rewrite !elem_of_app. tauto. }
      destruct b1.
      - destruct (pre_ok g K dv nxt y ins1 ins2 Hs τ t c1 _ Hf1 Hh1) as (c2 & E2 & Hf2 & Hh2).
        { intros x Hz [[]|Hx]. by eapply zs_inputs. }
        destruct (core_ok (pre_step true tr t ;;; snap (EvBegin t)) s1 tt (Core (k_store c2) (k_lst c2) (k_done c2) (k_log c2 ++ [EvBegin t (k_store c2) (members c2)]))) as (s2 & F2 & C2).
        { unfold bnd. by rewrite C1, E2. }
        exists s2. split; [done|]. split; [|rewrite C2; split; [done|]; eapply Hall; [|exact Hh2]; cbn; tauto].
        assert (pres (evo g) (on_core' (pre_step true tr t ;;; snap (EvBegin t)))) as Hpr.
        { pose proof (pres_on_core' g (pre_step (g_dbg g) tr t ;;; snap (EvBegin t)) (pres_pre_snap _ _ _ _)) as Hp. by rewrite Hdbg in Hp. }
        pose proof (pres_get _ _ _ _ _ Hpr F2) as He. unfold order_ok in *. destruct (g_mode g) eqn:Em; [done| |].
        + destruct Ho1 as [Hb Ho1]. split; [done|]. by apply (ev_ord _ _ _ He).
        + by rewrite (ev_fast _ _ _ He).
      - exists s1. split; [done|]. split; [done|]. rewrite C1. split; [done|]. eapply Hall; [|exact Hh1]. cbn. tauto. }
    unfold bnd at 1. rewrite F2. destruct (eval_ok τ t s2 Ho2 Hf2 Hh2) as (s3 & F3 & Hf3 & Hh3 & Hd3). unfold bnd at 1. rewrite F3.
    destruct (core_ok (snap (EvEval t)) s3 tt _ eq_refl) as (s4 & F4 & C4). unfold bnd at 1. rewrite F4.
    assert (fine τ (s_core s4) /\ has (s_core s4) (fun _ => True)) as [Hf4 Hh4] by (rewrite C4; done).
    assert (g_mode g ≠ MFast -> forall l, l ∈ L -> l_id l ∈ k_done (s_core s4)) as Hd4 by (rewrite C4; done).
    destruct b2; [|by exists s4].
    destruct (post_ok g K dv nxt y ins1 ins2 Hs τ t (s_core s4) Hf4 Hh4 (Ht eq_refl)) as (c5 & E5 & Hf5 & Hh5).
    destruct (core_ok (post_step true tr t ;;; snap (EvStep t)) s4 tt (Core (k_store c5) (k_lst c5) (k_done c5) (k_log c5 ++ [EvStep t (k_store c5) (members c5)]))) as (s5 & F5 & C5).
    { unfold bnd. by rewrite E5. }
    exists s5. split; [done|]. pose proof (done_post t (s_core s4)) as Hd5. rewrite E5 in Hd5. rewrite C5. cbn. by rewrite Hd5.
  Qed.

  Lemma clear_ok τ s : sound s -> fine τ (s_core s) ->
    exists s', clear_all s = Ok tt s' /\ sound s' /\ both g s s' /\ fine τ (s_core s') /\ has (s_core s') (fun _ => False).
  Proof.
    intros Hso Hf. destruct (clear_sigs (s_vsigs s) (s_store s) (pk_dom _ _ (proj1 Hso))) as (σ1 & E1 & Hfr1 & Hcl1).
    assert (clear_all s = Ok tt (put_dyn (Dyn (Core σ1 (k_lst (s_core s)) (k_done (s_core s)) (k_log (s_core s))) (d_sdone (s_dyn s))) s)) as Ec.
    { unfold clear_all, bnd, gets. by apply on_store_ok. }
    eexists. split; [exact Ec|].
    assert (both g s (put_dyn (Dyn (Core σ1 (k_lst (s_core s)) (k_done (s_core s)) (k_log (s_core s))) (d_sdone (s_dyn s))) s)) as Hb.
    { eapply pres_get; [|exact Ec]. apply pres_both; [apply pres_clear_all|apply vecs_clear_all]. }
    split; [by eapply sound_both|]. split; [done|]. split.
    - split; [exact (good_both _ _ Hb (proj1 Hf))|]. exact (proj2 Hf).
    - intros x Hx. split; [|done]. cbn. intros Ha. assert (x ∈ s_vsigs s) as Hv. { apply (pk_vsigs _ _ (proj1 Hso)). by apply (sn_linked _ _ _ _ _ _ _ Hs). }
      unfold assigned in Ha. pose proof (pk_dom _ _ (proj1 Hso) x Hv) as Hd. apply elem_of_dom in Hd as [c Hc]. rewrite (Hcl1 x c Hv Hc) in Ha. done.
  Qed.

  Lemma reset_ok' τ x s : sound s -> fine τ (s_core s) -> length x = length (s_sv s) ->
    exists s', reset_sv g x s = Ok tt s' /\ sound s' /\ both g s s' /\ fine τ (s_core s') /\ has (s_core s') (fun z => z ∈ zs).
  Proof.
    intros Hso Hf Hl. destruct (reset_ok g x s (proj1 Hso) Hl) as (s1 & E & _ & [Hs1 Hs2] & Hnone & _ & Hlst & _). exists s1. split; [done|].
    assert (both g s s1) as Hb. { eapply pres_get; [|exact E]. apply pres_both; [apply pres_reset_sv|apply vecs_reset_sv]. }
    pose proof (good_both _ _ Hb (proj1 Hf)) as Hg. pose proof (sound_both _ _ Hb Hso) as Hso1.
    split; [done|]. split; [done|]. split.
    - split; [done|]. intros l Hx. unfold lst_of. rewrite Hlst. by apply Hf.
    - intros z Hz. rewrite <- (state_is z s1 Hso1 Hg). split.
      + intros Ha. destruct (decide (z ∈ s_scal s1 ++ s_arr s1)) as [Hi|Hi]; [done|]. exfalso.
        destruct Hb as [He _]. rewrite (ev_scal _ _ _ He), (ev_arr _ _ _ He) in Hi.
        assert (value (s_store s1) z = None) as Hv. { apply Hnone; [|done]. apply (pk_vsigs _ _ (proj1 Hso)). by apply (sn_linked _ _ _ _ _ _ _ Hs). }
        apply value_not in Hv; [|done]. unfold s_store in Hv. congruence.
      + intros Hi. assert (value (s_store s1) z ≠ None) as Hv.
        { apply elem_of_app in Hi as [Hi|Hi]; [destruct (Hs1 z Hi) as [? ->]|destruct (Hs2 z Hi) as (? & -> & _)]; done. }
        destruct (assigned (k_store (s_core s1)) z) eqn:Ea; [done|]. destruct Hv. by apply value_not.
  Qed.

  Lemma begin_ok τ t s : sound s -> fine τ (s_core s) ->
    exists s', begin_step g t s = Ok tt s' /\ sound s' /\ both g s s' /\ fine τ (s_core s') /\ has (s_core s') (fun x => x ∈ G).
  Proof.
    intros Hso Hf.
    assert (exists s', begin_step g t s = Ok tt s' /\ fine τ (s_core s') /\ has (s_core s') (fun x => x ∈ G)) as (s' & E & Hf' & Hh').
    2:{ exists s'. assert (both g s s') as Hb. { eapply pres_get; [|exact E]. apply pres_both; [apply pres_begin_step|apply vecs_begin_step]. }
      split; [done|]. split; [by eapply sound_both|]. done. }
    unfold begin_step. rewrite Hdbg. destruct (clear_ok τ s Hso Hf) as (s0 & F0 & Hso0 & _ & Hf0 & Hh0). unfold bnd at 1. rewrite F0.
    destruct (inputs_ok g K dv nxt y ins1 ins2 Hs τ t (s_core s0) _ Hf0 Hh0) as (c1 & E1 & Hf1 & Hh1); [by intros ? ? []|].
    destruct (core_ok _ _ _ _ E1) as (s1 & F1 & C1). unfold bnd at 1. rewrite F1.
    destruct (pre_ok g K dv nxt y ins1 ins2 Hs τ t c1 _ Hf1 Hh1) as (c2 & E2 & Hf2 & Hh2).
    { intros x Hz [[]|Hx]. by eapply zs_inputs. }
    destruct (core_ok (pre_step true tr t ;;; snap (EvBegin t)) s1 tt (Core (k_store c2) (k_lst c2) (k_done c2) (k_log c2 ++ [EvBegin t (k_store c2) (members c2)]))) as (s2 & F2 & C2).
    { unfold bnd. by rewrite C1, E2. }
    exists s2. split; [done|]. rewrite C2. split; [done|]. intros x Hx. cbn. rewrite (Hh2 x Hx). unfold givens. rewrite !elem_of_app. tauto.
  Qed.

  (** Reading the states and their derivatives. *)
  Lemma value_kind (s : simst D) z k : good K dv (s_store s) -> assigned (s_store s) z = true -> K z = Some k -> exists v, value (s_store s) z = Some v /\ fits k v.
  Proof. intros Hg Ha Hk. by apply (good_value K dv). Qed.
  Lemma scal_kind (s : simst D) z : sound s -> good K dv (s_store s) -> z ∈ s_scal s -> K z = Some KScalar.
  Proof. intros [Hp _] (_ & HK & _) Hz. destruct (pk_scal _ _ Hp z Hz) as (c & Hc & Hk). rewrite <- (HK z). unfold kind_in. by rewrite Hc; cbn; rewrite Hk. Qed.
  Lemma arr_kind (s : simst D) z : sound s -> good K dv (s_store s) -> z ∈ s_arr s -> K z = Some (KArray (sig_size (s_store s) z)).
  Proof. intros [Hp _] (_ & HK & _) Hz. destruct (pk_arr _ _ Hp z Hz) as (c & n & Hc & Hk). rewrite <- (HK z). unfold kind_in, sig_size. by rewrite Hc; cbn; rewrite Hk. Qed.
  Lemma states_ok s : sound s -> good K dv (s_store s) -> (forall z, z ∈ zs -> assigned (s_store s) z = true) -> states_set s.
  Proof.
    intros Hso Hg Ha. split; intros z Hz.
    - destruct (value_kind s z KScalar Hg) as (v & Hv & Hk & _); [apply Ha, (state_is z s Hso Hg), elem_of_app; by left|by eapply scal_kind|]. destruct v; try done. by eexists.
    - destruct (value_kind s z (KArray (sig_size (s_store s) z)) Hg) as (v & Hv & Hk & Hsz); [apply Ha, (state_is z s Hso Hg), elem_of_app; by right|by eapply arr_kind|]. destruct v; try done.
      eexists. split; [done|]. cbn in Hsz. by apply Nat.eqb_eq in Hsz.
  Qed.
  Lemma get_ok' τ s o : sound s -> fine τ (s_core s) -> has (s_core s) (fun x => x ∈ G) -> length o = length (s_sv s) ->
    exists x, get_sv g o s = Ok x s /\ length x = length (s_sv s).
  Proof.
    intros Hso Hf Hh Hl. assert (states_set s) as Hst.
    { apply states_ok; [done|apply Hf|]. intros z Hz. apply Hh; [by apply in_given, zs_given|by apply zs_given]. }
    eexists. split; [apply (get_sv_ok g o s); [apply Hso|done|done]|]. apply (pack_len g s); [apply Hso|done].
  Qed.

  Lemma deriv_scal (s : simst D) zz : good K dv (s_store s) -> (forall z, z ∈ zz -> exists d, dv z = Some d /\ assigned (s_store s) d = true /\ K d = Some KScalar) ->
    exists x, collect (deriv_of (get_scalar g)) zz (s_store s) = Ok x (s_store s) /\ length x = length zz.
  Proof.
    intros Hg. induction zz as [|z zz IH]; intros Hz; [by exists []|].
    destruct IH as (x & E & Hl); [intros z' Hz'; apply Hz; by apply elem_of_list_further|]. destruct (Hz z) as (d & Hd & Ha & Hk); [apply elem_of_list_here|].
    destruct (value_kind s d KScalar Hg Ha Hk) as (v & Hv & Hk1 & _). destruct v as [a| | |]; try done.
    exists (a :: x). split; [|cbn; by rewrite Hl]. cbn [collect]. unfold bnd at 1. unfold deriv_of at 1, bnd at 1, gets at 1.
    pose proof (proj2 (proj2 Hg) z) as Hdz. unfold deriv_in in Hdz. rewrite Hdz, Hd. unfold get_scalar at 1, bnd at 1. rewrite Hdbg.
    rewrite (get_value_avail _ _ _ (proj1 Hg) Hv). cbn. unfold bnd. by rewrite E.
  Qed.
  Lemma deriv_arr (s : simst D) zz : good K dv (s_store s) -> (forall z, z ∈ zz -> exists d, dv z = Some d /\ assigned (s_store s) d = true /\ K d = Some (KArray (sig_size (s_store s) z))) ->
    exists x, collect (deriv_of (get_array g)) zz (s_store s) = Ok x (s_store s) /\ length x = width (s_store s) zz.
  Proof.
    intros Hg. induction zz as [|z zz IH]; intros Hz; [by exists []|].
    destruct IH as (x & E & Hl); [intros z' Hz'; apply Hz; by apply elem_of_list_further|]. destruct (Hz z) as (d & Hd & Ha & Hk); [apply elem_of_list_here|].
    destruct (value_kind s d _ Hg Ha Hk) as (v & Hv & Hk1 & Hk2). destruct v as [| | |a]; try done. cbn in Hk2. apply Nat.eqb_eq in Hk2.
    assert (sig_size (s_store s) d = sig_size (s_store s) z) as Hsd.
    { pose proof (proj1 (proj2 Hg) d) as Hkd. rewrite Hk in Hkd. unfold kind_in in Hkd. unfold sig_size at 1. destruct (s_store s !! d) as [c|]; [|done]. cbn in Hkd. by injection Hkd as ->. }
    exists (a ++ x). split; [|unfold width in *; cbn; rewrite app_length, Hl, Hk2; done]. cbn [collect]. unfold bnd at 1. unfold deriv_of at 1, bnd at 1, gets at 1.
    pose proof (proj2 (proj2 Hg) z) as Hdz. unfold deriv_in in Hdz. rewrite Hdz, Hd. unfold get_array at 1, bnd at 1, gets at 1. unfold bnd at 1. rewrite Hdbg.
    rewrite (get_value_avail _ _ _ (proj1 Hg) Hv). rewrite Hsd, Hk2, Nat.eqb_refl. cbn. unfold bnd. by rewrite E.
  Qed.

  Lemma minor_ok τ t x s : sound s -> fine τ (s_core s) -> length x = length (s_sv s) ->
    exists r s', minor_cb g t x s = Ok r s' /\ sound s' /\ both g s s' /\ fine τ (s_core s') /\ length r = length (s_sv s).
  Proof.
    intros Hso Hf Hl.
    assert (exists r s', minor_cb g t x s = Ok r s' /\ fine τ (s_core s') /\ length r = length (s_sv s)) as (r & s' & E & Hf' & Hr).
    2:{ exists r, s'. assert (both g s s') as Hb. { eapply pres_get; [|exact E]. apply pres_both; [apply pres_minor_cb|apply vecs_minor_cb]. }
      split; [done|]. split; [by eapply sound_both|]. done. }
    unfold minor_cb. destruct (reset_ok' τ x s Hso Hf Hl) as (s1 & F1 & Hso1 & Hb1 & Hf1 & Hh1). unfold bnd at 1. rewrite F1.
    destruct (process_ok τ t s1 false false Hso1 Hf1 Hh1) as (s2 & F2 & Hso2 & Hb2 & Hf2 & Hh2); [done|]. unfold bnd at 1. rewrite F2.
    unfold bnd at 1, gets at 1. unfold bnd at 1, gets at 1.
    assert (forall z, z ∈ s_scal s2 ++ s_arr s2 -> exists d, dv z = Some d /\ assigned (s_store s2) d = true /\ K d = K z) as Hder.
    { intros z Hz. apply (state_is z s2 Hso2 (proj1 Hf2)) in Hz. apply (sn_states _ _ _ _ _ _ _ Hs z) in Hz as (Hlz & [d Hd] & _).
      destruct (sn_deriv _ _ _ _ _ _ _ Hs z d Hlz Hd) as [Hm Hk]. exists d. split; [done|]. split; [|done]. by apply Hh2. }
    destruct (deriv_scal s2 (s_scal s2) (proj1 Hf2)) as (x1 & E1 & L1).
    { intros z Hz. destruct (Hder z) as (d & Hd & Ha & Hk); [apply elem_of_app; by left|]. exists d. rewrite Hk. split; [done|]. split; [done|]. eapply scal_kind; [exact Hso2|apply Hf2|done]. }
    destruct (deriv_arr s2 (s_arr s2) (proj1 Hf2)) as (x2 & E2 & L2).
    { intros z Hz. destruct (Hder z) as (d & Hd & Ha & Hk); [apply elem_of_app; by right|]. exists d. rewrite Hk. split; [done|]. split; [done|]. eapply arr_kind; [exact Hso2|apply Hf2|done]. }
    unfold bnd at 1. erewrite on_store_ok; [|unfold bnd at 1; rewrite E1; unfold bnd; rewrite E2; reflexivity].
    unfold bnd at 1, gets at 1. cbn [s_dv put_dyn].
    assert (length (x1 ++ x2) = length (s_dv s2)) as Hlen.
    { rewrite app_length, L1, L2, (pk_dv _ _ (proj1 Hso2)), width_app, (width_scal _ _ (pk_scal _ _ (proj1 Hso2))). done. }
    rewrite write_all by done. eexists _, _. split; [reflexivity|]. split; [exact Hf2|]. rewrite Hlen, (pk_dv _ _ (proj1 Hso2)), <- (pk_sv _ _ (proj1 Hso2)).
    destruct Hb1 as [_ (V1 & _)], Hb2 as [_ (V2 & _)]. by rewrite V2, V1.
  Qed.
End sim.
