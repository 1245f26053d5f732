(** Invariants of every simulation. *)
From stdpp Require Import prelude gmap.
From Coq Require Import ZArith.
From Verif Require Import Num Res Store Leaf Sched Stepper Sim SpecSched P_Store P_Prog P_Modes P_Conf P_Eval P_Sim P_Evolve SpecSim
  World Api P_World P_Compile SpecBlock P_Lib.

Section simulated.
  Context {D : Type} `{NumOps D}.

  Lemma simulated_cfg dbg d0 g (s : simst D) : simulated dbg d0 g s ->
    g_dbg g = dbg /\ forall stp, g_stepper g = Some stp -> stepper_ok stp.
  Proof. induction 1; done. Qed.
  Lemma simulated_evo dbg d0 g (s : simst D) : simulated dbg d0 g s -> dyn_evo dbg d0 (s_dyn s).
  Proof.
    induction 1 as [g Hg Hs|g0 s0 g Hsm IH Hg Hs|g s t s' Hsm IH Hl|g s fuel t lo hi s' Hsm IH Hl].
    - reflexivity.
    - exact IH.
    - destruct (simulated_cfg _ _ _ _ Hsm) as [Hg Hs]. pose proof (pres_init g t s) as Hp. unfold sim_evo in Hp. rewrite Hg in Hp.
      destruct (init g t s); try done; cbn in Hl; subst s'; (etrans; [exact IH|exact Hp]).
    - destruct (simulated_cfg _ _ _ _ Hsm) as [Hg Hs]. pose proof (pres_run g Hs fuel t lo hi s) as Hp. unfold sim_evo in Hp. rewrite Hg in Hp.
      destruct (run g fuel t lo hi s); try done; cbn in Hl; subst s'; (etrans; [exact IH|exact Hp]).
  Qed.


  (** With reuse_order, the remembered order stays a permutation of the blocks. *)
  Definition order_inv (g : cfg D) (s : simst D) : Prop :=
    g_mode g = MReuse -> s_cur s = None /\ s_po1 s = [] /\ s_po2 s = [] \/ ordered g s.
  Definition order_rel (g : cfg D) (s s' : simst D) : Prop := order_inv g s -> order_inv g s'.
  Local Instance order_rel_pre g : PreOrder (order_rel g).
  Proof. split; [intros s Hi; exact Hi|]. intros s1 s2 s3 H1 H2 H3. auto. Qed.
  Context (g : cfg D) (Hw : wf_tree (g_tree g)) (Hg : g_dbg g = true) (Hs : forall stp, g_stepper g = Some stp -> stepper_ok stp).
  Lemma order_evo {A} (m : M (simst D) A) : pres (evo g) m -> pres (order_rel g) m.
  Proof.
    intros Hm s. specialize (Hm s).
    destruct (m s) as [a s'|e s'|u|]; try done; intros Hi Hmd; (destruct (Hi Hmd) as [(Hc & H1 & H2)|Ho];
      [left; destruct (ev_none _ _ _ Hm Hmd Hc) as (? & ? & ?); split_and!; congruence|right; by eapply ev_ord]).
  Qed.
  Lemma order_modify f : (forall s, s_cur (f s) = s_cur s /\ s_po1 (f s) = s_po1 s /\ s_po2 (f s) = s_po2 s) -> pres (order_rel g) (modify f).
  Proof.
    intros Hf. apply pres_modify. intros s Hi Hm. destruct (Hf s) as (H1 & H2 & H3).
    destruct (Hi Hm) as [(?&?&?)|Ho]; [left; split_and!; congruence|right].
    unfold ordered, remembered in *. by rewrite Hm, H1, H2, H3 in *.
  Qed.
  Lemma order_base_init t : pres (order_rel g) (base_init g t).
  Proof.
    unfold base_init. apply pres_bnd; [apply _|by apply order_modify|intros _].
    apply pres_bnd; [apply _|apply order_evo, pres_clear_all|intros _]. by apply order_modify.
  Qed.
  Lemma order_init t : pres (order_rel g) (init g t).
  Proof.
    unfold init. destruct (g_mode g) eqn:Em.
    { intros s. destruct (simulator_init g t s); try done; intros _ Hm; congruence. }
    2:{ intros s. destruct (fast_init g t s); try done; intros _ Hm; congruence. }
    unfold simulator_init. rewrite Em. apply pres_bnd; [apply _|apply order_base_init|intros _].
    apply pres_bnd; [apply _|apply pres_gets, _|intros n].
    apply pres_bnd; [apply _| |intros _; apply order_evo, pres_process_model].
    destruct n; [apply pres_ret, _|]. rewrite Hg. intros s. unfold bnd, gets, debug_verify, verify, ret, throw, modify.
    destruct (s_po1 s) as [|n1 p1] eqn:E1; [|done]. destruct (s_po2 s) eqn:E2; [|done].
    intros Hi _. right. unfold ordered, remembered. rewrite Em. cbn. exists (nodes (g_tree g)). split; [by rewrite E1|]. by apply covers_perm.
  Qed.
  Lemma order_run fuel t lo hi : pres (order_rel g) (run g fuel t lo hi).
  Proof.
    unfold run. apply pres_bnd; [apply _|apply pres_gets, _|intros ini]. apply pres_if; [apply order_init|].
    apply pres_bnd; [apply _|apply pres_gets, _|intros n]. apply pres_bnd; [apply _|apply pres_gets, _|intros tp].
    apply pres_bnd; [apply _| |intros _].
    { destruct n; [apply pres_ret, _|]. apply pres_if; [apply pres_throw, _|]. apply pres_if.
      - apply pres_bnd; [apply _|apply order_evo, pres_begin_step|intros _].
        apply pres_bnd; [apply _|apply pres_gets, _|intros o]. apply pres_bnd; [apply _|apply order_evo, pres_get_sv|intros x].
        by apply order_modify.
      - apply pres_bnd; [apply _|apply pres_debug, _|intros _]. apply pres_bnd; [apply _|apply pres_debug, _|intros _].
        apply pres_bnd; [apply _|apply pres_debug, _|intros _]. by apply order_evo, pres_run_loop. }
    apply pres_bnd; [apply _|apply pres_gets, _|intros sv]. apply pres_bnd; [apply _|apply order_evo, pres_reset_sv|intros _].
    apply pres_bnd; [apply _|apply order_evo, pres_process_model|intros _]. by apply order_modify.
  Qed.
End simulated.

Section reach.
  Context {D : Type} `{NumOps D}.
  Lemma simulated_order d0 g (s : simst D) : simulated true d0 g s -> wf_tree (g_tree g) -> order_inv g s.
  Proof.
    induction 1 as [g Hg Hs|g0 s0 g Hsm IH Hg Hs|g s t s' Hsm IH Hl|g s fuel t lo hi s' Hsm IH Hl]; intros Hw.
    - intros _. by left.
    - intros _. by left.
    - destruct (simulated_cfg _ _ _ _ Hsm) as [Hg Hs]. specialize (IH Hw). pose proof (order_init g Hw Hg t s) as Hp.
      destruct (init g t s); try done; cbn in Hl; subst s'; by apply Hp.
    - destruct (simulated_cfg _ _ _ _ Hsm) as [Hg Hs]. specialize (IH Hw). pose proof (order_run g Hw Hg Hs fuel t lo hi s) as Hp.
      destruct (run g fuel t lo hi s); try done; cbn in Hl; subst s'; by apply Hp.
  Qed.

  (** ** Models of reachable worlds *)
  Context (dbg : bool) (w : world D) (Hr : wreach dbg w) (b : nat) (tr : tree D) (Hc : compile_model w b = Some tr).
  Lemma reach_wf : wf_tree tr.
  Proof. eapply compile_wf; [apply (ok_tree _ (reach_ok _ _ Hr))|exact Hc]. Qed.
  Lemma reach_dom dbg' d : dyn_evo dbg' (initial_dyn w) d -> dom (k_store (d_core d)) = dom (initial_store w).
  Proof. intros [Hs _]. apply shape_dom in Hs. exact Hs. Qed.
  Lemma reach_store_ok d : dyn_evo true (initial_dyn w) d -> store_ok (k_store (d_core d)).
  Proof. intros [Hs _]. apply sh_ok in Hs; [done..|]. apply initial_ok. Qed.
  Lemma reach_local dbg' d l : dyn_evo dbg' (initial_dyn w) d -> l ∈ leaves tr -> user_reads (dom (initial_store w)) l ->
    local (dom (k_store (d_core d))) l.
  Proof.
    intros Hd Hl Hu. rewrite (reach_dom _ _ Hd). eapply compile_local; [by eapply reach_ok|exact Hc|done|done].
  Qed.
End reach.
