(** Initialising a FastSimulator and a Simulator. *)
From stdpp Require Import prelude gmap.
From Coq Require Import ZArith.
From Verif Require Import Num Res Store Leaf Sched Stepper Sim World Api SpecSched P_Store P_Prog P_Modes P_Conf P_Sched P_Eval P_Lib P_Fast P_Sim P_Evolve
  SpecSim P_Simulated P_World P_Compile P_Rel P_Rel2 Props_Sched Props_Sched2 Props_Sched3 SpecHist P_Trace SpecRun P_Log P_Pack P_Repeat SpecAgain P_Over P_Redo P_Both.
Local Open Scope num_scope.

(** Everything but the model and the orders. *)
Definition static {D} (s s' : simst D) : Prop :=
  s_tprev s' = s_tprev s /\ s_vsigs s' = s_vsigs s /\ s_scal s' = s_scal s /\ s_arr s' = s_arr s /\
  s_sv s' = s_sv s /\ s_svo s' = s_svo s /\ s_dv s' = s_dv s /\ s_init s' = s_init s.
Section static.
  Context {D : Type} `{NumOps D}.
  Global Instance static_pre : PreOrder (@static D).
  Proof. split; [done|]. intros s1 s2 s3 (? & ? & ? & ? & ? & ? & ? & ?) (? & ? & ? & ? & ? & ? & ? & ?). split_and!; congruence. Qed.
  Lemma static_sym (s s' : simst D) : static s s' -> static s' s.
  Proof. intros (? & ? & ? & ? & ? & ? & ? & ?). split_and!; congruence. Qed.
  Lemma static_on_dyn {A} (m : M (dyn D) A) : pres static (on_dyn m).
  Proof. intros s. unfold on_dyn, lift. by destruct (m _). Qed.
  Lemma static_on_core {A} (m : M (core D) A) : pres static (on_core' m).
  Proof. apply static_on_dyn. Qed.
  Lemma static_clear : pres static (clear_all (D:=D)).
  Proof. unfold clear_all. apply pres_bnd; [apply _|apply pres_gets, _|intros vs]. apply static_on_core. Qed.
  Lemma static_eval (g : cfg D) t : pres static (eval_model g t).
  Proof.
    unfold eval_model. destruct (g_mode g).
    - apply pres_bnd; [apply _|apply static_on_dyn|intros _; apply static_on_dyn].
    - apply pres_bnd; [apply _|apply static_on_dyn|intros _]. apply pres_bnd; [apply _|apply pres_gets, _|intros [[]|]]; [| |apply pres_undef].
      all: apply pres_bnd; [apply _|apply pres_gets, _|intros po]; apply pres_bnd; [apply _|apply static_on_dyn|intros po']; by apply pres_modify.
    - apply pres_bnd; [apply _|apply pres_gets, _|intros o; apply static_on_core].
  Qed.
  Lemma static_process (g : cfg D) t b1 b2 : pres static (process_model g t b1 b2).
  Proof.
    unfold process_model. apply pres_bnd; [apply _|apply static_on_core|intros _].
    apply pres_bnd; [apply _|apply pres_if; [apply static_on_core|apply pres_ret, _]|intros _].
    apply pres_bnd; [apply _|apply static_eval|intros _]. apply pres_bnd; [apply _|apply static_on_core|intros _].
    apply pres_if; [apply static_on_core|apply pres_ret, _].
  Qed.
  Lemma static_search_tail (g : cfg D) t : pres static (on_core' (snap (EvEval t)) ;;; clear_all ;;; process_model g t true true).
  Proof.
    apply pres_bnd; [apply _|apply static_on_core|intros _]. apply pres_bnd; [apply _|apply static_clear|intros _; apply static_process].
  Qed.
End static.

Lemma on_core_ok {D A} (m : M (core D) A) (s : simst D) a s' : on_core' m s = Ok a s' -> m (s_core s) = Ok a (s_core s').
Proof. unfold on_core', on_dyn, on_core, lift, s_core. destruct (m _); try done. by intros [= <- <-]. Qed.
Lemma on_core_vsigs {D A} (m : M (core D) A) (s : simst D) a s' : on_core' m s = Ok a s' -> s_vsigs s' = s_vsigs s /\ s_fast s' = s_fast s.
Proof. unfold on_core', on_dyn, on_core, lift, s_core. destruct (m _); try done. by intros [= <- <-]. Qed.

Section init.
  Context {D : Type} `{NumOps D} (g : cfg D) (Hw : wf_tree (g_tree g)) (Hg : g_dbg g = true).
  Context (Hst : forall l, l ∈ leaves (g_tree g) -> steady_class l).
  Notation gd := (with_mode MDefault g).
  Notation gf := (with_mode MFast g).
  Lemma base_cleared t s x : base_init g t s = Ok tt x -> forall z, z ∈ s_vsigs x -> assigned (s_store x) z = false.
  Proof.
    unfold base_init, bnd, modify. destruct (clear_all _) as [[] y| | |] eqn:E; try done. intros [= <-]. cbn.
    apply clear_inv in E as (Ev & _ & _ & Hc). rewrite Ev. intros z Hz. destruct (Hc z Hz) as (c & _ & E). unfold assigned, s_store, s_core in *. cbn. by rewrite E.
  Qed.
  Lemma process_default t x s' : process_model gd t true true x = Ok tt s' ->
    exists x2 x3 d1 c4 c4', on_core' (inputs g t) x = Ok tt x2 /\ on_core' (pre_step true (g_tree g) t ;;; snap (EvBegin t)) x2 = Ok tt x3 /\
      evaluate true (g_tree g) t (s_dyn x3) = Ok tt d1 /\ same_state (d_core d1) c4 /\ post_step true (g_tree g) t c4 = Ok tt c4' /\ same_state c4' (s_core s').
  Proof.
    unfold process_model. cbn [g_dbg g_tree with_mode]. rewrite Hg. change (inputs gd t) with (inputs g t).
    unfold bnd at 1. destruct (on_core' (inputs g t) x) as [[] x2| | |] eqn:E2; try done.
    unfold bnd at 1. destruct (on_core' _ x2) as [[] x3| | |] eqn:E3; try done.
    unfold bnd at 1. rewrite eval_default by done. cbn [g_dbg g_tree with_mode]. rewrite Hg.
    destruct (evaluate true (g_tree g) t (s_dyn x3)) as [[] d1| | |] eqn:E4; try done.
    unfold bnd at 1. destruct (on_core' (snap (EvEval t)) _) as [[] x5| | |] eqn:E5; try done. intros E6.
    apply on_core_ok in E5, E6. unfold bnd in E6. destruct (post_step true (g_tree g) t (s_core x5)) as [[] c6| | |] eqn:E7; try done.
    exists x2, x3, d1, (s_core x5), c6. split_and!; try done.
    - unfold snap, modify in E5. by injection E5 as <-.
    - unfold snap, modify in E6. by injection E6 as <-.
  Qed.
  Lemma process_fast t x s' : process_model gf t true true x = Ok tt s' ->
    exists c2 c3 c3' c4 c4' c5, inputs g t (s_core x) = Ok tt c2 /\ pre_step true (g_tree g) t c2 = Ok tt c3 /\ same_state c3 c3' /\
      acts true t (concat (s_fast x)) c3' = Ok tt c4 /\ same_state c4 c4' /\ post_step true (g_tree g) t c4' = Ok tt c5 /\ same_state c5 (s_core s').
  Proof.
    unfold process_model. cbn [g_dbg g_tree with_mode]. rewrite Hg. change (inputs gf t) with (inputs g t).
    unfold bnd at 1. destruct (on_core' (inputs g t) x) as [[] x2| | |] eqn:E2; try done.
    unfold bnd at 1. destruct (on_core' _ x2) as [[] x3| | |] eqn:E3; try done.
    unfold bnd at 1. unfold eval_model. cbn [g_mode with_mode g_dbg]. rewrite Hg. unfold bnd at 1, gets at 1.
    destruct (on_core' (fast_eval true (s_fast x3) t) x3) as [[] x4| | |] eqn:E4; try done.
    unfold bnd at 1. destruct (on_core' (snap (EvEval t)) _) as [[] x5| | |] eqn:E5; try done. intros E6.
    destruct (on_core_vsigs _ _ _ _ E2) as [_ F2]. destruct (on_core_vsigs _ _ _ _ E3) as [_ F3].
    apply on_core_ok in E2, E3, E4, E5, E6. rewrite fast_eval_acts, F3, F2 in E4.
    unfold bnd in E3. destruct (pre_step true (g_tree g) t (s_core x2)) as [[] c3| | |] eqn:E3'; try done.
    unfold bnd in E6. destruct (post_step true (g_tree g) t (s_core x5)) as [[] c6| | |] eqn:E7; try done.
    exists (s_core x2), c3, (s_core x3), (s_core x4), (s_core x5), c6. split_and!; try done.
    - unfold snap, modify in E3. by injection E3 as <-.
    - unfold snap, modify in E5. by injection E5 as <-.
    - unfold snap, modify in E6. by injection E6 as <-.
  Qed.
  Lemma base_static t s x x' : base_init gd t s = Ok tt x -> base_init gf t s = Ok tt x' -> x' = x.
  Proof. change (base_init gf t s) with (base_init gd t s). congruence. Qed.
  Lemma search_run t s s2 : s_fast s = [] -> search gf t s = Ok tt s2 ->
    exists s1, setup gf t s = Ok tt s1 /\ concat (s_fast s2) ≡ₚ leaves (g_tree g) /\ legal_run true t (s_core s1) (concat (s_fast s2)) (s_core s2) /\
      dyn_evo true (s_dyn s) (s_dyn s1).
  Proof.
    intros Hf E. rewrite search_setup in E by done. unfold bnd at 1 in E. destruct (setup gf t s) as [[] s1| | |] eqn:Hs; try done.
    apply setup_spec in Hs as (Hk & Hf1 & Hev). cbn [g_dbg with_mode] in Hev. unfold bnd, on_core', on_dyn, on_core, lift in E. cbn [g_dbg g_tree with_mode] in E. rewrite Hg in E, Hev.
    pose proof (fast_schedule_spec true t (leaves (g_tree g)) (s_core s1) (wf_leaves _ Hw)) as Hfs. unfold s_core in Hfs.
    destruct (fast_schedule true (leaves (g_tree g)) t (d_core (s_dyn s1))) as [[o n] c'|e c'|u|] eqn:Es; try done.
    cbn in E. unfold verify in E. destruct (Nat.eqb_spec n (length (leaves (g_tree g)))) as [Hn|Hn]; [|done].
    injection E as <-. cbn. rewrite Hf1, Hf. cbn. exists s1. split; [done|].
    destruct Hfs as (Hr & Hin & _ & _). split; [eapply fast_complete; [by apply wf_leaves|exact Es|done]|]. by split.
  Qed.
  Lemma both_init t s sd sf : s_fast s = [] -> store_ok (s_store s) ->
    (forall l, l ∈ leaves (g_tree g) -> local (dom (s_store s)) l) ->
    init gd t s = Ok tt sd -> init gf t s = Ok tt sf -> same_state (s_core sd) (s_core sf) /\ static sd sf.
  Proof.
    intros Hf Hok Hloc Hid Hif.
    unfold init in Hid. cbn [g_mode with_mode] in Hid. unfold simulator_init in Hid. unfold bnd at 1 in Hid. change (base_init gd t s) with (base_init g t s) in Hid.
    destruct (base_init g t s) as [[] x| | |] eqn:Eb; try done. unfold bnd at 1, gets at 1 in Hid. cbn [g_mode with_mode] in Hid. unfold bnd at 1, ret at 1 in Hid.
    rewrite C23_init in Hif by done. unfold bnd at 1 in Hif. destruct (search gf t s) as [[] s2| | |] eqn:Es; try done.
    pose proof (static_process gd t true true x) as St1. rewrite Hid in St1. pose proof (static_search_tail gf t s2) as St2. rewrite Hif in St2.
    assert (static x s2) as St3.
    { revert Es. unfold search. unfold bnd at 1. change (base_init gf t s) with (base_init g t s). rewrite Eb. 
      match goal with |- ?m x = _ -> _ => assert (pres static m) as Hp end.
      { apply pres_bnd; [apply _|apply pres_gets, _|intros o]. apply pres_bnd; [apply _|apply pres_debug, _|intros _].
        apply pres_bnd; [apply _|apply static_on_core|intros _]. apply pres_bnd; [apply _|apply static_on_core|intros _].
        apply pres_bnd; [apply _|apply static_on_core|intros r]. apply pres_bnd; [apply _|by apply pres_modify|intros _]. apply pres_verify, _. }
      intros E. specialize (Hp x). by rewrite E in Hp. }
    split; [|etrans; [by apply static_sym|]; etrans; [exact St3|exact St2]].
    destruct (process_default t x sd Hid) as (x2 & x3 & d1 & c4 & c4' & E2 & E3 & E4 & S4 & E5 & S5).
    destruct (search_run t s s2 Hf Es) as (s1 & Esu & Hall & Hr & Hv). unfold setup in Esu. cbn [g_dbg g_tree with_mode] in Esu. rewrite Hg in Esu.
    change (base_init gf t) with (base_init g t) in Esu. change (inputs gf t) with (inputs g t) in Esu. unfold bnd at 1 in Esu. rewrite Eb in Esu.
    unfold bnd at 1 in Esu. rewrite E2, E3 in Esu. injection Esu as <-.
    unfold bnd at 1 in Hif. destruct (on_core' (snap (EvEval t)) s2) as [[] s2'| | |] eqn:Esn; try done.
    unfold bnd at 1 in Hif. destruct (clear_all s2') as [[] y| | |] eqn:Ec; try done.
    destruct (on_core_vsigs _ _ _ _ Esn) as [Vn Fn]. apply on_core_ok in Esn. assert (same_state (s_core s2) (s_core s2')) as Ss2.
    { unfold snap, modify in Esn. by injection Esn as <-. }
    assert (s_fast y = s_fast s2') as Fy. { revert Ec. unfold clear_all, bnd, gets. intros Ec. by destruct (on_core_vsigs _ _ _ _ Ec). }
    apply clear_inv in Ec as (Vy & Ly & Fr & Cl).
    destruct (process_fast t y sf Hif) as (q2 & q3 & q3' & q4 & q4' & q5 & P2 & P3 & T3 & P4 & T4 & P5 & T5).
    rewrite Fy, Fn in P4.
    pose proof (on_core_ok _ _ _ _ E2) as K2. pose proof (on_core_ok _ _ _ _ E3) as K3. unfold bnd in K3.
    destruct (pre_step true (g_tree g) t (s_core x2)) as [[] k3| | |] eqn:K3'; try done.
    assert (same_state k3 (s_core x3)) as S3 by (unfold snap, modify in K3; by injection K3 as <-).
    destruct (legal_acts _ _ _ _ _ Hr) as (k4 & A4 & T4').
    destruct (acts_same true t _ _ k3 k4 (same_state_sym _ _ S3) A4) as (k4' & A4' & T4'').
    destruct (acts_same true t _ _ q3 q4 (same_state_sym _ _ T3) P4) as (q4'' & P4' & T4q).
    assert (same_state k4' (s_core s2)) as Sk.
    { eapply same_state_trans; [apply same_state_sym, T4''|exact T4']. }
    assert (same_state (s_core s2) (d_core d1)) as Sd.
    { eapply (default_first (g_tree g) t (s_dyn x3) d1 _ _ Hw); [| |exact Hr|exact Hall|exact E4].
      - by apply (sh_ok _ _ _ (proj1 Hv)).
      - unfold dyn_evo in Hv. rewrite (shape_dom _ _ _ (proj1 Hv)). exact Hloc. }
    eapply same_state_trans; [apply same_state_sym, S5|]. eapply same_state_trans; [|exact T5].
    assert (forall z, z ∈ s_vsigs y -> assigned (s_store x) z = false) as Hcl0.
    { rewrite Vy, Vn. intros z Hz. eapply base_cleared; [exact Eb|]. destruct St3 as (? & ? & ? & ? & ? & ? & ? & ?). congruence. }
    eapply (twice_same g t Hw Hg Hst (s_vsigs y) (concat (s_fast s2)) Hall (s_core x) (s_core x2) k3 k4' (s_core y) q2 q3 q4'') with (cd := c4) (c6 := q4'); try eassumption.
    - intros b. unfold lst_of. rewrite Ly. destruct Ss2 as [_ Ss2], Sk as [_ Sk]. unfold lst_of in Ss2, Sk. by rewrite <- Ss2, <- Sk.
    - intros z Hz. destruct Ss2 as [Ss2 _], Sk as [Sk _]. rewrite Vy in Hz. rewrite Sk, Ss2. by apply Fr.
    - intros z Hz. destruct Ss2 as [Ss2 _], Sk as [Sk _]. rewrite Vy in Hz. rewrite Sk, Ss2. by apply Cl.
    - eapply same_state_trans; [exact Sk|]. eapply same_state_trans; [exact Sd|exact S4].
    - eapply same_state_trans; [apply same_state_sym, T4q|exact T4].
  Qed.
End init.
