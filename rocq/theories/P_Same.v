(** A well-built model: the result of an evaluation does not depend on the order. *)
From stdpp Require Import prelude gmap strings.
From Coq Require Import ZArith.
From Verif Require Import Num Res Store Leaf Sched Stepper Sim SpecSched P_Store P_Prog P_Sched P_Modes P_Conf P_Eval P_Fast P_Sim P_Evolve P_Log P_Pack SpecGoes P_Goes P_Goes2.
Local Open Scope nat_scope.

(** A program of which [goes] holds does the same wherever it reads the same. *)
Lemma goes_ceval {D A} (K : nat -> option kind) (p : prog D A) (R : nat -> Prop) os (Q : A -> Prop) (ρ1 ρ2 : nat -> option (val D)) a1 ws1 a2 ws2 :
  goes K R os Q p -> ceval ρ1 p = Some (a1, ws1) -> ceval ρ2 p = Some (a2, ws2) -> (forall s, R s -> ρ1 s = ρ2 s) ->
  (forall s k v, K s = Some k -> ρ1 s = Some v -> fits k v) ->
  (forall s v, (s, v) ∈ ws1 -> ρ1 s = Some v) -> (forall s v, (s, v) ∈ ws2 -> ρ2 s = Some v) -> a1 = a2 /\ ws1 = ws2 /\ map fst ws1 = os.
Proof.
  revert R os ws1 ws2. induction p as [a|s k IH|s v p IH|c e p IH|e|u]; intros R os ws1 ws2 Hg E1 E2 HR Hf H1 H2; cbn [goes ceval] in *; try done.
  - destruct Hg as [-> _]. by simplify_eq.
  - destruct Hg as [Hs (kd & Hk & Hg)]. rewrite <- (HR s Hs) in E2. destruct (ρ1 s) as [v|] eqn:E; [|done]. eapply IH; eauto.
  - destruct Hg as (os' & kd & -> & Hk & Hfv & Hg). destruct (ceval ρ1 p) as [[b1 v1]|] eqn:F1; [|done]. destruct (ceval ρ2 p) as [[b2 v2]|] eqn:F2; [|done].
    injection E1 as <- <-. injection E2 as <- <-.
    destruct (IH (fun x => R x \/ x = s) os' v1 v2 Hg eq_refl eq_refl) as (-> & -> & <-); [|done| | |done].
    + intros x [Hx| ->]; [by apply HR|]. rewrite (H1 s v), (H2 s v); [done|apply elem_of_list_here..].
    + intros x w Hx. by apply H1, elem_of_list_further.
    + intros x w Hx. by apply H2, elem_of_list_further.
  - destruct Hg as [-> Hg]. by eapply IH.
Qed.

Section core.
  Context {D : Type} `{NumOps D} (g : cfg D) (K : nat -> option kind) (dv : nat -> option nat) (nxt : D -> D -> Prop) (y : duty D) (ins1 ins2 : list nat).
  Context (Hs : sane g K dv nxt y ins1 ins2).
  Implicit Types (c : core D) (l : leaf D).
  Notation tr := (g_tree g).
  Notation L := (leaves tr).
  Notation X := (made ins1 ins2 y tr).
  Notation G := (givens ins1 ins2 y tr).
  Notation fine := (fine g K dv y).
  Notation has := (has g y ins1 ins2).
  Notation sorted := (sorted g y ins1 ins2).
  Notation entry := (leaf D * (lstate D * list (nat * val D)))%type.

  (** A sorted list is a legal run of a core in which nothing counts as processed. *)
  Definition undone c : core D := Core (k_store c) (k_lst c) ∅ (k_log c).
  Lemma undone_same c : same_state c (undone c).
  Proof. by split. Qed.
  Lemma sorted_legal τ t ls : g_mode g = MFast -> sorted ls -> forall c, k_done c = ∅ -> fine τ c -> has c (fun s => s ∈ G) ->
    exists c', legal_run true t c ls c' /\ fine τ c' /\ has c' (after g y ins1 ins2 ls).
  Proof.
    intros Hm. induction 1 as [|ls l Hso IH Hin Hl Hn Hr]; intros c Hd Hf Hh.
    { exists c. split; [constructor|]. split; [done|]. intros s Hx. rewrite (Hh s Hx). unfold after. split; [by left|]. by intros [Hg|(l & ?%elem_of_nil & _)]. }
    destruct (IH c Hd Hf Hh) as (c1 & Hr1 & Hf1 & Hh1).
    assert (inputs_there (k_store c1) l) as Hi. { intros s Hx. apply Hh1; [eapply required_made; [done|done|by right|done]|]. by apply Hr. }
    destruct (act_ok g K dv nxt y ins1 ins2 Hs τ t l c1 ls Hl Hin Hn Hf1 Hh1 Hi) as (c2 & E2 & Hf2 & Hh2).
    exists (mark_done (l_id l) c2). split; [|done]. econstructor; [exact Hr1| |done|done].
    apply legal_run_basic in Hr1 as (_ & _ & -> & _). rewrite Hd. intros Hx. apply elem_of_union in Hx as [Hx|Hx]; [|by apply not_elem_of_empty in Hx].
    apply elem_of_list_to_set, elem_of_list_fmap in Hx as (l' & E & Hx). apply Hn. by rewrite (leaf_eq g K dv nxt y ins1 ins2 Hs l l' Hl (Hin l' Hx) E).
  Qed.

  (** Two runs of all blocks (but perhaps builders) that start alike end alike. *)
  Section two.
    Context (τ : option D) (t : D) (c1 c2 c1' c2' : core D) (ls1 ls2 : list (leaf D)).
    Context (Hsame : same_state c1 c2) (Hf1 : fine τ c1) (Hf2 : fine τ c2) (Hh1 : has c1 (fun s => s ∈ G)) (Hh2 : has c2 (fun s => s ∈ G)).
    Context (Hr1 : legal_run true t c1 ls1 c1') (Hr2 : legal_run true t c2 ls2 c2').
    Context (Hin1 : forall l, l ∈ ls1 -> l ∈ L) (Hin2 : forall l, l ∈ ls2 -> l ∈ L).
    Context (Hall1 : forall l, l ∈ L -> l ∈ ls1 \/ is_builder (l_cls l) = true) (Hall2 : forall l, l ∈ L -> l ∈ ls2 \/ is_builder (l_cls l) = true).

    Lemma entry_of c ls c' (r : list entry) e : map fst r = ls -> traced t c r c' -> e ∈ r ->
      fst e ∈ ls /\ ceval (value (k_store c')) (act (fst e) t (lst_of c (l_id (fst e)))) = Some (snd e) /\ (forall s v, (s, v) ∈ e_ws e -> value (k_store c') s = Some v).
    Proof.
      intros Hm (Hst & [Hn Hw] & Hlst & Hall) He. split; [rewrite <- Hm; apply elem_of_list_fmap; by exists e|]. rewrite Forall_forall in Hall.
      split; [apply Hall; [done|apply ext_refl]|]. intros s v Hx. assert ((s, v) ∈ writes r) as Hx' by (by eapply writes_elem).
      rewrite Forall_forall in Hw. destruct (Hw _ Hx') as (cc & Hcc & _). unfold value. rewrite Hst, (write_all_in _ _ s v cc Hn Hx' Hcc). done.
    Qed.
    Lemma builder_entry l st ρ r : is_builder (l_cls l) = true -> ceval ρ (act l t st) = Some r -> r = (st, []).
    Proof. unfold is_builder, act. destruct (l_cls l); try done; cbn; intros _ [= <-]; done. Qed.

    Lemma two_same : same_state c1' c2'.
    Proof.
      destruct (legal_run_traced t c1 ls1 c1' Hr1) as (r1 & Hm1 & Ht1), (legal_run_traced t c2 ls2 c2' Hr2) as (r2 & Hm2 & Ht2).
      destruct (legal_fine g K dv nxt y ins1 ins2 Hs τ t c1 ls1 c1' Hr1 Hin1 Hf1 Hh1) as [Hf1' Hh1'].
      destruct Hsame as [Hst Hlst].
      assert (forall s, s ∈ G -> value (k_store c1') s = value (k_store c2') s) as HG.
      { intros s Hg. pose proof (proj2 (Hh1 s (in_given g y ins1 ins2 s Hg)) Hg) as Ha.
        assert (exists v, value (k_store c1) s = Some v) as [v Hv].
        { unfold assigned in Ha. unfold value. destruct (k_store c1 !! s) as [cc|] eqn:E; [|done]. rewrite Ha. destruct (proj1 (proj1 (proj1 Hf1) s cc E) Ha) as [v ->]. by exists v. }
        rewrite (ext_value _ _ s v (traced_ext _ _ _ _ Ht1) Hv). rewrite Hst in Hv. by rewrite (ext_value _ _ s v (traced_ext _ _ _ _ Ht2) Hv). }
      destruct (sn_order _ _ _ _ _ _ _ Hs) as [rank Hrank].
      assert (forall s k v, K s = Some k -> value (k_store c1') s = Some v -> fits k v) as Hfit.
      { intros s k v Hk Hv. destruct (good_value K dv (k_store c1') s k (proj1 Hf1') Hk) as (v' & Hv' & Hft); [|congruence].
        unfold value in Hv. unfold assigned. destruct (k_store c1' !! s) as [cc|]; [|done]. by destruct (c_asg cc). }
      assert (forall n l e1 e2, rank l < n -> l ∈ L -> e1 ∈ r1 -> e2 ∈ r2 -> fst e1 = l -> fst e2 = l -> snd e1 = snd e2 /\ map fst (e_ws e1) = y_out y l) as Hkey.
      { induction n as [|n IH]; intros l e1 e2 Hn Hl He1 He2 F1 F2; [lia|].
        destruct (entry_of _ _ _ _ _ Hm1 Ht1 He1) as (_ & C1 & W1), (entry_of _ _ _ _ _ Hm2 Ht2 He2) as (_ & C2 & W2). rewrite F1 in C1. rewrite F2 in C2.
        rewrite <- Hlst in C2. destruct e1 as [l1 [a1 ws1]], e2 as [l2 [a2 ws2]]. cbn [fst snd e_ws] in *. subst l1 l2.
        destruct (is_builder (l_cls l)) eqn:Hnb.
        { rewrite (sn_builder _ _ _ _ _ _ _ Hs l Hl Hnb). pose proof (builder_entry l _ _ _ Hnb C1) as [= -> ->]. pose proof (builder_entry l _ _ _ Hnb C2) as [= -> ->]. done. }
        destruct (goes_ceval K _ _ _ _ (value (k_store c1')) (value (k_store c2')) a1 ws1 a2 ws2 (du_act _ _ _ _ _ (sn_duty _ _ _ _ _ _ _ Hs l Hl) τ t _ (proj2 Hf1 l Hl)) C1 C2) as (-> & -> & <-); [|done|done|done|done].
        intros s Hx. destruct (Hrank l s Hl (or_introl Hnb) Hx) as [Hg|(l' & Hl' & Hlt & Ho)]; [by apply HG|].
        assert (is_builder (l_cls l') ≠ true) as Hb. { intros Hb. rewrite (sn_builder _ _ _ _ _ _ _ Hs l' Hl' Hb) in Ho. by apply elem_of_nil in Ho. }
        destruct (Hall1 l' Hl') as [Hi1|]; [|done]. destruct (Hall2 l' Hl') as [Hi2|]; [|done].
        rewrite <- Hm1 in Hi1. rewrite <- Hm2 in Hi2. apply elem_of_list_fmap in Hi1 as (e1 & Ee1 & Hi1), Hi2 as (e2 & Ee2 & Hi2).
        destruct (IH l' e1 e2 ltac:(lia) Hl' Hi1 Hi2 (eq_sym Ee1) (eq_sym Ee2)) as [Heq Hout].
        rewrite <- Hout in Ho. apply elem_of_list_fmap in Ho as ([s' v] & -> & Hv). cbn [fst].
        destruct (entry_of _ _ _ _ _ Hm1 Ht1 Hi1) as (_ & _ & V1), (entry_of _ _ _ _ _ Hm2 Ht2 Hi2) as (_ & _ & V2).
        rewrite (V1 s' v Hv). symmetry. apply V2. unfold e_ws in *. by rewrite <- Heq. }
      assert (forall e1, e1 ∈ r1 -> e1 ∈ r2 \/ is_builder (l_cls (fst e1)) = true) as H12.
      { intros e1 He1. destruct (entry_of _ _ _ _ _ Hm1 Ht1 He1) as (Hl & _). destruct (Hall2 (fst e1) (Hin1 _ Hl)) as [Hi|Hi]; [|by right]. left.
        rewrite <- Hm2 in Hi. apply elem_of_list_fmap in Hi as (e2 & Ee & Hi). destruct (Hkey (S (rank (fst e1))) (fst e1) e1 e2 ltac:(lia) (Hin1 _ Hl) He1 Hi eq_refl (eq_sym Ee)) as [Heq _].
        destruct e1, e2; cbn in *. by subst. }
      assert (forall e2, e2 ∈ r2 -> e2 ∈ r1 \/ is_builder (l_cls (fst e2)) = true) as H21.
      { intros e2 He2. destruct (entry_of _ _ _ _ _ Hm2 Ht2 He2) as (Hl & _). destruct (Hall1 (fst e2) (Hin2 _ Hl)) as [Hi|Hi]; [|by right]. left.
        rewrite <- Hm1 in Hi. apply elem_of_list_fmap in Hi as (e1 & Ee & Hi). destruct (Hkey (S (rank (fst e2))) (fst e2) e1 e2 ltac:(lia) (Hin2 _ Hl) Hi He2 (eq_sym Ee) eq_refl) as [Heq _].
        destruct e1, e2; cbn in *. by subst. }
      assert (forall e, e ∈ r1 -> is_builder (l_cls (fst e)) = true -> snd e = (lst_of c1 (l_id (fst e)), [])) as B1.
      { intros e He Hb. destruct (entry_of _ _ _ _ _ Hm1 Ht1 He) as (_ & C & _). by eapply builder_entry. }
      assert (forall e, e ∈ r2 -> is_builder (l_cls (fst e)) = true -> snd e = (lst_of c1 (l_id (fst e)), [])) as B2.
      { intros e He Hb. destruct (entry_of _ _ _ _ _ Hm2 Ht2 He) as (_ & C & _). rewrite Hlst. by eapply builder_entry. }
      assert (forall w, w ∈ writes r1 <-> w ∈ writes r2) as Hws.
      { intros w. unfold writes. rewrite !in_flat. split; intros (e & He & Hw).
        - destruct (H12 e He) as [Hi|Hb]; [by exists e|]. unfold e_ws in Hw. rewrite (B1 e He Hb) in Hw. by apply elem_of_nil in Hw.
        - destruct (H21 e He) as [Hi|Hb]; [by exists e|]. unfold e_ws in Hw. rewrite (B2 e He Hb) in Hw. by apply elem_of_nil in Hw. }
      pose proof Ht1 as (S1 & [N1 W1] & M1 & _). pose proof Ht2 as (S2 & [N2 W2] & M2 & _). split.
      - rewrite S1, S2, <- Hst. apply write_all_perm; [done|]. apply NoDup_Permutation; [by eapply NoDup_fmap_1|by eapply NoDup_fmap_1|done].
      - assert (NoDup (map (fun e : entry => l_id (fst e)) r1)) as K1. { apply legal_run_basic in Hr1 as (Hn & _). rewrite <- Hm1, map_map in Hn. done. }
        assert (NoDup (map (fun e : entry => l_id (fst e)) r2)) as K2. { apply legal_run_basic in Hr2 as (Hn & _). rewrite <- Hm2, map_map in Hn. done. }
        assert (forall r m b, NoDup (map (fun e : entry => l_id (fst e)) r) -> default LNone (states r m !! b) = default LNone (m !! b) \/ exists e, e ∈ r /\ b = l_id (fst e) /\ states r m !! b = Some (fst (snd e))) as Hcase.
        { clear. intros r m b Hn. destruct (decide (b ∈ map (fun e : entry => l_id (fst e)) r)) as [Hi|Hi]; [|left; by rewrite states_notin].
          right. apply elem_of_list_fmap in Hi as (e & -> & He). exists e. split; [done|]. split; [done|]. by apply states_in. }
        intros b. pose proof (Hlst b) as Hb. unfold lst_of in *. rewrite M1, M2.
        destruct (decide (b ∈ map (fun e : entry => l_id (fst e)) r1)) as [I1|I1], (decide (b ∈ map (fun e : entry => l_id (fst e)) r2)) as [I2|I2].
        + apply elem_of_list_fmap in I1 as (e1 & -> & J1). rewrite (states_in r1 _ e1 K1 J1). destruct (H12 e1 J1) as [J2|J2]; [by rewrite (states_in r2 _ e1 K2 J2)|].
          apply elem_of_list_fmap in I2 as (e2 & F2 & I2). rewrite F2, (states_in r2 _ e2 K2 I2).
          destruct (entry_of _ _ _ _ _ Hm1 Ht1 J1) as (Hl1 & _), (entry_of _ _ _ _ _ Hm2 Ht2 I2) as (Hl2 & _).
          pose proof (leaf_eq g K dv nxt y ins1 ins2 Hs _ _ (Hin1 _ Hl1) (Hin2 _ Hl2) F2) as Fe. rewrite (B1 e1 J1 J2). rewrite Fe in J2. rewrite (B2 e2 I2 J2). cbn. by rewrite Fe.
        + rewrite (states_notin r2) by done. apply elem_of_list_fmap in I1 as (e1 & -> & J1). rewrite (states_in r1 _ e1 K1 J1). destruct (H12 e1 J1) as [J2|J2].
          { exfalso. apply I2. apply elem_of_list_fmap. by exists e1. }
          rewrite (B1 e1 J1 J2). cbn. unfold lst_of. exact Hb.
        + rewrite (states_notin r1) by done. apply elem_of_list_fmap in I2 as (e2 & -> & J1). rewrite (states_in r2 _ e2 K2 J1). destruct (H21 e2 J1) as [J2|J2].
          { exfalso. apply I1. apply elem_of_list_fmap. by exists e2. }
          rewrite (B2 e2 J1 J2). cbn. done.
        + rewrite !states_notin by done. exact Hb.
    Qed.
  End two.

  (** What eval_model does, whatever the simulator: a run of all blocks. *)
  Lemma eval_run τ t s s' : order_ok g y ins1 ins2 s -> fine τ (s_core s) -> has (s_core s) (fun x => x ∈ G) -> eval_model g t s = Ok tt s' ->
    exists c c' ls, same_state (s_core s) c /\ legal_run true t c ls c' /\ same_state c' (s_core s') /\ (forall l, l ∈ ls -> l ∈ L) /\ (forall l, l ∈ L -> l ∈ ls \/ is_builder (l_cls l) = true).
  Proof.
    intros Ho Hf Hh. pose proof (sn_dbg _ _ _ _ _ _ _ Hs) as Hdbg. pose proof (sn_wf _ _ _ _ _ _ _ Hs) as Hwf.
    assert (forall d, same_state (d_core d) (d_core (mark_unprocessed tr d))) as Hmark.
    { intros d. split; [by rewrite marked_store|]. intros b. unfold lst_of. by rewrite marked_lst. }
    assert (forall d l, l ∈ L -> l_id l ∈ k_done (d_core (mark_unprocessed tr d)) -> is_builder (l_cls l) = true) as Hmb. { intros d l Hl. by apply marked_leaf. }
    unfold order_ok in Ho. destruct (g_mode g) eqn:Em.
    - rewrite eval_default by done. rewrite Hdbg. pose proof (evaluate_spec true tr t (s_dyn s) Hwf) as He.
      pose proof (marked_fine g K dv nxt y ins1 ins2 Hs τ _ Hf) as Hf0. pose proof (marked_has g K dv nxt y ins1 ins2 Hs _ _ Hh) as Hh0.
      destruct (evaluate true tr t (s_dyn s)) as [[] d|e d|u|]; cbn [res_core eval_post] in He; try done. intros [= <-].
      destruct He as (ls & Hr & Hin & Hex). exists (d_core (mark_unprocessed tr (s_dyn s))), (d_core d), ls. split; [apply Hmark|]. split; [done|]. split; [by split|]. split; [done|].
      intros l Hl. destruct (all_run g K dv nxt y ins1 ins2 Hs τ t _ _ _ Hr Hin Hf0 Hh0 Hex (Hmb _) (marked_waits g K dv nxt y ins1 ins2 Hs _) l Hl) as [?|?]; [by left|right; by eapply Hmb].
    - destruct Ho as [Hb Ho]. unfold ordered in Ho. rewrite Em in Ho. destruct Ho as (po & Hp & Hc). rewrite (eval_reuse g t s po Em Hp).
      rewrite Hdbg. pose proof (reuse_all_spec true t po (mark_unprocessed tr (s_dyn s)) (proj1 Hc)) as He.
      change (reuse_all true po t (mark_unprocessed tr (s_dyn s))) with (evaluate_reuse true tr po t (s_dyn s)) in He.
      pose proof (marked_fine g K dv nxt y ins1 ins2 Hs τ _ Hf) as Hf0. pose proof (marked_has g K dv nxt y ins1 ins2 Hs _ _ Hh) as Hh0.
      assert (forall l, l ∈ po_leaves po -> l ∈ L) as Hsub. { intros l Hl. apply po_leaves_elem in Hl. apply nodes_leaves. by apply Hc. }
      destruct (evaluate_reuse true tr po t (s_dyn s)) as [po' d|e d|u|]; cbn [reuse_post] in He; try done. intros [= <-].
      destruct He as ((ls & Hr & Hin & Hex) & _ & _). exists (d_core (mark_unprocessed tr (s_dyn s))), (d_core d), ls. split; [apply Hmark|]. split; [done|].
      assert (s_core (remember po' (put_dyn d s)) = d_core d) as ->. { unfold remember. cbn. by destruct (s_cur s) as [[]|]. }
      split; [by split|]. split; [intros l Hl; by apply Hsub, Hin|].
      intros l Hl. destruct (all_run g K dv nxt y ins1 ins2 Hs τ t _ _ _ Hr (fun l Hl => Hsub l (Hin l Hl)) Hf0 Hh0 ltac:(by eapply covers_exhausted) (Hmb _) (marked_waits g K dv nxt y ins1 ins2 Hs _) l Hl) as [?|?]; [by left|right; by eapply Hmb].
    - destruct Ho as [Hso Hall]. unfold eval_model. rewrite Em. unfold bnd, gets. unfold on_core', on_dyn, on_core, lift. rewrite fast_eval_acts, Hdbg.
      destruct (acts true t (concat (s_fast s)) (d_core (s_dyn s))) as [[] c'| | |] eqn:E; try done. intros [= <-]. change (s_core (put_dyn _ s)) with c'.
      destruct (sorted_legal τ t _ Em Hso (undone (s_core s)) eq_refl) as (c2 & Hr & _); [done|done|].
      exists (undone (s_core s)), c2, (concat (s_fast s)). split; [apply undone_same|]. split; [done|]. split; [|split; [|intros l Hl; left; by apply Hall]].
      + destruct (acts_same true t _ _ _ _ (undone_same (s_core s)) E) as (c3 & E3 & Hs3). apply same_state_sym. eapply same_state_trans; [exact Hs3|].
        clear -Hr E3. revert c3 E3. induction Hr as [|ls c1 l c2 Hr IH Hd Hi Ha]; intros c3 E3; [by injection E3 as <-|].
        rewrite acts_app in E3. unfold bnd in E3. destruct (acts true t ls (undone (s_core s))) as [[] c4| | |] eqn:E4; try done.
        cbn in E3. unfold bnd in E3. destruct (activate true l t c4) as [[] c5| | |] eqn:E5; try done. injection E3 as <-.
        destruct (activate_same true t l c4 c1 c5 (IH c4 eq_refl) E5) as (c6 & E6 & Hs6). rewrite Ha in E6. injection E6 as <-. exact Hs6.
      + clear -Hso. intros l Hl. induction Hso as [|ls l' Hso IH Hin Hl' Hn Hr]; [by apply elem_of_nil in Hl|]. apply elem_of_app in Hl as [Hl|Hl]; [by apply IH|]. by apply elem_of_list_singleton in Hl as ->.
  Qed.
End core.
