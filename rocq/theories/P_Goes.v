(** A well-built model: single programs and one evaluation. *)
From stdpp Require Import prelude gmap strings.
From Coq Require Import ZArith.
From Verif Require Import Num Res Store Leaf Sched Stepper Sim SpecSched P_Store P_Prog P_Sched P_Modes P_Conf P_Eval P_Fast P_Sim P_Evolve P_Log P_Bus SpecGoes.
Local Open Scope nat_scope.

Lemma in_flat {A B} (f : A -> list B) (M : list A) x : x ∈ concat (map f M) <-> exists a, a ∈ M /\ x ∈ f a.
Proof.
  induction M as [|m M IH]; cbn.
  - split; [by intros ?%elem_of_nil|]. by intros (a & ?%elem_of_nil & _).
  - rewrite elem_of_app, IH. split.
    + intros [Hx|(a & Ha & Hx)]; [exists m|exists a]; (split; [|done]); [apply elem_of_list_here|by apply elem_of_list_further].
    + intros (a & [->|Ha]%elem_of_cons & Hx); [by left|right; eauto].
Qed.

Section prog.
  Context {D : Type} `{NumOps D} (K : nat -> option kind) (dv : nat -> option nat).
  Implicit Types σ : store D.
  (** A store with the right kinds. *)
  Definition good σ : Prop := store_ok σ /\ (forall s, kind_in σ s = K s) /\ (forall s, deriv_in σ s = dv s).

  Lemma good_value σ s k : good σ -> K s = Some k -> assigned σ s = true -> exists v, value σ s = Some v /\ fits k v.
  Proof.
    intros (Hok & HK & _) Hs Ha. specialize (HK s). unfold kind_in in HK. unfold assigned in Ha. unfold value. destruct (σ !! s) as [c|] eqn:E; [|done].
    cbn in HK. rewrite Hs in HK. injection HK as HK. destruct (Hok s c E) as [H1 H2]. destruct (H1 Ha) as [v Hv]. rewrite Ha. exists v. split; [done|].
    destruct (H2 v Hv) as [H3 H4]. rewrite HK in *. done.
  Qed.
  Lemma good_write σ s v k : good σ -> K s = Some k -> fits k v -> assigned σ s = false ->
    exists σ', set_value true s v σ = Ok tt σ' /\ good σ' /\ (forall x, assigned σ' x = true <-> assigned σ x = true \/ x = s).
  Proof.
    intros (Hok & HK & Hd) Hs [F1 F2] Ha. pose proof (HK s) as Hks. unfold kind_in in Hks. unfold assigned in Ha. destruct (σ !! s) as [c|] eqn:E; [|by rewrite Hs in Hks].
    cbn in Hks. rewrite Hs in Hks. injection Hks as Hks. rewrite <- Hks in F1, F2.
    assert (can_write σ (s, v)) as Hw by (exists c; done).
    exists (write1 (s, v) σ). split; [by apply set_value_avail|]. split; [|].
    - split; [by apply write1_ok|]. unfold write1. cbn. rewrite E. split; intros x; [rewrite <- (HK x)|rewrite <- (Hd x)]; unfold kind_in, deriv_in;
        (destruct (decide (x = s)) as [->|Hn]; [rewrite lookup_insert, E; done|rewrite lookup_insert_ne by done; done]).
    - intros x. unfold assigned, write1. cbn. rewrite E. destruct (decide (x = s)) as [->|Hn].
      + rewrite lookup_insert. cbn. split; [by right|done].
      + rewrite lookup_insert_ne by done. split; [by left|]. intros [Hx|Hx]; done.
  Qed.

  Lemma goes_run {A} (p : prog D A) R os (Q : A -> Prop) σ :
    goes K R os Q p -> good σ -> (forall s, R s -> assigned σ s = true) -> NoDup os -> (forall s, s ∈ os -> assigned σ s = false) ->
    exists a σ', run_prog true p σ = Ok a σ' /\ Q a /\ good σ' /\ (forall s, assigned σ' s = true <-> assigned σ s = true \/ s ∈ os).
  Proof.
    revert R os σ. induction p as [a|s k IH|s v p IH|c e p IH|e|u]; intros R os σ Hg Hok HR Hn Ho; cbn [goes run_prog] in *; try done.
    - destruct Hg as [-> Hq]. exists a, σ. split; [done|]. split; [done|]. split; [done|]. intros s. split; [by left|]. by intros [Hs|Hs%elem_of_nil].
    - destruct Hg as [Hs (kd & Hk & Hg)]. destruct (good_value σ s kd Hok Hk (HR s Hs)) as (v & Hv & Hf).
      destruct (IH v R os σ (Hg v Hf) Hok HR Hn Ho) as (a & σ' & E & Hrest). exists a, σ'. split; [|done].
      unfold bnd. rewrite (get_value_avail σ s v); [done|apply Hok|done].
    - destruct Hg as (os' & kd & -> & Hk & Hf & Hg). apply NoDup_cons in Hn as [Hn1 Hn2].
      destruct (good_write σ s v kd Hok Hk Hf (Ho s (elem_of_list_here _ _))) as (σ1 & E1 & Hok1 & Ha1).
      destruct (IH _ os' σ1 Hg Hok1) as (a & σ' & E & Hq & Hok' & Ha'); [|done| |].
      + intros x [Hx|Hx]; apply Ha1; [left; by apply HR|by right].
      + intros x Hx. destruct (assigned σ1 x) eqn:Ex; [|done]. apply Ha1 in Ex as [Ex| ->]; [|done]. rewrite Ho in Ex; [done|]. by apply elem_of_list_further.
      + exists a, σ'. split; [unfold bnd; by rewrite E1|]. split; [done|]. split; [done|]. intros x. rewrite Ha', Ha1, elem_of_cons. tauto.
    - destruct Hg as [-> Hg]. unfold bnd, debug_verify, verify. by eapply IH.
  Qed.

  Lemma goes_weak {A} (p : prog D A) (R R' : nat -> Prop) os (Q Q' : A -> Prop) :
    (forall s, R s -> R' s) -> (forall a, Q a -> Q' a) -> goes K R os Q p -> goes K R' os Q' p.
  Proof.
    revert R R' os. induction p as [a|s k IH|s v p IH|c e p IH|e|u]; intros R R' os HR HQ Hg; cbn [goes] in *; try done.
    - destruct Hg. auto.
    - destruct Hg as [Hs (kd & Hk & Hg)]. split; [auto|]. exists kd. split; [done|]. intros v Hv. eapply IH; eauto.
    - destruct Hg as (os' & kd & -> & Hk & Hf & Hg). exists os', kd. split_and!; [done..|apply Hf|]. eapply IH; [|exact HQ|exact Hg]. cbn. intros x [Hx|Hx]; auto.
    - destruct Hg as [Hc Hg]. split; [done|]. eapply IH; eauto.
  Qed.
  Lemma goes_bind {A B} (p : prog D A) (k : A -> prog D B) (R : nat -> Prop) os1 os2 (Q1 : A -> Prop) (Q : B -> Prop) :
    goes K R os1 Q1 p -> (forall a, Q1 a -> goes K (fun x => R x \/ x ∈ os1) os2 Q (k a)) -> goes K R (os1 ++ os2) Q (pbind p k).
  Proof.
    revert R os1. induction p as [a|s k' IH|s v p IH|c e p IH|e|u]; intros R os1 Hg Hk; cbn [goes pbind] in *; try done.
    - destruct Hg as [-> Hq]. cbn. eapply goes_weak; [| |apply Hk, Hq]; [|done]. cbn. intros s [Hs|Hs%elem_of_nil]; done.
    - destruct Hg as [Hs (kd & Hkd & Hg)]. split; [done|]. exists kd. split; [done|]. intros v Hv. by apply IH; [apply Hg|].
    - destruct Hg as (os' & kd & -> & Hkd & Hf & Hg). exists (os' ++ os2), kd. split_and!; [done..|apply Hf|]. apply IH; [done|].
      intros a Ha. eapply goes_weak; [| |apply Hk, Ha]; [|done]. cbn. intros x. rewrite elem_of_cons. tauto.
    - destruct Hg as [Hc Hg]. split; [done|]. by apply IH.
  Qed.
End prog.

Section core.
  Context {D : Type} `{NumOps D} (g : cfg D) (K : nat -> option kind) (dv : nat -> option nat) (nxt : D -> D -> Prop) (y : duty D) (ins1 ins2 : list nat).
  Context (Hs : sane g K dv nxt y ins1 ins2).
  Implicit Types (c : core D) (l : leaf D).
  Notation tr := (g_tree g).
  Notation L := (leaves tr).
  Notation X := (made ins1 ins2 y tr).
  Notation G := (givens ins1 ins2 y tr).

  (** The members obey the invariants. *)
  Definition fine τ c : Prop := good K dv (k_store c) /\ forall l, l ∈ L -> y_inv y l τ (lst_of c (l_id l)).
  (** Of the signals that get assigned, exactly [as_] are. *)
  Definition has c (P : nat -> Prop) : Prop := forall s, s ∈ X -> assigned (k_store c) s = true <-> P s.

  Lemma wf_L : NoDup (map l_id L).
  Proof. apply wf_leaves. apply (sn_wf _ _ _ _ _ _ _ Hs). Qed.
  Lemma leaf_eq l l' : l ∈ L -> l' ∈ L -> l_id l = l_id l' -> l = l'.
  Proof.
    pose proof wf_L as Hn. intros Hl Hl' He. induction L as [|x M IH]; [by apply elem_of_nil in Hl|]. cbn in Hn. apply NoDup_cons in Hn as [Hx Hn].
    apply elem_of_cons in Hl as [->|Hl]; apply elem_of_cons in Hl' as [->|Hl']; [done| | |by apply IH].
    - exfalso. apply Hx. rewrite He. apply elem_of_list_fmap. eauto.
    - exfalso. apply Hx. rewrite <- He. apply elem_of_list_fmap. eauto.
  Qed.
  Lemma in_out l s : l ∈ L -> s ∈ y_out y l -> s ∈ X.
  Proof. intros Hl Hx. apply elem_of_app. right. apply in_flat. eauto. Qed.
  Lemma in_given s : s ∈ G -> s ∈ X.
  Proof. intros. apply elem_of_app. by left. Qed.
  Lemma out_given l s : l ∈ L -> s ∈ y_out y l -> s ∉ G.
  Proof.
    intros Hl Hx Hg. pose proof (sn_once _ _ _ _ _ _ _ Hs) as Hn. apply NoDup_app in Hn as (_ & Hd & _). apply (Hd s Hg).
    apply in_flat. eauto.
  Qed.
  Lemma nodup_f {A B} (f : A -> list B) (M : list A) a : NoDup (concat (map f M)) -> a ∈ M -> NoDup (f a).
  Proof.
    intros Hn Ha. induction M as [|m M IH]; [by apply elem_of_nil in Ha|]. cbn in Hn. apply NoDup_app in Hn as (H1 & _ & H2).
    apply elem_of_cons in Ha as [->|Ha]; [done|]. by apply IH.
  Qed.
  Lemma disj_at {A B} (f : A -> list B) (id : A -> nat) (M : list A) a b x : NoDup (map id M) -> NoDup (concat (map f M)) -> a ∈ M -> b ∈ M -> x ∈ f a -> x ∈ f b -> id a = id b.
  Proof.
    intros Hi Hn Ha Hb Hx1 Hx2. induction M as [|m M IH]; [by apply elem_of_nil in Ha|]. cbn in Hn, Hi. apply NoDup_cons in Hi as [_ Hi]. apply NoDup_app in Hn as (_ & Hd & Hn).
    assert (forall e, e ∈ M -> x ∈ f e -> x ∈ concat (map f M)) as Hin. { intros e He Hx. apply in_flat. eauto. }
    apply elem_of_cons in Ha as [->|Ha]; apply elem_of_cons in Hb as [->|Hb]; [done| | |by apply IH]; exfalso.
    - apply (Hd x Hx1). by eapply Hin.
    - apply (Hd x Hx2). by eapply Hin.
  Qed.
  Lemma outs_nodup : NoDup (concat (map (y_out y) L)).
  Proof. pose proof (sn_once _ _ _ _ _ _ _ Hs) as Hn. by apply NoDup_app in Hn as (_ & _ & Hn). Qed.

  (** One call of a member function of a block. *)
  Lemma call_ok τ τ' l ev p R os c : l ∈ L -> fine τ c -> goes K R os (y_inv y l τ') (p (lst_of c (l_id l))) ->
    (forall s, R s -> assigned (k_store c) s = true) -> NoDup os -> (forall s, s ∈ os -> assigned (k_store c) s = false) ->
    exists c', run_leaf true ev l p c = Ok tt c' /\ good K dv (k_store c') /\ y_inv y l τ' (lst_of c' (l_id l)) /\
      (forall b, b ≠ l_id l -> lst_of c' b = lst_of c b) /\ k_done c' = k_done c /\
      (forall s, assigned (k_store c') s = true <-> assigned (k_store c) s = true \/ s ∈ os).
  Proof.
    intros Hl [Hg Hi] Hgo HR Hn Ho. destruct (goes_run K dv _ _ _ _ _ Hgo Hg HR Hn Ho) as (st & σ' & E & Hq & Hg' & Ha).
    unfold run_leaf. rewrite E. eexists. split; [done|]. cbn. split; [done|]. unfold lst_of. cbn. rewrite lookup_insert. split; [done|]. split; [|done].
    intros b Hb. by rewrite lookup_insert_ne.
  Qed.
  Lemma call_fine τ l ev p R os c : l ∈ L -> fine τ c -> goes K R os (y_inv y l τ) (p (lst_of c (l_id l))) ->
    (forall s, R s -> assigned (k_store c) s = true) -> NoDup os -> (forall s, s ∈ os -> assigned (k_store c) s = false) ->
    exists c', run_leaf true ev l p c = Ok tt c' /\ fine τ c' /\ k_done c' = k_done c /\
      (forall s, assigned (k_store c') s = true <-> assigned (k_store c) s = true \/ s ∈ os).
  Proof.
    intros Hl Hf Hgo HR Hn Ho. destruct (call_ok τ τ l ev p R os c Hl Hf Hgo HR Hn Ho) as (c' & E & Hg & Hy & Hfr & Hd & Ha).
    exists c'. split; [done|]. split; [|done]. split; [done|]. intros l' Hl'. destruct (decide (l_id l' = l_id l)) as [He|Hne].
    - by rewrite (leaf_eq l' l Hl' Hl He).
    - rewrite Hfr by done. by apply Hf.
  Qed.

  (** Activation of a block that has its inputs. *)
  Definition after (ls : list (leaf D)) (s : nat) : Prop := s ∈ G \/ exists l, l ∈ ls /\ s ∈ y_out y l.
  Lemma act_ok τ t l c ls : l ∈ L -> (forall x, x ∈ ls -> x ∈ L) -> l ∉ ls -> fine τ c -> has c (after ls) -> inputs_there (k_store c) l ->
    exists c', activate true l t c = Ok tt c' /\ fine τ c' /\ has c' (after (ls ++ [l])).
  Proof.
    intros Hl Hls Hnl Hf Hh Hi. unfold activate.
    destruct (call_fine τ l (EvAct (l_id l) t) (act l t) _ (y_out y l) c Hl Hf (du_act _ _ _ _ _ (sn_duty _ _ _ _ _ _ _ Hs l Hl) τ t _ (proj2 Hf l Hl))) as (c' & E & Hf' & _ & Ha).
    - intros s Hx. by apply Hi.
    - by apply (nodup_f (y_out y) L); [apply outs_nodup|].
    - intros s Hx. destruct (assigned (k_store c) s) eqn:Ea; [|done]. exfalso. apply Hh in Ea; [|by eapply in_out]. destruct Ea as [Eg|(l' & Hl' & Hx')].
      + by eapply out_given.
      + apply Hnl. assert (l = l') as ->; [|done]. apply leaf_eq; [done|by apply Hls|].
        eapply (disj_at (y_out y) l_id L); [apply wf_L|apply outs_nodup|done|by apply Hls|done|done].
    - exists c'. split; [done|]. split; [done|]. intros s Hx. rewrite Ha. rewrite (Hh s Hx). unfold after. split.
      + intros [[Hg|(l' & Hl' & Hx')]|Ho]; [by left|right; exists l'; split; [apply elem_of_app; by left|done]|].
        right. exists l. split; [apply elem_of_app; right; apply elem_of_list_here|done].
      + intros [Hg|(l' & [Hl'|Hl']%elem_of_app & Hx')]; [left; by left|left; right; eauto|]. apply elem_of_list_singleton in Hl' as ->. by right.
  Qed.
  Lemma legal_fine τ t c ls c' : legal_run true t c ls c' -> (forall x, x ∈ ls -> x ∈ L) -> fine τ c -> has c (fun s => s ∈ G) ->
    fine τ c' /\ has c' (after ls).
  Proof.
    intros Hr. induction Hr as [|ls c1 l c2 Hr IH Hd Hi Ha]; intros Hin Hf Hh.
    { split; [done|]. intros s Hx. rewrite (Hh s Hx). unfold after. split; [by left|]. by intros [Hg|(l & Hl%elem_of_nil & _)]. }
    destruct IH as [Hf1 Hh1]; [|done|done|]. { intros x Hx. apply Hin. apply elem_of_app. by left. }
    assert (l ∈ L) as Hl by (apply Hin, elem_of_app; right; apply elem_of_list_here).
    assert (l ∉ ls) as Hnl. { intros Hx. apply Hd. apply legal_run_basic in Hr as (_ & _ & -> & _). apply elem_of_union_l, elem_of_list_to_set, elem_of_list_fmap. eauto. }
    destruct (act_ok τ t l c1 ls Hl ltac:(intros x Hx; apply Hin, elem_of_app; by left) Hnl Hf1 Hh1 Hi) as (c2' & E & Hf2 & Hh2).
    rewrite Ha in E. injection E as <-. done.
  Qed.
  (** No activation fails. *)
  Lemma never_failed {A} τ t c (r : res (core D) A) : fine τ c -> has c (fun s => s ∈ G) -> ~ failed true t L c r.
  Proof.
    intros Hf Hh (ls & c1 & l & Hr & Hin & Hl & [Hd Hi] & Hfail). destruct (legal_fine τ t c ls c1 Hr Hin Hf Hh) as [Hf1 Hh1].
    assert (l ∉ ls) as Hnl. { intros Hx. apply Hd. apply legal_run_basic in Hr as (_ & _ & -> & _). apply elem_of_union_l, elem_of_list_to_set, elem_of_list_fmap. eauto. }
    destruct (act_ok τ t l c1 ls Hl Hin Hnl Hf1 Hh1 Hi) as (c2 & E & _). destruct r; try done; congruence.
  Qed.
  (** No block is left out, except builders that count as processed. *)
  Lemma all_run τ t c ls c' : legal_run true t c ls c' -> (forall x, x ∈ ls -> x ∈ L) -> fine τ c -> has c (fun s => s ∈ G) -> exhausted L c' ->
    (forall l, l ∈ L -> l_id l ∈ k_done c -> is_builder (l_cls l) = true) -> (forall l, l ∈ L -> awaited g l \/ l_id l ∈ k_done c) ->
    forall l, l ∈ L -> l ∈ ls \/ l_id l ∈ k_done c.
  Proof.
    intros Hr Hin Hf Hh Hex Hb Hwt. destruct (legal_fine τ t c ls c' Hr Hin Hf Hh) as [Hf1 Hh1]. destruct (sn_order _ _ _ _ _ _ _ Hs) as [rank Hrank].
    assert (forall n l, rank l < n -> l ∈ L -> l ∈ ls \/ l_id l ∈ k_done c) as Hall; [|intros l; apply (Hall (S (rank l))); lia].
    induction n as [|n IH]; intros l Hn Hl; [lia|]. destruct (Hex l Hl) as [Hd|(s & Hx & Ha)].
    - destruct (decide (l_id l ∈ k_done c)) as [Hc|Hc]; [by right|]. left. eapply done_in_run; [exact Hr|exact Hin|apply wf_L|done|done|done].
    - destruct (Hwt l Hl) as [Hw|Hw]; [|by right]. exfalso. assert (assigned (k_store c') s = true) as Ha'; [|congruence]. destruct (Hrank l s Hl Hw Hx) as [Hg|(l' & Hl' & Hlt & Ho)].
      + apply Hh1; [by apply in_given|by left].
      + destruct (IH l' ltac:(lia) Hl') as [Hi|Hi].
        * apply Hh1; [by eapply in_out|]. right. eauto.
        * rewrite (sn_builder _ _ _ _ _ _ _ Hs l' Hl' (Hb l' Hl' Hi)) in Ho. by apply elem_of_nil in Ho.
  Qed.
  Lemma all_made τ t c ls c' : legal_run true t c ls c' -> (forall x, x ∈ ls -> x ∈ L) -> fine τ c -> has c (fun s => s ∈ G) -> exhausted L c' ->
    (forall l, l ∈ L -> l_id l ∈ k_done c -> is_builder (l_cls l) = true) -> (forall l, l ∈ L -> awaited g l \/ l_id l ∈ k_done c) ->
    fine τ c' /\ has c' (fun _ => True).
  Proof.
    intros Hr Hin Hf Hh Hex Hb Hwt. destruct (legal_fine τ t c ls c' Hr Hin Hf Hh) as [Hf1 Hh1]. split; [done|].
    intros s Hx. split; [done|]. intros _. apply Hh1; [done|]. apply elem_of_app in Hx as [Hg|Ho]; [by left|].
    apply in_flat in Ho as (l & Hl & Hso). right. exists l. split; [|done].
    destruct (all_run τ t c ls c' Hr Hin Hf Hh Hex Hb Hwt l Hl) as [Hi|Hi]; [done|].
    rewrite (sn_builder _ _ _ _ _ _ _ Hs l Hl (Hb l Hl Hi)) in Hso. by apply elem_of_nil in Hso.
  Qed.

  (** Where everything is assigned nothing is left to do. *)
  Lemma all_done c : exhausted L c -> has c (fun _ => True) -> (forall l, l ∈ L -> awaited g l \/ l_id l ∈ k_done c) -> forall l, l ∈ L -> l_id l ∈ k_done c.
  Proof.
    intros Hex Hh Hwt l Hl. destruct (Hex l Hl) as [Hd|(s & Hx & Ha)]; [done|]. destruct (Hwt l Hl) as [Hw|Hw]; [|done]. exfalso. destruct (sn_order _ _ _ _ _ _ _ Hs) as [rank Hrank].
    assert (assigned (k_store c) s = true) as Ha'; [|congruence]. destruct (Hrank l s Hl Hw Hx) as [Hg|(l' & Hl' & _ & Ho)].
    - apply Hh; [by apply in_given|done].
    - apply Hh; [by eapply in_out|done].
  Qed.

  (** The callbacks of the client. *)
  Lemma inputs_ok τ t c P : fine τ c -> has c P -> (forall s, s ∈ ins1 ++ ins2 -> ~ P s) ->
    exists c', inputs g t c = Ok tt c' /\ fine τ c' /\ has c' (fun s => P s \/ s ∈ ins1 ++ ins2).
  Proof.
    intros [Hg Hi] Hh HP. pose proof (sn_once _ _ _ _ _ _ _ Hs) as Hn. unfold made, givens in Hn. rewrite <- !app_assoc in Hn. rewrite app_assoc in Hn.
    apply NoDup_app in Hn as (Hn & _ & _). pose proof Hn as Hn12. apply NoDup_app in Hn as (Hn1 & Hn2 & Hn3).
    assert (forall s, s ∈ ins1 ++ ins2 -> s ∈ X) as HinX. { intros s Hx. apply in_given. unfold givens. rewrite app_assoc. apply elem_of_app. by left. }
    assert (forall s, s ∈ ins1 ++ ins2 -> assigned (k_store c) s = false) as Hfree.
    { intros s Hx. destruct (assigned (k_store c) s) eqn:E; [|done]. exfalso. apply (HP s Hx). apply Hh; [by apply HinX|done]. }
    unfold inputs. rewrite (sn_dbg _ _ _ _ _ _ _ Hs). unfold bnd at 1, emit, modify at 1.
    set (c0 := Core (k_store c) (k_lst c) (k_done c) (k_log c ++ [EvInputs t])).
    assert (exists σ1, (match g_inputs g with Some f => on_store (run_prog true (f t)) | None => ret tt end) c0 = Ok tt (Core σ1 (k_lst c0) (k_done c0) (k_log c0)) /\
      good K dv σ1 /\ (forall s, assigned σ1 s = true <-> assigned (k_store c) s = true \/ s ∈ ins1)) as (σ1 & E1 & Hg1 & Ha1).
    { destruct (g_inputs g) as [f|] eqn:Ef.
      - destruct (goes_run K dv (f t) (fun _ => False) ins1 (fun _ => True) (k_store c) (sn_inputs _ _ _ _ _ _ _ Hs f t Ef) Hg) as ([] & σ1 & E & _ & Hg1 & Ha1); [done|done| |].
        { intros s Hx. apply Hfree, elem_of_app. by left. }
        exists σ1. split; [|done]. unfold on_store, lift. cbn. by rewrite E.
      - exists (k_store c). rewrite (sn_inputs0 _ _ _ _ _ _ _ Hs Ef). split; [done|]. split; [done|]. intros s. split; [by left|]. by intros [?|?%elem_of_nil]. }
    unfold bnd. rewrite E1.
    destruct (goes_run K dv (g_icb g t) (fun s => s ∈ ins1) ins2 (fun _ => True) σ1 (sn_icb _ _ _ _ _ _ _ Hs t) Hg1) as ([] & σ2 & E & _ & Hg2 & Ha2); [| |..].
    { intros s Hx. apply Ha1. by right. } { done. }
    { intros s Hx. destruct (assigned σ1 s) eqn:E; [|done]. apply Ha1 in E as [E|E].
      - rewrite Hfree in E; [done|]. apply elem_of_app. by right.
      - exfalso. by apply (Hn2 s). }
    eexists. split. { unfold on_store, lift. cbn. rewrite E. done. }
    split; [by split|]. intros s Hx. cbn. rewrite Ha2, Ha1, elem_of_app. rewrite (Hh s Hx). tauto.
  Qed.

  (** pre_step and post_step. *)
  Lemma pre_as_forM t (T : tree D) c : pre_step true T t c = forM (leaves T) (fun l => run_leaf true (EvPre (l_id l) t) l (pre l t)) c.
  Proof.
    revert c. induction T as [l|b k ch IH] using tree_ind'; intros c; cbn.
    - unfold bnd. destruct (run_leaf _ _ _ _ _) as [[] ?| | |]; done.
    - revert c. induction IH as [|x ch Hx Hch IH]; intros c; [done|]. cbn [map concat]. rewrite forM_app. unfold bnd. rewrite Hx. destruct (forM (leaves x) _ c) as [[] c1| | |]; [exact (IH c1)|done..].
  Qed.
  Lemma post_as_forM t (T : tree D) c : post_step true T t c = forM (leaves T) (fun l => run_leaf true (EvPost (l_id l) t) l (post l t)) c.
  Proof.
    revert c. induction T as [l|b k ch IH] using tree_ind'; intros c; cbn.
    - unfold bnd. destruct (run_leaf _ _ _ _ _) as [[] ?| | |]; done.
    - revert c. induction IH as [|x ch Hx Hch IH]; intros c; [done|]. cbn [map concat]. rewrite forM_app. unfold bnd. rewrite Hx. destruct (forM (leaves x) _ c) as [[] c1| | |]; [exact (IH c1)|done..].
  Qed.
  Notation zs := (concat (map (y_pre y) L)).
  Lemma pre_ok τ t c P : fine τ c -> has c P -> (forall s, s ∈ zs -> ~ P s) ->
    exists c', pre_step true tr t c = Ok tt c' /\ fine τ c' /\ has c' (fun s => P s \/ s ∈ zs).
  Proof.
    intros Hf Hh HP. rewrite pre_as_forM.
    assert (NoDup zs) as Hz.
    { pose proof (sn_once _ _ _ _ _ _ _ Hs) as Hn. unfold made, givens in Hn. rewrite <- !app_assoc in Hn. apply NoDup_app in Hn as (_ & _ & Hn). apply NoDup_app in Hn as (_ & _ & Hn). by apply NoDup_app in Hn as (Hn & _). }
    assert (forall s, s ∈ zs -> s ∈ X) as HinX. { intros s Hx. apply in_given. unfold givens. apply elem_of_app. right. apply elem_of_app. by right. }
    assert (forall M, (forall l, l ∈ M -> l ∈ L) -> NoDup (concat (map (y_pre y) M)) -> forall c P, fine τ c -> has c P -> (forall s, s ∈ concat (map (y_pre y) M) -> ~ P s) ->
      exists c', forM M (fun l => run_leaf true (EvPre (l_id l) t) l (pre l t)) c = Ok tt c' /\ fine τ c' /\ has c' (fun s => P s \/ s ∈ concat (map (y_pre y) M))) as Hgen.
    { clear c P Hf Hh HP. induction M as [|l M IH]; intros Hin HM c P Hf Hh HP.
      { exists c. split; [done|]. split; [done|]. intros s Hx. rewrite (Hh s Hx). cbn. split; [by left|]. by intros [?|?%elem_of_nil]. }
      cbn [map concat] in HM, HP. apply NoDup_app in HM as (Hn1 & Hn2 & Hn3). assert (l ∈ L) as Hl by (apply Hin, elem_of_list_here).
      assert (forall s, s ∈ y_pre y l -> s ∈ zs) as Hlz. { intros s Hx. apply in_flat. eauto. }
      destruct (call_fine τ l (EvPre (l_id l) t) (pre l t) _ (y_pre y l) c Hl Hf (du_pre _ _ _ _ _ (sn_duty _ _ _ _ _ _ _ Hs l Hl) τ t _ (proj2 Hf l Hl))) as (c1 & E & Hf1 & _ & Ha); [done|done| |].
      { intros s Hx. destruct (assigned (k_store c) s) eqn:Ea; [|done]. exfalso. apply (HP s); [apply elem_of_app; by left|]. apply Hh; [by apply HinX, Hlz|done]. }
      destruct (IH ltac:(intros x Hx; apply Hin; by apply elem_of_list_further) Hn3 c1 (fun s => P s \/ s ∈ y_pre y l)) as (c2 & E2 & Hf2 & Hh2); [done| | |].
      - intros s Hx. rewrite Ha. by rewrite (Hh s Hx).
      - intros s Hx [Hp|Hp]; [apply (HP s); [apply elem_of_app; by right|done]|by apply (Hn2 s)].
      - exists c2. split; [cbn [forM]; unfold bnd; by rewrite E|]. split; [done|]. intros s Hx. rewrite (Hh2 s Hx). cbn [map concat]. rewrite elem_of_app. tauto. }
    by apply Hgen.
  Qed.
  Lemma post_ok τ t c : fine τ c -> has c (fun _ => True) -> may_end nxt τ t ->
    exists c', post_step true tr t c = Ok tt c' /\ fine (Some t) c' /\ has c' (fun _ => True).
  Proof.
    intros [Hg Hi] Hh Ht. rewrite post_as_forM. pose proof wf_L as Hwf.
    assert (forall M, (forall l, l ∈ M -> l ∈ L) -> NoDup (map l_id M) -> forall c, good K dv (k_store c) -> has c (fun _ => True) -> (forall l, l ∈ M -> y_inv y l τ (lst_of c (l_id l))) ->
      exists c', forM M (fun l => run_leaf true (EvPost (l_id l) t) l (post l t)) c = Ok tt c' /\ good K dv (k_store c') /\ has c' (fun _ => True) /\
        (forall l, l ∈ M -> y_inv y l (Some t) (lst_of c' (l_id l))) /\ (forall b, b ∉ map l_id M -> lst_of c' b = lst_of c b)) as Hgen.
    { clear c Hg Hi Hh. induction M as [|l M IH]; intros Hin HM c Hg Hh Hi.
      { exists c. split; [done|]. split; [done|]. split; [done|]. split; [|done]. by intros l Hl%elem_of_nil. }
      cbn [map] in HM. apply NoDup_cons in HM as [Hn1 Hn2]. assert (l ∈ L) as Hl by (apply Hin, elem_of_list_here).
      pose proof (du_post _ _ _ _ _ (sn_duty _ _ _ _ _ _ _ Hs l Hl) τ t _ (Hi l (elem_of_list_here _ _)) Ht) as Hgo.
      destruct (goes_run K dv _ _ _ _ (k_store c) Hgo Hg) as (st & σ' & E & Hq & Hg' & Ha); [|constructor|by intros s Hx%elem_of_nil|].
      { intros s Hx. by apply Hh. }
      cbn [forM]. unfold bnd, run_leaf. rewrite E.
      destruct (IH ltac:(intros x Hx; apply Hin; by apply elem_of_list_further) Hn2 (Core σ' (<[l_id l:=st]> (k_lst c)) (k_done c) (k_log c ++ [EvPost (l_id l) t]))) as (c2 & E2 & Hg2 & Hh2 & Hi2 & Hfr).
      - done.
      - intros s Hx. cbn. rewrite Ha. rewrite (Hh s Hx). tauto.
      - intros l' Hl'. unfold lst_of. cbn. rewrite lookup_insert_ne; [by apply Hi, elem_of_list_further|]. intros He. apply Hn1. rewrite He. apply elem_of_list_fmap. eauto.
      - exists c2. split; [exact E2|]. split; [done|]. split; [done|]. split.
        + intros l' [->|Hl']%elem_of_cons; [|by apply Hi2]. rewrite Hfr by done. unfold lst_of. cbn. by rewrite lookup_insert.
        + intros b Hb. cbn [map] in Hb. apply not_elem_of_cons in Hb as [Hb1 Hb2]. rewrite Hfr by done. unfold lst_of. cbn. by rewrite lookup_insert_ne. }
    destruct (Hgen L ltac:(done) Hwf c Hg Hh Hi) as (c' & E & Hg' & Hh' & Hi' & _). exists c'. split; [done|]. by split.
  Qed.
End core.
