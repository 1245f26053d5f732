(** Evaluation of a model as a sequence of activations. *)
From stdpp Require Import prelude gmap.
From Coq Require Import ZArith.
From Verif Require Import Num Res Store Leaf Sched SpecSched Util.

(** Induction on trees with the children's hypotheses. *)
Fixpoint tree_ind' {D} (P : tree D -> Prop)
    (HL : forall l, P (TLeaf l)) (HS : forall b k ch, Forall P ch -> P (TSub b k ch))
    (tr : tree D) {struct tr} : P tr :=
  match tr with
  | TLeaf l => HL l
  | TSub b k ch =>
      HS b k ch ((fix go (l : list (tree D)) : Forall P l :=
                    match l with
                    | [] => Forall_nil_2 P
                    | x :: l' => Forall_cons_2 P x l' (tree_ind' P HL HS x) (go l')
                    end) ch)
  end.

(** Submodels of a tree with the leaves below them. *)
Fixpoint subs {D} (tr : tree D) : list (nat * list (leaf D)) :=
  match tr with
  | TLeaf _ => []
  | TSub b _ ch => (b, concat (map leaves ch)) :: concat (map subs ch)
  end.

Section sched.
  Context {D : Type} `{NumOps D}.
  Implicit Types (c : core D) (d : dyn D) (l : leaf D) (tr : tree D).

  Lemma ready_links_true σ (k : list (nat * N)) :
    ready_links σ k = true <->
    (forall s, s ∈ map fst (filter (fun p => N.land (snd p) fRequired ≠ 0%N) k) ->
               assigned (D:=D) σ s = true).
  Proof.
    induction k as [|[s f] k IH]; cbn [ready_links].
    - split; [|done]. intros _ s Hs. by apply elem_of_nil in Hs.
    - rewrite filter_cons. cbn [snd].
      destruct (N.eqb_spec (N.land f fRequired) 0) as [He|Hne]; cbn [negb andb].
      + rewrite decide_False by naive_solver. exact IH.
      + rewrite decide_True by done. cbn [map fst].
        destruct (assigned σ s) eqn:Ha; cbn [negb].
        * rewrite IH. split.
          -- intros Hr x Hx. apply elem_of_cons in Hx as [->|Hx]; auto.
          -- intros Hr x Hx. apply Hr. by apply elem_of_list_further.
        * split; [done|]. intros Hr. rewrite <- Ha. apply Hr. apply elem_of_list_here.
  Qed.
  Lemma ready_true c l : ready c l = true <-> inputs_there (k_store c) l.
  Proof. apply ready_links_true. Qed.
  Lemma ready_false c l : ready c l = false <-> waits (k_store c) l.
  Proof.
    split.
    - unfold ready, waits, required. induction (l_linked l) as [|[s f] k IH]; cbn [ready_links]; [done|].
      rewrite filter_cons. cbn [snd].
      destruct (N.eqb_spec (N.land f fRequired) 0) as [He|Hne]; cbn [negb andb].
      + rewrite decide_False by naive_solver. exact IH.
      + rewrite decide_True by done. cbn [map fst]. destruct (assigned (k_store c) s) eqn:Ha; cbn [negb].
        * intros Hr. destruct (IH Hr) as (x & Hx & Hxa). exists x. split; [|done]. by apply elem_of_list_further.
        * intros _. exists s. split; [apply elem_of_list_here|done].
    - intros (s & Hs & Ha). destruct (ready c l) eqn:E; [|done].
      apply ready_true in E. by rewrite (E s Hs) in Ha.
  Qed.

  Definition pick c l : Prop := l_id l ∉ k_done c /\ inputs_there (k_store c) l.

  Section dbg.
  Context (dbg : bool) (t : D).

  Lemma activate_not_oof l c : activate dbg l t c ≠ OOF.
  Proof.
    unfold activate, run_leaf. assert (forall A (p : prog D A) σ, run_prog dbg p σ ≠ OOF) as Hp.
    { intros A p. induction p as [a|s k IH|s v p IH|b e p IH|e|u]; intros σ; cbn; try done.
      - unfold bnd, get_value. repeat case_match; simplify_eq; auto.
      - unfold bnd, set_value. repeat case_match; simplify_eq; auto.
      - unfold bnd, debug_verify, verify. destruct dbg, b; cbn; auto. }
    case_match; try done. intros _. by eapply Hp.
  Qed.
  Lemma activate_done l c c' : activate dbg l t c = Ok tt c' -> k_done c' = k_done c.
  Proof. unfold activate, run_leaf. case_match; intros; by simplify_eq. Qed.
  Lemma activate_log l c c' :
    activate dbg l t c = Ok tt c' -> k_log c' = k_log c ++ [EvAct (l_id l) t].
  Proof. unfold activate, run_leaf. case_match; intros; by simplify_eq. Qed.

  Lemma legal_run_app c ls1 c1 ls2 c2 :
    legal_run dbg t c ls1 c1 -> legal_run dbg t c1 ls2 c2 -> legal_run dbg t c (ls1 ++ ls2) c2.
  Proof.
    intros H1 H2. induction H2 as [|ls2 ca l cb H2 IH Hd Hi Ha].
    - by rewrite app_nil_r.
    - rewrite app_assoc. by econstructor.
  Qed.
  Lemma legal_run_one c l c' :
    pick c l -> activate dbg l t c = Ok tt c' -> legal_run dbg t c [l] (mark_done (l_id l) c').
  Proof. intros [Hd Hi] Ha. apply (lr_snoc dbg t c [] c l c'); [constructor|done..]. Qed.
  Lemma legal_run_nil c c' : legal_run dbg t c [] c' -> c' = c.
  Proof. inversion 1 as [|ls]; [done|]. by destruct ls. Qed.

  Lemma legal_run_basic c ls c' :
    legal_run dbg t c ls c' ->
    NoDup (map l_id ls) /\ (forall l, l ∈ ls -> l_id l ∉ k_done c) /\
    k_done c' = list_to_set (map l_id ls) ∪ k_done c /\
    k_log c' = k_log c ++ map (fun l => EvAct (l_id l) t) ls.
  Proof.
    induction 1 as [|ls c1 l c2 H1 (Hn & Hd & Hdone & Hlog) Hdl Hi Ha].
    - cbn. split_and!; [constructor|intros l Hl; by apply elem_of_nil in Hl|set_solver|by rewrite app_nil_r].
    - assert (l_id l ∉ map l_id ls) as Hni.
      { intros Hin. apply Hdl. rewrite Hdone. apply elem_of_union_l, elem_of_list_to_set. done. }
      split_and!.
      + rewrite map_app. cbn. apply NoDup_app. split_and!; [done| |apply NoDup_singleton].
        intros x Hx Hx2. apply elem_of_list_singleton in Hx2 as ->. done.
      + intros l' Hl'. apply elem_of_app in Hl' as [Hl'|Hl']; [by apply Hd|].
        apply elem_of_list_singleton in Hl' as ->. rewrite Hdone in Hdl. set_solver.
      + cbn [mark_done k_done]. rewrite (activate_done _ _ _ Ha), Hdone, map_app, list_to_set_app_L.
        cbn. set_solver.
      + cbn [mark_done k_log]. rewrite (activate_log _ _ _ Ha), Hlog, map_app. by rewrite <- app_assoc.
  Qed.
  Lemma legal_run_done_mono c ls c' b :
    legal_run dbg t c ls c' -> b ∈ k_done c -> b ∈ k_done c'.
  Proof. intros Hr Hb. apply legal_run_basic in Hr as (_ & _ & -> & _). set_solver. Qed.

  (** A computation fails only because an activation that was due failed. *)
  Definition failed {A} (L : list (leaf D)) c (r : res (core D) A) : Prop :=
    exists ls c1 l, legal_run dbg t c ls c1 /\ (forall x, x ∈ ls -> x ∈ L) /\ l ∈ L /\ pick c1 l /\
      match r with
      | Ok _ _ => False
      | Exn e c' => activate dbg l t c1 = Exn e c'
      | UB u => activate dbg l t c1 = UB u
      | OOF => False
      end.

  Lemma failed_app {A} L L' c ls c1 (r : res (core D) A) :
    legal_run dbg t c ls c1 -> (forall x, x ∈ ls -> x ∈ L') -> (forall x, x ∈ L -> x ∈ L') ->
    failed L c1 r -> failed L' c r.
  Proof.
    intros Hr Hin Hsub (ls2 & c2 & l & Hr2 & Hin2 & Hl & Hp & Hf).
    exists (ls ++ ls2), c2, l. split_and!; [by eapply legal_run_app| |auto|done|done].
    intros x Hx. apply elem_of_app in Hx as [Hx|Hx]; auto.
  Qed.

  Lemma leaf_process_spec l c :
    match leaf_process dbg l t c with
    | Ok 0 c' => c' = c /\ (l_id l ∈ k_done c \/ waits (k_store c) l)
    | Ok (S 0) c' => pick c l /\ exists c1, activate dbg l t c = Ok tt c1 /\ c' = mark_done (l_id l) c1
    | Ok _ _ => False
    | Exn e c' => pick c l /\ activate dbg l t c = Exn e c'
    | UB u => pick c l /\ activate dbg l t c = UB u
    | OOF => False
    end.
  Proof.
    unfold leaf_process, is_done. case_bool_decide as Hd; cbn [orb].
    - split; [done|by left].
    - destruct (ready c l) eqn:Hr; cbn [negb].
      + assert (pick c l) as Hp by (split; [done|by apply ready_true]).
        unfold bnd. destruct (activate dbg l t c) as [[] c1|e c1|u|] eqn:Ha; [|done|done|].
        * cbn. split; [done|]. exists c1. done.
        * by apply activate_not_oof in Ha.
      + split; [done|]. right. by apply ready_false.
  Qed.

  Definition all_done (L : list (leaf D)) c : Prop := forall l, l ∈ L -> l_id l ∈ k_done c.

  Definition inv tr d : Prop :=
    forall b ls, (b, ls) ∈ subs tr -> b ∈ d_sdone d -> all_done ls (d_core d).

  Definition process_list (b : nat) : list (tree D) -> nat -> M (dyn D) nat :=
    fix go (ch : list (tree D)) (n : nat) : M (dyn D) nat :=
    match ch with
    | [] => ret n
    | c :: ch' =>
        k <~ process dbg c t ;;
        q <~ gets (tree_processed c) ;;
        (if q : bool then ret tt else unset_sdone b) ;;;
        go ch' (n + k)
    end.
  Lemma process_list_cons b (c : tree D) (ch : list (tree D)) (n : nat) :
    process_list b (c :: ch) n =
    (k <~ process dbg c t ;;
     q <~ gets (tree_processed c) ;;
     (if q : bool then ret tt else unset_sdone b) ;;;
     process_list b ch (n + k)).
  Proof. reflexivity. Qed.
  Lemma process_TSub b k ch :
    process dbg (TSub b k ch) t =
    (p <~ gets (fun d => is_sdone d b) ;;
     if p : bool then ret 0 else set_sdone b ;;; process_list b ch 0).
  Proof. reflexivity. Qed.

  Definition process_post tr d (r : res (dyn D) nat) : Prop :=
    match r with
    | Ok k d' => exists ls,
        legal_run dbg t (d_core d) ls (d_core d') /\ (forall x, x ∈ ls -> x ∈ leaves tr) /\
        k = length ls /\ inv tr d' /\
        (tree_processed tr d' = true -> all_done (leaves tr) (d_core d')) /\
        (forall b, b ∉ map fst (subs tr) -> b ∈ d_sdone d' <-> b ∈ d_sdone d) /\
        (ls = [] -> exhausted (leaves tr) (d_core d'))
    | Exn e d' => failed (A:=nat) (leaves tr) (d_core d) (Exn e (d_core d'))
    | UB u => failed (A:=nat) (leaves tr) (d_core d) (UB u)
    | OOF => False
    end.
  Definition list_post (b : nat) (ch : list (tree D)) (n : nat) d (r : res (dyn D) nat) : Prop :=
    match r with
    | Ok k d' => exists ls,
        legal_run dbg t (d_core d) ls (d_core d') /\
        (forall x, x ∈ ls -> x ∈ concat (map leaves ch)) /\
        k = n + length ls /\ (forall (c : tree D), c ∈ ch -> inv c d') /\
        (b ∈ d_sdone d' -> b ∈ d_sdone d /\ all_done (concat (map leaves ch)) (d_core d')) /\
        (forall b', b' ≠ b -> b' ∉ concat (map (fun c : tree D => map fst (subs c)) ch) ->
                    b' ∈ d_sdone d' <-> b' ∈ d_sdone d) /\
        (ls = [] -> exhausted (concat (map leaves ch)) (d_core d'))
    | Exn e d' => failed (A:=nat) (concat (map leaves ch)) (d_core d) (Exn e (d_core d'))
    | UB u => failed (A:=nat) (concat (map leaves ch)) (d_core d) (UB u)
    | OOF => False
    end.

  Lemma all_done_mono L c ls c' :
    legal_run dbg t c ls c' -> all_done L c -> all_done L c'.
  Proof. intros Hr Hd l Hl. eapply legal_run_done_mono; [done|auto]. Qed.

  Lemma inv_frame tr d d' ls :
    inv tr d -> legal_run dbg t (d_core d) ls (d_core d') ->
    (forall b, b ∈ map fst (subs tr) -> b ∈ d_sdone d' -> b ∈ d_sdone d) -> inv tr d'.
  Proof.
    intros Hi Hr Hs b L Hb Hd. eapply all_done_mono; [done|]. eapply Hi; [done|].
    apply Hs; [|done]. apply elem_of_list_fmap. by exists (b, L).
  Qed.

  Lemma process_list_spec b ch n d :
    Forall (fun c : tree D => forall d, NoDup (map fst (subs c)) -> inv c d -> process_post c d (process dbg c t d)) ch ->
    NoDup (concat (map (fun c : tree D => map fst (subs c)) ch)) ->
    b ∉ concat (map (fun c : tree D => map fst (subs c)) ch) ->
    (forall (c : tree D), c ∈ ch -> inv c d) ->
    list_post b ch n d (process_list b ch n d).
  Proof.
    intros Hch. revert n d. induction Hch as [|c ch Hc Hch IH]; intros n d Hnd Hb Hinv;
      cbn [map concat] in *.
    - exists []. split_and!; [constructor|done|cbn; lia|done| |done|].
      + intros Hbd. split; [done|]. intros l Hl. by apply elem_of_nil in Hl.
      + intros _ l Hl. by apply elem_of_nil in Hl.
    - apply NoDup_app in Hnd as (Hnc & Hdis & Hnd).
      apply not_elem_of_app in Hb as [Hbc Hb].
      specialize (Hc d Hnc (Hinv c (elem_of_list_here _ _))).
      rewrite process_list_cons. unfold bnd at 1.
      destruct (process dbg c t d) as [k d1|e d1|u|] eqn:E1; cbn [process_post] in Hc.
      + destruct Hc as (ls1 & Hr1 & Hin1 & Hk & Hi1 & Hp1 & Hf1 & Hq1).
        set (d2 := if tree_processed c d1 then d1 else Dyn (d_core d1) (d_sdone d1 ∖ {[b]})).
        replace ((q <~ gets (tree_processed c) ;; (if q : bool then ret tt else unset_sdone b) ;;;
                   process_list b ch (n + k)) d1) with (process_list b ch (n + k) d2).
        2:{ unfold d2, bnd, gets, unset_sdone, modify, ret. by destruct (tree_processed c d1). }
        assert (d_core d2 = d_core d1) as Hcore by (unfold d2; by destruct (tree_processed c d1)).
        assert (forall b', b' ≠ b -> b' ∈ d_sdone d2 <-> b' ∈ d_sdone d1) as Hs2.
        { intros b' Hne. unfold d2. destruct (tree_processed c d1); [done|]. cbn. set_solver. }
        assert (b ∈ d_sdone d2 -> b ∈ d_sdone d1 /\ tree_processed c d1 = true) as Hb2.
        { unfold d2. destruct (tree_processed c d1); [done|]. cbn. set_solver. }
        assert (forall c' : tree D, c' ∈ ch -> inv c' d2) as Hinv2.
        { intros c' Hc'. eapply (inv_frame c' d d2 ls1); [apply Hinv; by apply elem_of_list_further|by rewrite Hcore|].
          intros b' Hb' Hd'.
          assert (b' ∈ concat (map (fun c : tree D => map fst (subs c)) ch)) as Hbi.
          { apply elem_of_concat_map. by exists c'. }
          apply Hs2 in Hd'; [|intros ->; done]. apply Hf1; [|done].
          intros Hbc'. by apply (Hdis b'). }
        specialize (IH (n + k) d2 Hnd Hb Hinv2).
        destruct (process_list b ch (n + k) d2) as [k' d3|e d3|u|]; cbn [list_post] in *.
        * destruct IH as (ls2 & Hr2 & Hin2 & Hk2 & Hi2 & Hp2 & Hf2 & Hq2). rewrite Hcore in Hr2.
          exists (ls1 ++ ls2). split_and!.
          -- by eapply legal_run_app.
          -- intros x Hx. apply elem_of_app. apply elem_of_app in Hx as [Hx|Hx]; auto.
          -- rewrite app_length. lia.
          -- intros c' Hc'. apply elem_of_cons in Hc' as [->|Hc']; [|auto].
             eapply (inv_frame c d1 d3 ls2); [done|done|]. intros b' Hb' Hd'.
             apply Hs2; [intros ->; done|]. apply Hf2; [intros ->; done| |done].
             intros Hbi. by apply (Hdis b').
          -- intros Hb3. destruct (Hp2 Hb3) as [Hb2' Hall]. apply Hb2 in Hb2' as [Hb1 Htp].
             split; [by apply Hf1|]. intros l Hl. apply elem_of_app in Hl as [Hl|Hl]; [|by apply Hall].
             eapply legal_run_done_mono; [done|]. by apply Hp1.
          -- intros b' Hne Hni. apply not_elem_of_app in Hni as [Hni1 Hni2].
             rewrite Hf2 by done. rewrite Hs2 by done. by apply Hf1.
          -- intros Hnil. apply app_nil in Hnil as [-> ->].
             apply legal_run_nil in Hr2. intros l Hl. apply elem_of_app in Hl as [Hl|Hl].
             ++ rewrite Hr2. by apply Hq1.
             ++ by apply Hq2.
        * eapply (failed_app (concat (map leaves ch))); [done|intros x Hx; apply elem_of_app; auto|intros x Hx; apply elem_of_app; auto|].
          rewrite Hcore in IH. exact IH.
        * eapply (failed_app (concat (map leaves ch))); [done|intros x Hx; apply elem_of_app; auto|intros x Hx; apply elem_of_app; auto|].
          rewrite Hcore in IH. exact IH.
        * done.
      + cbn [list_post]. eapply (failed_app (leaves c) _ _ []); [constructor|intros x Hx; by apply elem_of_nil in Hx|intros x Hx; apply elem_of_app; auto|exact Hc].
      + cbn [list_post]. eapply (failed_app (leaves c) _ _ []); [constructor|intros x Hx; by apply elem_of_nil in Hx|intros x Hx; apply elem_of_app; auto|exact Hc].
      + done.
  Qed.

  Lemma map_fst_subs_sub b k ch :
    map fst (subs (TSub (D:=D) b k ch)) = b :: concat (map (fun c : tree D => map fst (subs c)) ch).
  Proof.
    cbn. f_equal. induction ch as [|c ch IH]; cbn; [done|]. by rewrite map_app, IH.
  Qed.

  Lemma process_spec tr d :
    NoDup (map fst (subs tr)) -> inv tr d -> process_post tr d (process dbg tr t d).
  Proof.
    revert d. induction tr as [l|b k ch Hch] using tree_ind'; intros d Hnd Hinv.
    - cbn [process]. unfold on_core, lift. pose proof (leaf_process_spec l (d_core d)) as Hl.
      destruct (leaf_process dbg l t (d_core d)) as [k c'|e c'|u|]; cbn [process_post].
      + destruct k as [|[|k]]; [| |done].
        * destruct Hl as [-> Hl]. exists []. cbn [d_core d_sdone leaves].
          split_and!; [constructor|intros x Hx; by apply elem_of_nil in Hx|done| | |done|].
          -- intros b' ls' Hb'. by apply elem_of_nil in Hb'.
          -- cbn. unfold is_done. intros Hd l' Hl'. apply elem_of_list_singleton in Hl' as ->.
             by apply bool_decide_eq_true in Hd.
          -- intros _ l' Hl'. apply elem_of_list_singleton in Hl' as ->. done.
        * destruct Hl as (Hp & c1 & Ha & ->). exists [l]. cbn [d_core d_sdone leaves].
          split_and!; [by apply legal_run_one|done|done| | |done|done].
          -- intros b' ls' Hb'. by apply elem_of_nil in Hb'.
          -- intros _ l' Hl'. apply elem_of_list_singleton in Hl' as ->. cbn. set_solver.
      + destruct Hl as [Hp Ha]. exists [], (d_core d), l.
        split_and!; [constructor|intros x Hx; by apply elem_of_nil in Hx|apply elem_of_list_here|done|done].
      + destruct Hl as [Hp Ha]. exists [], (d_core d), l.
        split_and!; [constructor|intros x Hx; by apply elem_of_nil in Hx|apply elem_of_list_here|done|done].
      + done.
    - rewrite process_TSub. rewrite map_fst_subs_sub in Hnd. apply NoDup_cons in Hnd as [Hb Hnd].
      unfold bnd at 1, gets. cbn beta iota. unfold is_sdone. case_bool_decide as Hbd.
      + cbn. exists []. split_and!; [constructor|intros x Hx; by apply elem_of_nil in Hx|done|done| |done|].
        * intros _. by apply (Hinv b); [apply elem_of_list_here|].
        * intros _ l Hl. left. by apply (Hinv b _ (elem_of_list_here _ _) Hbd).
      + unfold bnd at 1, set_sdone, modify. cbn beta iota.
        set (d1 := Dyn (d_core d) ({[b]} ∪ d_sdone d)).
        assert (forall (c : tree D), c ∈ ch -> inv c d1) as Hinv1.
        { intros c Hc b' ls' Hb' Hd'. cbn in *.
          assert ((b', ls') ∈ concat (map subs ch)) as Hin.
          { apply elem_of_concat_map. by exists c. }
          apply elem_of_union in Hd' as [Hd'|Hd'].
          - apply elem_of_singleton in Hd' as ->. exfalso. apply Hb.
            apply elem_of_concat_map. exists c. split; [done|].
            apply elem_of_list_fmap. by exists (b, ls').
          - eapply Hinv; [|done]. cbn. by apply elem_of_list_further. }
        pose proof (process_list_spec b ch 0 d1 Hch Hnd Hb Hinv1) as Hpl.
        destruct (process_list b ch 0 d1) as [k' d2|e d2|u|]; cbn [list_post process_post leaves] in *.
        * destruct Hpl as (ls & Hr & Hin & Hk & Hi & Hp & Hf & Hq).
          exists ls. split_and!; [done|done|done| | | |done].
          -- intros b' ls' Hb' Hd'. cbn in Hb'. apply elem_of_cons in Hb' as [Heq|Hb'].
             ++ injection Heq as -> ->. by apply Hp.
             ++ apply elem_of_concat_map in Hb' as (c & Hc & Hin').
                by eapply (Hi c Hc).
          -- cbn. unfold is_sdone. intros Hd. apply bool_decide_eq_true in Hd. by apply Hp.
          -- intros b' Hb'. rewrite map_fst_subs_sub in Hb'. apply not_elem_of_cons in Hb' as [Hne Hni].
             rewrite Hf by done. cbn. set_solver.
        * done.
        * done.
        * done.
  Qed.

  (** Number of leaves that have not run. *)
  Definition undone (L : list (leaf D)) c : nat :=
    length (filter (fun l => l_id l ∉ k_done c) L).
  Lemma undone_le L c : undone L c <= length L.
  Proof. apply filter_length. Qed.
  Lemma undone_run L c ls c' :
    NoDup (map l_id L) -> legal_run dbg t c ls c' -> (forall x, x ∈ ls -> x ∈ L) ->
    undone L c' + length ls <= undone L c.
  Proof.
    intros Hn Hr Hin. apply legal_run_basic in Hr as (Hnd & Hnew & Hdone & _).
    unfold undone. rewrite Hdone.
    assert (filter (fun l => l_id l ∉ (list_to_set (map l_id ls) : gset nat) ∪ k_done c) L ++ ls
              ⊆+ filter (fun l => l_id l ∉ k_done c) L) as Hsub.
    { apply NoDup_submseteq.
      - apply NoDup_app. split_and!.
        + apply NoDup_filter. by eapply NoDup_fmap_1.
        + intros x Hx Hx2. apply elem_of_list_filter in Hx as [Hx _]. apply Hx.
          apply elem_of_union_l, elem_of_list_to_set. by apply elem_of_list_fmap_1.
        + by eapply NoDup_fmap_1.
      - intros x Hx. apply elem_of_app in Hx as [Hx|Hx]; apply elem_of_list_filter.
        + apply elem_of_list_filter in Hx as [Hx HxL]. split; [set_solver|done].
        + split; [by apply Hnew|by apply Hin]. }
    apply submseteq_length in Hsub. rewrite app_length in Hsub. lia.
  Qed.

  (** Outcome of a whole evaluation. *)
  Definition eval_post (L : list (leaf D)) c (r : res (core D) unit) : Prop :=
    match r with
    | Ok _ c' => exists ls, legal_run dbg t c ls c' /\ (forall x, x ∈ ls -> x ∈ L) /\ exhausted L c'
    | _ => failed L c r
    end.
  Definition res_core {A} (r : res (dyn D) A) : res (core D) unit :=
    match r with Ok _ d => Ok tt (d_core d) | Exn e d => Exn e (d_core d) | UB u => UB u | OOF => OOF end.

  Lemma process_loop_spec fuel tr d :
    NoDup (map fst (subs tr)) -> NoDup (map l_id (leaves tr)) -> inv tr d ->
    undone (leaves tr) (d_core d) < fuel ->
    eval_post (leaves tr) (d_core d) (res_core (process_loop dbg fuel tr t d)).
  Proof.
    intros Hns Hnl. revert d. induction fuel as [|fuel IH]; intros d Hinv Hf; [lia|].
    cbn [process_loop]. unfold bnd at 1. pose proof (process_spec tr d Hns Hinv) as Hp.
    destruct (process dbg tr t d) as [k d1|e d1|u|]; cbn [process_post] in Hp.
    - destruct Hp as (ls & Hr & Hin & Hk & Hi & _ & _ & Hq).
      destruct k as [|k].
      + destruct ls; [|done]. cbn. exists []. split; [done|]. split; [done|]. by apply Hq.
      + pose proof (undone_run _ _ _ _ Hnl Hr Hin) as Hu.
        specialize (IH d1 Hi ltac:(lia)).
        destruct (process_loop dbg fuel tr t d1) as [u d2|e d2|u|]; cbn [res_core eval_post] in *.
        * destruct IH as (ls2 & Hr2 & Hin2 & Hex). exists (ls ++ ls2). split_and!.
          -- by eapply legal_run_app.
          -- intros x Hx. apply elem_of_app in Hx as [Hx|Hx]; auto.
          -- done.
        * by eapply (failed_app (leaves tr) (leaves tr) _ ls _).
        * by eapply (failed_app (leaves tr) (leaves tr) _ ls _).
        * by eapply (failed_app (leaves tr) (leaves tr) _ ls _).
    - exact Hp.
    - exact Hp.
    - done.
  Qed.

  Lemma process_all_spec tr d :
    NoDup (map fst (subs tr)) -> NoDup (map l_id (leaves tr)) -> inv tr d ->
    eval_post (leaves tr) (d_core d) (res_core (process_all dbg tr t d)).
  Proof.
    intros. apply process_loop_spec; [done..|]. pose proof (undone_le (leaves tr) (d_core d)). lia.
  Qed.
  End dbg.
End sched.
