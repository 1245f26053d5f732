(** Lemmas on the functions of Dead.v. *)
From stdpp Require Import prelude gmap strings.
From Verif Require Import Num Res Store Leaf Sched P_Sched Stepper Sim Visit World Api P_Compile Props_Forest Dead.

Lemma bnd_eq {S A B} (m1 m2 : M S A) (k1 k2 : A -> M S B) s :
  m1 s = m2 s -> (forall a s', m2 s = Ok a s' -> k1 a s' = k2 a s') -> bnd m1 k1 s = bnd m2 k2 s.
Proof. intros Hm Hk. unfold bnd. rewrite Hm. destruct (m2 s); try done. by apply Hk. Qed.
Lemma bnd_tt {S B} (m : M S unit) (k : unit -> M S B) s : m s = Ok tt s -> bnd m k s = k tt s.
Proof. intros Hm. unfold bnd. by rewrite Hm. Qed.

Section life.
  Context {D : Type} `{NumOps D}.
  Context (dbg : bool) (w : world D) (dead : gset bid).
  Implicit Types (tr : tree D) (b x : nat).

  Lemma deref_live {S} b (s : S) : b ∉ dead -> deref dead b s = Ok tt s.
  Proof. intros Hb. unfold deref. by rewrite bool_decide_false. Qed.
  Lemma deref_dead {S} b (s : S) : b ∈ dead -> deref dead b s = UB UDead.
  Proof. intros Hb. unfold deref. by rewrite bool_decide_true. Qed.

  (** A walk to the root meets a destroyed block or does nothing. *)
  Lemma climb_cases {S} n b nm : full_name n w b = Some nm ->
    ((forall s : S, climb w dead n b s = Ok tt s) /\ forall a, a = b \/ above w b a -> a ∉ dead) \/
    ((forall s : S, climb w dead n b s = UB UDead) /\ exists a, (a = b \/ above w b a) /\ a ∈ dead).
  Proof.
    revert b nm. induction n as [|n IH]; intros b nm Hn; [done|]. cbn in Hn.
    destruct (w_blks w !! b) as [o|] eqn:Eb; [|done].
    destruct (decide (b ∈ dead)) as [Hd|Hd].
    { right. split; [|exists b; auto]. intros s. cbn. unfold bnd. by rewrite deref_dead. }
    destruct (bo_parent o) as [p|] eqn:Ep.
    - destruct (full_name n w p) as [fp|] eqn:Ef; [|done].
      assert (child_of w b p) as Hc by (by exists o).
      assert (forall a, above w b a -> a = p \/ above w p a) as Hup.
      { intros a Ha. unfold above in Ha. inversion Ha as [? ? (o' & Ho' & Hp')|? z ? (o' & Ho' & Hp') Hza]; subst.
        - left. congruence.
        - right. assert (z = p) as -> by congruence. done. }
      destruct (IH p fp Ef) as [[H1 H2]|[H1 (a & Ha & Had)]]; [left|right].
      + split.
        * intros s. cbn. unfold bnd. rewrite deref_live by done. rewrite Eb, Ep. apply H1.
        * intros a [->|Ha]; [done|]. by apply H2, Hup.
      + split.
        * intros s. cbn. unfold bnd. rewrite deref_live by done. rewrite Eb, Ep. apply H1.
        * exists a. split; [|done]. right. destruct Ha as [->|Ha]; [by apply tc_once|by eapply tc_l].
    - left. split.
      + intros s. cbn. unfold bnd. rewrite deref_live by done. by rewrite Eb, Ep.
      + intros a [->|Ha]; [done|]. exfalso. unfold above in Ha.
        inversion Ha as [? ? (o' & Ho' & Hp')|? z ? (o' & Ho' & Hp') Hza]; subst; congruence.
  Qed.

  (** The blocks that a traced call of [b] accesses. *)
  Definition fine b : Prop := b ∉ dead /\ (dbg = true -> forall a, above w b a -> a ∉ dead).
  (** A traced call does nothing or is undefined. *)
  Lemma call_cases {S} b nm : full_name (Datatypes.S (length (w_blks w))) w b = Some nm ->
    ((forall s : S, use_blk dbg w dead b s = Ok tt s) /\ fine b) \/
    ((forall s : S, use_blk dbg w dead b s = UB UDead) /\ ~ fine b).
  Proof.
    intros Hn. unfold use_blk, trace, fine. destruct (decide (b ∈ dead)) as [Hd|Hd].
    { right. split; [|by intros []]. intros s. unfold bnd. by rewrite deref_dead. }
    destruct dbg.
    - destruct (climb_cases (S:=S) _ b nm Hn) as [[H1 H2]|[H1 (a & Ha & Had)]]; [left|right].
      + split; [intros s; unfold bnd; rewrite deref_live by done; apply H1|]. split; [done|]. intros _ a Ha. apply H2. by right.
      + split; [intros s; unfold bnd; rewrite deref_live by done; apply H1|]. intros [_ Hf].
        destruct Ha as [->|Ha]; [done|]. by apply (Hf eq_refl a Ha).
    - left. split; [|done]. intros s. unfold bnd. by rewrite deref_live by done.
  Qed.

  (** All blocks can be called. *)
  Definition calls (l : list nat) : Prop := forall x, x ∈ l -> x ∉ dead /\ forall S (s : S), use_blk dbg w dead x s = Ok tt s.
  Lemma calls_app l1 l2 : calls (l1 ++ l2) <-> calls l1 /\ calls l2.
  Proof. unfold calls. setoid_rewrite elem_of_app. naive_solver. Qed.
  Lemma calls_sub b k (ch : list (tree D)) : calls (ids (TSub b k ch)) -> calls [b] /\ Forall (fun t => calls (ids t)) ch.
  Proof.
    rewrite ids_sub. change (b :: concat (map ids ch)) with ([b] ++ concat (map ids ch)). rewrite calls_app. intros [H1 H2]. split; [done|].
    apply Forall_forall. intros t Ht x Hx. apply H2. apply elem_of_list_In, in_concat. exists (ids t).
    split; [apply in_map, elem_of_list_In, Ht|by apply elem_of_list_In].
  Qed.
  Lemma calls_at b l S (s : S) : calls l -> b ∈ l -> use_blk dbg w dead b s = Ok tt s.
  Proof. intros Hc Hb. by apply (Hc b Hb). Qed.
  Lemma calls_live b l S (s : S) : calls l -> b ∈ l -> deref dead b s = Ok tt s.
  Proof. intros Hc Hb. by apply deref_live, (Hc b Hb). Qed.
  Lemma calls_trace b l S (s : S) : calls l -> b ∈ l -> trace dbg w dead b s = Ok tt s.
  Proof. intros Hc Hb. pose proof (calls_at b l S s Hc Hb) as Hs. unfold use_blk, bnd in Hs. by rewrite (calls_live b l S s Hc Hb) in Hs. Qed.
  Lemma here b (l : list nat) : b ∈ b :: l.
  Proof. apply elem_of_list_here. Qed.

  (** Visiting. *)
  Lemma lvisit_spec {S} (cb : node D -> nat -> M S bool) mx level tr s : level <= mx ->
    lvisit dbg w dead cb mx tr level s =
    until_false (fun n lv => use_blk dbg w dead (node_id n) ;;; cb n lv) (within mx (preorder level tr)) s.
  Proof.
    set (cb' := fun n lv => use_blk dbg w dead (node_id n) ;;; cb n lv).
    revert level s. induction tr as [l|b k ch IH] using tree_ind'; intros level s Hl; cbn [lvisit preorder]; unfold visit1.
    - unfold within. rewrite (proj2 (Nat.ltb_ge mx level)) by done.
      rewrite filter_cons_True by (cbn; lia). cbn. unfold cb'. cbn [node_id]. unfold bnd. destruct (use_blk _ _ _ _ s) as [? s1|?|?|]; try done.
      by destruct (cb (NLeaf l) level s1) as [[] ?|?|?|].
    - unfold within. rewrite filter_cons_True by (cbn; lia). fold (within mx (concat (map (preorder (Datatypes.S level)) ch))).
      cbn [until_false]. unfold cb' at 1. cbn [node_id]. unfold bnd. destruct (use_blk _ _ _ _ s) as [? s0|?|?|]; try done.
      rewrite (proj2 (Nat.ltb_ge mx level)) by done.
      destruct (cb (NSub b k) level s0) as [[] s1|?|?|]; [|done..]. cbn [negb].
      destruct (Nat.ltb_spec level mx) as [Hl2|Hl2].
      + clear s s0 Hl. revert s1. induction IH as [|t ch Ht _ IH2]; intros s1; [done|]. cbn [map concat]. rewrite (within_app mx), (until_app cb').
        unfold bnd. rewrite Nat.add_1_r in *. rewrite Ht by lia. fold (within mx (preorder (Datatypes.S level) t)). destruct (until_false cb' _ s1) as [[] s2|?|?|]; [apply IH2|done..].
      + assert (within mx (concat (map (preorder (Datatypes.S level)) ch)) = []) as ->; [|done].
        clear IH. induction ch as [|t ch IH]; [done|]. cbn [map concat]. rewrite (within_app mx), within_deep, IH by lia. done.
  Qed.
  Lemma preorder_nodes level tr : map fst (preorder level tr) = nodes tr.
  Proof.
    revert level. induction tr as [l|b k ch IH] using tree_ind'; intros level; [done|]. cbn. f_equal.
    rewrite concat_map, map_map. f_equal. induction IH as [|t ch Ht _ IH2]; [done|]. cbn. by rewrite Ht, IH2.
  Qed.
  Lemma preorder_depth level tr p : p ∈ preorder level tr -> snd p < level + length (nodes tr).
  Proof.
    revert level. induction tr as [l|b k ch IH] using tree_ind'; intros level Hp; cbn in Hp |- *.
    - apply elem_of_list_singleton in Hp as ->. cbn. lia.
    - apply elem_of_cons in Hp as [->|Hp]; [cbn; lia|].
      assert (snd p < S level + length (concat (map nodes ch))); [|lia].
      induction IH as [|t ch Ht _ IH2]; cbn in Hp |- *; [by apply elem_of_nil in Hp|].
      rewrite app_length. apply elem_of_app in Hp as [Hp|Hp]; [specialize (Ht (S level) Hp); lia|].
      apply IH2 in Hp. lia.
  Qed.
  Lemma within_all tr : within (length (nodes tr)) (preorder 0 tr) = preorder 0 tr.
  Proof.
    assert (forall l : list (node D * nat), (forall p, p ∈ l -> snd p < 0 + length (nodes tr)) -> within (length (nodes tr)) l = l) as Hl.
    { induction l as [|p l IH]; intros Hp; [done|]. unfold within. rewrite filter_cons_True; [f_equal; apply IH; intros q Hq; apply Hp; by apply elem_of_list_further|].
      specialize (Hp p (elem_of_list_here _ _)). lia. }
    apply Hl. intros p Hp. by apply preorder_depth.
  Qed.

  (** When all blocks can be called. *)
  Lemma lmark_ok tr d : calls (ids tr) -> lmark dbg w dead tr d = Ok tt (mark_unprocessed tr d).
  Proof.
    revert d. induction tr as [l|b k ch IH] using tree_ind'; intros d Hc; cbn [lmark mark_unprocessed].
    - unfold bnd. by rewrite (calls_live _ _ _ _ Hc (here _ _)).
    - destruct (calls_sub _ _ _ Hc) as [Hb Hch]. unfold bnd at 1. rewrite (calls_at _ _ _ _ Hb (here _ _)). unfold bnd at 1. cbn [modify].
      generalize (Dyn (d_core d) (d_sdone d ∖ {[b]})). clear Hb Hc d. unfold modify. induction IH as [|t ch Ht _ IH2]; intros d; [done|].
      apply Forall_cons in Hch as [Ht' Hch]. cbn [fold_left]. unfold bnd. rewrite Ht by done. by apply IH2.
  Qed.
  Lemma lpre_ok tr t c : calls (ids tr) -> lpre_step dbg w dead tr t c = pre_step dbg tr t c.
  Proof.
    revert c. induction tr as [l|b k ch IH] using tree_ind'; intros c Hc; cbn [lpre_step pre_step].
    - unfold bnd. rewrite (calls_live _ _ _ _ Hc (here _ _)). destruct (has_pre (l_cls l)); [|done]. by rewrite (calls_trace _ _ _ _ Hc (here _ _)).
    - destruct (calls_sub _ _ _ Hc) as [Hb Hch]. unfold bnd at 1. rewrite (calls_at _ _ _ _ Hb (here _ _)).
      clear Hb Hc. revert c. induction IH as [|t' ch Ht _ IH2]; intros c; [done|].
      apply Forall_cons in Hch as [Ht' Hch]. unfold bnd. rewrite Ht by done. destruct (pre_step dbg t' t c); try done. by apply IH2.
  Qed.
  Lemma lpost_ok tr t c : calls (ids tr) -> lpost_step dbg w dead tr t c = post_step dbg tr t c.
  Proof.
    revert c. induction tr as [l|b k ch IH] using tree_ind'; intros c Hc; cbn [lpost_step post_step].
    - unfold bnd. rewrite (calls_live _ _ _ _ Hc (here _ _)). destruct (has_post (l_cls l)); [|done]. by rewrite (calls_trace _ _ _ _ Hc (here _ _)).
    - destruct (calls_sub _ _ _ Hc) as [Hb Hch]. unfold bnd at 1. rewrite (calls_at _ _ _ _ Hb (here _ _)).
      clear Hb Hc. revert c. induction IH as [|t' ch Ht _ IH2]; intros c; [done|].
      apply Forall_cons in Hch as [Ht' Hch]. unfold bnd. rewrite Ht by done. destruct (post_step dbg t' t c); try done. by apply IH2.
  Qed.
  Lemma lprocess_ok tr t d : calls (ids tr) -> lprocess dbg w dead tr t d = process dbg tr t d.
  Proof.
    revert d. induction tr as [l|b k ch IH] using tree_ind'; intros d Hc; cbn [lprocess process].
    - apply bnd_tt. by rewrite (calls_at _ _ _ _ Hc (here _ _)).
    - destruct (calls_sub _ _ _ Hc) as [Hb Hch]. rewrite bnd_tt by apply (calls_at _ _ _ _ Hb (here _ _)).
      apply bnd_eq; [done|]. intros [] d0 _; [done|]. apply bnd_eq; [done|]. intros _ d1 _.
      generalize 0. clear Hb Hc d d0. revert d1. induction IH as [|t' ch Ht _ IH2]; intros d n; [done|].
      apply Forall_cons in Hch as [Ht' Hch]. apply bnd_eq; [by apply Ht|]. intros k1 d1 _.
      apply bnd_eq; [done|]. intros q d2 _. apply bnd_eq; [done|]. intros _ d3 _. by apply IH2.
  Qed.
  Lemma lprocess_loop_ok n tr t d : calls (ids tr) -> lprocess_loop dbg w dead n tr t d = process_loop dbg n tr t d.
  Proof.
    intros Hc. revert d. induction n as [|n IH]; intros d; [done|]. cbn. unfold bnd. rewrite lprocess_ok by done.
    destruct (process dbg tr t d) as [[|k] d1|?|?|]; try done.
  Qed.
  Lemma lreuse_pass_ok po t d : calls (map node_id po) -> lreuse_pass dbg w dead po t d = reuse_pass dbg po t d.
  Proof.
    revert d. induction po as [|n po IH]; intros d Hc; [done|]. cbn [lreuse_pass reuse_pass].
    assert (calls (map node_id po)) as Hc' by (intros x Hx; apply Hc; by apply elem_of_list_further).
    rewrite bnd_tt by apply (calls_live _ _ _ _ Hc (here _ _)). apply bnd_eq; [done|].
    intros [] d0 _; [by apply IH|]. apply bnd_eq; [unfold lnode_process; apply bnd_tt, (calls_at _ _ _ _ Hc (here _ _))|].
    intros _ d1 _. apply bnd_eq; [done|]. intros q d2 _. apply bnd_eq; [by apply IH|done].
  Qed.
  Lemma lreuse_loop_ok n po t acc d : calls (map node_id po) -> lreuse_loop dbg w dead n po t acc d = reuse_loop dbg n po t acc d.
  Proof.
    intros Hc. revert acc d. induction n as [|n IH]; intros acc d; [done|]. cbn. unfold bnd. rewrite lreuse_pass_ok by done.
    destruct (reuse_pass dbg po t d) as [[|x r] d1|?|?|]; try done.
  Qed.
  Lemma forM_deref {S A} (f : A -> nat) l (s : S) : calls (map f l) -> forM l (fun n => deref dead (f n)) s = Ok tt s.
  Proof.
    revert s. induction l as [|n l IH]; intros s Hc; [done|]. cbn. unfold bnd. rewrite (calls_live _ _ _ _ Hc (here _ _)).
    apply IH. intros x Hx. apply Hc. by apply elem_of_list_further.
  Qed.
  Lemma lreuse_all_ok po t d : calls (map node_id po) -> lreuse_all dbg w dead po t d = reuse_all dbg po t d.
  Proof.
    intros Hc. unfold lreuse_all, reuse_all. apply bnd_eq; [by apply lreuse_loop_ok|]. intros acc d1 _.
    apply bnd_tt. by apply forM_deref.
  Qed.
  Lemma lfast_ok (order : list (list (leaf D))) t c : calls (map l_id (concat order)) -> lfast_eval dbg w dead order t c = fast_eval dbg order t c.
  Proof.
    unfold lfast_eval, fast_eval. revert c. induction order as [|ls order IH]; intros c Hc; [done|]. cbn [forM concat] in *.
    rewrite map_app in Hc. apply calls_app in Hc as [H1 H2]. apply bnd_eq; [|intros _ c1 _; by apply IH].
    clear IH H2. revert c. induction ls as [|l ls IH]; intros c; [done|]. cbn [forM].
    assert (calls (map l_id ls)) as Hc' by (intros x Hx; apply H1; by apply elem_of_list_further).
    apply bnd_eq; [|intros _ c1 _; by apply IH]. rewrite bnd_tt by apply (calls_live _ _ _ _ H1 (here _ _)). apply bnd_tt.
    destruct (is_builder (l_cls l)); [done|]. apply (calls_trace _ _ _ _ H1 (here _ _)).
  Qed.

  (** When one of them cannot. *)
  Definition partly (l : list nat) : Prop :=
    (forall x, x ∈ l -> (forall S (s : S), use_blk dbg w dead x s = Ok tt s) \/ (forall S (s : S), use_blk dbg w dead x s = UB UDead)) /\
    exists x, x ∈ l /\ forall S (s : S), use_blk dbg w dead x s = UB UDead.
  Lemma until_dead {S} (l : list (node D * nat)) (s : S) : partly (map (fun p => node_id (fst p)) l) ->
    until_false (fun n (_ : nat) => use_blk dbg w dead (node_id n) ;;; ret true) l s = UB UDead.
  Proof.
    intros [H1 H2]. induction l as [|[n lv] l IH]; [destruct H2 as (x & Hx & _); by apply elem_of_nil in Hx|]. cbn [until_false map fst] in *.
    unfold bnd. destruct (H1 _ (here _ _)) as [Ho|Hd]; [|by rewrite Hd]. rewrite Ho. cbn [ret]. apply IH.
    - intros x Hx. apply H1. by apply elem_of_list_further.
    - destruct H2 as (x & Hx & Hd). apply elem_of_cons in Hx as [->|Hx]; [|by exists x].
      exfalso. specialize (Ho _ tt). by rewrite Hd in Ho.
  Qed.
  Lemma lvisit_dead {S} tr (s : S) : partly (ids tr) ->
    lvisit dbg w dead (fun _ _ => ret true) (length (nodes tr)) tr 0 s = UB UDead.
  Proof.
    intros Hp. rewrite lvisit_spec by lia. rewrite within_all. apply until_dead.
    rewrite <- (map_map fst node_id), preorder_nodes. exact Hp.
  Qed.
  Lemma lvisit_live {S} tr (s : S) : calls (ids tr) ->
    lvisit dbg w dead (fun _ _ => ret true) (length (nodes tr)) tr 0 s = Ok true s.
  Proof.
    intros Hp. rewrite lvisit_spec by lia. rewrite within_all.
    assert (calls (map (fun p => node_id (fst p)) (preorder 0 tr))) as Hc.
    { rewrite <- (map_map fst node_id), preorder_nodes. exact Hp. }
    clear Hp. induction (preorder 0 tr) as [|[n lv] l IH]; [done|]. cbn. unfold bnd. rewrite (calls_at _ _ _ _ Hc (here _ _)). cbn.
    apply IH. intros x Hx. apply Hc. by apply elem_of_list_further.
  Qed.
  (** Sequences that touch a destroyed block do not return normally. *)
  Lemma lmark_dead tr d : (exists x, x ∈ ids tr /\ x ∈ dead) -> match lmark dbg w dead tr d with Ok _ _ => False | _ => True end.
  Proof.
    revert d. induction tr as [l|b k ch IH] using tree_ind'; intros d (x & Hx & Hd); cbn [lmark].
    - apply elem_of_list_singleton in Hx. cbn in Hx. subst x. unfold bnd. by rewrite deref_dead.
    - rewrite ids_sub in Hx. unfold bnd at 1. destruct (use_blk dbg w dead b d) as [u d0|?|?|] eqn:Ec; try done.
      apply elem_of_cons in Hx as [->|Hx].
      { exfalso. revert Ec. unfold use_blk, bnd. by rewrite deref_dead. }
      unfold bnd at 1. cbn [modify]. unfold modify. generalize (Dyn (d_core d0) (d_sdone d0 ∖ {[b]})). clear Ec.
      induction IH as [|t ch Ht _ IH2]; intros d1; cbn in Hx; [by apply elem_of_nil in Hx|]. apply elem_of_app in Hx as [Hx|Hx]; unfold bnd.
      + specialize (Ht d1 (ex_intro _ x (conj Hx Hd))). destruct (lmark dbg w dead t d1); done.
      + destruct (lmark dbg w dead t d1) as [u1 d2|?|?|]; try done. by apply IH2.
  Qed.
  Lemma lpre_dead tr t c : (exists x, x ∈ ids tr /\ x ∈ dead) -> match lpre_step dbg w dead tr t c with Ok _ _ => False | _ => True end.
  Proof.
    revert c. induction tr as [l|b k ch IH] using tree_ind'; intros c (x & Hx & Hd); cbn [lpre_step].
    - apply elem_of_list_singleton in Hx. cbn in Hx. subst x. unfold bnd. by rewrite deref_dead.
    - rewrite ids_sub in Hx. unfold bnd at 1. destruct (use_blk dbg w dead b c) as [u c0|?|?|] eqn:Ec; try done.
      apply elem_of_cons in Hx as [->|Hx].
      { exfalso. revert Ec. unfold use_blk, bnd. by rewrite deref_dead. }
      clear Ec. revert c0. induction IH as [|t' ch Ht _ IH2]; intros d1; cbn in Hx; [by apply elem_of_nil in Hx|]. apply elem_of_app in Hx as [Hx|Hx]; unfold bnd.
      + specialize (Ht d1 (ex_intro _ x (conj Hx Hd))). destruct (lpre_step dbg w dead t' t d1); done.
      + destruct (lpre_step dbg w dead t' t d1) as [u1 d2|?|?|]; try done. by apply IH2.
  Qed.
  Lemma lpost_dead tr t c : (exists x, x ∈ ids tr /\ x ∈ dead) -> match lpost_step dbg w dead tr t c with Ok _ _ => False | _ => True end.
  Proof.
    revert c. induction tr as [l|b k ch IH] using tree_ind'; intros c (x & Hx & Hd); cbn [lpost_step].
    - apply elem_of_list_singleton in Hx. cbn in Hx. subst x. unfold bnd. by rewrite deref_dead.
    - rewrite ids_sub in Hx. unfold bnd at 1. destruct (use_blk dbg w dead b c) as [u c0|?|?|] eqn:Ec; try done.
      apply elem_of_cons in Hx as [->|Hx].
      { exfalso. revert Ec. unfold use_blk, bnd. by rewrite deref_dead. }
      clear Ec. revert c0. induction IH as [|t' ch Ht _ IH2]; intros d1; cbn in Hx; [by apply elem_of_nil in Hx|]. apply elem_of_app in Hx as [Hx|Hx]; unfold bnd.
      + specialize (Ht d1 (ex_intro _ x (conj Hx Hd))). destruct (lpost_step dbg w dead t' t d1); done.
      + destruct (lpost_step dbg w dead t' t d1) as [u1 d2|?|?|]; try done. by apply IH2.
  Qed.
End life.
