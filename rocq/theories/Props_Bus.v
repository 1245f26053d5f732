(** BusMemory and BusPipe: C52, C53, C54. *)
From stdpp Require Import prelude gmap strings.
From Coq Require Import ZArith QArith.
From Verif Require Import Num NumQ Res Name SpecName P_Name Store Leaf Sched World Api SpecBus Steps P_Steps P_Ops P_World
  P_Bus P_Build Ex_Models Props_Tree.
Local Open Scope nat_scope.

Section help.
  Context {D : Type} `{NumOps D}.
  Implicit Types (w : world D).

  Lemma find_given (inits : list (string * val D)) l v : find_init inits l = Some v <-> given inits l v.
  Proof.
    induction inits as [|[l' v'] m IH]; cbn.
    - split; [done|]. by intros (i & Hi & _).
    - destruct (String.eqb_spec l' l) as [->|Hne].
      + split.
        * intros [= ->]. exists 0. split; [done|]. intros j e Hj. lia.
        * intros (i & Hi & Hj). destruct i as [|i]; [cbn in Hi; by simplify_eq|].
          by destruct (Hj 0 (l, v') ltac:(lia) eq_refl).
      + rewrite IH. split.
        * intros (i & Hi & Hj). exists (S i). split; [done|]. intros [|j] e Hl; cbn; [by intros [= <-]|]. apply Hj. lia.
        * intros ([|i] & Hi & Hj); [cbn in Hi; by simplify_eq|]. exists i. split; [done|].
          intros j e Hl He. apply (Hj (S j)); [lia|done].
  Qed.
  Lemma find_erase (inits : list (string * val D)) l l' :
    find_init (erase_init inits l) l' = if decide (l = l') then None else find_init inits l'.
  Proof.
    induction inits as [|[k v] m IH]; cbn; [by case_decide|].
    destruct (String.eqb_spec k l) as [->|Hne].
    - rewrite IH. case_decide as E; [done|]. by destruct (String.eqb_spec l l').
    - cbn. rewrite IH. destruct (String.eqb_spec k l') as [->|Hne']; [|done]. by case_decide.
  Qed.
  Lemma elem_erase (inits : list (string * val D)) l k v : (k, v) ∈ erase_init inits l <-> (k, v) ∈ inits /\ k ≠ l.
  Proof.
    induction inits as [|[k' v'] m IH]; cbn; [split; [by intros ?%elem_of_nil|by intros [?%elem_of_nil _]]|].
    destruct (String.eqb_spec k' l) as [->|Hne]; rewrite ?elem_of_cons, IH, ?elem_of_cons; naive_solver.
  Qed.
  Lemma after_mem (inits : list (string * val D)) excl ps :
    exists inits', foldl after (CBusMem inits excl) ps = CBusMem inits' excl /\
      (forall l, l ∈ dotted <$> ps -> find_init inits' l = None) /\
      (forall l, l ∉ dotted <$> ps -> find_init inits' l = find_init inits l) /\
      (forall k v, (k, v) ∈ inits' <-> (k, v) ∈ inits /\ k ∉ dotted <$> ps).
  Proof.
    revert inits. induction ps as [|p ps IH]; intros inits.
    - exists inits. split_and!; [done|by intros l ?%elem_of_nil|done|]. intros k v. split; [|by intros [? _]].
      intros Hk. split; [done|]. apply not_elem_of_nil.
    - cbn [foldl]. destruct (IH (erase_init inits (dotted p))) as (i' & E & H1 & H2 & H3). exists i'.
      split_and!; [exact E| | |]; cbn [fmap list_fmap].
      + intros l Hl. destruct (decide (l ∈ dotted <$> ps)) as [Hi|Hi]; [by apply H1|].
        apply elem_of_cons in Hl as [->|?]; [|done]. rewrite H2 by done. rewrite find_erase. by rewrite decide_True.
      + intros l [Hne Hl]%not_elem_of_cons. rewrite H2 by done. rewrite find_erase. by rewrite decide_False.
      + intros k v. rewrite H3, elem_erase, not_elem_of_cons. naive_solver.
  Qed.
  Lemma after_pipe excl ps : foldl after (CBusPipe (D:=D) excl) ps = CBusPipe excl.
  Proof. induction ps; done. Qed.

  Definition conn_blk w (im om : bus) (x : blkobj D) : blkobj D :=
    set_conn im om (set_linked (add_links w fOutput om (add_links w (N.lor fInput fRequired) im (bo_linked x))) x).

  (** All of connect for a builder. *)
  Lemma connect_built dbg w b o ib oi ob oo w' :
    world_ok w -> w_blks w !! b = Some o -> builder (bo_cls o) (bo_parent o) ->
    w_sigs w !! ib = Some oi -> so_kind oi = KBus -> w_sigs w !! ob = Some oo -> so_kind oo = KBus ->
    connect dbg b ib ob w = Ok tt w' ->
    let L := wanted (S ib) (w_sigs w) (excl_of (bo_cls o)) [] (so_mem oi) in
    (forall p s, (p, s) ∈ L -> legal_path p) /\
    exists new, like (w_sigs w) (w_sigs w') /\ length new = length L /\
      w_blks w' = alter (set_cls (foldl after (bo_cls o) L.*1)) b
        (adopts (bo_parent o) (seq (length (w_blks w)) (length L)) (alter (conn_blk w (so_mem oi) (so_mem oo)) b (w_blks w))) ++ new /\
      (forall i p s, L !! i = Some (p, s) ->
        exists x, new !! i = Some x /\
          made (w_sigs w) (so_mem oi) (so_mem oo) (foldl after (bo_cls o) (take i L.*1)) (bo_parent o) p x) /\
      (dbg = true -> forall i e, foldl after (bo_cls o) L.*1 = CBusMem i e -> i = []).
  Proof.
    intros Hok Hb Hbu Hib Ki Hob Ko Hc L. unfold connect, bnd at 1, get_blk in Hc. rewrite Hb in Hc.
    assert (forall (k : bus -> bus -> M (world D) unit),
      (block_connect b ib ob ;;; im <~ bus_members ib ;; om <~ bus_members ob ;; k im om) w = Ok tt w' ->
      k (so_mem oi) (so_mem oo) (conn_world w b (so_mem oi) (so_mem oo)) = Ok tt w' /\
      world_ok (conn_world w b (so_mem oi) (so_mem oo)) /\ (forall e, e ∈ so_mem oo -> snd e < length (w_sigs w))) as Hk.
    { intros k. unfold bnd at 1. pose proof (block_connect_eq b ib ob w) as Hbc.
      pose proof (do_block_connect' b ib ob w (ok_unbound _ Hok)) as Hst.
      destruct (block_connect b ib ob w) as [[] w1| | |]; try done.
      destruct Hbc as (o' & im & om & Ho' & (oi' & Hoi' & _ & Mi) & (oo' & Hoo' & _ & Mo) & _ & _ & _ & Hids & ->).
      destruct Hst as [Hst _].
      rewrite Hib in Hoi'. injection Hoi' as <-. rewrite Hob in Hoo'. injection Hoo' as <-. subst im om.
      assert (w_sigs (conn_world w b (so_mem oi) (so_mem oo)) = w_sigs w) as Hsw by done.
      unfold bnd, bus_members, bnd, get_sig. rewrite Hsw, Hib, Ki. cbn [is_bus ret]. rewrite Hsw, Hob, Ko. cbn [is_bus ret].
      intros E. split_and!; [exact E|by eapply steps_ok|]. intros e He. apply Hids. apply elem_of_app. by right. }
    assert (forall w1 c, world_ok w1 -> w1 = conn_world w b (so_mem oi) (so_mem oo) ->
      visit_bus dbg (S ib) b (excl_of (bo_cls o)) (so_mem oi) (so_mem oo) "" (so_mem oi) w1 = Ok tt c ->
      (forall e, e ∈ so_mem oo -> snd e < length (w_sigs w)) ->
      (forall p s, (p, s) ∈ L -> legal_path p) /\
      exists new, like (w_sigs w) (w_sigs c) /\ length new = length L /\
      w_blks c = alter (set_cls (foldl after (bo_cls o) L.*1)) b
        (adopts (bo_parent o) (seq (length (w_blks w)) (length L)) (alter (conn_blk w (so_mem oi) (so_mem oo)) b (w_blks w))) ++ new /\
      (forall i p s, L !! i = Some (p, s) ->
        exists x, new !! i = Some x /\
          made (w_sigs w) (so_mem oi) (so_mem oo) (foldl after (bo_cls o) (take i L.*1)) (bo_parent o) p x)) as Hv.
    { intros w1 c Hok1 -> Ev Hom.
      pose proof (visit_all dbg (conn_world w b (so_mem oi) (so_mem oo)) b (conn_blk w (so_mem oi) (so_mem oo) o) (excl_of (bo_cls o)) (so_mem oi) (so_mem oo) ib oi
        Hok1 (upd_lookup _ _ _ _ Hb) Hbu Hib eq_refl Hom) as (_ & HLp & Hva).
      rewrite Ev in Hva. destruct Hva as (S' & new & HL & Hn & -> & Hm). split; [exact HLp|].
      exists new. split_and!; [exact HL|exact Hn| |exact Hm]. cbn [w_blks]. unfold conn_world, upd. cbn [w_blks bo_cls bo_parent].
      by rewrite alter_length. }
    destruct (bo_cls o) as [| | | | | | | | | | | | | | | | |inits excl|excl| |] eqn:Ec; try done.
    - apply (Hk (fun im om => visit_bus dbg (S ib) b excl im om "" im ;;; o' <~ get_blk b ;;
        debug_verify dbg (match bo_cls o' with CBusMem [] _ => true | _ => false end) EUnusedInit)) in Hc as (Hc & Hok1 & Hom).
      unfold bnd in Hc.
      destruct (visit_bus _ _ _ _ _ _ _ _ _) as [[] w2| | |] eqn:Ev; try done.
      destruct (Hv _ _ Hok1 eq_refl Ev Hom) as (HLp & new & HL & Hn & Hbl & Hm). split; [done|].
      unfold get_blk in Hc. destruct (w_blks w2 !! b) as [o2|] eqn:Eo2; [|done].
      assert (w' = w2 /\ (dbg = true -> exists e, bo_cls o2 = CBusMem [] e)) as [-> Hd].
      { revert Hc. unfold debug_verify, verify. destruct dbg; [|by intros [= <-]].
        destruct (bo_cls o2) as [| | | | | | | | | | | | | | | | |[|] ?| | |]; try done. intros [= <-]. eauto. }
      exists new. split_and!; try done. intros Hdbg i e Ei. destruct (Hd Hdbg) as [e2 He2].
      rewrite Hbl in Eo2. assert (b < length (w_blks w)) as Hlt by (by eapply lookup_lt_Some).
      rewrite lookup_app_l in Eo2 by (by rewrite alter_length, adopts_length, alter_length).
      rewrite list_lookup_alter in Eo2. apply fmap_Some in Eo2 as (o3 & _ & ->). cbn [bo_cls set_cls] in He2. rewrite Ei in He2. by injection He2.
    - apply (Hk (fun im om => visit_bus dbg (S ib) b excl im om "" im)) in Hc as (Hc & Hok1 & Hom).
      destruct (Hv _ _ Hok1 eq_refl Hc Hom) as (HLp & new & HL & Hn & Hbl & Hm). split; [done|].
      exists new. split_and!; try done. intros _ i e Ei. by rewrite after_pipe in Ei.
  Qed.

  (** The paths to cover, without the signals. *)
  Lemma wanted_paths w ib oi excl p : world_ok w -> w_sigs w !! ib = Some oi ->
    p ∈ (wanted (S ib) (w_sigs w) excl [] (so_mem oi)).*1 <->
    exists s, member (w_sigs w) (so_mem oi) p s /\ value_signal (w_sigs w) s /\ ~ excluded excl p.
  Proof.
    intros Hok Hib.
    assert (older (w_sigs w)) as Hold by (intros s os e Hs He; by apply (ok_sigs _ Hok _ _ Hs)).
    rewrite elem_of_list_fmap. split.
    - intros ([p1 s] & -> & Hin). exists s. apply wanted_top in Hin; [done|done|]. intros e He. by eapply Hold.
    - intros (s & Hs). exists (p, s). split; [done|]. apply wanted_top; [done| |done]. intros e He. by eapply Hold.
  Qed.
  Lemma fits_kind T k : ty_fits T k = true -> kind_ty k T.
  Proof. unfold kind_ty. destruct T, k; try done; intros _; naive_solver. Qed.
  Lemma kind_fits T k : kind_ty k T -> ty_fits T k = true.
  Proof. intros [[-> ->]|[[-> ->]|[[-> ->]|(n & -> & ->)]]]; done. Qed.
  Lemma grown_built w w' b o f g par_ks new k :
    world_ok w -> w_blks w !! b = Some o -> bo_cls o ≠ CSubmodel -> like (w_sigs w) (w_sigs w') -> length new = k ->
    par_ks = seq (length (w_blks w)) k ->
    w_blks w' = alter f b (adopts (bo_parent o) par_ks (alter g b (w_blks w))) ++ new -> grown w w' b o k.
  Proof.
    intros Hok Hb Hc HL Hn -> Hw. unfold grown. rewrite Hw.
    assert (forall p, bo_parent o = Some p -> p ≠ b) as Hpb.
    { intros p Ep ->. destruct (t_parent _ (ok_tree _ Hok) _ _ _ Hb Ep) as (op & Hop & Hs & _).
      rewrite Hb in Hop. injection Hop as <-. by destruct (bo_cls o). }
    split_and!; [by rewrite app_length, alter_length, adopts_length, alter_length, Hn|done| |].
    - intros p op Ep Hop. pose proof (Hpb p Ep). rewrite lookup_app_l by (rewrite alter_length, adopts_length, alter_length; by eapply lookup_lt_Some).
      rewrite list_lookup_alter_ne by done. rewrite Ep. cbn [adopts]. rewrite list_lookup_alter, list_lookup_alter_ne by done. by rewrite Hop.
    - intros b' Hb' Hp' Hlt. rewrite lookup_app_l by (by rewrite alter_length, adopts_length, alter_length).
      rewrite list_lookup_alter_ne by done. destruct (bo_parent o) as [p|]; cbn [adopts];
        [rewrite list_lookup_alter_ne by congruence|]; by rewrite list_lookup_alter_ne.
  Qed.
End help.

(** Block::connect of an unconnected builder succeeds. *)
Lemma builder_connects D `{NumOps D} dbg (w : world D) b o ib oi ob oo :
  wreach dbg w -> w_blks w !! b = Some o -> builder (bo_cls o) (bo_parent o) -> bo_conn o = false ->
  w_sigs w !! ib = Some oi -> so_kind oi = KBus -> w_sigs w !! ob = Some oo -> so_kind oo = KBus ->
  let w1 := conn_world w b (so_mem oi) (so_mem oo) in
  world_ok w1 /\ (forall e, e ∈ so_mem oo -> snd e < length (w_sigs w)) /\
  forall k : bus -> bus -> M (world D) unit,
    (block_connect b ib ob ;;; im <~ bus_members ib ;; om <~ bus_members ob ;; k im om) w = k (so_mem oi) (so_mem oo) w1.
Proof.
  intros Hw Hb Hbu Hc Hib Ki Hob Ko w1. pose proof (reach_ok dbg w Hw) as Hok.
  pose proof (wi_ctor _ _ (ok_wires _ Hok _ _ Hb)) as Hct.
  destruct (C11_connect D dbg w b o ib oi ob oo Hw Hb Hib Ki Hob Ko) as (_ & _ & H3).
  destruct H3 as (w2 & E & _); [done|by left; destruct (bo_cls o); naive_solver|by left; destruct (bo_cls o); naive_solver|].
  pose proof (block_connect_eq b ib ob w) as Hbc. pose proof (do_block_connect' b ib ob w (ok_unbound _ Hok)) as Hst.
  rewrite E in Hbc, Hst. destruct Hst as [Hst _].
  destruct Hbc as (o' & im & om & Ho' & (oi' & Hoi' & _ & Mi) & (oo' & Hoo' & _ & Mo) & _ & _ & _ & Hids & ->).
  rewrite Hib in Hoi'. injection Hoi' as <-. rewrite Hob in Hoo'. injection Hoo' as <-. subst im om.
  split_and!; [by eapply steps_ok|intros e He; apply Hids, elem_of_app; by right|].
  intros k. unfold bnd at 1. rewrite E. assert (w_sigs w1 = w_sigs w) as Hsw by done. fold w1.
  unfold bnd, bus_members, bnd, get_sig. rewrite Hsw, Hib, Ki. cbn [is_bus ret]. by rewrite Hsw, Hob, Ko.
Qed.

(** C52, BusMemory.  [L] are the paths of the blocks in the order of their creation. *)
Theorem C52_memory : forall D `{NumOps D} dbg (w w' : world D) b o inits excl ib oi ob oo, wreach dbg w ->
  w_blks w !! b = Some o -> bo_cls o = CBusMem inits excl ->
  w_sigs w !! ib = Some oi -> so_kind oi = KBus -> w_sigs w !! ob = Some oo -> so_kind oo = KBus ->
  connect dbg b ib ob w = Ok tt w' ->
  exists L : list (list string),
    (forall p, p ∈ L <-> exists s, member (w_sigs w) (so_mem oi) p s /\ value_signal (w_sigs w) s /\ ~ excluded excl p) /\
    (distinct (w_sigs w) (so_mem oi) -> NoDup L) /\
    grown w w' b o (length L) /\
    (forall k p, L !! k = Some p -> exists x si so osi oso T v,
      w_blks w' !! (length (w_blks w) + k) = Some x /\
      sanitised (dotted p) (bo_name x) /\ bo_parent x = bo_parent o /\ bo_cls x = CMemory T /\
      resolves (w_sigs w) (so_mem oi) p si /\ w_sigs w !! si = Some osi /\ kind_ty (so_kind osi) T /\
      resolves (w_sigs w) (so_mem oo) p so /\ w_sigs w !! so = Some oso /\ kind_ty (so_kind oso) T /\
      wires fInput si so x /\ bo_st x = LMem v /\ is_ty T v /\
      ((p ∉ take k L /\ given inits (dotted p) v) \/
       ((p ∈ take k L \/ ~ exists v', given inits (dotted p) v') /\ v = zero_of (so_kind osi)))).
Proof.
  intros D ? dbg w w' b o inits excl ib oi ob oo Hw Hb Hc Hib Ki Hob Ko Hcon.
  pose proof (reach_ok dbg w Hw) as Hok.
  assert (builder (bo_cls o) (bo_parent o)) as Hbu by (by rewrite Hc).
  destruct (connect_built dbg w b o ib oi ob oo w' Hok Hb Hbu Hib Ki Hob Ko Hcon) as (HLp & new & HL & Hn & Hbl & Hm & Hd).
  rewrite Hc in *. cbn [excl_of] in *. set (L := wanted (S ib) (w_sigs w) excl [] (so_mem oi)) in *.
  exists L.*1. split_and!.
  - intros p. by apply wanted_paths.
  - apply wanted_nodup.
  - eapply (grown_built w w' b o _ _ _ new); [done|done|by rewrite Hc|done|rewrite fmap_length; exact Hn| |exact Hbl]. by rewrite (fmap_length fst).
  - intros k p Hk. rewrite list_lookup_fmap in Hk; apply fmap_Some in Hk as ([p1 s] & Hk & ->). cbn [fst].
    destruct (Hm _ _ _ Hk) as (x & Hx & si & so & osi & oso & T & Hi & Ho & Hsi & Hso & Hf & Hmk).
    destruct (after_mem inits excl (take k L.*1)) as (i' & E & H1 & H2 & _). rewrite E in Hmk.
    destruct Hmk as (v & Ev & ->).
    assert (forall q, q ∈ take k L.*1 -> legal_path q) as Hlq.
    { intros q Hq. apply elem_of_take in Hq as (j & Hj & _). rewrite list_lookup_fmap in Hj; apply fmap_Some in Hj as ([q' s'] & Hj & ->).
      eapply HLp. by eapply elem_of_list_lookup_2. }
    assert (legal_path p1) as [Hp1 Hp2] by (eapply HLp; by eapply elem_of_list_lookup_2).
    assert (dotted p1 ∈ dotted <$> take k L.*1 <-> p1 ∈ take k L.*1) as Hin.
    { rewrite elem_of_list_fmap. split; [|naive_solver]. intros (q & Eq & Hq). destruct (Hlq q Hq).
      by rewrite (dotted_inj p1 q). }
    eexists _, si, so, osi, oso, T, v. split_and!.
    + rewrite Hbl. rewrite lookup_app_r; rewrite alter_length, adopts_length, alter_length; [|lia].
      replace (length (w_blks w) + k - length (w_blks w)) with k by lia. exact Hx.
    + apply emend_sanitised.
    + done.
    + done.
    + done.
    + done.
    + apply fits_kind. by eapply mem_ic_fits.
    + done.
    + done.
    + by apply fits_kind.
    + split_and!; done.
    + done.
    + destruct (so_kind osi), (find_init i' (dotted p1)) as [[]|]; cbn in Ev; try discriminate Ev; injection Ev as <- <-; done.
    + destruct (decide (p1 ∈ take k L.*1)) as [Hp|Hp].
      * right. rewrite H1 in Ev by (by apply Hin). split; [by left|]. destruct (so_kind osi); cbn in Ev; try discriminate Ev; injection Ev as <- <-; done.
      * rewrite H2 in Ev by (by rewrite Hin). destruct (find_init inits (dotted p1)) as [v0|] eqn:Ef.
        -- left. split; [done|]. apply find_given. rewrite Ef. f_equal.
           destruct (so_kind osi), v0; cbn in Ev; try discriminate Ev; injection Ev as <- <-; done.
        -- right. split; [right; intros [v' Hv']; apply find_given in Hv'; congruence|].
           destruct (so_kind osi); cbn in Ev; try discriminate Ev; injection Ev as <- <-; done.
Qed.
Print Assumptions C52_memory.

(** When it succeeds: every path has its signal of the same type in the output bus,
    given initial values have the type of the signal and, in a debug build, belong to
    a path. *)
Theorem C52_memory_succeeds : forall D `{NumOps D} dbg (w : world D) b o inits excl ib oi ob oo, wreach dbg w ->
  w_blks w !! b = Some o -> bo_cls o = CBusMem inits excl -> bo_conn o = false ->
  w_sigs w !! ib = Some oi -> so_kind oi = KBus -> w_sigs w !! ob = Some oo -> so_kind oo = KBus ->
  distinct (w_sigs w) (so_mem oi) ->
  (forall p s os, member (w_sigs w) (so_mem oi) p s -> w_sigs w !! s = Some os -> so_kind os ≠ KBus -> ~ excluded excl p ->
     exists T so oso, kind_ty (so_kind os) T /\ resolves (w_sigs w) (so_mem oo) p so /\ w_sigs w !! so = Some oso /\
       kind_ty (so_kind oso) T /\ forall v, given inits (dotted p) v -> is_ty T v) ->
  (dbg = true -> forall l v, given inits l v -> exists p s, dotted p = l /\ member (w_sigs w) (so_mem oi) p s /\
     value_signal (w_sigs w) s /\ ~ excluded excl p) ->
  exists w', connect dbg b ib ob w = Ok tt w'.
Proof.
  intros D ? dbg w b o inits excl ib oi ob oo Hw Hb Hc Hcn Hib Ki Hob Ko Hdist Hout Hused.
  assert (builder (bo_cls o) (bo_parent o)) as Hbu by (by rewrite Hc).
  pose proof (reach_ok dbg w Hw) as Hok.
  assert (older (w_sigs w)) as Hold by (intros s os e Hs He; by apply (ok_sigs _ Hok _ _ Hs)).
  destruct (builder_connects D dbg w b o ib oi ob oo Hw Hb Hbu Hcn Hib Ki Hob Ko) as (Hok1 & Hom & Hk).
  unfold connect, bnd at 1, get_blk. rewrite Hb, Hc.
  rewrite (Hk (fun im om => visit_bus dbg (S ib) b excl im om "" im ;;; o' <~ get_blk b ;;
        debug_verify dbg (match bo_cls o' with CBusMem [] _ => true | _ => false end) EUnusedInit)).
  pose proof (visit_all dbg (conn_world w b (so_mem oi) (so_mem oo)) b (conn_blk w (so_mem oi) (so_mem oo) o) excl (so_mem oi) (so_mem oo) ib oi
        Hok1 (upd_lookup _ _ _ _ Hb) Hbu Hib eq_refl Hom) as (_ & HLp & Hva).
  cbn [bo_cls conn_blk set_conn set_linked] in Hva. rewrite Hc in Hva.
  change (w_sigs (conn_world w b (so_mem oi) (so_mem oo))) with (w_sigs w) in *.
  set (L := wanted (S ib) (w_sigs w) excl [] (so_mem oi)) in *.
  assert (forall i p s, L !! i = Some (p, s) ->
    exists x, made (w_sigs w) (so_mem oi) (so_mem oo) (foldl after (CBusMem inits excl) (take i L.*1)) (bo_parent o) p x) as Hmade.
  { intros i p s Hi. assert ((p, s) ∈ L) as Hin by (by eapply elem_of_list_lookup_2).
    destruct (HLp _ _ Hin) as [Hp1 Hp2]. apply wanted_top in Hin as (Hm & (os & Hos & Hkos) & Hx); [|done|intros e He; by eapply Hold].
    destruct (Hout p s os Hm Hos Hkos Hx) as (T & so & oso & HT & Hr & Hoso & HT' & Hg).
    destruct (after_mem inits excl (take i L.*1)) as (i' & E & H1 & H2 & _). rewrite E.
    assert (forall v, find_init i' (dotted p) = Some v -> is_ty T v) as Hty.
    { intros v Hv. destruct (decide (dotted p ∈ dotted <$> take i L.*1)) as [Hd|Hd].
      - rewrite H1 in Hv by done. discriminate Hv.
      - rewrite H2 in Hv by done. by apply Hg, find_given. }
    assert (exists v, mem_ic (so_kind os) (find_init i' (dotted p)) = Ok (T, v) tt) as [v Hv].
    { destruct HT as [[-> ->]|[[-> ->]|[[-> ->]|(n & -> & ->)]]];
        (destruct (find_init i' (dotted p)) as [v|]; [specialize (Hty v eq_refl); destruct v; try done|]); cbn; eauto. }
    eexists. exists s, so, os, oso, T. split_and!; [by apply member_resolves|done|done|done|by apply kind_fits|].
    exists v. split; [done|reflexivity]. }
  unfold bnd at 1.
  destruct (visit_bus dbg (S ib) b excl (so_mem oi) (so_mem oo) "" (so_mem oi) (conn_world w b (so_mem oi) (so_mem oo))) as [[] w2|? ?|?|].
  2-4: destruct Hva as (i0 & p0 & s0 & Hi & Hn); destruct (Hmade _ _ _ Hi) as [x Hx]; by destruct (Hn x).
  destruct Hva as (S' & new & HL & Hn & -> & Hm).
  unfold bnd, get_blk. cbn [w_blks].
  assert (b < length (w_blks w)) as Hlt by (by eapply lookup_lt_Some).
  rewrite lookup_app_l by (rewrite alter_length, adopts_length; cbn; by rewrite alter_length).
  rewrite list_lookup_alter.
  match goal with |- context [adopts ?q ?l ?bs !! b] => assert (is_Some (adopts q l bs !! b)) as [o3 Ho3] end.
  { apply lookup_lt_is_Some. rewrite adopts_length. cbn. by rewrite alter_length. }
  rewrite Ho3. cbn [fmap option_fmap option_map bo_cls set_cls].
  destruct (after_mem inits excl L.*1) as (i' & E & _ & _ & H3). rewrite E.
  destruct dbg; [|by eexists]. cbn [debug_verify].
  assert (i' = []) as ->; [|by eexists].
  destruct i' as [|[l v] i']; [done|]. exfalso.
  destruct (proj1 (H3 l v) ltac:(left)) as [Hl Hnot].
  assert (exists v', given inits l v') as [v' Hg].
  { clear -Hl. induction inits as [|[l0 v0] inits IH]; [by apply elem_of_nil in Hl|].
    destruct (decide (l0 = l)) as [->|Hne].
    - exists v0, 0. split; [done|]. intros j e Hj. lia.
    - apply elem_of_cons in Hl as [[= -> ->]|Hl]; [done|]. destruct (IH Hl) as (v' & i & Hi & Hj). exists v', (S i). split; [done|].
      intros [|j] e Hlt; cbn; [by intros [= <-]|]. apply Hj. lia. }
  destruct (Hused eq_refl l v' Hg) as (p & s & <- & Hs1 & Hs2 & Hs3). apply Hnot. apply elem_of_list_fmap. exists p. split; [done|].
  apply (wanted_paths w ib oi excl p Hok Hib). by exists s.
Qed.
Print Assumptions C52_memory_succeeds.

(** C52, BusPipe (with a parent: it dereferences its parent without asking). *)
Theorem C52_pipe : forall D `{NumOps D} dbg (w w' : world D) b o pp excl ib oi ob oo, wreach dbg w ->
  w_blks w !! b = Some o -> bo_cls o = CBusPipe excl -> bo_parent o = Some pp ->
  w_sigs w !! ib = Some oi -> so_kind oi = KBus -> w_sigs w !! ob = Some oo -> so_kind oo = KBus ->
  connect dbg b ib ob w = Ok tt w' ->
  exists L : list (list string),
    (forall p, p ∈ L <-> exists s, member (w_sigs w) (so_mem oi) p s /\ value_signal (w_sigs w) s /\ ~ excluded excl p) /\
    (distinct (w_sigs w) (so_mem oi) -> NoDup L) /\
    grown w w' b o (length L) /\
    (forall k p, L !! k = Some p -> exists x si so osi oso T,
      w_blks w' !! (length (w_blks w) + k) = Some x /\
      sanitised (dotted p) (bo_name x) /\ bo_parent x = Some pp /\ bo_cls x = CPipe T /\
      resolves (w_sigs w) (so_mem oi) p si /\ w_sigs w !! si = Some osi /\ kind_ty (so_kind osi) T /\
      resolves (w_sigs w) (so_mem oo) p so /\ w_sigs w !! so = Some oso /\ kind_ty (so_kind oso) T /\
      wires (N.lor fInput fRequired) si so x /\ bo_st x = LNone).
Proof.
  intros D ? dbg w w' b o pp excl ib oi ob oo Hw Hb Hc Hpp Hib Ki Hob Ko Hcon.
  pose proof (reach_ok dbg w Hw) as Hok.
  assert (builder (bo_cls o) (bo_parent o)) as Hbu by (by rewrite Hc, Hpp).
  destruct (connect_built dbg w b o ib oi ob oo w' Hok Hb Hbu Hib Ki Hob Ko Hcon) as (HLp & new & HL & Hn & Hbl & Hm & Hd).
  rewrite Hc in *. cbn [excl_of] in *. set (L := wanted (S ib) (w_sigs w) excl [] (so_mem oi)) in *.
  exists L.*1. split_and!.
  - intros p. by apply wanted_paths.
  - apply wanted_nodup.
  - eapply (grown_built w w' b o _ _ _ new); [done|done|by rewrite Hc|done|rewrite fmap_length; exact Hn| |exact Hbl]. by rewrite (fmap_length fst).
  - intros k p Hk. rewrite list_lookup_fmap in Hk; apply fmap_Some in Hk as ([p1 s] & Hk & ->). cbn [fst].
    destruct (Hm _ _ _ Hk) as (x & Hx & si & so & osi & oso & T & Hi & Ho & Hsi & Hso & Hf & Hmk).
    rewrite after_pipe, Hpp in Hmk. destruct Hmk as [Ev Ex].
    assert (w_blks w' !! (length (w_blks w) + k) = Some x) as Hx'.
    { rewrite Hbl. rewrite lookup_app_r; rewrite alter_length, adopts_length, alter_length; [|lia].
      replace (length (w_blks w) + k - length (w_blks w)) with k by lia. exact Hx. }
    exists x, si, so, osi, oso, T. rewrite Hx'. subst x. split_and!; try done.
    + apply emend_sanitised.
    + apply fits_kind. by apply pipe_ty_fits.
    + by apply fits_kind.
Qed.
Print Assumptions C52_pipe.

Theorem C52_pipe_succeeds : forall D `{NumOps D} dbg (w : world D) b o pp excl ib oi ob oo, wreach dbg w ->
  w_blks w !! b = Some o -> bo_cls o = CBusPipe excl -> bo_parent o = Some pp -> bo_conn o = false ->
  w_sigs w !! ib = Some oi -> so_kind oi = KBus -> w_sigs w !! ob = Some oo -> so_kind oo = KBus ->
  distinct (w_sigs w) (so_mem oi) ->
  (forall p s os, member (w_sigs w) (so_mem oi) p s -> w_sigs w !! s = Some os -> so_kind os ≠ KBus -> ~ excluded excl p ->
     exists T so oso, kind_ty (so_kind os) T /\ resolves (w_sigs w) (so_mem oo) p so /\ w_sigs w !! so = Some oso /\
       kind_ty (so_kind oso) T) ->
  exists w', connect dbg b ib ob w = Ok tt w'.
Proof.
  intros D ? dbg w b o pp excl ib oi ob oo Hw Hb Hc Hpp Hcn Hib Ki Hob Ko Hdist Hout.
  assert (builder (bo_cls o) (bo_parent o)) as Hbu by (by rewrite Hc, Hpp).
  pose proof (reach_ok dbg w Hw) as Hok.
  assert (older (w_sigs w)) as Hold by (intros s os e Hs He; by apply (ok_sigs _ Hok _ _ Hs)).
  destruct (builder_connects D dbg w b o ib oi ob oo Hw Hb Hbu Hcn Hib Ki Hob Ko) as (Hok1 & Hom & Hk).
  unfold connect, bnd at 1, get_blk. rewrite Hb, Hc.
  rewrite (Hk (fun im om => visit_bus dbg (S ib) b excl im om "" im)).
  pose proof (visit_all dbg (conn_world w b (so_mem oi) (so_mem oo)) b (conn_blk w (so_mem oi) (so_mem oo) o) excl (so_mem oi) (so_mem oo) ib oi
        Hok1 (upd_lookup _ _ _ _ Hb) Hbu Hib eq_refl Hom) as (_ & HLp & Hva).
  cbn [bo_cls conn_blk set_conn set_linked] in Hva. rewrite Hc in Hva.
  change (w_sigs (conn_world w b (so_mem oi) (so_mem oo))) with (w_sigs w) in *.
  set (L := wanted (S ib) (w_sigs w) excl [] (so_mem oi)) in *.
  destruct (visit_bus dbg (S ib) b excl (so_mem oi) (so_mem oo) "" (so_mem oi) (conn_world w b (so_mem oi) (so_mem oo))) as [[] w2|? ?|?|];
    [by eexists|..]; exfalso.
  all: destruct Hva as (i & p & s0 & Hi & Hn).
  all: assert ((p, s0) ∈ L) as Hin by (by eapply elem_of_list_lookup_2).
  all: destruct (HLp _ _ Hin) as [Hp1 Hp2]; apply wanted_top in Hin as (Hm & (os & Hos & Hkos) & Hx); [|done|intros e0 He; by eapply Hold].
  all: destruct (Hout p s0 os Hm Hos Hkos Hx) as (T & so & oso & HT & Hr & Hoso & HT').
  all: rewrite after_pipe in Hn; eapply Hn; exists s0, so, os, oso, T;
    split_and!; [by apply member_resolves|done|done|done|by apply kind_fits| |reflexivity].
  all: destruct HT as [[-> ->]|[[-> ->]|[[-> ->]|(n & -> & ->)]]]; done.
Qed.
Print Assumptions C52_pipe_succeeds.

(** C53.  A debug build accepts no initial value that no block uses. *)
Theorem C53_used : forall D `{NumOps D} (w w' : world D) b o inits excl ib oi ob oo, wreach true w ->
  w_blks w !! b = Some o -> bo_cls o = CBusMem inits excl ->
  w_sigs w !! ib = Some oi -> so_kind oi = KBus -> w_sigs w !! ob = Some oo -> so_kind oo = KBus ->
  connect true b ib ob w = Ok tt w' ->
  forall l v, given inits l v -> exists p s j x T,
    dotted p = l /\ member (w_sigs w) (so_mem oi) p s /\ value_signal (w_sigs w) s /\ ~ excluded excl p /\
    length (w_blks w) <= j /\ w_blks w' !! j = Some x /\ sanitised l (bo_name x) /\ bo_cls x = CMemory T /\ bo_st x = LMem v.
Proof.
  intros D ? w w' b o inits excl ib oi ob oo Hw Hb Hc Hib Ki Hob Ko Hcon l v Hg.
  pose proof (reach_ok true w Hw) as Hok.
  assert (builder (bo_cls o) (bo_parent o)) as Hbu by (by rewrite Hc).
  destruct (connect_built true w b o ib oi ob oo w' Hok Hb Hbu Hib Ki Hob Ko Hcon) as (HLp & new & HL & Hn & Hbl & Hm & Hd).
  rewrite Hc in *. cbn [excl_of] in *. set (L := wanted (S ib) (w_sigs w) excl [] (so_mem oi)) in *.
  destruct (after_mem inits excl L.*1) as (i' & E & _ & _ & H3).
  rewrite (Hd eq_refl _ _ E) in H3.
  assert (l ∈ dotted <$> L.*1) as Hl.
  { destruct (decide (l ∈ dotted <$> L.*1)) as [Hl|Hl]; [done|]. exfalso.
    destruct Hg as (i & Hi & _). apply elem_of_list_lookup_2 in Hi. apply (not_elem_of_nil (l, v)). apply H3. done. }
  (* the first block of this path *)
  assert (forall L1 : list (list string), l ∈ dotted <$> L1 -> exists k p, L1 !! k = Some p /\ dotted p = l /\ l ∉ dotted <$> take k L1) as Hfirst.
  { intros L1. induction L1 as [|p L1 IH]; [by intros ?%elem_of_nil|]. destruct (decide (dotted p = l)) as [Ep|Ep].
    - intros _. exists 0, p. split_and!; [done|done|]. apply not_elem_of_nil.
    - cbn [fmap list_fmap]. intros [->|Hl1]%elem_of_cons; [done|]. destruct (IH Hl1) as (k & p' & Hk & Ep' & Hn').
      exists (S k), p'. split_and!; [done|done|]. cbn. apply not_elem_of_cons. split; [by intros ->|done]. }
  destruct (Hfirst _ Hl) as (k & p & Hk & Ep & Hnot). pose proof Hk as Hk0.
  rewrite list_lookup_fmap in Hk; apply fmap_Some in Hk as ([p1 s] & Hk & E1). cbn in E1. subst p1.
  destruct (Hm _ _ _ Hk) as (x & Hx & si & so & osi & oso & T & Hi & Ho & Hsi & Hso & Hf & Hmk).
  destruct (after_mem inits excl (take k L.*1)) as (i2 & E2 & _ & H22 & _). rewrite E2 in Hmk.
  destruct Hmk as (v2 & Ev & ->). rewrite Ep in Ev. rewrite H22 in Ev by done.
  rewrite (proj2 (find_given inits l v) Hg) in Ev.
  destruct (proj1 (wanted_paths w ib oi excl p Hok Hib)) as (s' & Hs1 & Hs2 & Hs3); [by eapply elem_of_list_lookup_2|].
  eexists p, s', (length (w_blks w) + k), _, T.
  split_and!; [done|done|done|done|lia| |..].
  - rewrite Hbl. rewrite lookup_app_r; rewrite alter_length, adopts_length, alter_length; [|lia].
    replace (length (w_blks w) + k - length (w_blks w)) with k by lia. exact Hx.
  - cbn. rewrite <- Ep. apply emend_sanitised.
  - done.
  - cbn. f_equal. destruct (so_kind osi), v; cbn in Ev; try discriminate Ev; by injection Ev as <- <-.
Qed.
Print Assumptions C53_used.

(** The unused value is reported; a release build accepts it. *)
Definition exb_ops : list (wop Q) :=
  [ ONewSig KScalar "u"; ONewSig KInt "n"; ONewSig KScalar "v"; ONewSig KScalar "y"; ONewSig KInt "m"; ONewSig KScalar "z";
    ONewBusL [("x", 0); ("k", 1)] "in_a"; ONewBusL [("a", 6); ("x", 2)] "in";
    ONewBusL [("x", 3); ("k", 4)] "out_a"; ONewBusL [("x", 5); ("a", 8)] "out";
    ONewBlock CSubmodel LNone None "root" NoIOLimit NoIOLimit;
    ONewBlock (CBusMem [("a.x", VS 7%Q); ("a.k", VI 3)] []) LNone (Some 0) "mem" NoIOLimit NoIOLimit;
    ONewBlock (CBusMem [("a.x", VS 7%Q); ("b", VI 3)] ["a.k"]) LNone (Some 0) "mem2" NoIOLimit NoIOLimit;
    ONewBlock (CBusPipe ["a"]) LNone (Some 0) "pipe" NoIOLimit NoIOLimit;
    ONewBlock (CBusPipe ["a."]) LNone (Some 0) "pipe2" NoIOLimit NoIOLimit ].
Definition exb_world : world Q := world_of true exb_ops.
Lemma exb_reach : wreach true exb_world.
Proof. reach_ops exb_world exb_ops. Qed.
Example exb_distinct oi : w_sigs exb_world !! 7 = Some oi -> distinct (w_sigs exb_world) (so_mem oi).
Proof.
  intros E. vm_compute in E. injection E as <-. constructor.
  { cbn. apply NoDup_cons. split; [by intros [E|E%elem_of_nil]%elem_of_cons|apply NoDup_singleton]. }
  intros l b o E Hb Hk; apply elem_of_cons in E as [E|E]; [|apply elem_of_cons in E as [E|E]; [|by apply elem_of_nil in E]]; injection E as -> ->; vm_compute in Hb; injection Hb as <-; [|discriminate Hk].
  clear Hk; constructor.
  { cbn. apply NoDup_cons. split; [by intros [E|E%elem_of_nil]%elem_of_cons|apply NoDup_singleton]. }
  intros l b o E Hb Hk; apply elem_of_cons in E as [E|E]; [|apply elem_of_cons in E as [E|E]; [|by apply elem_of_nil in E]]; injection E as -> ->; vm_compute in Hb; injection Hb as <-; discriminate Hk.
Qed.
(** Names, classes, states and signals of the blocks after [n]. *)
Definition shape (n : nat) (r : res (world Q) unit) : list (string * cls Q * lstate Q * option nat * option nat) :=
  match r with
  | Ok _ w => (fun o => (bo_name o, bo_cls o, bo_st o, h_in (bo_h o), h_out (bo_h o))) <$> drop n (w_blks w)
  | _ => []
  end.
Example C52_ex :
  shape 5 (connect true 1 7 9 exb_world) =
    [("a_x", CMemory TyD, LMem (VS 7%Q), Some 0, Some 3); ("a_k", CMemory TyI, LMem (VI 3), Some 1, Some 4);
     ("x", CMemory TyD, LMem (VS 0%Q), Some 2, Some 5)] /\
  shape 5 (connect true 4 7 9 exb_world) = [("x", CPipe TyD, LNone, Some 2, Some 5)].
Proof. split; vm_compute; reflexivity. Qed.
Theorem C53_unused : 
  (exists w', connect true 2 7 9 exb_world = Exn EUnusedInit w') /\
  shape 5 (connect false 2 7 9 exb_world) =
    [("a_x", CMemory TyD, LMem (VS 7%Q), Some 0, Some 3); ("x", CMemory TyD, LMem (VS 0%Q), Some 2, Some 5)].
Proof. split; [eexists; vm_compute; reflexivity|vm_compute; reflexivity]. Qed.
Print Assumptions C53_unused.

(** ** C54 *)
Section bb.
  Context {D : Type} `{NumOps D}.
  Definition builds (excl : list string) (o : blkobj D) : Prop :=
    (exists inits, bo_cls o = CBusMem inits excl) \/ (bo_cls o = CBusPipe excl /\ exists p, bo_parent o = Some p).
  Lemma built_paths dbg (w w' : world D) b o excl ib oi ob oo : wreach dbg w ->
    w_blks w !! b = Some o -> builds excl o ->
    w_sigs w !! ib = Some oi -> so_kind oi = KBus -> w_sigs w !! ob = Some oo -> so_kind oo = KBus ->
    connect dbg b ib ob w = Ok tt w' ->
    exists L : list (list string),
      (forall p, p ∈ L <-> exists s, member (w_sigs w) (so_mem oi) p s /\ value_signal (w_sigs w) s /\ ~ excluded excl p) /\
      length (w_blks w') = (length (w_blks w) + length L)%nat /\
      (forall k p, L !! k = Some p -> exists x si,
        w_blks w' !! (length (w_blks w) + k) = Some x /\ sanitised (dotted p) (bo_name x) /\
        resolves (w_sigs w) (so_mem oi) p si /\ (bo_ibus x).*2 = [si]).
  Proof.
    intros Hw Hb Hbu Hib Ki Hob Ko Hc. destruct Hbu as [[inits Hcls]|[Hcls [pp Hpp]]].
    - destruct (C52_memory D dbg w w' b o inits excl ib oi ob oo Hw Hb Hcls Hib Ki Hob Ko Hc) as (L & H1 & _ & [H2 _] & H3).
      exists L. split_and!; [done|done|]. intros k p Hk.
      destruct (H3 k p Hk) as (x & si & so & osi & oso & T & v & Hx & Hn & _ & _ & Hr & _ & _ & _ & _ & _ & Hwi & _).
      exists x, si. split_and!; [done..|]. apply Hwi.
    - destruct (C52_pipe D dbg w w' b o pp excl ib oi ob oo Hw Hb Hcls Hpp Hib Ki Hob Ko Hc) as (L & H1 & _ & [H2 _] & H3).
      exists L. split_and!; [done|done|]. intros k p Hk.
      destruct (H3 k p Hk) as (x & si & so & osi & oso & T & Hx & Hn & _ & _ & Hr & _ & _ & _ & _ & _ & Hwi & _).
      exists x, si. split_and!; [done..|]. apply Hwi.
  Qed.
  Lemma member_unique S m p s s' : distinct S m -> member S m p s -> member S m p s' -> s = s'.
  Proof. intros Hd H1 H2. eapply resolves_inj; by apply member_resolves. Qed.
  Lemma member_legal S m p s : labels_ok S -> (forall e, e ∈ m -> legal_name (fst e)) -> member S m p s -> legal_path p.
  Proof.
    intros Hl Hm Hp. induction Hp as [m l s Hi|m l b o p s Hi Ho Hk Hr IH].
    - split; [done|]. apply Forall_cons. split; [by apply (Hm _ Hi)|constructor].
    - split; [done|]. apply Forall_cons. split; [by apply (Hm _ Hi)|]. apply IH. intros e He. by eapply Hl.
  Qed.
End bb.

(** A nested bus is excluded by its path followed by a dot: no block is built for a
    path below it. *)
Theorem C54_excludes : forall D `{NumOps D} dbg (w w' : world D) b o excl ib oi ob oo q, wreach dbg w ->
  w_blks w !! b = Some o -> builds excl o ->
  w_sigs w !! ib = Some oi -> so_kind oi = KBus -> w_sigs w !! ob = Some oo -> so_kind oo = KBus ->
  connect dbg b ib ob w = Ok tt w' -> q ≠ [] -> dotted q +:+ "." ∈ excl ->
  forall j x, length (w_blks w) <= j -> w_blks w' !! j = Some x -> exists p si,
    sanitised (dotted p) (bo_name x) /\ resolves (w_sigs w) (so_mem oi) p si /\ (bo_ibus x).*2 = [si] /\
    forall r, r ≠ [] -> p ≠ q ++ r.
Proof.
  intros D ? dbg w w' b o excl ib oi ob oo q Hw Hb Hbu Hib Ki Hob Ko Hc Hq He j x Hj Hx.
  destruct (built_paths dbg w w' b o excl ib oi ob oo Hw Hb Hbu Hib Ki Hob Ko Hc) as (L & H1 & H2 & H3).
  assert (is_Some (L !! (j - length (w_blks w)))) as [p Hp].
  { apply lookup_lt_is_Some. apply lookup_lt_Some in Hx. lia. }
  destruct (H3 _ _ Hp) as (x' & si & Hx' & Hn & Hr & Hi).
  replace (length (w_blks w) + (j - length (w_blks w))) with j in Hx' by lia. rewrite Hx in Hx'. injection Hx' as <-.
  exists p, si. split_and!; [done..|]. intros r Hr0 ->.
  assert (q ++ r ∈ L) as Hin by (by eapply elem_of_list_lookup_2). apply H1 in Hin as (s & _ & _ & Hx0). apply Hx0.
  right. exists q, r. split_and!; [done|done|].
  destruct (exists_last Hq) as (q0 & l & ->). rewrite lead_snoc, <- app_assoc_s, lead_dotted. done.
Qed.
Print Assumptions C54_excludes.

(** Its path alone, as one would write it, excludes nothing. *)
Theorem C54_path_ignored : forall D `{NumOps D} dbg (w w' : world D) b o excl ib oi ob oo, wreach dbg w ->
  w_blks w !! b = Some o -> builds excl o ->
  w_sigs w !! ib = Some oi -> so_kind oi = KBus -> w_sigs w !! ob = Some oo -> so_kind oo = KBus ->
  connect dbg b ib ob w = Ok tt w' -> distinct (w_sigs w) (so_mem oi) ->
  (forall e, e ∈ excl -> exists q s os, e = dotted q /\ "" ∉ q /\ member (w_sigs w) (so_mem oi) q s /\
     w_sigs w !! s = Some os /\ so_kind os = KBus) ->
  forall p s, member (w_sigs w) (so_mem oi) p s -> value_signal (w_sigs w) s ->
    exists j x, length (w_blks w) <= j /\ w_blks w' !! j = Some x /\
      sanitised (dotted p) (bo_name x) /\ (bo_ibus x).*2 = [s].
Proof.
  intros D ? dbg w w' b o excl ib oi ob oo Hw Hb Hbu Hib Ki Hob Ko Hc Hdist Hex p s Hp Hs.
  pose proof (reach_ok dbg w Hw) as Hok.
  assert (labels_ok (w_sigs w)) as Hlab.
  { intros s' os e Hs' He. destruct (ok_names _ Hok) as [HN _]. by apply (HN _ _ Hs'). }
  assert (forall e, e ∈ so_mem oi -> legal_name (fst e)) as Hm by (intros e He; exact (Hlab _ _ _ Hib He)).
  destruct (built_paths dbg w w' b o excl ib oi ob oo Hw Hb Hbu Hib Ki Hob Ko Hc) as (L & H1 & H2 & H3).
  assert (p ∈ L) as Hin.
  { apply H1. exists s. split_and!; [done|done|]. intros [He|(q & r & -> & Hr & He)].
    - destruct (Hex _ He) as (q & sq & osq & E & _ & Hq & Hosq & Kq).
      destruct (member_legal _ _ _ _ Hlab Hm Hp) as [P1 P2]. destruct (member_legal _ _ _ _ Hlab Hm Hq) as [Q1 Q2].
      apply dotted_inj in E; [|done..]. subst q. pose proof (member_unique _ _ _ _ _ Hdist Hp Hq). subst sq.
      destruct Hs as (os & Hos & Kos). congruence.
    - destruct (Hex _ He) as (q' & sq & osq & E & Hemp & Hq & _ & _).
      destruct (member_legal _ _ _ _ Hlab Hm Hp) as [P1 P2]. destruct (member_legal _ _ _ _ Hlab Hm Hq) as [Q1 Q2].
      rewrite <- (app_nil_s (lead q)), lead_dotted in E. apply Forall_app in P2 as [P2 _].
      apply dotted_inj in E; [| by destruct q|done| |done].
      + subst q'. apply Hemp, elem_of_app. right. left.
      + apply Forall_app. split; [done|]. apply Forall_cons. split; [|constructor]. intros i c. by destruct i. }
  apply elem_of_list_lookup in Hin as [k Hk]. destruct (H3 _ _ Hk) as (x & si & Hx & Hn & Hr & Hi).
  exists (length (w_blks w) + k), x. split_and!; [lia|done|done|].
  by rewrite (resolves_inj _ _ _ _ _ (member_resolves _ _ _ _ Hdist Hp) Hr).
Qed.
Print Assumptions C54_path_ignored.
Theorem C54_refuted :
  exists (w w' : world Q) b o excl ib oi ob oo q sq oq r j x,
    wreach true w /\ w_blks w !! b = Some o /\ builds excl o /\
    w_sigs w !! ib = Some oi /\ so_kind oi = KBus /\ w_sigs w !! ob = Some oo /\ so_kind oo = KBus /\
    connect true b ib ob w = Ok tt w' /\
    member (w_sigs w) (so_mem oi) q sq /\ w_sigs w !! sq = Some oq /\ so_kind oq = KBus /\ dotted q ∈ excl /\
    r ≠ [] /\ length (w_blks w) <= j /\ w_blks w' !! j = Some x /\ sanitised (dotted (q ++ r)) (bo_name x).
Proof.
  destruct (connect true 3 7 9 exb_world) as [[] w'|? ?|?|] eqn:E; [|vm_compute in E; discriminate E..].
  destruct (w_blks exb_world !! 3) as [o|] eqn:Eo; [|vm_compute in Eo; discriminate Eo].
  destruct (w_sigs exb_world !! 7) as [oi|] eqn:Ei; [|vm_compute in Ei; discriminate Ei].
  destruct (w_sigs exb_world !! 9) as [oo|] eqn:Eoo; [|vm_compute in Eoo; discriminate Eoo].
  destruct (w_sigs exb_world !! 6) as [oa|] eqn:Ea; [|vm_compute in Ea; discriminate Ea].
  destruct (w_blks w' !! 5) as [x|] eqn:Ex.
  2:{ exfalso. vm_compute in E. injection E as <-. vm_compute in Ex. discriminate Ex. }
  exists exb_world, w', 3, o, ["a"], 7, oi, 9, oo, ["a"], 6, oa, ["x"], 5, x.
  split_and!; [exact exb_reach|exact Eo| |exact Ei| |exact Eoo| |exact E| |exact Ea| |left|intros E'; discriminate E'| |exact Ex|].
  - vm_compute in Eo. injection Eo as <-. right. split; [reflexivity|]. by exists 0.
  - vm_compute in Ei. injection Ei as <-. reflexivity.
  - vm_compute in Eoo. injection Eoo as <-. reflexivity.
  - vm_compute in Ei. injection Ei as <-. constructor. left.
  - vm_compute in Ea. injection Ea as <-. reflexivity.
  - vm_compute. lia.
  - assert (bo_name x = "a_x") as ->.
    { vm_compute in E. injection E as <-. vm_compute in Ex. injection Ex as <-. reflexivity. }
    exact (emend_sanitised "a.x").
Qed.
Print Assumptions C54_refuted.
Example C54_ex : shape 5 (connect true 3 7 9 exb_world) =
    [("a_x", CPipe TyD, LNone, Some 0, Some 3); ("a_k", CPipe TyI, LNone, Some 1, Some 4); ("x", CPipe TyD, LNone, Some 2, Some 5)] /\
  shape 5 (connect true 4 7 9 exb_world) = [("x", CPipe TyD, LNone, Some 2, Some 5)].
Proof. split; vm_compute; reflexivity. Qed.
