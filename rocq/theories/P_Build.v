(** What BusMemory and BusPipe build for one signal, and for all of them. *)
From stdpp Require Import prelude gmap strings.
From Coq Require Import ZArith.
From Verif Require Import Num Res Name SpecName P_Name Store Leaf Sched World SpecBus Steps P_Steps P_Ops P_World P_Bus.

Section build.
  Context {D : Type} `{NumOps D}.
  Implicit Types (w : world D) (B : list (blkobj D)).
  Notation W := (M (world D)).

  (** ** Operations on the last block *)
  Lemma get_last S B x : get_blk (length B) (World S (B ++ [x])) = Ok x (World S (B ++ [x])).
  Proof. unfold get_blk. cbn. by rewrite lookup_app_r, Nat.sub_diag by lia. Qed.
  Lemma alter_last {A} (f : A -> A) (l : list A) x : alter f (length l) (l ++ [x]) = l ++ [f x].
  Proof. rewrite <- (Nat.add_0_r (length l)) at 1. by rewrite alter_app_r. Qed.
  Lemma alter_id_at {A} (f : A -> A) (l : list A) i : (forall x, l !! i = Some x -> f x = x) -> alter f i l = l.
  Proof.
    intros Hf. apply list_eq. intros j. destruct (decide (j = i)) as [->|Hne]; [|by rewrite list_lookup_alter_ne].
    rewrite list_lookup_alter. destruct (l !! i) as [x|]; [|done]. cbn. by rewrite Hf.
  Qed.
  Lemma upd_last S B x f : upd_blk (length B) f (World S (B ++ [x])) = Ok tt (World S (B ++ [f x])).
  Proof.
    unfold upd_blk, modify. cbn. do 2 f_equal. rewrite <- (Nat.add_0_r (length B)) at 1. by rewrite alter_app_r.
  Qed.
  Lemma link_last S B x s o f : S !! s = Some o -> so_kind o ≠ KBus ->
    link_signal (length B) s f (World S (B ++ [x])) = Ok tt (World S (B ++ [set_linked (link_pair (bo_linked x) s f) x])).
  Proof.
    intros Hs Hk. unfold link_signal, bnd, get_sig. cbn. rewrite Hs.
    destruct (is_bus (so_kind o)) eqn:E; [by apply is_bus_kind in E|]. by rewrite upd_last.
  Qed.
  Lemma input_last S B x i l s o : bo_ibus x !! i = Some (l, s) -> S !! s = Some o -> so_kind o ≠ KBus ->
    input_at (length B) i (World S (B ++ [x])) =
    Ok s (World S (B ++ [set_linked (link_pair (bo_linked x) s (N.lor fInput fRequired)) x])).
  Proof.
    intros Hi Hs Hk. unfold input_at, bnd at 1. rewrite get_last. cbn beta iota. unfold at_index. rewrite Hi. unfold bnd. cbn [ret snd].
    by rewrite (link_last _ _ _ _ o).
  Qed.
  Lemma output_last S B x i l s o : bo_obus x !! i = Some (l, s) -> S !! s = Some o -> so_kind o ≠ KBus ->
    output_at (length B) i (World S (B ++ [x])) =
    Ok s (World S (B ++ [set_linked (link_pair (bo_linked x) s fOutput) x])).
  Proof.
    intros Hi Hs Hk. unfold output_at, bnd at 1. rewrite get_last. cbn beta iota. unfold at_index. rewrite Hi. unfold bnd. cbn [ret snd].
    by rewrite (link_last _ _ _ _ o).
  Qed.

  (** A new block for [si] and [so], before and after it is connected. *)
  Definition bare name par c st : blkobj D := BlkObj name par [] 1 1 false [] [] [] c no_handles st.
  Definition pair_links (f : N) (si so : nat) : list (nat * N) :=
    if decide (si = so) then [(si, N.lor f fOutput)] else [(si, f); (so, fOutput)].
  Definition wired_blk name par c st li lo f si so : blkobj D :=
    BlkObj name par [] 1 1 true [(li, si)] [(lo, so)] (pair_links f si so) c
      (Handles (Some si) (Some so) None None None None None) st.

  Lemma bus_members_eq S B b o : S !! b = Some o -> so_kind o = KBus ->
    bus_members b (World S B) = Ok (so_mem o) (World S B).
  Proof. intros Hb Hk. unfold bus_members, bnd, get_sig. cbn. rewrite Hb. by rewrite (proj2 (is_bus_kind o) Hk). Qed.

  Lemma link_pair_io f1 f2 si so :
    link_pair (link_pair [] si f1) so f2 = if decide (si = so) then [(si, N.lor f1 f2)] else [(si, f1); (so, f2)].
  Proof. cbn. destruct (Nat.eqb_spec si so), (decide (si = so)); congruence. Qed.

  Lemma block_connect_last S B name par c st ib oi ob oo li lo si so osi oso :
    S !! ib = Some oi -> so_kind oi = KBus -> so_mem oi = [(li, si)] ->
    S !! ob = Some oo -> so_kind oo = KBus -> so_mem oo = [(lo, so)] ->
    S !! si = Some osi -> so_kind osi ≠ KBus -> S !! so = Some oso ->
    block_connect (length B) ib ob (World S (B ++ [bare name par c st])) =
    Ok tt (World S (B ++ [BlkObj name par [] 1 1 true [(li, si)] [(lo, so)]
                            (if is_bus (so_kind oso) then [(si, N.lor fInput fRequired)]
                             else pair_links (N.lor fInput fRequired) si so) c no_handles st])).
  Proof.
    intros Hib Ki Mi Hob Ko Mo Hsi Ks Hso. unfold block_connect, bnd at 1.
    rewrite (bus_members_eq _ _ _ oi), Mi by done. cbn beta iota. unfold bnd at 1.
    rewrite (bus_members_eq _ _ _ oo), Mo by done. cbn beta iota. unfold bnd at 1. rewrite get_last.
    cbn [forM length bare bo_conn bo_nin bo_nout negb verify]. unfold bnd, ret.
    change (port_ok 1 1) with true. cbn beta iota. cbn [verify ret].
    rewrite (link_last _ _ _ _ osi) by done. cbn [snd bare bo_linked]. unfold link_signal at 1, bnd, get_sig. cbn [w_sigs]. rewrite Hso.
    destruct (is_bus (so_kind oso)) eqn:Eb.
    - cbn [ret]. rewrite upd_last. done.
    - rewrite upd_last, upd_last. unfold set_conn, set_linked. cbn [bo_name bo_parent bo_children bo_nin bo_nout bo_conn bo_ibus bo_obus bo_linked bo_cls bo_h bo_st bare].
      change (link_pair [] si (N.lor fInput fRequired)) with [(si, N.lor fInput fRequired)].
      pose proof (link_pair_io (N.lor fInput fRequired) fOutput si so) as Hl. cbn [link_pair] in Hl. unfold pair_links. by rewrite <- Hl.
  Qed.
  Lemma link_again_in f si so : f = N.lor fInput fRequired ->
    link_pair (pair_links f si so) si f = pair_links f si so.
  Proof. intros ->. unfold pair_links. destruct (decide (si = so)); cbn [link_pair]; by rewrite Nat.eqb_refl. Qed.
  Lemma link_again_out f si so :
    link_pair (pair_links f si so) so fOutput = pair_links f si so.
  Proof.
    unfold pair_links. destruct (decide (si = so)) as [->|Hne]; cbn [link_pair].
    - rewrite Nat.eqb_refl. by rewrite <- N.lor_assoc.
    - rewrite (proj2 (Nat.eqb_neq _ _)) by done. by rewrite Nat.eqb_refl.
  Qed.
  Lemma unlink si so : map_pair (pair_links (N.lor fInput fRequired) si so) si drop_req = pair_links fInput si so.
  Proof. unfold pair_links. destruct (decide (si = so)); cbn [map_pair]; by rewrite Nat.eqb_refl. Qed.

  Lemma bind_handle_eq S B T s o : S !! s = Some o ->
    bind_handle T s (World S B) = if ty_fits T (so_kind o) then Ok s (World S B) else Exn EType (World S B).
  Proof. intros Hs. unfold bind_handle, bnd, get_sig. cbn. rewrite Hs. by destruct (ty_fits T (so_kind o)). Qed.
  Lemma fits_value T k : ty_fits T k = true -> k ≠ KBus.
  Proof. by destruct T, k. Qed.

  (** connect of a new Memory or Pipe, when the input signal has the type of the block *)
  Definition in_flags (c : cls D) : N := match c with CMemory _ => fInput | _ => N.lor fInput fRequired end.
  Lemma bind_in_last S B name par c st T li lo lk so si osi :
    S !! si = Some osi -> ty_fits T (so_kind osi) = true ->
    bind_in (length B) T (World S (B ++ [BlkObj name par [] 1 1 true [(li, si)] [(lo, so)] lk c no_handles st])) =
    Ok tt (World S (B ++ [BlkObj name par [] 1 1 true [(li, si)] [(lo, so)] (link_pair lk si (N.lor fInput fRequired)) c
                            (Handles (Some si) None None None None None None) st])).
  Proof.
    intros Hs Hf. unfold bind_in, bnd at 1. rewrite (input_last _ _ _ 0 li si osi); [|done|done|by eapply fits_value].
    cbn beta iota. unfold bnd. rewrite (bind_handle_eq _ _ _ _ osi), Hf by done. by rewrite upd_last.
  Qed.
  Lemma bind_out_last S B name par c st T li lo lk so si oso :
    S !! so = Some oso ->
    bind_out (length B) T (World S (B ++ [BlkObj name par [] 1 1 true [(li, si)] [(lo, so)] lk c (Handles (Some si) None None None None None None) st])) =
    if ty_fits T (so_kind oso) then
      Ok tt (World S (B ++ [BlkObj name par [] 1 1 true [(li, si)] [(lo, so)] (link_pair lk so fOutput) c
                            (Handles (Some si) (Some so) None None None None None) st]))
    else Exn EType (World S (B ++ [BlkObj name par [] 1 1 true [(li, si)] [(lo, so)]
            (if is_bus (so_kind oso) then lk else link_pair lk so fOutput) c (Handles (Some si) None None None None None None) st])).
  Proof.
    intros Hs. unfold bind_out, output_at, bnd at 1 2. rewrite get_last. cbn beta iota. unfold at_index. cbn [bo_obus lookup list_lookup snd].
    unfold bnd, ret, link_signal, bnd, get_sig. cbn [w_sigs]. rewrite Hs. destruct (is_bus (so_kind oso)) eqn:Eb.
    - unfold ret. rewrite (bind_handle_eq _ _ _ _ oso) by done. destruct (ty_fits T (so_kind oso)) eqn:Ef; [|done].
      apply fits_value in Ef. by apply is_bus_kind in Eb.
    - rewrite upd_last. rewrite (bind_handle_eq _ _ _ _ oso) by done. destruct (ty_fits T (so_kind oso)) eqn:Ef; [|done].
      by rewrite upd_last.
  Qed.
  Lemma connect_last dbg S B name par c st T ib oi ob oo li lo si so osi oso :
    c = CMemory T \/ c = CPipe T ->
    S !! ib = Some oi -> so_kind oi = KBus -> so_mem oi = [(li, si)] ->
    S !! ob = Some oo -> so_kind oo = KBus -> so_mem oo = [(lo, so)] ->
    S !! si = Some osi -> ty_fits T (so_kind osi) = true -> S !! so = Some oso ->
    match connect_simple dbg (length B) ib ob (World S (B ++ [bare name par c st])) with
    | Ok _ w' => ty_fits T (so_kind oso) = true /\ w' = World S (B ++ [wired_blk name par c st li lo (in_flags c) si so])
    | _ => ty_fits T (so_kind oso) = false
    end.
  Proof.
    intros Hc Hib Ki Mi Hob Ko Mo Hsi Ks Hso. unfold connect_simple, bnd at 1. rewrite get_last. cbn [bo_cls bare].
    assert (forall (k : W unit),
      (block_connect (length B) ib ob ;;; bind_in (length B) T ;;; k) (World S (B ++ [bare name par c st])) =
      k (World S (B ++ [BlkObj name par [] 1 1 true [(li, si)] [(lo, so)]
           (if is_bus (so_kind oso) then [(si, N.lor fInput fRequired)] else pair_links (N.lor fInput fRequired) si so)
           c (Handles (Some si) None None None None None None) st]))) as Hk.
    { intros k. unfold bnd. rewrite (block_connect_last _ _ _ _ _ _ _ oi _ oo li lo si so osi oso); try done; [|by eapply fits_value].
      rewrite (bind_in_last _ _ _ _ _ _ _ _ _ _ _ _ osi) by done. do 5 f_equal.
      destruct (is_bus (so_kind oso)); [cbn [link_pair]; by rewrite Nat.eqb_refl|by rewrite link_again_in]. }
    destruct Hc as [-> | ->].
    - rewrite Hk. unfold bnd at 1. rewrite (bind_out_last _ _ _ _ _ _ _ _ _ _ _ _ oso) by done.
      destruct (ty_fits T (so_kind oso)) eqn:Ef; [|done]. cbn beta iota.
      destruct (is_bus (so_kind oso)) eqn:Eb; [by apply fits_value in Ef; apply is_bus_kind in Eb|].
      rewrite link_again_out. unfold unrequire_in, bnd. rewrite get_last. cbn [bo_h h_in]. unfold adjust_link. rewrite upd_last.
      split; [done|]. unfold wired_blk, set_linked. cbn. by rewrite unlink.
    - rewrite Hk. rewrite (bind_out_last _ _ _ _ _ _ _ _ _ _ _ _ oso) by done.
      destruct (ty_fits T (so_kind oso)) eqn:Ef; [|done].
      destruct (is_bus (so_kind oso)) eqn:Eb; [by apply fits_value in Ef; apply is_bus_kind in Eb|].
      by rewrite link_again_out.
  Qed.

  (** ** The two buses {sig_in}, {sig_out} *)
  Lemma new_bus_eq S B s o : S !! s = Some o ->
    exists S', new_bus [s] "" (World S B) = Ok (length S) (World S' B) /\ like S S' /\ length S' = Datatypes.S (length S) /\ exists ob, S' !! length S = Some ob /\ so_kind ob = KBus /\ so_mem ob = [(emend "sig0", s)].
  Proof.
    intros Hs. unfold new_bus, new_bus_labelled. cbn [auto_pairs bus_entries]. unfold bus_entry.
    change (valid_name (auto_label 0)) with (emend "sig0").
    unfold bnd, ret, get_sig, alloc_sig. cbn [w_sigs]. rewrite Hs. destruct (String.eqb_spec (so_name o) "") as [En|En].
    - unfold rename_sig, bnd, get_sig, put_sig, modify. cbn [w_sigs w_blks]. rewrite Hs. cbn [w_sigs w_blks].
      rewrite insert_length. eexists. split_and!; [reflexivity| | |].
      + intros s' o' Ho'. destruct (decide (s' = s)) as [->|Hne].
        * rewrite lookup_app_l by (rewrite insert_length; by eapply lookup_lt_Some).
          rewrite list_lookup_insert by (by eapply lookup_lt_Some). eexists. split; [done|]. cbn.
          rewrite Hs in Ho'. injection Ho' as <-. by split_and!.
        * rewrite lookup_app_l by (rewrite insert_length; by eapply lookup_lt_Some).
          rewrite list_lookup_insert_ne by done. by exists o'.
      + rewrite app_length, insert_length. cbn. lia.
      + eexists. split; [rewrite lookup_app_r by (rewrite insert_length; lia); rewrite insert_length, Nat.sub_diag; reflexivity|done].
    - eexists. split_and!; [reflexivity| | |]; cbn [w_sigs].
      + intros s' o' Ho'. exists o'. rewrite lookup_app_l by (by eapply lookup_lt_Some). done.
      + rewrite app_length. cbn. lia.
      + eexists. split; [rewrite lookup_app_r, Nat.sub_diag by lia; reflexivity|done].
  Qed.

  (** ** One signal *)
  Definition adopt (par : option nat) (k : nat) B : list (blkobj D) :=
    match par with Some p => alter (fun x => set_children (bo_children x ++ [k]) x) p B | None => B end.
  Definition par_ok (par : option nat) B : Prop :=
    match par with
    | Some p => exists op, B !! p = Some op /\ bo_cls op = CSubmodel /\ Forall (fun c => c < length B) (bo_children op)
    | None => True
    end.
  Lemma adopt_length par k B : length (adopt par k B) = length B.
  Proof. destruct par; [apply alter_length|done]. Qed.
  Lemma child_new ch k : Forall (fun c => c < k) ch -> child_added ch k = ch ++ [k].
  Proof.
    intros Hf. unfold child_added. rewrite bool_decide_false; [done|]. intros Hin.
    rewrite Forall_forall in Hf. specialize (Hf _ Hin). lia.
  Qed.
  Lemma alter_app_l' {A} (f : A -> A) (l l' : list A) i : i < length l -> alter f i (l ++ l') = alter f i l ++ l'.
  Proof. apply alter_app_l. Qed.

  Lemma new_block_eq c st par name nin nout S B : par_ok par B ->
    new_block c st par name nin nout (World S B) =
    Ok (length B) (World S (adopt par (length B) B ++ [BlkObj (emend name) par [] nin nout false [] [] [] c no_handles st])).
  Proof.
    intros Hp. unfold new_block. destruct par as [p|]; [|done]. destruct Hp as (op & Hop & Hc & Hch).
    unfold bnd at 1 2, get_blk at 1. cbn [w_blks]. rewrite Hop, Hc. cbn [is_submodel ret].
    unfold bnd at 1, alloc_blk. cbn [w_sigs w_blks]. unfold bnd.
    pose proof (link_block_new (World S (B ++ [BlkObj (valid_name name) (Some p) [] nin nout false [] [] [] c no_handles st])) p (length B) op
                 (BlkObj (valid_name name) (Some p) [] nin nout false [] [] [] c no_handles st)) as Hl.
    rewrite Hl; [|by cbn; rewrite lookup_app_r, Nat.sub_diag by lia|done|by cbn; rewrite lookup_app_l by (by eapply lookup_lt_Some)].
    unfold ret. do 2 f_equal. unfold upd. cbn [w_sigs w_blks adopt].
    rewrite alter_app_l by (by eapply lookup_lt_Some). do 2 f_equal. apply list_alter_ext; [|done].
    intros x Hx. simplify_eq. by rewrite child_new.
  Qed.

  Lemma mem_ic_fits k iv T v u : mem_ic (D:=D) k iv = Ok (T, v) u -> ty_fits T k = true.
  Proof. destruct k, iv as [[]|]; cbn; intros [= <- <-] || (intros E; discriminate E); done. Qed.

  Lemma build_memory_eq dbg b lb si so S B o inits excl osi oso :
    B !! b = Some o -> bo_cls o = CBusMem inits excl -> par_ok (bo_parent o) B ->
    S !! si = Some osi -> S !! so = Some oso ->
    match build_memory dbg b lb si so (World S B) with
    | Ok _ w' => exists S' T v, like S S' /\ mem_ic (so_kind osi) (find_init inits lb) = Ok (T, v) tt /\
        ty_fits T (so_kind oso) = true /\
        w' = World S' (alter (set_cls (CBusMem (erase_init inits lb) excl)) b (adopt (bo_parent o) (length B) B) ++
               [wired_blk (emend lb) (bo_parent o) (CMemory T) (LMem v) (emend "sig0") (emend "sig0") fInput si so])
    | _ => forall T v, mem_ic (so_kind osi) (find_init inits lb) = Ok (T, v) tt -> ty_fits T (so_kind oso) = false
    end.
  Proof.
    intros Hb Hc Hp Hsi Hso. unfold build_memory, bnd at 1, get_blk. cbn [w_blks]. rewrite Hb, Hc.
    unfold bnd at 1, get_sig. cbn [w_sigs]. rewrite Hsi.
    destruct (mem_ic (so_kind osi) (find_init inits lb)) as [[T v] []|e []|?|] eqn:Em; try done.
    unfold bnd at 1. rewrite new_block_eq by done. change (emend "") with "". unfold bnd at 1.
    assert (b < length B) as Hlt by (by eapply lookup_lt_Some).
    unfold upd_blk at 1, modify. cbn [w_sigs w_blks]. rewrite alter_app_l by (by rewrite adopt_length).
    set (B1 := alter (set_cls (CBusMem (erase_init inits lb) excl)) b (adopt (bo_parent o) (length B) B)).
    assert (length B = length B1) as HB1 by (unfold B1; by rewrite alter_length, adopt_length).
    rewrite HB1. unfold bnd at 1, rename_blk. rewrite upd_last. unfold set_name. cbn [bo_parent bo_children bo_nin bo_nout bo_conn bo_ibus bo_obus bo_linked bo_cls bo_h bo_st].
    unfold bnd at 1. destruct (new_bus_eq S (B1 ++ [BlkObj (emend lb) (bo_parent o) [] 1 1 false [] [] [] (CMemory T) no_handles (LMem v)]) si osi Hsi)
      as (S1 & -> & HL1 & Hn1 & oi & Hoi & Ki & Mi).
    destruct (HL1 _ _ Hso) as (oso1 & Hso1 & Kso1 & _).
    unfold bnd at 1. destruct (new_bus_eq S1 (B1 ++ [BlkObj (emend lb) (bo_parent o) [] 1 1 false [] [] [] (CMemory T) no_handles (LMem v)]) so oso1 Hso1)
      as (S2 & -> & HL2 & Hn2 & oo & Hoo & Ko & Mo).
    destruct (HL2 _ _ Hoi) as (oi2 & Hoi2 & Ki2 & Mi2 & _). destruct (HL1 _ _ Hsi) as (osi1 & Hsi1 & Ksi1 & _).
    destruct (HL2 _ _ Hsi1) as (osi2 & Hsi2 & Ksi2 & _). destruct (HL2 _ _ Hso1) as (oso2 & Hso2 & Kso2 & _).
    pose proof (connect_last dbg S2 B1 (emend lb) (bo_parent o) (CMemory T) (LMem v) T (length S) oi2 (length S1) oo
      (emend "sig0") (emend "sig0") si so osi2 oso2) as Hcl.
    rewrite Kso2, Kso1, Ksi2, Ksi1, Ki2, Mi2, Ki, Mi in Hcl.
    specialize (Hcl (or_introl eq_refl) Hoi2 eq_refl eq_refl Hoo Ko Mo Hsi2 (mem_ic_fits _ _ _ _ _ Em) Hso2).
    unfold bare in Hcl.
    destruct (connect_simple _ _ _ _ _) as [[] w'|?|?|].
    - destruct Hcl as [Hf ->]. exists S2, T, v. split_and!; [by etrans|done|done|done].
    - by intros T' v' [= <- <-].
    - by intros T' v' [= <- <-].
    - by intros T' v' [= <- <-].
  Qed.

  Lemma pipe_ty_fits k T : pipe_ty k = Some T -> ty_fits T k = true.
  Proof. destruct k; cbn; intros [= <-] || (intros E; discriminate E); done. Qed.
  Lemma build_pipe_eq dbg b lb si so S B o excl osi oso p :
    B !! b = Some o -> bo_cls o = CBusPipe excl -> bo_parent o = Some p -> par_ok (Some p) B ->
    S !! si = Some osi -> S !! so = Some oso ->
    match build_pipe dbg b lb si so (World S B) with
    | Ok _ w' => exists S' T, like S S' /\ pipe_ty (so_kind osi) = Some T /\ ty_fits T (so_kind oso) = true /\
        w' = World S' (adopt (Some p) (length B) B ++
               [wired_blk (emend lb) (Some p) (CPipe T) LNone (emend "sig0") (emend "sig0") (N.lor fInput fRequired) si so])
    | _ => forall T, pipe_ty (so_kind osi) = Some T -> ty_fits T (so_kind oso) = false
    end.
  Proof.
    intros Hb Hc Hpar Hp Hsi Hso. unfold build_pipe, bnd at 1, get_blk. cbn [w_blks]. rewrite Hb.
    unfold bnd at 1, get_sig. cbn [w_sigs]. rewrite Hsi.
    destruct (pipe_ty (so_kind osi)) as [T|] eqn:Em; [|done].
    unfold bnd at 1. rewrite new_block_eq by done. change (emend "") with "". cbn [adopt]. unfold bnd at 1.
    unfold rename_blk. rewrite upd_last. unfold set_name. cbn [bo_parent bo_children bo_nin bo_nout bo_conn bo_ibus bo_obus bo_linked bo_cls bo_h bo_st].
    unfold bnd at 1. destruct (new_bus_eq S (B ++ [BlkObj (emend lb) None [] 1 1 false [] [] [] (CPipe T) no_handles LNone]) si osi Hsi)
      as (S1 & -> & HL1 & Hn1 & oi & Hoi & Ki & Mi).
    destruct (HL1 _ _ Hso) as (oso1 & Hso1 & Kso1 & _).
    unfold bnd at 1. destruct (new_bus_eq S1 (B ++ [BlkObj (emend lb) None [] 1 1 false [] [] [] (CPipe T) no_handles LNone]) so oso1 Hso1)
      as (S2 & -> & HL2 & Hn2 & oo & Hoo & Ko & Mo).
    rewrite Hpar. unfold bnd at 1, add_block_simple, bnd at 1.
    destruct Hp as (op & Hop & Hcp & Hch). assert (p < length B) as Hlt by (by eapply lookup_lt_Some).
    rewrite (set_parent_new _ (length B) (BlkObj (emend lb) None [] 1 1 false [] [] [] (CPipe T) no_handles LNone) p op);
      [|cbn; by rewrite lookup_app_r, Nat.sub_diag by lia|done|cbn; by rewrite lookup_app_l|by rewrite Hcp].
    unfold upd. cbn [w_sigs w_blks].
    rewrite alter_last, alter_app_l by done.
    unfold set_par. cbn [bo_name bo_children bo_nin bo_nout bo_conn bo_ibus bo_obus bo_linked bo_cls bo_h bo_st].
    set (B1 := alter (fun x => set_children (child_added (bo_children x) (length B)) x) p B).
    assert (B1 = alter (fun x => set_children (bo_children x ++ [length B]) x) p B) as HB.
    { unfold B1. apply list_alter_ext; [|done]. intros x Hx. simplify_eq. by rewrite child_new. }
    assert (length B = length B1) as HB1 by (unfold B1; by rewrite alter_length).
    rewrite <- HB, HB1. unfold bnd.
    destruct (HL2 _ _ Hoi) as (oi2 & Hoi2 & Ki2 & Mi2 & _). destruct (HL1 _ _ Hsi) as (osi1 & Hsi1 & Ksi1 & _).
    destruct (HL2 _ _ Hsi1) as (osi2 & Hsi2 & Ksi2 & _). destruct (HL2 _ _ Hso1) as (oso2 & Hso2 & Kso2 & _).
    pose proof (connect_last dbg S2 B1 (emend lb) (Some p) (CPipe T) LNone T (length S) oi2 (length S1) oo
      (emend "sig0") (emend "sig0") si so osi2 oso2) as Hcl.
    rewrite Kso2, Kso1, Ksi2, Ksi1, Ki2, Mi2, Ki, Mi in Hcl.
    specialize (Hcl (or_intror eq_refl) Hoi2 eq_refl eq_refl Hoo Ko Mo Hsi2 (pipe_ty_fits _ _ Em) Hso2).
    unfold bare in Hcl.
    destruct (connect_simple _ _ _ _ _) as [[] w'|?|?|].
    - destruct Hcl as [Hf ->]. unfold ret. exists S2, T. split_and!; [by etrans|done|done|done].
    - by intros T' [= <-].
    - by intros T' [= <-].
    - by intros T' [= <-].
  Qed.

  (** ** All signals *)
  Section all.
    Context (dbg : bool) (S0 : list sigobj) (im om : bus) (b : nat).
    Context (Hold : older S0) (Him : forall e, e ∈ im -> snd e < length S0) (Hom : forall e, e ∈ om -> snd e < length S0).

    (** The block built for the path [p] by a builder of class [c] with parent [par]. *)
    Definition made (c : cls D) (par : option nat) (p : list string) (x : blkobj D) : Prop :=
      exists si so osi oso T,
        resolves S0 im p si /\ resolves S0 om p so /\ S0 !! si = Some osi /\ S0 !! so = Some oso /\
        ty_fits T (so_kind oso) = true /\
        match c with
        | CBusMem inits _ => exists v, mem_ic (so_kind osi) (find_init inits (dotted p)) = Ok (T, v) tt /\
            x = wired_blk (emend (dotted p)) par (CMemory T) (LMem v) (emend "sig0") (emend "sig0") fInput si so
        | CBusPipe _ => pipe_ty (so_kind osi) = Some T /\
            x = wired_blk (emend (dotted p)) par (CPipe T) LNone (emend "sig0") (emend "sig0") (N.lor fInput fRequired) si so
        | _ => False
        end.
    Definition after (c : cls D) (p : list string) : cls D :=
      match c with CBusMem i e => CBusMem (erase_init i (dotted p)) e | _ => c end.
    Definition adopts (par : option nat) (ks : list nat) B : list (blkobj D) :=
      match par with Some p => alter (fun x => set_children (bo_children x ++ ks) x) p B | None => B end.
    Definition builder (c : cls D) (par : option nat) : Prop :=
      match c with CBusMem _ _ => True | CBusPipe _ => par ≠ None | _ => False end.

    Lemma mem_ic_some (k : kind) iv e u : mem_ic (D:=D) k iv = Exn e u -> True. Proof. done. Qed.
    Lemma build_at_eq S B o p s :
      p ≠ [] -> Forall legal_name p -> like S0 S ->
      B !! b = Some o -> builder (bo_cls o) (bo_parent o) -> par_ok (bo_parent o) B ->
      match build_at dbg b im om (p, s) (World S B) with
      | Ok _ w' => exists S' x, like S S' /\ made (bo_cls o) (bo_parent o) p x /\
          w' = World S' (alter (set_cls (after (bo_cls o) p)) b (adopts (bo_parent o) [length B] B) ++ [x])
      | _ => forall x, ~ made (bo_cls o) (bo_parent o) p x
      end.
    Proof.
      intros Hp HLp HL Hb Hbu Hpar. unfold build_at. cbn [fst]. unfold bnd at 1.
      destruct (at_label im (dotted p) (World S B)) as [si w1|e w1|?|] eqn:Ei.
      2-4: intros x (si & so & osi & oso & T & Hi & _); apply (resolves_like _ S) in Hi; [|done];
           pose proof (at_label_resolves im p si (World S B) Hp HLp Hi) as E; rewrite Ei in E; discriminate E.
      apply at_fuel_Ok in Ei as [-> Hi]; [|done..]. cbn [w_sigs] in Hi.
      apply (resolves_like_back S0) in Hi as [Hi Hsi]; [|done..]. apply lookup_lt_is_Some in Hsi as [osi Hsi].
      unfold bnd at 1.
      destruct (at_label om (dotted p) (World S B)) as [so w1|e w1|?|] eqn:Eo.
      2-4: intros x (si' & so & osi' & oso & T & _ & Ho & _); apply (resolves_like _ S) in Ho; [|done];
           pose proof (at_label_resolves om p so (World S B) Hp HLp Ho) as E; rewrite Eo in E; discriminate E.
      apply at_fuel_Ok in Eo as [-> Ho]; [|done..]. cbn [w_sigs] in Ho.
      apply (resolves_like_back S0) in Ho as [Ho Hso]; [|done..]. apply lookup_lt_is_Some in Hso as [oso Hso].
      destruct (HL _ _ Hsi) as (osi' & Hsi' & Ksi & _). destruct (HL _ _ Hso) as (oso' & Hso' & Kso & _).
      unfold build_one, bnd, get_blk. cbn [w_blks]. rewrite Hb.
      destruct (bo_cls o) as [| | | | | | | | | | | | | | | | |inits excl|excl| |] eqn:Ec; try done.
      - pose proof (build_memory_eq dbg b (dotted p) si so S B o inits excl osi' oso' Hb Ec Hpar Hsi' Hso') as Hm.
        rewrite Ksi, Kso in Hm. destruct (build_memory _ _ _ _ _ _) as [[] w'|? w'|?|].
        + destruct Hm as (S' & T & v & HL' & Em & Hf & ->). exists S'. eexists. split_and!; [done| |reflexivity].
          exists si, so, osi, oso, T. split_and!; try done. by exists v.
        + intros x (si2 & so2 & osi2 & oso2 & T & Hi2 & Ho2 & Hsi2 & Hso2 & Hf & v & Em & _).
          rewrite <- (resolves_inj _ _ _ _ _ Hi Hi2) in *. rewrite <- (resolves_inj _ _ _ _ _ Ho Ho2) in *. simplify_eq.
          specialize (Hm _ _ Em). congruence.
        + intros x (si2 & so2 & osi2 & oso2 & T & Hi2 & Ho2 & Hsi2 & Hso2 & Hf & v & Em & _).
          rewrite <- (resolves_inj _ _ _ _ _ Hi Hi2) in *. rewrite <- (resolves_inj _ _ _ _ _ Ho Ho2) in *. simplify_eq.
          specialize (Hm _ _ Em). congruence.
        + intros x (si2 & so2 & osi2 & oso2 & T & Hi2 & Ho2 & Hsi2 & Hso2 & Hf & v & Em & _).
          rewrite <- (resolves_inj _ _ _ _ _ Hi Hi2) in *. rewrite <- (resolves_inj _ _ _ _ _ Ho Ho2) in *. simplify_eq.
          specialize (Hm _ _ Em). congruence.
      - cbn in Hbu. destruct (bo_parent o) as [pp|] eqn:Epar; [|done].
        pose proof (build_pipe_eq dbg b (dotted p) si so S B o excl osi' oso' pp Hb Ec Epar Hpar Hsi' Hso') as Hm.
        rewrite Ksi, Kso in Hm. destruct (build_pipe _ _ _ _ _ _) as [[] w'|? w'|?|].
        + destruct Hm as (S' & T & HL' & Em & Hf & ->). exists S'. eexists. split_and!; [done| |].
          { exists si, so, osi, oso, T. split_and!; done. }
          cbn [after]. rewrite alter_id_at; [done|]. intros x Hx. cbn [adopts] in Hx.
          assert (pp ≠ b) as Hne. { intros ->. destruct Hpar as (op & Hop & Hcs & _). congruence. }
          rewrite list_lookup_alter_ne in Hx by done. simplify_eq. destruct o. cbn in *. by subst.
        + intros x (si2 & so2 & osi2 & oso2 & T & Hi2 & Ho2 & Hsi2 & Hso2 & Hf & Em & _).
          rewrite <- (resolves_inj _ _ _ _ _ Hi Hi2) in *. rewrite <- (resolves_inj _ _ _ _ _ Ho Ho2) in *. simplify_eq.
          specialize (Hm _ Em). congruence.
        + intros x (si2 & so2 & osi2 & oso2 & T & Hi2 & Ho2 & Hsi2 & Hso2 & Hf & Em & _).
          rewrite <- (resolves_inj _ _ _ _ _ Hi Hi2) in *. rewrite <- (resolves_inj _ _ _ _ _ Ho Ho2) in *. simplify_eq.
          specialize (Hm _ Em). congruence.
        + intros x (si2 & so2 & osi2 & oso2 & T & Hi2 & Ho2 & Hsi2 & Hso2 & Hf & Em & _).
          rewrite <- (resolves_inj _ _ _ _ _ Hi Hi2) in *. rewrite <- (resolves_inj _ _ _ _ _ Ho Ho2) in *. simplify_eq.
          specialize (Hm _ Em). congruence.
    Qed.

    Lemma adopts_length par ks B : length (adopts par ks B) = length B.
    Proof. destruct par; [apply alter_length|done]. Qed.
    Lemma set_cls_id c (o : blkobj D) : bo_cls o = c -> set_cls c o = o.
    Proof. destruct o. cbn. by intros <-. Qed.

    Lemma build_all_eq L : forall S B o,
      (forall p s, (p, s) ∈ L -> p ≠ [] /\ Forall legal_name p) -> like S0 S ->
      B !! b = Some o -> builder (bo_cls o) (bo_parent o) -> par_ok (bo_parent o) B ->
      match forM L (build_at dbg b im om) (World S B) with
      | Ok _ w' => exists S' new, like S S' /\ length new = length L /\
          w' = World S' (alter (set_cls (foldl after (bo_cls o) L.*1)) b
                 (adopts (bo_parent o) (seq (length B) (length L)) B) ++ new) /\
          forall i p s, L !! i = Some (p, s) ->
            exists x, new !! i = Some x /\ made (foldl after (bo_cls o) (take i L.*1)) (bo_parent o) p x
      | _ => exists i p s, L !! i = Some (p, s) /\ forall x, ~ made (foldl after (bo_cls o) (take i L.*1)) (bo_parent o) p x
      end.
    Proof.
      induction L as [|[p s] L IH]; intros S B o HLp HL Hb Hbu Hpar.
      - cbn. exists S, []. split_and!; [done|done| |done]. rewrite app_nil_r.
        assert (adopts (bo_parent o) [] B = B) as ->.
        { destruct (bo_parent o); [|done]. apply alter_id_at. intros x _. destruct x. unfold set_children. cbn. by rewrite app_nil_r. }
        rewrite alter_id_at; [done|]. intros x Hx. simplify_eq. by apply set_cls_id.
      - cbn [forM]. unfold bnd.
        assert (p ≠ [] /\ Forall legal_name p) as [Hp Hlp] by (apply (HLp p s); left).
        pose proof (build_at_eq S B o p s Hp Hlp HL Hb Hbu Hpar) as H1.
        destruct (build_at dbg b im om (p, s) (World S B)) as [[] w1|? w1|?|]; [|by exists 0, p, s..].
        destruct H1 as (S1 & x & HL1 & Hx & ->).
        set (B1 := alter (set_cls (after (bo_cls o) p)) b (adopts (bo_parent o) [length B] B) ++ [x]).
        assert (b < length B) as Hlt by (by eapply lookup_lt_Some).
        assert (length B1 = Datatypes.S (length B)) as HB1.
        { unfold B1. rewrite app_length, alter_length, adopts_length. cbn. lia. }
        assert (forall pp, bo_parent o = Some pp -> pp ≠ b /\ pp < length B) as Hpp.
        { intros pp E. rewrite E in Hpar. destruct Hpar as (op & Hop & Hcs & _). split; [|by eapply lookup_lt_Some].
          intros ->. simplify_eq. by rewrite Hcs in Hbu. }
        assert (B1 !! b = Some (set_cls (after (bo_cls o) p) o)) as Hb1.
        { unfold B1. rewrite lookup_app_l by (by rewrite alter_length, adopts_length). rewrite list_lookup_alter.
          destruct (bo_parent o) as [pp|] eqn:Epar; cbn [adopts]; [|by rewrite Hb].
          destruct (Hpp pp eq_refl). by rewrite list_lookup_alter_ne, Hb. }
        assert (par_ok (bo_parent o) B1) as Hpar1.
        { destruct (bo_parent o) as [pp|] eqn:Epar; [|done]. destruct Hpar as (op & Hop & Hcs & Hch).
          destruct (Hpp pp eq_refl) as [Hne Hpl].
          exists (set_children (bo_children op ++ [length B]) op). split_and!.
          - unfold B1. rewrite lookup_app_l by (by rewrite alter_length, adopts_length).
            rewrite list_lookup_alter_ne by done. cbn [adopts]. by rewrite list_lookup_alter, Hop.
          - done.
          - rewrite HB1. cbn. apply Forall_app. split; [|repeat constructor; lia].
            eapply Forall_impl; [exact Hch|]. cbn. lia. }
        assert (builder (after (bo_cls o) p) (bo_parent o)) as Hbu1 by (by destruct (bo_cls o)).
        specialize (IH S1 B1 (set_cls (after (bo_cls o) p) o) (fun p' s' Hin => HLp p' s' (elem_of_list_further _ _ _ Hin))
          (transitivity HL HL1) Hb1 Hbu1 Hpar1). cbn [bo_cls bo_parent set_cls] in IH.
        destruct (forM L _ _) as [[] w'|? w'|?|] eqn:EL.
        1: destruct IH as (S' & new & HL' & Hnew & -> & Hm).
        2-4: destruct IH as (i & p' & s' & Hi & Hn).
        + exists S', (x :: new). split_and!; [by etrans|by cbn; rewrite Hnew| |].
          * f_equal. cbn [fmap list_fmap fst foldl length]. rewrite HB1. unfold B1.
            assert (forall ks l y, adopts (bo_parent o) ks (alter (set_cls (after (bo_cls o) p)) b (adopts (bo_parent o) l B) ++ [y]) =
              alter (set_cls (after (bo_cls o) p)) b (adopts (bo_parent o) (l ++ ks) B) ++ [y]) as Had.
            { intros ks l y. destruct (bo_parent o) as [pp|] eqn:Epar; cbn [adopts].
              - destruct (Hpp pp eq_refl) as [Hne Hpl]. rewrite alter_app_l by (by rewrite !alter_length).
                f_equal. rewrite list_alter_commute by done. f_equal. rewrite <- list_alter_compose.
                apply list_alter_ext; [|done]. intros z _. unfold set_children. cbn. by rewrite app_assoc.
              - done. }
            rewrite Had. rewrite alter_app_l by (by rewrite alter_length, adopts_length).
            rewrite <- list_alter_compose. rewrite <- app_assoc. cbn [app seq]. f_equal.
          * intros i p' s'. destruct i as [|i]; cbn; [intros [= <- <-]; by exists x|]. apply Hm.
        + by exists (Datatypes.S i), p', s'.
        + by exists (Datatypes.S i), p', s'.
        + by exists (Datatypes.S i), p', s'.
    Qed.
  End all.

  (** ** connect of a bus builder *)
  Definition excl_of (c : cls D) : list string := match c with CBusMem _ e | CBusPipe e => e | _ => [] end.
  Lemma after_builder c par ps : builder c par -> builder (foldl after c ps) par.
  Proof. revert c. induction ps as [|p ps IH]; intros c Hc; [done|]. cbn. apply IH. by destruct c. Qed.
  Lemma visit_all dbg w b o excl im om ib oi :
    world_ok w -> w_blks w !! b = Some o -> builder (bo_cls o) (bo_parent o) ->
    w_sigs w !! ib = Some oi -> im = so_mem oi -> (forall e, e ∈ om -> snd e < length (w_sigs w)) ->
    let L := wanted (S ib) (w_sigs w) excl [] im in
    visit_bus dbg (S ib) b excl im om "" im w = forM L (build_at dbg b im om) w /\
    (forall p s, (p, s) ∈ L -> legal_path p) /\
    match visit_bus dbg (S ib) b excl im om "" im w with
    | Ok _ w' => exists S' new, like (w_sigs w) S' /\ length new = length L /\
        w' = World S' (alter (set_cls (foldl after (bo_cls o) L.*1)) b
               (adopts (bo_parent o) (seq (length (w_blks w)) (length L)) (w_blks w)) ++ new) /\
        forall i p s, L !! i = Some (p, s) ->
          exists x, new !! i = Some x /\ made (w_sigs w) im om (foldl after (bo_cls o) (take i L.*1)) (bo_parent o) p x
    | _ => exists i p s, L !! i = Some (p, s) /\
        forall x, ~ made (w_sigs w) im om (foldl after (bo_cls o) (take i L.*1)) (bo_parent o) p x
    end.
  Proof.
    intros Hok Hb Hbu Hib -> Hom L.
    assert (older (w_sigs w)) as Hold.
    { intros s os e Hs He. by apply (ok_sigs _ Hok _ _ Hs). }
    assert (labels_ok (w_sigs w)) as Hlab.
    { intros s os e Hs He. destruct (ok_names _ Hok) as [HN _]. by apply (HN _ _ Hs). }
    assert (forall e, e ∈ so_mem oi -> snd e < ib /\ legal_name (fst e)) as Hm.
    { intros e He. split; [by eapply Hold|by eapply Hlab]. }
    assert (ib < length (w_sigs w)) as Hlt by (by eapply lookup_lt_Some).
    assert (forall e, e ∈ so_mem oi -> snd e < length (w_sigs w)) as Him.
    { intros e He. destruct (Hm e He). lia. }
    assert (par_ok (bo_parent o) (w_blks w)) as Hpar.
    { destruct (bo_parent o) as [p|] eqn:Ep; [|done]. destruct (t_parent _ (ok_tree _ Hok) _ _ _ Hb Ep) as (op & Hop & Hs & _).
      exists op. split_and!; [done|by destruct (bo_cls op)|]. apply Forall_forall. intros c Hc.
      destruct (t_child _ (ok_tree _ Hok) _ _ _ Hop Hc) as (oc & Hoc & _). by eapply lookup_lt_Some. }
    assert (forall p s, (p, s) ∈ L -> legal_path p) as HLp.
    { intros p s. unfold L. apply (wanted_legal (w_sigs w)); [done|intros e He; by apply Hm|constructor]. }
    assert (visit_bus dbg (S ib) b excl (so_mem oi) om "" (so_mem oi) w = forM L (build_at dbg b (so_mem oi) om) w) as Hv.
    { set (Inv := fun w1 : world D => like (w_sigs w) (w_sigs w1) /\
        exists o1, w_blks w1 !! b = Some o1 /\ builder (bo_cls o1) (bo_parent o1) /\ par_ok (bo_parent o1) (w_blks w1)).
      apply (visit_eq (w_sigs w) Inv (fun w1 HI => proj1 HI) dbg b excl (so_mem oi) om ib [] (so_mem oi) w);
        [done|done| |split; [done|by exists o]|lia|done|constructor].
      intros p s [S1 B1] w' [Hp HLl] [HL1 (o1 & Ho1 & Hb1 & Hp1)] E. cbn [w_sigs w_blks] in HL1, Ho1, Hp1.
      pose proof (build_at_eq dbg (w_sigs w) (so_mem oi) om b Hold Him Hom S1 B1 o1 p s Hp HLl HL1 Ho1 Hb1 Hp1) as Heq.
      rewrite E in Heq. destruct Heq as (S2 & x & HL2 & _ & ->). split; [by etrans|]. cbn [w_blks].
      assert (b < length B1) as Hlt1 by (by eapply lookup_lt_Some).
      assert (forall pp, bo_parent o1 = Some pp -> pp ≠ b /\ pp < length B1) as Hpp.
      { intros pp Epp. rewrite Epp in Hp1. destruct Hp1 as (op & Hop & Hcs & _). split; [|by eapply lookup_lt_Some].
        intros ->. rewrite Ho1 in Hop. injection Hop as <-. by rewrite Hcs in Hb1. }
      exists (set_cls (after (bo_cls o1) p) o1). split_and!.
      - rewrite lookup_app_l by (by rewrite alter_length, adopts_length). rewrite list_lookup_alter.
        destruct (bo_parent o1) as [pp|] eqn:Epar; cbn [adopts]; [|by rewrite Ho1].
        destruct (Hpp pp eq_refl). by rewrite list_lookup_alter_ne, Ho1.
      - cbn. by destruct (bo_cls o1).
      - cbn [bo_parent set_cls]. destruct (bo_parent o1) as [pp|] eqn:Epar; [|done]. destruct Hp1 as (op & Hop & Hcs & Hch).
        destruct (Hpp pp eq_refl) as [Hne Hpl].
        exists (set_children (bo_children op ++ [length B1]) op). split_and!.
        + rewrite lookup_app_l by (by rewrite alter_length, adopts_length).
          rewrite list_lookup_alter_ne by done. cbn [adopts]. by rewrite list_lookup_alter, Hop.
        + done.
        + rewrite app_length, alter_length, adopts_length. cbn. apply Forall_app. split; [|repeat constructor; lia].
          eapply Forall_impl; [exact Hch|]. cbn. lia. }
    split_and!; [done|done|]. rewrite Hv.
    pose proof (build_all_eq dbg (w_sigs w) (so_mem oi) om b Hold Him Hom L (w_sigs w) (w_blks w) o HLp
      ltac:(reflexivity) Hb Hbu Hpar) as Ha.
    destruct w as [S0 B0]. cbn [w_sigs w_blks] in *. done.
  Qed.
End build.
