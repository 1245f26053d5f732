(** Operations that return leave derivatives of the sizes of their signals. *)
From stdpp Require Import prelude gmap strings.
From Coq Require Import ZArith.
From Verif Require Import Num Res Name SpecName P_Name Store Leaf Sched World Api Steps P_Steps P_Ops P_World SpecSized.

Section sized.
  Context {D : Type} `{NumOps D}.
  Implicit Types (w : world D).
  Notation W := (M (world D)).

  Definition sized w : Prop :=
    forall s o ds, w_sigs w !! s = Some o -> so_deriv o = Some ds ->
      exists od, w_sigs w !! ds = Some od /\ kind_size (so_kind od) = kind_size (so_kind o).
  Definition keeps {A} (m : W A) : Prop := forall w a w', sized w -> m w = Ok a w' -> sized w'.

  Lemma keeps_bnd {A B} (m : W A) (k : A -> W B) : keeps m -> (forall a, keeps (k a)) -> keeps (bnd m k).
  Proof. intros Hm Hk w b w' Hw. unfold bnd. destruct (m w) as [a w1| | |] eqn:E; try done. intros E2. eapply Hk; [|exact E2]. by eapply Hm. Qed.
  Lemma keeps_ret {A} (a : A) : keeps (ret a).
  Proof. intros w b w' Hw [= <- <-]. done. Qed.
  Lemma keeps_throw {A} e : keeps (throw (A:=A) e).
  Proof. intros w b w' Hw E. done. Qed.
  Lemma keeps_undef {A} e : keeps (undef (A:=A) e).
  Proof. intros w b w' Hw E. done. Qed.
  Lemma keeps_oof {A} : keeps (A:=A) (fun _ => OOF).
  Proof. intros w b w' Hw E. done. Qed.
  Lemma keeps_verify c e : keeps (verify c e).
  Proof. unfold verify. destruct c; [apply keeps_ret|apply keeps_throw]. Qed.
  Lemma keeps_debug dbg c e : keeps (debug_verify dbg c e).
  Proof. unfold debug_verify. destruct dbg; [apply keeps_verify|apply keeps_ret]. Qed.
  Lemma keeps_get_sig s : keeps (get_sig s).
  Proof. intros w a w' Hw. unfold get_sig. destruct (w_sigs w !! s); [|done]. by intros [= <- <-]. Qed.
  Lemma keeps_get_blk b : keeps (get_blk b).
  Proof. intros w a w' Hw. unfold get_blk. destruct (w_blks w !! b); [|done]. by intros [= <- <-]. Qed.
  Lemma keeps_upd b f : keeps (upd_blk b f).
  Proof. intros w a w' Hw [= <- <-]. exact Hw. Qed.
  Lemma keeps_alloc_blk o : keeps (alloc_blk o).
  Proof. intros w a w' Hw [= <- <-]. exact Hw. Qed.
  Lemma keeps_alloc_sig o : so_deriv o = None -> keeps (alloc_sig o).
  Proof.
    intros Hn w a w' Hw [= <- <-] s o' ds Ho Hd. cbn in *. apply lookup_app_Some in Ho as [Ho|[_ Ho]].
    - destruct (Hw s o' ds Ho Hd) as (od & Hod & E). exists od. split; [|done]. by apply lookup_app_l_Some.
    - apply list_lookup_singleton_Some in Ho as [_ <-]. congruence.
  Qed.
  Lemma sized_put w s o o' : sized w -> w_sigs w !! s = Some o -> so_kind o' = so_kind o ->
    (forall ds, so_deriv o' = Some ds -> exists od, w_sigs w !! ds = Some od /\ kind_size (so_kind od) = kind_size (so_kind o)) ->
    sized (World (<[s := o']> (w_sigs w)) (w_blks w)).
  Proof.
    intros Hw Ho Hk Hd.
    assert (forall ds od n, w_sigs w !! ds = Some od -> kind_size (so_kind od) = n ->
      exists od', <[s := o']> (w_sigs w) !! ds = Some od' /\ kind_size (so_kind od') = n) as Hl.
    { intros ds od n Hod En. destruct (decide (s = ds)) as [->|Hne].
      - exists o'. split; [apply list_lookup_insert; by eapply lookup_lt_Some|]. rewrite Hod in Ho. injection Ho as <-. by rewrite Hk.
      - exists od. by rewrite list_lookup_insert_ne. }
    intros s1 o1 ds H1 Hd1. cbn in *. apply list_lookup_insert_Some in H1 as [(-> & -> & _)|[Hne H1]].
    - destruct (Hd ds Hd1) as (od & Hod & E). eapply Hl; [exact Hod|]. by rewrite E, Hk.
    - destruct (Hw s1 o1 ds H1 Hd1) as (od & Hod & E). by eapply Hl.
  Qed.
  Lemma keeps_forM {A} (l : list A) f : (forall x, keeps (f x)) -> keeps (forM l f).
  Proof. intros Hf. induction l as [|x l IH]; cbn [forM]; [apply keeps_ret|]. apply keeps_bnd; [apply Hf|done]. Qed.

  Lemma keeps_rename_sig s name : keeps (rename_sig s name).
  Proof.
    intros w a w' Hw. unfold rename_sig, bnd, get_sig, put_sig, modify. destruct (w_sigs w !! s) as [o|] eqn:E; [|done].
    intros [= <- <-]. eapply sized_put; [done|exact E|done|]. cbn. intros ds Hd. by eapply Hw.
  Qed.
  Lemma keeps_set_deriv T s ds : keeps (set_deriv T s ds).
  Proof.
    intros w a w' Hw. unfold set_deriv, bnd, get_sig, put_sig, modify, verify.
    destruct (w_sigs w !! ds) as [od|] eqn:Ed; [|done]. destruct (ty_fits T (so_kind od)); [|done]. unfold ret at 1.
    destruct (w_sigs w !! s) as [o|] eqn:E; [|done]. destruct (Nat.eqb_spec (kind_size (so_kind o)) (kind_size (so_kind od))); [|done].
    intros [= <- <-]. eapply sized_put; [done|exact E|done|]. cbn. intros ds' [= <-]. eauto.
  Qed.

  Ltac kp := repeat first
    [ apply keeps_ret | apply keeps_throw | apply keeps_undef | apply keeps_oof | apply keeps_verify | apply keeps_debug
    | apply keeps_get_sig | apply keeps_get_blk | apply keeps_upd | apply keeps_alloc_blk | apply keeps_rename_sig
    | apply keeps_set_deriv | apply keeps_alloc_sig; reflexivity
    | apply keeps_forM; intros ? | apply keeps_bnd; [|intros ?]
    | match goal with |- keeps (if ?c then _ else _) => destruct c end
    | match goal with |- keeps (match ?c with _ => _ end) => destruct c end ].

  Lemma keeps_rename_blk b name : keeps (rename_blk b name).
  Proof. unfold rename_blk. kp. Qed.
  Lemma keeps_bus_entries l : keeps (bus_entries l).
  Proof. induction l as [|[lb s] l IH]; cbn [bus_entries]; [kp|]. apply keeps_bnd; [unfold bus_entry; kp|intros e]. apply keeps_bnd; [done|intros r]. kp. Qed.
  Lemma keeps_new_bus_labelled l name : keeps (new_bus_labelled l name).
  Proof. unfold new_bus_labelled. apply keeps_bnd; [apply keeps_bus_entries|intros m]. kp. Qed.
  Lemma keeps_new_bus l name : keeps (new_bus l name).
  Proof. apply keeps_new_bus_labelled. Qed.
  Lemma keeps_link_block p b : keeps (link_block p b).
  Proof. unfold link_block. kp. Qed.
  Lemma keeps_new_block c st parent name nin nout : keeps (new_block c st parent name nin nout).
  Proof. unfold new_block. apply keeps_bnd; [kp|intros _]. apply keeps_bnd; [kp|intros b]. apply keeps_bnd; [|intros _; kp]. destruct parent; [|kp]. apply keeps_bnd; [apply keeps_link_block|intros r; kp]. Qed.
  Lemma keeps_set_parent b p : keeps (set_parent b p).
  Proof.
    unfold set_parent. apply keeps_bnd; [kp|intros op]. destruct (is_submodel (bo_cls op)); [|kp]. apply keeps_bnd; [kp|intros o].
    destruct (bo_parent o) as [p'|]; [destruct (Nat.eqb p' p); [|kp]|]; (apply keeps_bnd; [kp|intros _]); (apply keeps_bnd; [apply keeps_link_block|intros r; kp]).
  Qed.
  Lemma keeps_link_signal b s f : keeps (link_signal b s f).
  Proof. unfold link_signal. kp. Qed.
  Lemma keeps_bus_members b : keeps (bus_members b).
  Proof. unfold bus_members. kp. Qed.
  Lemma keeps_block_connect b ib ob : keeps (block_connect b ib ob).
  Proof. unfold block_connect, bus_members, link_signal. kp. Qed.
  Lemma keeps_at_index m i : keeps (at_index m i).
  Proof. unfold at_index. kp. Qed.
  Lemma keeps_at_fuel n m lb : keeps (at_fuel n m lb).
  Proof. revert m lb. induction n as [|n IH]; intros m lb; cbn [at_fuel]; [kp|]. destruct (find_label _ _); [|kp]. destruct (cut_dot lb) as [x [rest|]]; cbn [snd]; [|kp]. kp. apply IH. Qed.
  Lemma keeps_at_label m lb : keeps (at_label m lb).
  Proof. apply keeps_at_fuel. Qed.
  Lemma keeps_input_at b i : keeps (input_at b i).
  Proof. unfold input_at, at_index, link_signal. kp. Qed.
  Lemma keeps_input_lb b lb : keeps (input_lb b lb).
  Proof. unfold input_lb. apply keeps_bnd; [kp|intros o]. apply keeps_bnd; [apply keeps_at_label|intros s]. apply keeps_bnd; [apply keeps_link_signal|intros _; kp]. Qed.
  Lemma keeps_output_at b i : keeps (output_at b i).
  Proof. unfold output_at, at_index, link_signal. kp. Qed.
  Lemma keeps_bind_handle T s : keeps (bind_handle T s).
  Proof. unfold bind_handle. kp. Qed.
  Ltac kp2 := repeat first
    [ apply keeps_input_at | apply keeps_input_lb | apply keeps_output_at | apply keeps_bind_handle
    | apply keeps_set_deriv | apply keeps_ret | apply keeps_undef | apply keeps_get_blk | apply keeps_upd
    | apply keeps_bnd; [|intros ?]
    | match goal with |- keeps (match ?c with _ => _ end) => destruct c end ].
  Lemma keeps_bind_in b T : keeps (bind_in b T).
  Proof. unfold bind_in. kp2. Qed.
  Lemma keeps_bind_out b T : keeps (bind_out b T).
  Proof. unfold bind_out. kp2. Qed.
  Lemma keeps_bind_x12 b : keeps (bind_x12 b).
  Proof. unfold bind_x12. kp2. Qed.
  Lemma keeps_bind_delay b T : keeps (bind_delay b T).
  Proof. unfold bind_delay. kp2. Qed.
  Lemma keeps_bind_trig b : keeps (bind_trig b).
  Proof. unfold bind_trig. kp2. Qed.
  Lemma keeps_bind_integ b T : keeps (bind_integ b T).
  Proof. unfold bind_integ, adjust_link. kp2. Qed.
  Lemma keeps_check_inputs dbg b T : keeps (check_inputs dbg b T).
  Proof. unfold check_inputs. kp. Qed.
  Lemma keeps_unrequire b : keeps (unrequire_in b).
  Proof. unfold unrequire_in, adjust_link. kp. Qed.
  Lemma keeps_connect_simple dbg b ib ob : keeps (connect_simple dbg b ib ob).
  Proof.
    unfold connect_simple. apply keeps_bnd; [kp|intros o].
    destruct (bo_cls o); repeat first [apply keeps_block_connect | apply keeps_bind_in | apply keeps_bind_out | apply keeps_bind_x12
      | apply keeps_bind_delay | apply keeps_bind_trig | apply keeps_bind_integ | apply keeps_check_inputs | apply keeps_unrequire
      | apply keeps_bnd; [|intros _]].
  Qed.
  Lemma keeps_add_simple dbg p b ib ob : keeps (add_block_simple dbg p b ib ob).
  Proof. unfold add_block_simple. apply keeps_bnd; [apply keeps_set_parent|intros r]. destruct r; [|kp]. apply keeps_bnd; [apply keeps_connect_simple|intros _; kp]. Qed.
  Lemma keeps_build_one dbg b lb si so : keeps (build_one dbg b lb si so).
  Proof.
    unfold build_one. apply keeps_bnd; [kp|intros o]. destruct (bo_cls o); try apply keeps_undef.
    - unfold build_memory. apply keeps_bnd; [kp|intros o1]. destruct (bo_cls o1); try apply keeps_undef.
      apply keeps_bnd; [kp|intros os]. destruct (mem_ic _ _) as [[T v] u| | |]; try first [apply keeps_undef|apply keeps_throw|apply keeps_oof].
      apply keeps_bnd; [apply keeps_new_block|intros m]. apply keeps_bnd; [kp|intros _]. apply keeps_bnd; [apply keeps_rename_blk|intros _].
      apply keeps_bnd; [apply keeps_new_bus|intros ib]. apply keeps_bnd; [apply keeps_new_bus|intros ob]. apply keeps_connect_simple.
    - unfold build_pipe. apply keeps_bnd; [kp|intros o1]. apply keeps_bnd; [kp|intros os]. destruct (pipe_ty _) as [T|]; [|kp].
      apply keeps_bnd; [apply keeps_new_block|intros m]. apply keeps_bnd; [apply keeps_rename_blk|intros _].
      apply keeps_bnd; [apply keeps_new_bus|intros ib]. apply keeps_bnd; [apply keeps_new_bus|intros ob]. destruct (bo_parent o1); [|kp].
      apply keeps_bnd; [apply keeps_add_simple|intros r; kp].
  Qed.
  Lemma keeps_visit_bus dbg n b excl im om prefix m : keeps (visit_bus dbg n b excl im om prefix m).
  Proof.
    revert prefix m. induction n as [|n IH]; intros prefix m; cbn [visit_bus]; [kp|]. destruct (str_in excl prefix); [kp|].
    apply keeps_forM. intros [lb s]. apply keeps_bnd; [kp|intros o]. destruct (is_bus (so_kind o)); [apply IH|].
    destruct (str_in excl _); [kp|]. apply keeps_bnd; [apply keeps_at_label|intros si]. apply keeps_bnd; [apply keeps_at_label|intros so]. apply keeps_build_one.
  Qed.
  Lemma keeps_connect dbg b ib ob : keeps (connect dbg b ib ob).
  Proof.
    unfold connect. apply keeps_bnd; [kp|intros o].
    destruct (bo_cls o); try apply keeps_connect_simple;
      (apply keeps_bnd; [apply keeps_block_connect|intros _]); (apply keeps_bnd; [apply keeps_bus_members|intros im]); (apply keeps_bnd; [apply keeps_bus_members|intros om]).
    - apply keeps_bnd; [apply keeps_visit_bus|intros _]. kp.
    - apply keeps_visit_bus.
  Qed.
  Lemma keeps_exec dbg o : keeps (exec dbg o).
  Proof.
    destruct o; cbn [exec]; unfold float_set_deriv, user_link; repeat first
      [ apply keeps_new_bus | apply keeps_new_bus_labelled | apply keeps_new_block | apply keeps_rename_sig | apply keeps_rename_blk
      | apply keeps_set_parent | apply keeps_link_block | apply keeps_connect | apply keeps_input_at | apply keeps_input_lb | apply keeps_output_at
      | apply keeps_ret | apply keeps_bnd; [|intros ?] ].
    - unfold new_signal. kp.
    - destruct a; [|kp]. apply keeps_bnd; [apply keeps_connect|intros _; kp].
    - apply keeps_get_sig.
    - destruct (ty_fits _ _); [apply keeps_set_deriv|apply keeps_undef].
    - apply keeps_get_blk.
    - destruct (is_user _ && _); [apply keeps_link_signal|apply keeps_undef].
  Qed.
  Lemma built_reach dbg w : built dbg w -> wreach dbg w.
  Proof. induction 1; [constructor|by eapply wr_ok]. Qed.
  Lemma built_sized dbg w : built dbg w -> sized w.
  Proof. induction 1 as [|w o u w' _ IH _ He]; [intros s o ds Ho; done|]. by eapply keeps_exec. Qed.
  Lemma fits_size T k k' : ty_fits T k = true -> ty_fits T k' = true -> kind_size k = kind_size k' -> k = k'.
  Proof. destruct T, k, k'; cbn; intros; try done; congruence. Qed.
  Lemma built_alike dbg w : built dbg w -> derivs_alike w.
  Proof.
    intros Hb z o d Ho Hd. destruct (built_sized _ _ Hb z o d Ho Hd) as (od & Hod & E). exists od. split; [done|].
    destruct (ok_sigs _ (reach_ok _ _ (built_reach _ _ Hb)) z o Ho) as (_ & _ & Hs). destruct (Hs d Hd) as (T & HT & od' & Hod' & HT').
    rewrite Hod in Hod'. injection Hod' as <-. by apply (fits_size T).
  Qed.
End sized.
