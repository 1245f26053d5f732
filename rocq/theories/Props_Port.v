(** C69: members of blocks are the signals of their ports; an Integrator makes its input
    the derivative of its output, and nothing else but set_deriv_signal does. *)
From stdpp Require Import prelude gmap strings.
From Coq Require Import ZArith QArith.
From Verif Require Import Num NumQ Res Name Store Leaf Sched World Api Steps P_Steps P_Ops P_World P_Frame Props_World Ex_Models SpecSized P_Sized P_Bound P_Port Props_Sized.
Local Open Scope nat_scope.

(** The signal at place [i] of a bus. *)
Definition port (m : list (string * nat)) (i s : nat) : Prop := exists lb, m !! i = Some (lb, s).

(** What a block of class [c] connected to the buses [im] and [om] holds.  Subtract and
    Divide take their operands by position, the Delay its inputs and the
    TriggeredIntegrator its trigger by label. *)
Definition holds {D} (c : cls D) (im om : list (string * nat)) (h : handles) : Prop :=
  match c with
  | CConst _ _ | CSource _ _ | CSO _ _ | CAdd _ _ | CMul _ _ | CInteg _ => exists z, port om 0 z /\ h_out h = Some z
  | CSISO _ _ | CGain _ _ | CPipe _ | CDeriv | CMemory _ => exists x z, port im 0 x /\ port om 0 z /\ h_in h = Some x /\ h_out h = Some z
  | CSub | CDiv => exists x y z, port im 0 x /\ port im 1 y /\ port om 0 z /\ h_x1 h = Some x /\ h_x2 h = Some y /\ h_out h = Some z
  | CDelay _ _ => exists x d i z, first_entry im "in" x /\ first_entry im "delay" d /\ first_entry im "initial" i /\ port om 0 z /\
      h_in h = Some x /\ h_delay h = Some d /\ h_initial h = Some i /\ h_out h = Some z
  | CTrig _ => exists g z, first_entry im "trigger" g /\ port om 0 z /\ h_trig h = Some g /\ h_out h = Some z
  | CSources _ | CFunction _ | CUser _ _ _ | CSubmodel | CBusMem _ _ | CBusPipe _ => True
  end.
Definition integrates {D} (c : cls D) : Prop := exists T, c = CInteg T \/ c = CTrig T.

Lemma integ_cls_spec {D} (c : cls D) : integ_cls c = true <-> integrates c.
Proof. split; [destruct c; try done; intros _; eexists; eauto|]. by intros (T & [->| ->]). Qed.
Lemma holds_of {D} `{NumOps D} dbg w (o : blkobj D) : complete dbg w o -> ported_blk o -> holds (bo_cls o) (bo_ibus o) (bo_obus o) (bo_h o).
Proof.
  unfold complete, ported_blk, ported, at_port, at_name, holds, port. intros Hc (P1 & P2 & P3 & P4 & P5 & P6 & P7).
  destruct (bo_cls o) as [T ?|T ?|?|?|T ?|T ?|T ?|T ?|T ?| | |T|T|T ?| |T|T|? ?|?|? ? ?|]; try exact I.
  - destruct Hc as [z Hz]. exists z. by split; eauto.
  - destruct Hc as [z Hz]. exists z. by split; eauto.
  - destruct Hc as [[x Hx] [z Hz]]. exists x, z. by split_and!; eauto.
  - destruct Hc as [z Hz]. exists z. by split; eauto.
  - destruct Hc as [[x Hx] [z Hz]]. exists x, z. by split_and!; eauto.
  - destruct Hc as [[z Hz] _]. exists z. by split; eauto.
  - destruct Hc as [[z Hz] _]. exists z. by split; eauto.
  - destruct Hc as ([z Hz] & [x Hx] & [y Hy]). exists x, y, z. by split_and!; eauto.
  - destruct Hc as ([z Hz] & [x Hx] & [y Hy]). exists x, y, z. by split_and!; eauto.
  - destruct Hc as [[x Hx] [z Hz]]. exists x, z. by split_and!; eauto.
  - destruct Hc as [[x Hx] [z Hz]]. exists x, z. by split_and!; eauto.
  - destruct Hc as ([z Hz] & [x Hx] & [d Hd] & [i Hi]). exists x, d, i, z. split_and!; eauto; apply find_label_first; eauto.
  - destruct Hc as [[x Hx] [z Hz]]. exists x, z. by split_and!; eauto.
  - destruct Hc as [z Hz]. exists z. by split; eauto.
  - destruct Hc as [[z Hz] [g Hg]]. exists g, z. split_and!; eauto. apply find_label_first; eauto.
Qed.

(** A connect that returns: from any world a client can reach, the block holds the given
    buses and the signals of their ports, and an integrator has linked its first output
    to its first input. *)
Theorem C69_connect : forall D `{NumOps D} dbg (w w' : world D) b o ib oi ob oo u, wreach dbg w ->
  w_blks w !! b = Some o -> w_sigs w !! ib = Some oi -> w_sigs w !! ob = Some oo ->
  exec dbg (OConnect b ib ob) w = Ok u w' ->
  exists o', w_blks w' !! b = Some o' /\ bo_conn o' = true /\ bo_ibus o' = so_mem oi /\ bo_obus o' = so_mem oo /\
    holds (bo_cls o) (so_mem oi) (so_mem oo) (bo_h o') /\
    (integrates (bo_cls o) -> exists d z oz, port (so_mem oi) 0 d /\ port (so_mem oo) 0 z /\ w_sigs w' !! z = Some oz /\ so_deriv oz = Some d).
Proof.
  intros D ? dbg w w' b o ib oi ob oo u Hr Ho Hi Hoo E. cbn [exec] in E. pose proof (reach_ports dbg w Hr) as Hp.
  assert (exists o', w_blks w' !! b = Some o' /\ bo_conn o' = true /\ bo_ibus o' = so_mem oi /\ bo_obus o' = so_mem oo) as (o' & Ho' & Hc' & Ei & Eo).
  { rewrite (connect_split _ _ _ _ _ _ Ho) in E. unfold bnd in E. pose proof (block_connect_eq b ib ob w) as Hb.
    destruct (block_connect b ib ob w) as [u1 w1|?|?|]; [|done..].
    destruct Hb as (o1 & im & om & Ho1 & (oi1 & Hi1 & _ & <-) & (oo1 & Hoo1 & _ & <-) & _ & _ & _ & _ & ->).
    pose proof (rest_keeps dbg (bo_cls o) b ib ob (conn_world w b (so_mem oi1) (so_mem oo1)) _ (upd_lookup _ _ _ _ Ho) eq_refl) as Hk.
    rewrite E in Hk. destruct Hk as (o' & Ho' & Hc' & Ei & Eo & _). exists o'. cbn in Ei, Eo. split_and!; congruence. }
  exists o'. split_and!; try done.
  - destruct (is_builder (bo_cls o)) eqn:Eb; [by destruct (bo_cls o)|].
    assert (connect_simple dbg b ib ob w = Ok u w') as Es.
    { rewrite <- E. unfold connect. unfold bnd at 1, get_blk. rewrite Ho. by destruct (bo_cls o). }
    pose proof (only_connect_simple dbg b ib ob w) as Hon. rewrite Es in Hon. destruct (on_self _ _ _ Hon o Ho) as (o1 & Ho1 & Hs).
    rewrite Ho1 in Ho'. injection Ho' as ->. assert (bo_cls o' = bo_cls o) as Ec by apply Hs.
    pose proof (do_connect dbg b ib ob w (proj1 Hp)) as Hd. rewrite E in Hd. destruct Hd as [Hst _].
    rewrite <- Ec, <- Ei, <- Eo. apply (holds_of dbg w'); [|eapply steps_ports; eauto].
    rewrite (connect_simple_split _ _ _ _ _ _ Ho) in Es. revert Es. unfold bnd. destruct (block_connect b ib ob w) as [u1 w1| | |]; try done.
    intros Es. by eapply after_ready.
  - intros Hint. apply integ_cls_spec in Hint.
    assert (connect_simple dbg b ib ob w = Ok u w') as Es.
    { rewrite <- E. unfold connect. unfold bnd at 1, get_blk. rewrite Ho. by destruct (bo_cls o). }
    pose proof (connect_integ dbg b ib ob w o Hp Ho Hint) as Hj. rewrite Es in Hj. destruct Hj as (_ & o1 & z & d & oz & Ho1 & (_ & _ & Hz & Hd) & Hoz & Hdv).
    rewrite Ho1 in Ho'. injection Ho' as ->. exists d, z, oz. unfold pout, pin in *. rewrite Ei in Hd. rewrite Eo in Hz. done.
Qed.
Print Assumptions C69_connect.

(** It stays so: in every model built without a failing operation ... *)
Theorem C69_holds : forall D `{NumOps D} dbg (w : world D) b o, built dbg w -> w_blks w !! b = Some o -> bo_conn o = true ->
  holds (bo_cls o) (bo_ibus o) (bo_obus o) (bo_h o).
Proof.
  intros D ? dbg w b o Hb Ho Hc. apply (holds_of dbg w); [by eapply built_bound|]. by eapply reach_ports; [apply built_reach|].
Qed.
Print Assumptions C69_holds.

(** ... and even after operations that threw, a member that holds a signal holds that
    of its port. *)
Theorem C69_members : forall D `{NumOps D} dbg (w : world D) b o s, wreach dbg w -> w_blks w !! b = Some o ->
  let h := bo_h o in let im := bo_ibus o in
  (h_in h = Some s -> if is_delay (bo_cls o) then first_entry im "in" s else port im 0 s) /\
  (h_out h = Some s -> port (bo_obus o) 0 s) /\ (h_x1 h = Some s -> port im 0 s) /\ (h_x2 h = Some s -> port im 1 s) /\
  (h_delay h = Some s -> first_entry im "delay" s) /\ (h_initial h = Some s -> first_entry im "initial" s) /\
  (h_trig h = Some s -> first_entry im "trigger" s).
Proof.
  intros D ? dbg w b o s Hr Ho h im. destruct (reach_ports dbg w Hr) as [_ Hp]. destruct (Hp b o Ho) as (P1 & P2 & P3 & P4 & P5 & P6 & P7).
  split_and!; try (intros Hs; apply find_label_first; eauto; fail); eauto.
  - intros Hs. destruct (bo_cls o); cbn [is_delay]; try (by apply P1). apply find_label_first. by apply P1.
  - intros Hs. by apply P2.
  - intros Hs. by apply P3.
  - intros Hs. by apply P4.
Qed.
Print Assumptions C69_members.

(** The derivative of a signal changes only through set_deriv_signal of that signal, or by
    connecting an Integrator or TriggeredIntegrator whose first output it is. *)
Theorem C69_links : forall D `{NumOps D} dbg (w w' : world D) op z oz, wreach dbg w -> wop_ok op ->
  (exists u, exec dbg op w = Ok u w') \/ (exists e, exec dbg op w = Exn e w') ->
  w_sigs w' !! z = Some oz -> so_deriv oz ≠ (w_sigs w !! z) ≫= so_deriv ->
  (exists T ds, op = OSetDeriv T z ds /\ so_deriv oz = Some ds) \/
  ((exists b ib ob, op = OConnect b ib ob) \/ (exists p b ib ob, op = OAddBlock p b ib ob)) /\
  exists b o d, w_blks w' !! b = Some o /\ bo_conn o = true /\ integrates (bo_cls o) /\ port (bo_obus o) 0 z /\ port (bo_ibus o) 0 d /\
    so_deriv oz = Some d /\ ~ exists o0, w_blks w !! b = Some o0 /\ bo_conn o0 = true.
Proof.
  intros D ? dbg w w' op z oz Hr Hok E Hz Hne. pose proof (reach_ports dbg w Hr) as Hp.
  assert (same_deriv w z (so_deriv oz) -> False) as Hno.
  { unfold same_deriv. intros Hs. apply Hne. destruct (w_sigs w !! z) as [o|]; cbn; congruence. }
  assert (match exec dbg op w with Ok _ w1 | Exn _ w1 => w1 = w' | _ => False end) as Ew by (destruct E as [[u ->]|[e ->]]; done).
  assert (R w w' -> exists b o d, w_blks w' !! b = Some o /\ bo_conn o = true /\ integrates (bo_cls o) /\ port (bo_obus o) 0 z /\ port (bo_ibus o) 0 d /\
    so_deriv oz = Some d /\ ~ exists o0, w_blks w !! b = Some o0 /\ bo_conn o0 = true) as Hfin.
  { intros HR. destruct (HR Hp) as [_ [_ Hd]]. destruct (Hd z oz Hz) as [Hs|(d & b & o & Hdd & Ho & (Hc & Hi & Hpo & Hpi) & Hn)]; [by destruct Hno|].
    exists b, o, d. split_and!; try done. by apply integ_cls_spec. }
  destruct op as [k n|l n|l n|c st par n nin nout|s n|b n|b p|p b|b ib ob|p b ib ob|b i|b lb|b i|T s ds|b s f];
    try (match goal with |- context [exec ?d ?o w] => idtac | _ => idtac end;
         match type of Ew with match exec _ ?o _ with _ => _ end => pose proof (dkeep_exec dbg o I w) as Hk end;
         destruct (exec dbg _ w); try done; subst; destruct Hno; by apply Hk).
  - right. split; [left; by eauto|]. apply Hfin. cbn [exec] in Ew. pose proof (R_connect dbg b ib ob w) as HR. by destruct (connect dbg b ib ob w); subst.
  - right. split; [right; by eauto|]. apply Hfin. cbn [exec] in Ew. pose proof (R_add_block dbg p b ib ob w) as HR. revert Ew. unfold bnd.
    by destruct (add_block dbg p b ib ob w); cbn; intros; subst.
  - left. clear E Hfin. revert Ew. cbn [exec]. unfold float_set_deriv, bnd, get_sig. destruct (w_sigs w !! s) as [o|] eqn:Es; [|done].
    destruct (ty_fits T (so_kind o)); [|done]. unfold set_deriv, bnd, get_sig. destruct (w_sigs w !! ds) as [od|]; [|done].
    assert (w = w' -> False) as Hsame. { intros <-. apply Hno. unfold same_deriv. by rewrite Hz. }
    unfold verify. destruct (ty_fits T (so_kind od)); [|by intros E'; destruct Hsame].
    unfold ret at 1. rewrite Es. unfold put_sig, modify, ret. destruct (Nat.eqb _ _); intros <-; cbn in Hz;
      (apply list_lookup_insert_Some in Hz as [(-> & <- & _)|(_ & Hz)]; [by exists T, ds|destruct Hno; unfold same_deriv; by rewrite Hz]).
Qed.
Print Assumptions C69_links.

(** Subtract, Delay with its inputs in another order, Integrator and TriggeredIntegrator
    with their inputs and outputs; the second derivative of x is set by the two
    integrators. *)
Definition ex69_ops : list (wop Q) :=
  [ ONewBlock CSubmodel LNone None "root" NoIOLimit NoIOLimit;   (* 0 *)
    ONewSig KScalar "a"; ONewSig KScalar "v"; ONewSig KScalar "x"; ONewSig KScalar "tau"; ONewSig KBool "g";  (* 0 .. 4 *)
    ONewBlock (CInteg TyD) (LInteg (VS 0%Q) false) (Some 0) "i1" 1 1;   (* 1 *)
    ONewBlock (CTrig TyD) (LInteg (VS 0%Q) false) (Some 0) "i2" 2 1;    (* 2 *)
    ONewBlock CSub LNone (Some 0) "sub" 2 1;                            (* 3 *)
    ONewBlock (CDelay TyD 10%Q) (LDelay [] []) (Some 0) "delay" 3 1;    (* 4 *)
    ONewSig KScalar "e"; ONewSig KScalar "y";                           (* 5, 6 *)
    ONewBusL [("in", 0)] "b0"; ONewBusL [("out", 1)] "b1";              (* 7, 8 *)
    OConnect 1 7 8;
    ONewBusL [("in", 1); ("trigger", 4)] "b2"; ONewBusL [("out", 2)] "b3";  (* 9, 10 *)
    OConnect 2 9 10;
    ONewBusL [("x", 2); ("v", 1)] "b4"; ONewBusL [("e", 5)] "b5";       (* 11, 12 *)
    OConnect 3 11 12;
    ONewBusL [("initial", 0); ("in", 2); ("delay", 3)] "b6"; ONewBusL [("y", 6)] "b7";  (* 13, 14 *)
    OConnect 4 13 14 ]%string.
Definition ex69_world : world Q := world_of true ex69_ops.
Lemma ex69_built : built true ex69_world.
Proof.
  unfold ex69_world, world_of. destruct (exec_all true ex69_ops empty_world) as [u w| | |] eqn:E; [|constructor..].
  eapply built_all; [constructor| |exact E]. unfold ex69_ops. repeat (apply Forall_cons; split; [cbn; eauto|]); apply Forall_nil; done.
Qed.
Example C69_ex : built true ex69_world /\
  (fun o => (bo_conn o, bo_h o)) <$> w_blks ex69_world =
  [ (false, no_handles); (true, Handles None (Some 1) None None None None None);
    (true, Handles None (Some 2) None None None None (Some 4)); (true, Handles None (Some 5) (Some 2) (Some 1) None None None);
    (true, Handles (Some 2) (Some 6) None None (Some 3) (Some 0) None) ] /\
  so_deriv <$> take 7 (w_sigs ex69_world) = [None; Some 0; Some 1; None; None; None; None].
Proof. split; [apply ex69_built|]. split; vm_compute; reflexivity. Qed.
