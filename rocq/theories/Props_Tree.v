(** Ports, links and the hierarchy: C11 - C16. *)
From stdpp Require Import prelude gmap strings.
From Coq Require Import ZArith QArith.
From Verif Require Import Num NumQ Res Name SpecName Store Leaf Sched World Api Visit Steps P_Steps P_Ops P_World
  P_Compile P_Frame Ex_Models.

Local Open Scope nat_scope.

(** C11.  [matches limit n]: a block declared with [limit] ports accepts [n] signals. *)
Definition matches (limit : N) (n : nat) : Prop := limit = 65535%N \/ N.of_nat n = limit.
Lemma matches_ok limit n : port_ok limit n = true <-> matches limit n.
Proof.
  unfold port_ok, matches, NoIOLimit. rewrite orb_true_iff, !N.eqb_eq. done.
Qed.

Theorem C11_connect : forall D `{NumOps D} dbg (w : world D) b o ib oi ob oo, wreach dbg w ->
  w_blks w !! b = Some o ->
  w_sigs w !! ib = Some oi -> so_kind oi = KBus -> w_sigs w !! ob = Some oo -> so_kind oo = KBus ->
  (bo_conn o = true -> connect dbg b ib ob w = Exn EReconnect w) /\
  (bo_conn o = false -> ~ (matches (bo_nin o) (length (so_mem oi)) /\ matches (bo_nout o) (length (so_mem oo))) ->
     connect dbg b ib ob w = Exn EPorts w) /\
  (bo_conn o = false -> matches (bo_nin o) (length (so_mem oi)) -> matches (bo_nout o) (length (so_mem oo)) ->
     exists w1, block_connect b ib ob w = Ok tt w1 /\
     forall w', (exists e, connect dbg b ib ob w = Exn e w') \/ connect dbg b ib ob w = Ok tt w' ->
     exists o', w_blks w' !! b = Some o' /\ bo_conn o' = true /\ bo_ibus o' = so_mem oi /\ bo_obus o' = so_mem oo).
Proof.
  intros D ? dbg w b o ib oi ob oo Hw Ho Hi Ki Hoo Ko.
  assert (forall s os e, w_sigs w !! s = Some os -> e ∈ so_mem os -> snd e < length (w_sigs w)) as Hmem.
  { intros s os e Hs He. destruct (ok_sigs _ (reach_ok dbg w Hw) _ _ Hs) as (Hm & _).
    apply lookup_lt_Some in Hs. specialize (Hm e He). lia. }
  assert (block_connect b ib ob w =
    if bo_conn o then Exn EReconnect w else
    if port_ok (bo_nin o) (length (so_mem oi)) && port_ok (bo_nout o) (length (so_mem oo))
    then Ok tt (conn_world w b (so_mem oi) (so_mem oo)) else Exn EPorts w) as Hbc.
  { pose proof (block_connect_eq b ib ob w) as Heq. unfold block_connect, bus_members, bnd, get_sig, get_blk in *.
    rewrite Hi, Ki in Heq |- *. cbn [is_bus ret] in *.
    rewrite Hoo, Ko in Heq |- *. cbn [is_bus ret] in *. rewrite Ho in Heq |- *. unfold verify in *.
    destruct (bo_conn o) eqn:Ec; cbn [negb] in *; [done|]. cbn [ret] in *.
    destruct (port_ok (bo_nin o) (length (so_mem oi))) eqn:Pi; [|done]. cbn [ret andb] in *.
    destruct (port_ok (bo_nout o) (length (so_mem oo))) eqn:Po; [|done]. cbn [ret] in *.
    pose proof (link_all_eq b (N.lor fInput fRequired) (so_mem oi) w) as H1.
    destruct (forM (so_mem oi) _ w) as [u w1|?|?|]; [|done| |done].
    2: { destruct H1 as (e & He & Hn). destruct Hn. exact (Hmem _ _ _ Hi He). }
    destruct H1 as [Hm1 ->].
    pose proof (link_all_eq b fOutput (so_mem oo) (upd w b (fun x => set_linked (add_links w (N.lor fInput fRequired) (so_mem oi) (bo_linked x)) x))) as H2.
    destruct (forM (so_mem oo) _ _) as [u2 w2|?|?|]; [|done| |done].
    2: { destruct H2 as (e & He & Hn). destruct Hn. exact (Hmem _ _ _ Hoo He). }
    destruct H2 as [Hm2 ->]. unfold upd_blk, modify in *.
    destruct Heq as (o' & im & om & _ & (oi' & Hi' & _ & <-) & (oo' & Hoo' & _ & <-) & _ & _ & _ & _ & ->). by simplify_eq. }
  rewrite (connect_split dbg b ib ob w o Ho). unfold bnd. split_and!.
  - intros Hc. by rewrite Hbc, Hc.
  - intros Hc Hn. rewrite Hbc, Hc. rewrite <- !matches_ok, <- andb_true_iff in Hn. by apply not_true_is_false in Hn as ->.
  - intros Hc Mi Mo. apply matches_ok in Mi, Mo. rewrite Hc, Mi, Mo in Hbc. cbn [andb] in Hbc. rewrite Hbc. cbn beta iota. eexists. split; [done|].
    intros w' Hw'.
    pose proof (rest_keeps dbg (bo_cls o) b ib ob (conn_world w b (so_mem oi) (so_mem oo)) _ (upd_lookup w b _ _ Ho) eq_refl) as Hk.
    destruct Hw' as [[e' E]|E]; rewrite Hbc in E || idtac; cbn beta iota in E; rewrite E in Hk;
      destruct Hk as (o' & ? & ? & ? & ? & ?); exists o'; by split_and!.
Qed.
(** A Gain offered no input, then connected twice; a Function without limits. *)
Definition ports_ops : list (wop Q) :=
  [ ONewSig KScalar "x"; ONewSig KScalar "y"; ONewBus [0] ""; ONewBus [1] ""; ONewBus [] "";
    ONewBlock (CGain TyD (VS 2%Q)) LNone None "g" 1 1 ].
Definition ports_world : world Q := world_of true ports_ops.
Lemma ports_reach : wreach true ports_world.
Proof. reach_ops ports_world ports_ops. Qed.
Example C11_ex :
  wreach true ports_world /\ connect true 0 4 3 ports_world = Exn EPorts ports_world /\
  match connect true 0 2 3 ports_world with
  | Ok _ w => bo_conn <$> w_blks w !! 0 = Some true /\ connect true 0 2 3 w = Exn EReconnect w
  | _ => False
  end.
Proof. split; [exact ports_reach|]. by vm_compute. Qed.
Print Assumptions C11_connect.

(** C12.  [role ls s]: the flag word of signal [s] (0 if it is not linked). *)
Definition role (ls : list (nat * N)) (s : nat) : N :=
  fold_right (fun p f => if bool_decide (fst p = s) then N.lor (snd p) f else f) 0%N ls.
(** A sequence of link operations on block [b]. *)
Fixpoint links {D} (b : nat) (rs : list (nat * N)) : M (world D) unit :=
  match rs with [] => ret tt | (s, f) :: rs' => link_signal b s f ;;; links b rs' end.

Lemma role_link ls s f s' : role (link_pair ls s f) s' = N.lor (role ls s') (if bool_decide (s = s') then f else 0%N).
Proof.
  induction ls as [|[s1 f1] ls IH]; cbn [link_pair role fold_right fst snd].
  - case_bool_decide; [by rewrite N.lor_0_r|done].
  - destruct (Nat.eqb_spec s1 s) as [->|Hne]; cbn [fold_right fst snd].
    + case_bool_decide; [|by rewrite N.lor_0_r].
      rewrite <- !N.lor_assoc. f_equal. apply N.lor_comm.
    + fold (role (link_pair ls s f) s'). fold (role ls s'). rewrite IH.
      destruct (bool_decide (s1 = s')); [|done]. apply N.lor_assoc.
Qed.
Lemma role_not ls s : s ∉ ls.*1 -> role ls s = 0%N.
Proof.
  induction ls as [|[s1 f1] ls IH]; cbn; [done|]. intros Hn. apply not_elem_of_cons in Hn as [Hne Hn].
  rewrite bool_decide_false by done. by apply IH.
Qed.
Lemma role_elem ls s f : NoDup ls.*1 -> (s, f) ∈ ls -> role ls s = f.
Proof.
  induction ls as [|[s1 f1] ls IH]; cbn; [by intros _ ?%elem_of_nil|]. intros Hnd Hin.
  apply NoDup_cons in Hnd as [Hn Hnd]. apply elem_of_cons in Hin as [[= -> ->]|Hin].
  - rewrite bool_decide_true by done. fold (role ls s1). rewrite role_not by done. apply N.lor_0_r.
  - rewrite bool_decide_false; [by apply IH|]. intros ->. apply Hn. apply elem_of_list_fmap. by exists (s, f).
Qed.

Theorem C12_links : forall D `{NumOps D} dbg (w : world D) b o rs, wreach dbg w -> w_blks w !! b = Some o ->
  (forall s f, (s, f) ∈ rs -> is_Some (w_sigs w !! s)) ->
  exists w' o', links b rs w = Ok tt w' /\ w_blks w' !! b = Some o' /\
    NoDup (bo_linked o').*1 /\
    (forall s, s ∈ (bo_linked o').*1 <->
       s ∈ (bo_linked o).*1 \/ (s ∈ rs.*1 /\ exists os, w_sigs w !! s = Some os /\ so_kind os ≠ KBus)) /\
    (forall s, s ∈ (bo_linked o').*1 -> exists os, w_sigs w !! s = Some os /\ so_kind os ≠ KBus) /\
    (forall s f, (s, f) ∈ bo_linked o' -> f = N.lor (role (bo_linked o) s) (role rs s)).
Proof.
  intros D ? dbg w b o rs Hw Ho Hrs.
  pose proof (ok_wires _ (reach_ok dbg w Hw) _ _ Ho) as Hwi.
  pose proof (wi_nodup _ _ Hwi) as Hnd. pose proof (wi_vsig _ _ Hwi) as Hvs. clear Hwi.
  assert (forall s, vsig w s <-> exists os, w_sigs w !! s = Some os /\ so_kind os ≠ KBus) as Hvk.
  { intros s. split; intros (os & Hs & Hk); exists os; (split; [done|]); by destruct (so_kind os). }
  setoid_rewrite <- Hvk. clear Hvk.
  assert (exists w' o', links b rs w = Ok tt w' /\ w_sigs w' = w_sigs w /\ w_blks w' !! b = Some o' /\ NoDup (bo_linked o').*1 /\
    (forall s, s ∈ (bo_linked o').*1 <-> s ∈ (bo_linked o).*1 \/ (s ∈ rs.*1 /\ vsig w s)) /\
    (forall s, s ∈ (bo_linked o').*1 -> role (bo_linked o') s = N.lor (role (bo_linked o) s) (role rs s))) as Hmain.
  { clear Hw. revert w o Ho Hrs Hnd Hvs. induction rs as [|[s f] rs IH]; intros w o Ho Hrs Hnd Hvs.
    - exists w, o. split_and!; [done|done|done|done| |].
      + intros s. split; [by left|]. intros [?|[?%elem_of_nil ?]]; done.
      + intros s _. cbn. by rewrite N.lor_0_r.
    - cbn [links]. unfold bnd. pose proof (link_signal_eq b s f w) as Hl.
      destruct (link_signal b s f w) as [u w1|?|?|]; [|done| |done].
      2: { destruct Hl. apply lookup_lt_is_Some. eapply Hrs. left. }
      destruct Hl as [_ ->]. set (o1 := set_linked (if vsigb w s then link_pair (bo_linked o) s f else bo_linked o) o).
      destruct (IH (upd w b (fun x => set_linked (if vsigb w s then link_pair (bo_linked x) s f else bo_linked x) x)) o1)
        as (w' & o' & El & Es & Eb & Nd & Hin & Hro).
      { by rewrite (upd_lookup _ _ _ _ Ho). }
      { intros s' f' Hs'. cbn. eapply Hrs. by right. }
      { cbn. destruct (vsigb w s); [by apply link_pair_nodup|done]. }
      { cbn [bo_linked o1 set_linked]. intros s' Hs'. change (vsig w s'). destruct (vsigb w s) eqn:Ev; [|by apply Hvs].
        eapply (link_pair_vsig w (bo_linked o) s f); [done|by apply vsigb_spec|done]. }
      exists w', o'. split_and!; [done|done|done|done| |].
      + intros s'. rewrite Hin. cbn [bo_linked o1 set_linked fmap list_fmap]. rewrite elem_of_cons.
        change (vsig (upd w b _) s') with (vsig w s'). cbn [fst].
        destruct (vsigb w s) eqn:Ev.
        * rewrite link_pair_ids. apply vsigb_spec in Ev. case_bool_decide as Hs.
          -- naive_solver.
          -- rewrite elem_of_app, elem_of_list_singleton. naive_solver.
        * assert (~ vsig w s) by (rewrite <- vsigb_spec, Ev; done). naive_solver.
      + intros s' Hs'. rewrite Hro by done. cbn [bo_linked o1 set_linked].
        cbn [role fold_right fst snd]. fold (role rs s').
        destruct (vsigb w s) eqn:Ev.
        * rewrite role_link, <- N.lor_assoc. f_equal. case_bool_decide; [done|]. by rewrite N.lor_0_l.
        * rewrite bool_decide_false; [done|]. intros <-. apply Hin in Hs'. cbn [bo_linked o1 set_linked] in Hs'.
          assert (~ vsig w s) as Hv by (rewrite <- vsigb_spec, Ev; done).
          destruct Hs' as [Hs'|[_ Hs']]; [|done]. by apply Hv, Hvs. }
  destruct Hmain as (w' & o' & El & Es & Eb & Nd & Hin & Hro). exists w', o'. split_and!; [done|done|done|done| |].
  - intros s Hs. apply Hin in Hs as [Hs|[_ Hs]]; [by apply Hvs|done].
  - intros s f Hf. rewrite <- Hro by (apply elem_of_list_fmap; by exists (s, f)). symmetry. by apply role_elem.
Qed.
(** In every reachable world: *)
Theorem C12_reachable : forall D `{NumOps D} dbg (w : world D) b o, wreach dbg w -> w_blks w !! b = Some o ->
  NoDup (bo_linked o).*1 /\
  forall s, s ∈ (bo_linked o).*1 -> exists os, w_sigs w !! s = Some os /\ so_kind os ≠ KBus.
Proof.
  intros D ? dbg w b o Hw Ho. pose proof (ok_wires _ (reach_ok dbg w Hw) _ _ Ho) as Hwi.
  split; [apply (wi_nodup _ _ Hwi)|]. intros s Hs. destruct (wi_vsig _ _ Hwi s Hs) as (os & Hos & Hk).
  exists os. split; [done|]. by destruct (so_kind os).
Qed.
(** An Add whose two inputs and whose output are one signal, next to a bus. *)
Definition links_ops : list (wop Q) :=
  [ ONewSig KScalar "x"; ONewSig KScalar "y"; ONewBus [0; 0] ""; ONewBusL [("a", 0); ("b", 2); ("a", 0); ("c", 1)] "";
    ONewBus [0] ""; ONewBlock (CFunction (fun _ _ _ => PRet tt)) LNone None "f" NoIOLimit NoIOLimit; OConnect 0 3 4; OInputAt 0 3; OOutputAt 0 0 ].
Definition links_world : world Q := world_of true links_ops.
Lemma links_reach : wreach true links_world.
Proof. reach_ops links_world links_ops. Qed.
Example C12_ex :
  wreach true links_world /\ bo_linked <$> w_blks links_world !! 0 = Some [(0, 11%N); (1, 9%N)] /\
  match links 0 [(1, fOutput); (2, fOutput); (1, fInput)] links_world with
  | Ok _ w' => bo_linked <$> w_blks w' !! 0 = Some [(0, 11%N); (1, 11%N)]
  | _ => False
  end.
Proof. split; [exact links_reach|]. by vm_compute. Qed.
Print Assumptions C12_links.
Print Assumptions C12_reachable.
