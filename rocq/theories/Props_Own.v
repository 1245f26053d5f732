(** Which signal objects are destroyed: C66. *)
From stdpp Require Import prelude gmap strings.
From Coq Require Import ZArith QArith.
From Verif Require Import Num NumQ Res Name Store Leaf Sched World Api P_World Own SpecOwn P_Own Ex_Models.
Local Open Scope nat_scope.

Lemma release_more {D} `{NumOps D} (w : world D) n k todo h h' : n <= k -> release n w todo h = Ok tt h' -> release k w todo h = Ok tt h'.
Proof.
  revert k todo h. induction n as [|n IH]; intros k todo h Hk E; (destruct todo as [|s todo]; [by destruct k|]); [discriminate E|].
  destruct k as [|k]; [lia|]. cbn [release] in E |- *. destruct (h !! s) as [[|[|c]]|]; [discriminate E| | |discriminate E]; (apply IH; [lia|done]).
Qed.

Lemma refers_bound {D} (w : world D) s s' : refers w s s' -> s < length (w_sigs w).
Proof. intros [(o & lb & Ho & _)|(o & Ho & _)]; by apply lookup_lt_Some in Ho. Qed.
Lemma tc_split_last {A} (R : relation A) x y : tc R x y -> exists z, rtc R x z /\ R z y.
Proof.
  induction 1 as [x y HR|x y z HR _ (u & Hu & HR')]; [exists x; split; [constructor|done]|]. exists u. split; [by eapply rtc_l|done].
Qed.

(** ** C66.  A client holds references to all signals of a model ([refs]) and gives up
    some of them ([drop]) in any order.  The cascade of destructors that follows ends
    and never touches an object that is already destroyed.  Exactly those signals
    survive that can be reached, from a bus to its members and from a state to its
    derivative, from a reference kept, or from a signal that is its own derivative of
    some order. *)
Theorem C66_survivors : forall D `{NumOps D} dbg (w : world D) refs drop kept,
  wreach dbg w -> (forall s, s ∈ refs <-> s < length (w_sigs w)) -> refs ≡ₚ drop ++ kept ->
  exists N h, (forall fuel, N <= fuel -> release fuel w drop (heap_of w refs) = Ok tt h) /\
    (forall s, is_Some (h !! s) <-> exists r, (r ∈ kept \/ own_ancestor w r) /\ rtc (refers w) r s).
Proof.
  intros D H0 dbg w refs drop kept Hw Hall Ep.
  assert (sigs_ok w) as Hok by apply (reach_ok dbg w Hw).
  pose proof (heap_of_right w refs Hok Hall) as Hr.
  assert (right w (seq 0 (length (w_sigs w))) (drop ++ kept) (heap_of w refs)) as Hr'.
  { destruct Hr as (H1 & H2 & H3). split_and!; [done|..].
    - intros s. rewrite H2, !elem_of_app. rewrite Ep, elem_of_app. tauto.
    - intros s n. rewrite H3. rewrite (occ_perm s (refs ++ _) ((drop ++ kept) ++ inner w (seq 0 (length (w_sigs w))))); [done|]. by rewrite Ep. }
  destruct (release_right w (work w (seq 0 (length (w_sigs w))) drop) _ _ _ _ Hr' (le_n _)) as (h & l & E & Hl & Hsub).
  exists (work w (seq 0 (length (w_sigs w))) drop), h. split; [intros fuel Hf; by eapply release_more|].
  intros s. assert (is_Some (h !! s) <-> s ∈ l) as ->.
  { destruct Hl as (_ & _ & Hc). split; [intros [n Hn]; by apply Hc in Hn as [? _]|]. intros Hs. eexists. by apply Hc. }
  split.
  - intros Hs. destruct (right_alive w _ _ _ s Hl Hs) as (r & [?|Hc] & Hp); exists r; (split; [|done]); [by left|]. right. by apply cycle_deriv.
  - intros (r & [Hk|Hc] & Hp); [by eapply right_kept|].
    assert (r ∈ l) as Hrl.
    { apply (Hsub (fun x => tc (refers w) x x)); [|by apply deriv_refers]. intros x Hx. apply tc_split_last in Hx as (o & Hxo & Hox). split; [|exists o; split; [|done]].
      - assert (x ∈ refs ++ inner w (seq 0 (length (w_sigs w)))) as Hin; [|by apply Hr in Hin]. apply elem_of_app. left. apply Hall.
        destruct Hxo as [|? y ? Hxy _]; [|by eapply refers_bound].
        by eapply refers_bound.
      - by eapply tc_rtc_r; [apply tc_once|]. }
    clear Hc. induction Hp as [x|x y z Hxy _ IH]; [done|]. apply IH. apply Hl, elem_of_app. right.
    apply elem_of_list_In, in_concat. exists (owned w x). split; [by apply in_map, elem_of_list_In|]. by apply elem_of_list_In, refers_owned.
Qed.
Print Assumptions C66_survivors.

(** In particular, if no signal is its own derivative of some order, nothing is left
    when the last reference is gone. *)
Theorem C66_nothing_left : forall D `{NumOps D} dbg (w : world D) refs,
  wreach dbg w -> (forall s, s ∈ refs <-> s < length (w_sigs w)) -> (forall s, ~ own_ancestor w s) ->
  exists N, forall fuel, N <= fuel -> release fuel w refs (heap_of w refs) = Ok tt ∅.
Proof.
  intros D H0 dbg w refs Hw Hall Hno. destruct (C66_survivors D dbg w refs refs [] Hw Hall) as (N & h & E & Hs); [by rewrite app_nil_r|].
  exists N. intros fuel Hf. rewrite (E fuel Hf). f_equal. apply map_empty. intros s. apply eq_None_not_Some. rewrite Hs.
  intros (r & [Hr|Hr] & _); [by apply elem_of_nil in Hr|by apply (Hno r)].
Qed.
Print Assumptions C66_nothing_left.

(** A damped oscillator: x' = v, v' = a, a = - 2 x; the bus 5 holds the bus 4.  Signals
    0-2 are x, v and a. *)
Definition exo_ops : list (wop Q) :=
  [ ONewSig KScalar "x"; ONewSig KScalar "v"; ONewSig KScalar "a"; ONewBus [0] ""; ONewBus [1] "";
    ONewBusL [("inner"%string, 4); ("acc"%string, 2)] "outer"; ONewBus [2] "";
    ONewBlock CSubmodel LNone None "root" NoIOLimit NoIOLimit;
    ONewBlock (CInteg TyD) (LInteg (VS 1%Q) false) (Some 0) "int_v" 1 1;
    ONewBlock (CInteg TyD) (LInteg (VS 0%Q) false) (Some 0) "int_a" 1 1;
    ONewBlock (CGain TyD (VS (-2)%Q)) LNone (Some 0) "gain" 1 1;
    OConnect 1 4 3; OConnect 2 6 4; OConnect 3 3 6 ].
Definition exo_world : world Q := world_of true exo_ops.
Lemma exo_reach : wreach true exo_world.
Proof. reach_ops exo_world exo_ops. Qed.
Definition exo_derivs : list (option nat) := map so_deriv (w_sigs exo_world).
Lemma exo_deriv s s' : has_deriv exo_world s s' -> (s = 0 /\ s' = 1) \/ (s = 1 /\ s' = 2).
Proof.
  intros (o & Ho & Hd). assert (exo_derivs !! s = Some (Some s')) as E by (unfold exo_derivs; rewrite list_lookup_fmap, Ho; cbn; by rewrite Hd).
  clear Ho Hd. replace exo_derivs with [Some 1; Some 2; None; None; None; None; None] in E by (vm_compute; reflexivity).
  destruct s as [|[|[|[|[|[|[|s]]]]]]]; try discriminate E; injection E as <-; auto.
Qed.
Lemma exo_up s s' : tc (has_deriv exo_world) s s' -> s < s'.
Proof. induction 1 as [x y Hxy|x y z Hxy _ IH]; apply exo_deriv in Hxy as [[-> ->]|[-> ->]]; lia. Qed.
Example C66_ex : wreach true exo_world /\ length (w_sigs exo_world) = 7 /\ (forall s, ~ own_ancestor exo_world s) /\
  (* one reference to each signal, all given up *)
  release 100 exo_world (seq 0 7) (heap_of exo_world (seq 0 7)) = Ok tt ∅ /\
  (* a reference to the bus "outer" keeps v, a, the inner bus and itself alive *)
  match release 100 exo_world [0; 1; 2; 3; 4; 6] (heap_of exo_world (seq 0 7)) with
  | Ok _ h => map_to_list h ≡ₚ [(5, 1); (4, 1); (1, 1); (2, 2)]
  | _ => False
  end.
Proof.
  split; [apply exo_reach|]. split; [vm_compute; reflexivity|]. split; [intros s Hs; apply exo_up in Hs; lia|]. split.
  - destruct (C66_nothing_left Q true exo_world (seq 0 7) exo_reach) as [N HN].
    + intros s. rewrite elem_of_seq. replace (length (w_sigs exo_world)) with 7 by (vm_compute; reflexivity). lia.
    + intros s Hs. apply exo_up in Hs. lia.
    + assert (forall r, release 100 exo_world (seq 0 7) (heap_of exo_world (seq 0 7)) = r -> is_ok r = true -> r = Ok tt ∅) as Hx.
      { intros r E Hr. destruct r as [[] h| | |]; try discriminate Hr. specialize (HN (max N 100) (Nat.le_max_l _ _)).
        apply (release_more _ _ (max N 100)) in E; [|lia]. congruence. }
      apply (Hx _ eq_refl). vm_compute. reflexivity.
  - vm_compute. apply (bool_decide_unpack _). vm_compute. exact I.
Qed.

(** Two integrators that form a loop, x' = y and y' = x, or one integrator from a signal
    to itself, x' = x, make signals that are never destroyed: each is kept alive by the
    other. *)
Definition exl_ops : list (wop Q) :=
  [ ONewSig KScalar "x"; ONewSig KScalar "y"; ONewBus [0] ""; ONewBus [1] "";
    ONewBlock CSubmodel LNone None "root" NoIOLimit NoIOLimit;
    ONewBlock (CInteg TyD) (LInteg (VS 1%Q) false) (Some 0) "int_y" 1 1;
    ONewBlock (CInteg TyD) (LInteg (VS 0%Q) false) (Some 0) "int_x" 1 1;
    OConnect 1 3 2; OConnect 2 2 3 ].
Definition exl_world : world Q := world_of true exl_ops.
Lemma exl_reach : wreach true exl_world.
Proof. reach_ops exl_world exl_ops. Qed.
Theorem C66_refuted : exists w : world Q, wreach true w /\ length (w_sigs w) = 4 /\
  exists h, release 100 w (seq 0 4) (heap_of w (seq 0 4)) = Ok tt h /\ h !! 0 = Some 1 /\ h !! 1 = Some 1.
Proof.
  exists exl_world. split; [apply exl_reach|]. split; [vm_compute; reflexivity|].
  destruct (release 100 exl_world (seq 0 4) (heap_of exl_world (seq 0 4))) as [[] h| | |] eqn:E.
  - exists h. split; [done|]. assert (match release 100 exl_world (seq 0 4) (heap_of exl_world (seq 0 4)) with Ok _ h => (h !! 0, h !! 1) | _ => (None, None) end = (Some 1, Some 1)) as Hx
      by (vm_compute; reflexivity). rewrite E in Hx. split; congruence.
  - exfalso. apply (f_equal is_ok) in E. vm_compute in E. discriminate E.
  - exfalso. apply (f_equal is_ok) in E. vm_compute in E. discriminate E.
  - exfalso. apply (f_equal is_ok) in E. vm_compute in E. discriminate E.
Qed.
Print Assumptions C66_refuted.
