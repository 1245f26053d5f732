(** The Delay block over whole simulations: C29, C30. *)
From stdpp Require Import prelude gmap strings.
From Coq Require Import ZArith QArith Reals Lra Floats.SpecFloat.
From Verif Require Import Num NumR NumQ NumF NumOrd Res Name Store Leaf Sched Stepper Sim World Api SpecSched P_Store P_Prog P_Rel P_Rel2 SpecHist P_Trace P_Life P_Delay Ex_Models Ex_Hist.
Local Open Scope nat_scope.
Local Open Scope num_scope.

(** A program that cannot end in the undefined behaviour [u], other than by the
    signals it uses not being there. *)
Fixpoint avoids {D A} (u : ub) (p : prog D A) : Prop :=
  match p with
  | PRet _ | PThrow _ => True
  | PGet _ k => forall v, avoids u (k v)
  | PSet _ _ p' | PDebug _ _ p' => avoids u p'
  | PUB u' => u' ≠ u
  end.
Lemma avoids_run {D A} u (p : prog D A) dbg σ : u ≠ UNull -> u ≠ UType -> u ≠ UUninit -> avoids u p -> run_prog dbg p σ ≠ UB u.
Proof.
  intros H1 H2 H3. revert σ. induction p as [a|s k IH|s v p IH|c e p IH|e|u']; intros σ Hp; cbn in *; try done; unfold bnd.
  - unfold get_value. destruct (σ !! s) as [c|]; [|congruence]. destruct (dbg && _); [done|]. destruct (dbg && _); [done|]. destruct (c_val c); [by apply IH|congruence].
  - unfold set_value. destruct (σ !! s) as [c|]; [|congruence]. destruct (negb _); [congruence|]. destruct (dbg && _); [done|]. destruct (dbg && _); [done|].
    destruct (dbg && _); [done|]. by apply IH.
  - unfold debug_verify, verify. destruct dbg; [|by apply IH]. destruct c; [by apply IH|done].
  - unfold undef. congruence.
Qed.

(** ** C29, first part.  In every simulation, at every moment a mark is recorded and
    at the end, the buffers of a Delay are equally long and the times strictly
    increasing, and neither evaluating the block nor its post_step accesses them
    outside their bounds, whatever the signals and the time are. *)
Theorem C29_safe : forall D `{NumOrd D} w b (g : cfg D) s l o T L si m,
  simulation_of w b g s -> block_of w g l o -> bo_cls o = CDelay T L -> bo_st o = LDelay [] [] -> h_in (bo_h o) = Some si ->
  m = lst_of (s_core s) (l_id l) \/
    (exists v e t σ ms, marked s v e /\ e ∈ [EvBegin t σ ms; EvEval t σ ms; EvStep t σ ms] /\ m = member ms (l_id l)) ->
  exists ts xs, m = LDelay ts xs /\ length ts = length xs /\ incr ts /\
    (forall dbg t σ, run_prog dbg (act l t m) σ ≠ UB UIndex) /\ (forall dbg t σ, run_prog dbg (post l t m) σ ≠ UB UErase).
Proof.
  intros D ? ? w b g s l o T L si m Hsim Hb Hc Hst Hi Hm. destruct (simulation_life _ _ _ _ _ _ Hsim Hb) as (Ec & Eh & Hlife).
  rewrite <- Ec in Hc. rewrite <- Eh in Hi. rewrite Hst in Hlife.
  assert (exists v, life l (LDelay [] []) v m) as [v Hv].
  { destruct Hm as [->|(v & e & t & σ & ms & Hmk & He & ->)]; [by eexists|].
    destruct (marked_life _ _ _ _ _ _ _ _ Hsim Hb Hmk) as (m1 & m2 & _ & H2 & H3). rewrite Hst in H3. exists (v ++ [e]).
    assert (member ms (l_id l) = m2) as ->; [|done]. apply elem_of_cons in He as [->|He]; [by destruct H2|].
    apply elem_of_cons in He as [->|He]; [by destruct H2|]. apply elem_of_list_singleton in He as ->. by destruct H2 as (_ & _ & ?). }
  destruct (delay_life l T L si v m Hc Hi Hv) as (k & xs & Hm1 & Hs & Hin & Hkl & _).
  exists (drop k (map fst (steps v))), (drop k xs).
  assert (length (drop k (map fst (steps v))) = length (drop k xs)) as Elen.
  { rewrite !drop_length, map_length. f_equal. by eapply Forall2_length. }
  split_and!; [done|done|done| |].
  - intros dbg t σ. apply avoids_run; [done..|]. rewrite Hm1. unfold act. rewrite Hc. unfold delay_act.
    destruct (h_out (l_h l)) as [so|]; [|done]. destruct (h_initial (l_h l)) as [s0|]; [|done]. destruct (h_delay (l_h l)) as [sd|]; [|done]. cbn [with_h].
    destruct (drop k (map fst (steps v))) as [|th ts'] eqn:Ets; [done|]. intros [d| | |]; try done.
    destruct (t - d <=? th) eqn:E1; [done|]. destruct (default th (last (th :: ts')) <=? t - d) eqn:E2.
    { destruct (last (drop k xs)) eqn:E; [done|]. apply last_None in E. by rewrite E in Elen. }
    assert (0 < count_lt (th :: ts') (t - d)) as Hpos by (cbn; rewrite E1; lia).
    destruct (count_lt (th :: ts') (t - d)) as [|k1] eqn:Ek; [lia|].
    assert (S k1 < length (th :: ts')) as Hlt.
    { destruct (last (th :: ts')) as [tn|] eqn:El; [|by apply last_None in El]. cbn [default] in E2.
      destruct (decide (S k1 < length (th :: ts'))) as [?|Hn]; [done|]. exfalso. rewrite last_lookup in El.
      assert (tn <? t - d = true) as Hx. { apply (count_lt_spec _ (t - d) Hin _ _ El). rewrite Ek. cbn. cbn in Hn. lia. }
      apply ltb_le in Hx. unfold Datatypes.id in E2. congruence. }
    destruct (lookup_lt_is_Some_2 (th :: ts') (S k1) Hlt) as [tb ->]. destruct (lookup_lt_is_Some_2 (th :: ts') k1 ltac:(lia)) as [ta ->].
    rewrite Elen in Hlt. destruct (lookup_lt_is_Some_2 (drop k xs) (S k1) Hlt) as [xb ->]. destruct (lookup_lt_is_Some_2 (drop k xs) k1 ltac:(lia)) as [xa ->].
    unfold pset_opt. by destruct (interp xb xa (t - d) tb ta).
  - intros dbg t σ. apply avoids_run; [done..|]. rewrite Hm1. unfold post. rewrite Hc. unfold delay_post. rewrite Hi. cbn [with_h].
    destruct (Nat.ltb _ _) eqn:E; [|done]. apply Nat.ltb_lt in E. pose proof (count_lt_le (drop k (map fst (steps v))) (t - L)). lia.
Qed.

(** ** C29, second part.  In every evaluation that activates it, a Delay outputs its
    [initial] input, or the input recorded at a time not after [t - delay]: that of the
    last accepted step, or the interpolation of two consecutive accepted steps, at
    different times, around [t - delay]. *)
Theorem C29_output : forall D `{NumOrd D} w b (g : cfg D) s l o T L si so sd s0 v t σ ms,
  simulation_of w b g s -> block_of w g l o -> bo_cls o = CDelay T L -> bo_st o = LDelay [] [] ->
  h_in (bo_h o) = Some si -> h_out (bo_h o) = Some so -> h_delay (bo_h o) = Some sd -> h_initial (bo_h o) = Some s0 ->
  marked s v (EvEval t σ ms) -> ~ waits σ l ->
  exists y, value σ so = Some y /\
    (value σ s0 = Some y \/ exists d, value σ sd = Some (VS d) /\ recorded (steps v) si (t - d) y).
Proof.
  intros D ? ? w b g s l o T L si so sd s0 v t σ ms Hsim Hb Hc Hst Hi Ho Hd Hs0 Hm Hnw.
  destruct (simulation_life _ _ _ _ _ _ Hsim Hb) as (Ec & Eh & _). rewrite <- Ec in Hc. rewrite <- Eh in Hi, Ho, Hd, Hs0.
  destruct (marked_life _ _ _ _ _ _ _ _ Hsim Hb Hm) as (m1 & m2 & H1 & [H2 _] & _). rewrite Hst in H1.
  destruct (delay_life l T L si v m1 Hc Hi H1) as (k & xs & Hbuf).
  destruct H2 as [Ha|[[?|Hbl] _]]; [|done|by rewrite Hc in Hbl].
  pose proof (delay_output l T L si so sd s0 v m1 k xs t σ m2 Hc Ho Hd Hs0 Hbuf Ha) as Hout.
  destruct (drop k (map fst (steps v))) as [|th ts'].
  - destruct Hout as (y & ? & ?). exists y. auto.
  - destruct Hout as (y & d & ? & ? & [[_ ?]|[_ ?]]); exists y; [auto|]. split; [done|]. right. by exists d.
Qed.

(** Over the reals the interpolation lies between the two samples, and its division
    is by a positive number. *)
Theorem C29_between : forall (ta tb u a b y : R), (ta <? tb) = true -> (ta <? u) = true -> (u <=? tb) = true ->
  linear ta tb u (VS a) (VS b) (VS y) -> (0 < tb - ta)%R /\ (Rmin a b <= y <= Rmax a b)%R.
Proof.
  intros ta tb u a b y H1 H2 H3 H4. cbn in *. apply Rltb_true in H1, H2. apply Rleb_true in H3. injection H4 as ->. split; [lra|].
  unfold lin. cbn. set (q := ((u - ta) / (tb - ta))%R). assert (0 <= q <= 1)%R as Hq.
  { unfold q. split; [apply Rmult_le_pos; [lra|]; apply Rlt_le, Rinv_0_lt_compat; lra|]. apply Rmult_le_reg_r with (tb - ta)%R; [lra|].
    unfold Rdiv. rewrite Rmult_assoc, Rinv_l by lra. lra. }
  replace ((b - a) * (u - ta) / (tb - ta) + a)%R with ((b - a) * q + a)%R by (unfold q, Rdiv; ring).
  unfold Rmin, Rmax. destruct (Rle_dec a b); split; nra.
Qed.

(** ** C30.  With a lifespan that is not negative the accepted steps are at strictly
    increasing times; let [tn] be the last.  If some accepted step not more than the
    lifespan before [tn] was strictly before [t - delay], the output is the recorded
    input at [t - delay]; if none was, it is the [initial] input. *)
Theorem C30_delayed : forall D `{NumOrd D} w b (g : cfg D) s l o T L si so sd s0 v t σ ms tn σn,
  simulation_of w b g s -> block_of w g l o -> bo_cls o = CDelay T L -> bo_st o = LDelay [] [] -> (n0 <=? L) = true ->
  h_in (bo_h o) = Some si -> h_out (bo_h o) = Some so -> h_delay (bo_h o) = Some sd -> h_initial (bo_h o) = Some s0 ->
  marked s v (EvEval t σ ms) -> ~ waits σ l -> last (steps v) = Some (tn, σn) ->
  incr (map fst (steps v)) /\
  exists y d, value σ so = Some y /\ value σ sd = Some (VS d) /\
    ((exists j tj σj, steps v !! j = Some (tj, σj) /\ (tn - L <=? tj) = true /\ (tj <? t - d) = true) -> recorded (steps v) si (t - d) y) /\
    ((forall j tj σj, steps v !! j = Some (tj, σj) -> (tn - L <=? tj) = true -> (tj <? t - d) = false) -> value σ s0 = Some y).
Proof.
  intros D ? ? w b g s l o T L si so sd s0 v t σ ms tn σn Hsim Hb Hc Hst HL Hi Ho Hd Hs0 Hm Hnw Hlast.
  destruct (simulation_life _ _ _ _ _ _ Hsim Hb) as (Ec & Eh & _). rewrite <- Ec in Hc. rewrite <- Eh in Hi, Ho, Hd, Hs0.
  destruct (marked_life _ _ _ _ _ _ _ _ Hsim Hb Hm) as (m1 & m2 & H1 & [H2 _] & _). rewrite Hst in H1.
  destruct (delay_life l T L si v m1 Hc Hi H1) as (k & xs & Hbuf).
  destruct H2 as [Ha|[[?|Hbl] _]]; [|done|by rewrite Hc in Hbl].
  pose proof (delay_output l T L si so sd s0 v m1 k xs t σ m2 Hc Ho Hd Hs0 Hbuf Ha) as Hout.
  destruct Hbuf as (_ & _ & Hin & _ & Hk & Hret). destruct (Hret HL) as [Hinc Hkeep]. split; [done|].
  assert (k < length (steps v)) as Hkl. { apply Hk. intros E. by rewrite E in Hlast. }
  assert (last (map fst (steps v)) = Some tn) as Hlt. { rewrite last_lookup. rewrite last_lookup in Hlast. rewrite map_length. change (map fst (steps v)) with (fst <$> steps v). by rewrite list_lookup_fmap, Hlast. }
  assert (forall j tj σj, steps v !! j = Some (tj, σj) -> map fst (steps v) !! j = Some tj) as Hfst.
  { intros j tj σj Hj. change (map fst (steps v)) with (fst <$> steps v). by rewrite list_lookup_fmap, Hj. }
  destruct (steps v !! k) as [[tk σk]|] eqn:Ek; [|apply lookup_ge_None_1 in Ek; lia].
  assert (drop k (map fst (steps v)) !! 0 = Some tk) as Hh. { rewrite lookup_drop, Nat.add_0_r. by eapply Hfst. }
  destruct (drop k (map fst (steps v))) as [|th ts'] eqn:Ets; [done|]. injection Hh as ->.
  destruct Hout as (y & d & Hy & Hdv & Hcase). exists y, d. split_and!; [done|done| |].
  - intros (j & tj & σj & Hj & Hlj & Htj). destruct Hcase as [[Hle _]|[_ ?]]; [|done]. exfalso.
    apply (Hkeep j tj tn (Hfst _ _ _ Hj) Hlt) in Hlj. assert ((tk <=? tj) = true) as Hx.
    { destruct (decide (j = k)) as [->|]; [rewrite Ek in Hj; injection Hj as -> _; apply leb_refl|]. apply ltb_le. apply (Hinc k j); [lia|by eapply Hfst|by eapply Hfst]. }
    assert ((tk <? t - d) = true) as Hy1 by (eapply ltb_trans_r; [exact Hx|exact Htj]). apply ltb_lt in Hy1. congruence.
  - intros Hnone. destruct Hcase as [[_ ?]|[Hlt2 _]]; [done|]. assert ((tn - L <=? tk) = true) as Hx by (apply (Hkeep k tk tn (Hfst _ _ _ Ek) Hlt); lia).
    rewrite (Hnone k tk σk Ek Hx) in Hlt2. done.
Qed.
(** Before the first accepted step it outputs its [initial] input. *)
Theorem C30_first : forall D `{NumOrd D} w b (g : cfg D) s l o T L si so sd s0 v t σ ms,
  simulation_of w b g s -> block_of w g l o -> bo_cls o = CDelay T L -> bo_st o = LDelay [] [] ->
  h_in (bo_h o) = Some si -> h_out (bo_h o) = Some so -> h_delay (bo_h o) = Some sd -> h_initial (bo_h o) = Some s0 ->
  marked s v (EvEval t σ ms) -> ~ waits σ l -> steps v = [] ->
  exists y, value σ so = Some y /\ value σ s0 = Some y.
Proof.
  intros D ? ? w b g s l o T L si so sd s0 v t σ ms Hsim Hb Hc Hst Hi Ho Hd Hs0 Hm Hnw Hn.
  destruct (simulation_life _ _ _ _ _ _ Hsim Hb) as (Ec & Eh & _). rewrite <- Ec in Hc. rewrite <- Eh in Hi, Ho, Hd, Hs0.
  destruct (marked_life _ _ _ _ _ _ _ _ Hsim Hb Hm) as (m1 & m2 & H1 & [H2 _] & _). rewrite Hst in H1.
  destruct (delay_life l T L si v m1 Hc Hi H1) as (k & xs & Hbuf).
  destruct H2 as [Ha|[[?|Hbl] _]]; [|done|by rewrite Hc in Hbl].
  pose proof (delay_output l T L si so sd s0 v m1 k xs t σ m2 Hc Ho Hd Hs0 Hbuf Ha) as Hout. rewrite Hn in Hout. cbn in Hout.
  rewrite drop_nil in Hout. exact Hout.
Qed.
(** So if the accepted steps are at most [h] apart and the lifespan is at least
    [delay + h], the delayed input is reproduced from right after the first step. *)
Theorem C30_lifespan : forall D `{NumOrd D} w b (g : cfg D) s l o T L h si so sd s0 v t σ ms t1 σ1 tn σn,
  simulation_of w b g s -> block_of w g l o -> bo_cls o = CDelay T L -> bo_st o = LDelay [] [] -> (n0 <=? L) = true ->
  h_in (bo_h o) = Some si -> h_out (bo_h o) = Some so -> h_delay (bo_h o) = Some sd -> h_initial (bo_h o) = Some s0 ->
  marked s v (EvEval t σ ms) -> ~ waits σ l -> steps v !! 0 = Some (t1, σ1) -> last (steps v) = Some (tn, σn) -> (tn <=? t) = true ->
  (forall i ta σa tb σb, steps v !! i = Some (ta, σa) -> steps v !! S i = Some (tb, σb) -> (tb - h <=? ta) = true) ->
  (forall d, value σ sd = Some (VS d) -> (d + h <=? L) = true /\ (t1 <? t - d) = true) ->
  exists y d, value σ so = Some y /\ value σ sd = Some (VS d) /\ recorded (steps v) si (t - d) y.
Proof.
  intros D ? ? w b g s l o T L h si so sd s0 v t σ ms t1 σ1 tn σn Hsim Hb Hc Hst HL Hi Ho Hd Hs0 Hm Hnw Hfirst Hlast Htn Hgap Hlife.
  destruct (C30_delayed D w b g s l o T L si so sd s0 v t σ ms tn σn Hsim Hb Hc Hst HL Hi Ho Hd Hs0 Hm Hnw Hlast) as (Hinc & y & d & Hy & Hdv & Hrec & _).
  exists y, d. split_and!; [done|done|]. apply Hrec. destruct (Hlife d Hdv) as [HdL Ht1].
  assert (forall n j tj σj, (n + j)%nat = pred (length (steps v)) -> steps v !! j = Some (tj, σj) -> (tj <? t - d) = true ->
    exists j tj σj, steps v !! j = Some (tj, σj) /\ (tn - L <=? tj) = true /\ (tj <? t - d) = true) as Hsearch.
  { clear Hfirst. induction n as [|n IH]; intros j tj σj Hn Hj Hlt.
    - exists j, tj, σj. split_and!; [done| |done]. rewrite last_lookup, <- Hn in Hlast. cbn in Hlast. rewrite Hj in Hlast. injection Hlast as -> ->. by apply sub_le.
    - destruct (steps v !! S j) as [[tb σb]|] eqn:Eb; [|apply lookup_ge_None_1 in Eb; lia].
      destruct (tb <? t - d) eqn:E; [by apply (IH (S j) tb σb); [lia| |]|]. apply ltb_ge in E.
      exists j, tj, σj. split_and!; [done| |done]. eapply ord_trans; [apply ord_sub_r, HdL|]. eapply ord_trans; [apply ord_sub_add|].
      eapply ord_trans; [apply ord_sub_l, ord_sub_l, Htn|]. eapply ord_trans; [apply ord_sub_l, E|]. by eapply Hgap. }
  apply (Hsearch (pred (length (steps v))) 0 t1 σ1); [lia|done|done].
Qed.

(** ** Concrete cases *)
(** Signals 0 u = t^2, 1 the delay, 2 the initial value -1, 3 u delayed; block 1 the
    Delay of the given lifespan. *)
Definition ex7_ops {D} `{NumOps D} (L d : D) : list (wop D) :=
  [ ONewSig KScalar "u"; ONewSig KScalar "d"; ONewSig KScalar "i"; ONewSig KScalar "z";
    ONewBusL [("in", 0); ("delay", 1); ("initial", 2)]%string ""; ONewBus [3] ""; ONewBus [] ""; ONewBus [0] ""; ONewBus [1] ""; ONewBus [2] "";
    ONewBlock CSubmodel LNone None "root" NoIOLimit NoIOLimit;
    ONewBlock (CDelay TyD L) (LDelay [] []) (Some 0) "delay" 3 1;
    ONewBlock (CSource TyD (fun t : D => PRet (VS (nmul t t)))) LNone (Some 0) "u" NoIOLimit 1;
    ONewBlock (CConst TyD (VS d)) LNone (Some 0) "d" 0 1;
    ONewBlock (CConst TyD (VS (nofZ (-1)))) LNone (Some 0) "i" 0 1;
    OConnect 1 4 5; OConnect 2 6 7; OConnect 3 6 8; OConnect 4 6 9 ].
Definition ex7_q : list (wop Q) := Eval unfold ex7_ops in (ex7_ops 1 1)%Q.
Definition ex7_world : world Q := world_of true ex7_q.
Definition ex7_tree : tree Q := tree_of ex7_world.
Definition ex7_g : cfg Q := Cfg true MDefault ex7_tree None (fun _ => PRet tt) (Some euler) (fun x => x) 0%Q.
Definition ex7_run : res (simst Q) unit :=
  runs ex7_g 20 (map (fun t => (t, (1#100)%Q, 10%Q)) [0; 10; 21#2]%Q) (new_sim (initial_dyn ex7_world)).
Definition ex7_s : simst Q := st_of (new_sim (initial_dyn ex7_world)) ex7_run.
Lemma ex7_sim : simulation_of ex7_world 0 ex7_g ex7_s.
Proof.
  split; [exists true; reach_ops ex7_world ex7_q|]. exists ex7_tree. split; [vm_compute; reflexivity|].
  assert (is_ok ex7_run = true) as Hok by (vm_compute; reflexivity).
  unfold ex7_s. unfold ex7_run in *. destruct (runs _ _ _ _) as [[] s'| | |] eqn:E; try discriminate Hok. cbn [st_of].
  eapply runs_simulated; [|exact E]. apply so_first; [done|done|]. intros x [= <-]. apply euler_rel.
Qed.

Definition ex7_leaf : leaf Q := default (Leaf 0 CSubmodel [] [] no_handles []) (leaves ex7_tree !! 0).
Definition ex7_blk : blkobj Q := default (BlkObj "" None [] 0 0 false [] [] [] CSubmodel no_handles LNone) (w_blks ex7_world !! 1).
Lemma ex7_block : block_of ex7_world ex7_g ex7_leaf ex7_blk.
Proof. split; [apply (elem_of_list_lookup_2 _ 0); vm_compute; reflexivity|vm_compute; reflexivity]. Qed.
(** ex6 has a Delay with lifespan 10 and delay 3/2. *)
Example C29_ex : simulation_of ex6_world 0 ex6_g ex6_s /\ block_of ex6_world ex6_g (ex6_leaf 4) (ex6_blk 5) /\
  bo_cls (ex6_blk 5) = CDelay TyD 10%Q /\ bo_st (ex6_blk 5) = LDelay [] [] /\ h_in (bo_h (ex6_blk 5)) = Some 0 /\ h_out (bo_h (ex6_blk 5)) = Some 8 /\
  h_delay (bo_h (ex6_blk 5)) = Some 6 /\ h_initial (bo_h (ex6_blk 5)) = Some 7 /\
  marked ex6_s (before ex6_s 11) (EvEval (mark_time (mark_at ex6_s 11)) (mark_store (mark_at ex6_s 11)) (mark_members (mark_at ex6_s 11))) /\
  ~ waits (mark_store (mark_at ex6_s 11)) (ex6_leaf 4) /\ map fst (steps (before ex6_s 11)) = [0; 1]%Q /\ mark_time (mark_at ex6_s 11) = 2%Q /\
  value (mark_store (mark_at ex6_s 11)) 6 = Some (VS (3#2)%Q) /\ value (mark_store (mark_at ex6_s 11)) 8 = Some (VS (1#2)%Q).
Proof.
  split; [exact ex6_s_sim|]. split; [apply ex6_block; lia|]. do 6 (split; [vm_compute; reflexivity|]).
  split; [apply (marked_at ex6_s 11 2); vm_compute; reflexivity|]. split; [apply not_waits; vm_compute; reflexivity|].
  do 3 (split; [vm_compute; reflexivity|]). vm_compute. reflexivity.
Qed.
Example C30_ex : last (steps (before ex6_s 11)) = Some (1%Q, step_at ex6_s 11 1) /\ steps (before ex6_s 11) !! 0 = Some (0%Q, step_at ex6_s 11 0) /\
  nleb n0 10%Q = true /\ nleb (1 - 10)%Q 0%Q = true /\ nltb 0%Q (2 - (3#2))%Q = true /\
  (* lifespan 10, delay 3/2, steps at most 1 apart *) nleb (1 - 1)%Q 0%Q = true /\ nleb ((3#2) + 1)%Q 10%Q = true.
Proof.
  assert (steps (before ex6_s 11) !! 1 = Some (1%Q, step_at ex6_s 11 1)) as E1 by (apply step_at_eq; vm_compute; reflexivity).
  assert (length (steps (before ex6_s 11)) = 2) as El by (vm_compute; reflexivity).
  split; [rewrite last_lookup, El; exact E1|]. split; [apply step_at_eq; vm_compute; reflexivity|]. repeat (split; [vm_compute; reflexivity|]). vm_compute. reflexivity.
Qed.
(** The natural claim "with a delay not larger than the lifespan the input is
    reproduced" is false: the block forgets a sample older than its lifespan although
    it needs it to interpolate.  Lifespan 1, delay 1, steps at 0 and 10: at 10.5 the
    output is the initial value -1 and not the 95 interpolated at 9.5. *)
Theorem C30_refuted : exists D (H : NumOps D) w b (g : cfg D) s l o T L si so sd s0 v t σ ms d t1 σ1 t2 σ2 x1 x2 y,
  simulation_of w b g s /\ block_of w g l o /\ bo_cls o = CDelay T L /\ bo_st o = LDelay [] [] /\
  h_in (bo_h o) = Some si /\ h_out (bo_h o) = Some so /\ h_delay (bo_h o) = Some sd /\ h_initial (bo_h o) = Some s0 /\
  marked s v (EvEval t σ ms) /\ ~ waits σ l /\ value σ sd = Some (VS d) /\ (d <=? L) = true /\
  length (steps v) = 2 /\ steps v !! 0 = Some (t1, σ1) /\ steps v !! 1 = Some (t2, σ2) /\ (t1 <? t - d) = true /\ (t - d <? t2) = true /\
  value σ1 si = Some x1 /\ value σ2 si = Some x2 /\ value σ so = Some y /\ ~ linear t1 t2 (t - d) x1 x2 y.
Proof.
  exists Q, num_Q, ex7_world, 0, ex7_g, ex7_s, ex7_leaf, ex7_blk, TyD, 1%Q, 0, 3, 1, 2, (before ex7_s 7).
  exists (mark_time (mark_at ex7_s 7)), (mark_store (mark_at ex7_s 7)), (mark_members (mark_at ex7_s 7)).
  exists 1%Q, 0%Q, (step_at ex7_s 7 0), 10%Q, (step_at ex7_s 7 1), (VS 0%Q), (VS 100%Q), (VS (-1)%Q).
  split; [exact ex7_sim|]. split; [exact ex7_block|]. do 6 (split; [vm_compute; reflexivity|]).
  split; [apply (marked_at ex7_s 7 2); vm_compute; reflexivity|]. split; [apply not_waits; vm_compute; reflexivity|].
  do 3 (split; [vm_compute; reflexivity|]). do 2 (split; [apply step_at_eq; vm_compute; reflexivity|]). do 5 (split; [vm_compute; reflexivity|]).
  assert (mark_time (mark_at ex7_s 7) = 21#2)%Q as -> by (vm_compute; reflexivity). intros E. clear -E. unfold linear in E.
  assert (lin 0%Q 10%Q (nsub (21#2) 1)%Q 0%Q 100%Q = 95%Q) as El by (vm_compute; reflexivity). rewrite El in E. discriminate E.
Qed.
(** The bounds of C29_safe need the order laws: with a NaN as delay, in binary64, the
    second evaluation reads outside the buffers. *)
Definition ex7_f : list (wop spec_float) := Eval unfold ex7_ops in ex7_ops (nofZ 1) S754_nan.
Definition ex7_fworld : world spec_float := world_of true ex7_f.
Definition ex7_fg : cfg spec_float := Cfg true MDefault (default (TSub 0 [] []) (compile_model ex7_fworld 0)) None (fun _ => PRet tt) (Some euler) (fun x => x) (nofZ 0).
Theorem C29_nan : wreach true ex7_fworld /\ compile_model ex7_fworld 0 = Some (g_tree ex7_fg) /\
  is_ok (runs ex7_fg 20 [(nofZ 0, nofZ 0, nofZ 1)] (new_sim (initial_dyn ex7_fworld))) = true /\
  runs ex7_fg 20 [(nofZ 0, nofZ 0, nofZ 1); (nofZ 1, nofZ 0, nofZ 1)] (new_sim (initial_dyn ex7_fworld)) = UB UIndex.
Proof.
  split; [reach_ops ex7_fworld ex7_f|]. do 2 (split; [vm_compute; reflexivity|]). vm_compute. reflexivity.
Qed.
Print Assumptions C29_safe.
Print Assumptions C29_output.
Print Assumptions C29_between.
Print Assumptions C29_nan.
Print Assumptions C30_delayed.
Print Assumptions C30_first.
Print Assumptions C30_lifespan.
Print Assumptions C30_refuted.
