(** A model whose states are kept by a block of a user class
    (samples/test09_mass_spring_damper.cpp): C59 and C60 cover it. *)
From stdpp Require Import prelude gmap strings.
From Coq Require Import ZArith QArith.
From Verif Require Import Num NumQ Res Name Store Leaf Sched Stepper Sim World Api SpecSched P_Store P_Prog P_Lib P_Compile P_Simulated P_Evolve P_Rel P_Rel2 SpecHist P_Trace P_Life Ex_Models SpecRun P_Run Props_Run
  P_Pack Props_Pack SpecBlock SpecAgain Props_Again SpecField P_Field P_Posed P_FieldRun P_Path Props_Field.
Local Open Scope nat_scope.

(** Signals 0 tau, 1 x, 2 xd, 3 xdd; members 0 _x, 1 _xd.  The parameters are m = 1,
    k = 1, c = 1/10. *)
Definition msd_act (_ : Q) (_ _ : list (string * nat)) (vs : list (val Q)) : prog Q (list (val Q)) :=
  PGet 0 (fun tau => PGet 2 (fun xd => PGet 1 (fun x =>
    match tau, xd, x with
    | VS tau, VS xd, VS x => PSet 3 (VS (nsub (nsub (ndiv tau 1%Q) (nmul (ndiv (1#10)%Q 1%Q) xd)) (nmul (ndiv 1%Q 1%Q) x))) (PRet vs)
    | _, _, _ => PUB UType
    end))).
Definition msd_pre (_ : Q) (_ _ : list (string * nat)) (vs : list (val Q)) : prog Q (list (val Q)) :=
  match vs with [x; xd] => PSet 1 x (PSet 2 xd (PRet vs)) | _ => PUB UType end.
Definition msd_post (_ : Q) (_ _ : list (string * nat)) (vs : list (val Q)) : prog Q (list (val Q)) :=
  PGet 1 (fun x => PGet 2 (fun xd => PRet [x; xd])).
Definition msd_cls : cls Q := CUser msd_act msd_pre msd_post.
Definition msd_ops : list (wop Q) :=
  [ ONewSig KScalar "tau"; ONewSig KScalar "x"; ONewSig KScalar "xd"; ONewSig KScalar "xdd"; ONewBus [0] ""; ONewBus [] "";
    ONewBlock msd_cls (LUser [VS (1#10)%Q; VS (-1#5)%Q]) None "" 1 0;
    OConnect 0 4 5; OSetDeriv TyD 1 2; OSetDeriv TyD 2 3; OLink 0 1 fRequired; OLink 0 2 fRequired; OLink 0 3 fInternal ].
Definition msd_world : world Q := world_of true msd_ops.
Definition msd_tree : tree Q := tree_of msd_world.
(** The user's inputs: tau = u(t). *)
Definition msd_cfg (u : Q -> Q) (m : mode) : cfg Q :=
  Cfg true m msd_tree (Some (fun t => PSet 0 (VS (u t)) (PRet tt))) (fun _ => PRet tt) (Some wary) (fun x => x) 0%Q.
Lemma msd_reach : wreach true msd_world.
Proof. reach_ops msd_world msd_ops. Qed.
Lemma msd_model : compile_model msd_world 0 = Some msd_tree.
Proof. vm_compute. reflexivity. Qed.
Definition msd_new : simst Q := new_sim (initial_dyn msd_world).
Definition msd_0 (u : Q -> Q) (m : mode) : simst Q := st_of msd_new (init (msd_cfg u m) 0%Q msd_new).
Definition msd_1 (u : Q -> Q) (m : mode) : simst Q := st_of (msd_0 u m) (run (msd_cfg u m) 20 (3#4)%Q (1#100)%Q 10%Q (msd_0 u m)).
Lemma msd_session u m : is_ok (init (msd_cfg u m) 0%Q msd_new) = true -> session_of msd_world 0 (msd_cfg u m) (msd_0 u m).
Proof.
  intros E. apply is_ok_init in E. eapply (session_init _ _ _ wary); [exact msd_reach|exact msd_model|intros l; reflexivity|reflexivity|exact wary_ok|exact wary_rel|].
  exact E.
Qed.
(** The only block. *)
Definition msd_leaf : leaf Q := match leaves msd_tree with l :: _ => l | [] => Leaf 0 CSubmodel [] [] no_handles [] end.
Lemma msd_leaves u m : leaves (g_tree (msd_cfg u m)) = [msd_leaf].
Proof. unfold msd_cfg. cbn [g_tree]. vm_compute. reflexivity. Qed.
Lemma msd_leaf_cls : l_cls msd_leaf = msd_cls.
Proof. vm_compute. reflexivity. Qed.
Lemma msd_required : required msd_leaf = [0; 1; 2].
Proof. vm_compute. reflexivity. Qed.
Lemma msd_keeps (l : leaf Q) : l_cls l = msd_cls -> keeps_in l 0 1 /\ keeps_in l 1 2.
Proof.
  intros E. unfold keeps_in. rewrite E. unfold msd_cls. split; intros t vs vs' σ; split.
  - intros Hs v Hv. destruct vs as [|x [|xd [|]]]; cbn in Hs; try (by apply shows_ub in Hs). apply shows_set in Hs as [Hx Hs]. cbn in Hv. by injection Hv as <-.
  - intros Hs. apply shows_get in Hs as (x & Hx & Hs). apply shows_get in Hs as (xd & Hxd & Hs). apply shows_ret in Hs as ->. by exists x.
  - intros Hs v Hv. destruct vs as [|x [|xd [|]]]; cbn in Hs; try (by apply shows_ub in Hs). apply shows_set in Hs as [Hx Hs]. apply shows_set in Hs as [Hxd Hs]. cbn in Hv. by injection Hv as <-.
  - intros Hs. apply shows_get in Hs as (x & Hx & Hs). apply shows_get in Hs as (xd & Hxd & Hs). apply shows_ret in Hs as ->. by exists xd.
Qed.
Lemma msd_steady (l : leaf Q) : l_cls l = msd_cls -> steady_class l.
Proof.
  intros E. unfold steady_class. rewrite E. unfold msd_cls. intros t vs. split.
  - intros [?|?|?|?] [?|?|?|?] [?|?|?|?]; cbn; try exact I. reflexivity.
  - destruct vs as [|x [|xd [|]]]; cbn; try exact I. reflexivity.
Qed.
Lemma msd_reads (l : leaf Q) X : l_cls l = msd_cls -> required l = [0; 1; 2] -> user_reads X l.
Proof.
  intros E Er. unfold user_reads. rewrite E, Er. unfold msd_cls. cbv zeta. intros t vs. unfold msd_act. cbn.
  split; [intros _; set_solver|]. intros tau. split; [intros _; set_solver|]. intros xd. split; [intros _; set_solver|]. intros x. destruct tau, xd, x; cbn; exact I.
Qed.
Lemma msd_gives (l : leaf Q) : l_cls l = msd_cls -> gives l 3.
Proof.
  intros E t m. unfold act. rewrite E. unfold msd_cls. destruct m; try exact I. cbn. intros tau xd x. destruct tau, xd, x; cbn; try exact I. by left.
Qed.
Lemma msd_posed u (l : leaf Q) (g : cfg Q) σ0 t : leaves (g_tree g) = [l] -> l_cls l = msd_cls -> required l = [0; 1; 2] ->
  g_inputs g = Some (fun t => PSet 0 (VS (u t)) (PRet tt)) -> (exists c, σ0 !! 1 = Some c /\ c_deriv c = Some 2) -> (exists c, σ0 !! 2 = Some c /\ c_deriv c = Some 3) ->
  well_posed σ0 g [1; 2] t.
Proof.
  intros El Ec Er Ei (c1 & H1 & D1) (c2 & H2 & D2). exists (fun _ => 0). split.
  - intros l' s Hl _ Hs. rewrite El in Hl. apply elem_of_list_singleton in Hl as ->. rewrite Er in Hs. left. unfold given.
    apply elem_of_cons in Hs as [-> |Hs]; [right|left; exact Hs]. exists (fun t => PSet 0 (VS (u t)) (PRet tt)), [(0, VS (u t))].
    split; [by left|]. split; [reflexivity|]. apply elem_of_list_here.
  - intros z c d Hz Hc Hd. apply elem_of_cons in Hz as [-> |Hz].
    + left. left. rewrite H1 in Hc. injection Hc as <-. rewrite D1 in Hd. injection Hd as <-. apply elem_of_list_further, elem_of_list_here.
    + apply elem_of_list_singleton in Hz as ->. rewrite H2 in Hc. injection Hc as <-. rewrite D2 in Hd. injection Hd as <-.
      right. exists l. rewrite El. split; [apply elem_of_list_here|]. split; [by rewrite Ec|by apply msd_gives].
Qed.
(** The differential equation: x' = xd, xd' = tau / m - (c / m) xd - (k / m) x. *)
Lemma msd_equation u (l : leaf Q) (g : cfg Q) (σ0 : store Q) t M y dy : leaves (g_tree g) = [l] -> l_cls l = msd_cls -> required l = [0; 1; 2] ->
  g_inputs g = Some (fun t => PSet 0 (VS (u t)) (PRet tt)) -> 
  (exists c, σ0 !! 1 = Some c /\ c_kind c = KScalar /\ c_deriv c = Some 2) -> (exists c, σ0 !! 2 = Some c /\ c_kind c = KScalar /\ c_deriv c = Some 3) ->
  field σ0 g [1; 2] t M y dy ->
  exists x xd, y = [x; xd] /\ dy = [xd; nsub (nsub (ndiv (u t) 1%Q) (nmul (ndiv (1#10)%Q 1%Q) xd)) (nmul (ndiv 1%Q 1%Q) x)].
Proof.
  intros El Ec Er Ei (c1 & H1 & K1 & D1) (c2 & H2 & K2 & D2) (σ & Hi).
  destruct (in_known _ _ _ _ _ _ _ _ Hi 1) as (v1 & E1); [apply elem_of_list_here|].
  destruct (in_known _ _ _ _ _ _ _ _ Hi 2) as (v2 & E2); [apply elem_of_list_further, elem_of_list_here|].
  destruct (in_typed _ _ _ _ _ _ _ _ Hi 1 v1 E1) as (c & Hc & Hk & _). rewrite H1 in Hc. injection Hc as <-. rewrite K1 in Hk. destruct v1 as [x| | |]; try done.
  destruct (in_typed _ _ _ _ _ _ _ _ Hi 2 v2 E2) as (c & Hc & Hk' & _). rewrite H2 in Hc. injection Hc as <-. rewrite K2 in Hk'. destruct v2 as [xd| | |]; try done.
  pose proof (in_inputs _ _ _ _ _ _ _ _ Hi _ Ei) as Hu. cbn in Hu. apply shows_set in Hu as [E0 _].
  pose proof (in_state _ _ _ _ _ _ _ _ Hi) as Ey. rewrite !pack_cons, E1, E2 in Ey. cbn in Ey. exists x, xd. split; [done|].
  destruct (in_laws _ _ _ _ _ _ _ _ Hi l) as [(s & Hs & Ha)|[_ (m' & Hm)]].
  { rewrite El. apply elem_of_list_here. }
  { by rewrite Ec. }
  { rewrite Er in Hs. exfalso. assert (assigned σ s = true); [|congruence].
    apply elem_of_cons in Hs as [-> |Hs]; [by eapply value_assigned|]. apply elem_of_cons in Hs as [-> |Hs]; [by eapply value_assigned|].
    apply elem_of_list_singleton in Hs as ->. by eapply value_assigned. }
  unfold act in Hm. rewrite Ec in Hm. unfold msd_cls in Hm. destruct (M (l_id l)) as [|?|? ?|? ? ? ?|? ?|vs]; try (by apply shows_ub in Hm).
  apply shows_pbind in Hm as (vs' & Hm & _). unfold msd_act in Hm.
  apply shows_get in Hm as (v0 & F0 & Hm). rewrite E0 in F0. injection F0 as <-. apply shows_get in Hm as (v2 & F2 & Hm). rewrite E2 in F2. injection F2 as <-.
  apply shows_get in Hm as (v1 & F1 & Hm). rewrite E1 in F1. injection F1 as <-. apply shows_set in Hm as [E3 _].
  destruct (in_deriv _ _ _ _ _ _ _ _ Hi) as (ds & Hds & ->). inversion Hds as [|z d zs' ds' (c & v & Hc & Hd & Hv) Hn]; subst. inversion Hn as [|z d' zs' ds2 (c' & v' & Hc' & Hd' & Hv') Hn2]; subst.
  inversion Hn2; subst. rewrite H1 in Hc. injection Hc as <-. rewrite D1 in Hd. injection Hd as <-. rewrite H2 in Hc'. injection Hc' as <-. rewrite D2 in Hd'. injection Hd' as <-.
  rewrite !pack_cons, E2, E3. cbn. done.
Qed.
Lemma msd_sig1 : exists c, initial_store msd_world !! 1 = Some c /\ c_kind c = KScalar /\ c_deriv c = Some 2.
Proof. eexists. split; [vm_compute; reflexivity|]. split; reflexivity. Qed.
Lemma msd_sig2 : exists c, initial_store msd_world !! 2 = Some c /\ c_kind c = KScalar /\ c_deriv c = Some 3.
Proof. eexists. split; [vm_compute; reflexivity|]. split; reflexivity. Qed.
Lemma msd_integral u m z : z ∈ [1; 2] -> integral (msd_cfg u m) z.
Proof.
  intros Hz. right. exists msd_leaf. rewrite msd_leaves. destruct (msd_keeps _ msd_leaf_cls) as [H1 H2].
  apply elem_of_cons in Hz as [-> |Hz]; [exists 0|exists 1; apply elem_of_list_singleton in Hz as ->]; (split; [apply elem_of_list_here|done]).
Qed.
Definition msd_u (t : Q) : Q := (t / 100)%Q.
Example C60_user_ex m : m = MDefault \/ m = MFast ->
  session_of msd_world 0 (msd_cfg msd_u m) (msd_0 msd_u m) /\ g_dbg (msd_cfg msd_u m) = true /\ (forall l, l ∈ leaves (g_tree (msd_cfg msd_u m)) -> steady_class l) /\
  derivs_fit (initial_store msd_world) /\ (forall l, l ∈ leaves (g_tree (msd_cfg msd_u m)) -> user_reads (dom (initial_store msd_world)) l) /\
  layout (msd_0 msd_u m) = [1; 2] /\
  (forall t, well_posed (initial_store msd_world) (msd_cfg msd_u m) [1; 2] t) /\
  (forall z, z ∈ [1; 2] -> integral (msd_cfg msd_u m) z) /\
  (forall t M y dy, field (initial_store msd_world) (msd_cfg msd_u m) [1; 2] t M y dy ->
     exists x xd, y = [x; xd] /\ dy = [xd; nsub (nsub (ndiv (msd_u t) 1%Q) (nmul (ndiv (1#10)%Q 1%Q) xd)) (nmul (ndiv 1%Q 1%Q) x)]) /\
  is_ok (run (msd_cfg msd_u m) 20 (3#4)%Q (1#100)%Q 10%Q (msd_0 msd_u m)) = true /\
  map (fun a => (mv_from a, mv_to a, mv_ok a)) (moves (new_log (msd_0 msd_u m) (msd_1 msd_u m))) =
    [(0, 3#4, false); (0, 3#8, true); (3#8, 3#4, true)]%Q.
Proof.
  intros Hm. split; [apply msd_session; by destruct Hm as [-> | ->]; vm_compute|]. split; [reflexivity|]. rewrite msd_leaves.
  split; [intros l ->%elem_of_list_singleton; apply msd_steady, msd_leaf_cls|]. split; [apply fitb_ok; vm_compute; reflexivity|].
  split; [intros l ->%elem_of_list_singleton; apply msd_reads; [apply msd_leaf_cls|apply msd_required]|].
  split; [destruct Hm as [-> | ->]; vm_compute; reflexivity|].
  destruct msd_sig1 as (c1 & H1 & K1 & D1). destruct msd_sig2 as (c2 & H2 & K2 & D2).
  split. { intros t. apply (msd_posed msd_u msd_leaf); [apply msd_leaves|apply msd_leaf_cls|apply msd_required|reflexivity|by exists c1|by exists c2]. }
  split; [intros z; apply msd_integral|].
  split. { intros t M y dy. apply (msd_equation msd_u msd_leaf); [apply msd_leaves|apply msd_leaf_cls|apply msd_required|reflexivity|by exists c1|by exists c2]. }
  destruct Hm as [-> | ->]; vm_compute; split; reflexivity.
Qed.
