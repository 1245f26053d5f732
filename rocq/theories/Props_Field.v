(** The model as a differential equation: C59, C60. *)
From stdpp Require Import prelude gmap strings.
From Coq Require Import ZArith QArith Reals.
From Verif Require Import Num NumQ NumR NumOrd NumAdd Res Name Store Leaf Sched Stepper Sim World Api SpecSched P_Store P_Prog P_Lib P_Compile P_Simulated P_Evolve P_Rel P_Rel2 SpecHist P_Trace Ex_Models SpecRun P_Run Props_Run
  P_Pack Props_Pack SpecBlock SpecAgain Props_Again SpecRK P_RK SpecField P_Field P_Posed P_Path.
Local Open Scope nat_scope.
Local Open Scope num_scope.

(** ** C59.  Every step run tries, accepted or not, is a step of the stepper along the
    differential equation that the blocks of the model define: the derivatives are the
    ones for which all block equations hold. *)
Theorem C59_steps : forall D `{NumOps D} w b (g : cfg D) s stp fuel t lo hi s',
  session_of w b g s -> g_dbg g = true -> (forall l, l ∈ leaves (g_tree g) -> steady_class l) -> derivs_fit (initial_store w) ->
  g_stepper g = Some stp -> run g fuel t lo hi s = Ok tt s' ->
  exists v, s_log s' = s_log s ++ v /\ Forall (along (initial_store w) g (layout s) stp) (moves v).
Proof.
  intros D ? w b g s stp fuel t lo hi s' Hs Hg Hst Hf Es Hr. destruct (run_moves w b g s stp fuel t lo hi s' Hs Hg Hst Hf Es Hr) as (v & Ev & Hv & _). by exists v.
Qed.
(** ... and there is only one such derivative if the model has no algebraic loop. *)
Theorem C59_unique : forall D `{NumOps D} w b (g : cfg D) s t m x dx dx', session_of w b g s ->
  (forall l, l ∈ leaves (g_tree g) -> user_reads (dom (initial_store w)) l) -> well_posed (initial_store w) g (layout s) t ->
  field (initial_store w) g (layout s) t m x dx -> field (initial_store w) g (layout s) t m x dx' -> dx = dx'.
Proof.
  intros D ? w b g s t m x dx dx' Hs Hu Hwp (σ & Hi) (σ' & Hi'). destruct (session_of_packed _ _ _ _ Hs) as [Hp _]. pose proof (session_shape _ _ _ _ Hs) as Hsh.
  eapply (posed_unique g (initial_store w) (layout s) t m x); [| exact Hi|exact Hi'| |exact Hwp].
  - intros l Hl. destruct Hs as ([dbg Hr] & Hc & _). apply (reach_local dbg w Hr b (g_tree g) Hc true (initial_dyn w) l); [reflexivity|done|by apply Hu].
  - intros z Hz. apply (pk_all _ _ Hp) in Hz as (_ & c & ds & Hc & Hk & _). destruct (shape_inv _ _ _ z c Hsh Hc) as (c0 & Hc0 & Ek & _). exists c0. by rewrite <- Ek.
Qed.

(** ** C60.  If all states are outputs of Integrators or kept by user classes, the steps form a path from the
    states before the run to the states after it. *)
Theorem C60_path : forall D `{NumAdd D} w b (g : cfg D) s stp fuel t lo hi s',
  session_of w b g s -> g_dbg g = true -> (forall l, l ∈ leaves (g_tree g) -> steady_class l) -> derivs_fit (initial_store w) ->
  g_stepper g = Some stp -> (forall z, z ∈ layout s -> integral g z) ->
  s_sv s ≠ [] -> (s_tprev s <? t) = true -> run g fuel t lo hi s = Ok tt s' ->
  exists v te, s_log s' = s_log s ++ v /\ Forall (along (initial_store w) g (layout s) stp) (moves v) /\ same_time te t /\
    chained (s_tprev s) (pack (s_store s) (layout s)) (moves v) te (pack (s_store s') (layout s)).
Proof.
  intros D ? ? ? w b g s stp fuel t lo hi s' Hs Hg Hst Hf Es Hint Hn Ht Hr.
  destruct (run_moves w b g s stp fuel t lo hi s' Hs Hg Hst Hf Es Hr) as (v & Ev & Hv & Hp).
  destruct (Hp Hn Ht) as (te & Hte & Hl & Hc); [|done|].
  { destruct (t =? s_tprev s) eqn:E; [|done]. apply eqb_ge in E. rewrite ltb_lt in Ht. congruence. }
  exists v, te. split; [done|]. split; [done|]. split; [|done].
  destruct (C33_ends D g s t lo hi s' v) as (_ & _ & (e & He & Hse) & _); [|by left|].
  { destruct (session_of_packed _ _ _ _ Hs) as [_ Hi]. destruct Hs as (_ & _ & _ & Hstp & _). split_and!; try done; [|by exists fuel]. intros stp' E'. by destruct (Hstp stp' E'). }
  rewrite Hl in He. by injection He as ->.
Qed.

(** With the steppers of the library these are steps of Euler's method, of the
    classical Runge-Kutta method and of Fehlberg's method. *)
Lemma stages_solution {S} (f : R -> list R -> M S (list R)) (F : R -> list R -> list R -> Prop) rows t0 v0 h ks s ks' s' :
  (forall t v p k q, length v = length v0 -> f t v p = Ok k q -> F t v k) ->
  rk_stages f rows t0 v0 h ks s = Ok ks' s' -> exists new, ks' = ks ++ new /\ length new = length rows /\
    forall i c a k, rows !! i = Some (c, a) -> new !! i = Some k -> F (t0 + Q2R c * h)%R (rk_add v0 h a (ks ++ take i new)) k.
Proof.
  intros Hf. revert ks s. induction rows as [|[c a] rows IH]; intros ks s; cbn [rk_stages].
  - intros [= <- <-]. exists []. split; [by rewrite app_nil_r|]. split; [done|]. intros i c a k E. by rewrite lookup_nil in E.
  - unfold bnd. destruct (f _ _ s) as [k s1| | |] eqn:Ef; try done. destruct (Nat.eqb _ _); [|done]. intros Hr.
    destruct (IH _ _ Hr) as (new & -> & Hl & Hn). exists (k :: new). split; [by rewrite <- app_assoc|]. split; [cbn; by rewrite Hl|].
    intros [|i] c' a' k' E E'; cbn in E, E'.
    + injection E as <- <-. injection E' as <-. cbn [take]. rewrite app_nil_r. eapply Hf; [|exact Ef]. apply rk_add_len.
    + cbn [take]. specialize (Hn i c' a' k' E E'). by rewrite <- app_assoc in Hn.
Qed.
Lemma obeys_rk meth F t0 x t1 y h : obeys (stp_of meth) F t0 x t1 y h -> rk_solution (tab_of meth) F t0 x t1 y.
Proof.
  intros (S & f & a & b & Hf & Hr). destruct (stp_stages _ _ _ _ _ _ _ _ _ _ Hr) as (ks & Hk & ->).
  destruct (stages_solution f F _ _ _ _ _ _ _ _ Hf Hk) as (new & -> & Hl & Hn). exists new. split; [done|]. split; [|done]. intros i c a' k E E'. exact (Hn i c a' k E E').
Qed.
Theorem C60_rk : forall w b (g : cfg R) s meth fuel t lo hi s',
  session_of w b g s -> g_dbg g = true -> (forall l, l ∈ leaves (g_tree g) -> steady_class l) -> derivs_fit (initial_store w) ->
  g_stepper g = Some (stp_of meth) -> (forall z, z ∈ layout s -> integral g z) ->
  s_sv s ≠ [] -> (s_tprev s < t)%R -> run g fuel t lo hi s = Ok tt s' ->
  exists v, s_log s' = s_log s ++ v /\
    chained (s_tprev s) (pack (s_store s) (layout s)) (moves v) t (pack (s_store s') (layout s)) /\
    Forall (fun a => exists σ m, mv_begin a = Some (mv_from a, σ, m) /\
      rk_solution (tab_of meth) (fun τ x dx => field (initial_store w) g (layout s) τ (member m) x dx) (mv_from a) (mv_state a) (mv_to a) (mv_result a)) (moves v).
Proof.
  intros w b g s meth fuel t lo hi s' Hs Hg Hst Hf Es Hint Hn Ht Hr.
  destruct (C60_path R w b g s (stp_of meth) fuel t lo hi s' Hs Hg Hst Hf Es Hint Hn) as (v & te & Ev & Hv & [T1 T2] & Hc); [cbn; by rewrite Rltb_true|done|].
  exists v. split; [done|]. cbn in T1, T2. rewrite Rleb_true in T1, T2. assert (te = t) as -> by (by apply Rle_antisym). split; [done|].
  eapply Forall_impl; [exact Hv|]. intros a (σ & m & Hb & _ & Ho). exists σ, m. split; [done|]. by eapply obeys_rk.
Qed.

(** ** Examples *)
Section checks.
  Context {D : Type} `{NumOps D}.
  Definition fitb (σ : store D) : bool :=
    forallb (fun e => match c_deriv (snd e) with Some d => bool_decide (sig_size σ d = sig_size σ (fst e)) | None => true end) (map_to_list σ).
  Lemma fitb_ok σ : fitb σ = true -> derivs_fit σ.
  Proof.
    intros Hf z c d Hc Hd. unfold fitb in Hf. rewrite forallb_forall in Hf. specialize (Hf (z, c)). cbn in Hf. rewrite Hd in Hf.
    apply bool_decide_eq_true in Hf; [done|]. apply elem_of_list_In. by apply elem_of_map_to_list.
  Qed.
  Definition pureb (l : leaf D) : bool := match l_cls l with CSource _ _ | CSISO _ _ | CSO _ _ => false | _ => true end.
  Definition givesb (l : leaf D) (s : nat) : bool := negb (is_builder (l_cls l)) && pureb l && match outs l with Some os => bool_decide (s ∈ os) | None => false end.
  Lemma givesb_ok l s : givesb l s = true -> is_builder (l_cls l) = false /\ gives l s.
  Proof.
    unfold givesb. intros [[Hb Hp]%andb_true_iff Ho]%andb_true_iff. destruct (outs l) as [os|] eqn:E; [|done]. apply bool_decide_eq_true in Ho.
    split; [by apply negb_true_iff|]. intros t m. destruct (paths_assigns (act l t m) [] os s) as [?%elem_of_nil|]; [|done..]. apply lib_paths; [|done]. unfold pureb in Hp. unfold user_pure. by destruct (l_cls l).
  Qed.
  Definition posedb (σ0 : store D) (ls : list (leaf D)) (zs : list nat) (rank : leaf D -> nat) : bool :=
    forallb (fun l => is_builder (l_cls l) || forallb (fun s => bool_decide (s ∈ zs) || existsb (fun l' => (Nat.ltb (rank l') (rank l)) && givesb l' s) ls) (required l)) ls &&
    forallb (fun z => match σ0 !! z with Some c => match c_deriv c with Some d => bool_decide (d ∈ zs) || existsb (fun l' => givesb l' d) ls | None => true end | None => true end) zs.
  Lemma posedb_ok σ0 (g : cfg D) ls zs rank t : leaves (g_tree g) = ls -> posedb σ0 ls zs rank = true -> well_posed σ0 g zs t.
  Proof.
    intros El [H1 H2]%andb_true_iff. exists rank. rewrite El. rewrite forallb_forall in H1, H2. split.
    - intros l s Hl Hb Hs. apply elem_of_list_In in Hl. specialize (H1 l Hl). rewrite Hb in H1. cbn in H1. rewrite forallb_forall in H1.
      apply elem_of_list_In in Hs. specialize (H1 s Hs). apply orb_true_iff in H1 as [H1|H1]; [left; left; by apply bool_decide_eq_true in H1|right].
      apply existsb_exists in H1 as (l' & Hl' & [Hr Hg]%andb_true_iff). apply givesb_ok in Hg as [Hb' Hg]. exists l'. split; [by apply elem_of_list_In|].
      split; [done|]. split; [by apply Nat.ltb_lt|done].
    - intros z c d Hz Hc Hd. apply elem_of_list_In in Hz. specialize (H2 z Hz). rewrite Hc, Hd in H2. apply orb_true_iff in H2 as [H2|H2]; [left; left; by apply bool_decide_eq_true in H2|right].
      apply existsb_exists in H2 as (l' & Hl' & Hg). apply givesb_ok in Hg as [Hb' Hg]. exists l'. split; [by apply elem_of_list_In|]. done.
  Qed.
  Definition integb (ls : list (leaf D)) (z : nat) : bool :=
    existsb (fun l => match l_cls l with CInteg _ => bool_decide (h_out (l_h l) = Some z) | _ => false end) ls.
  Lemma integb_ok (g : cfg D) ls zs : leaves (g_tree g) = ls -> forallb (integb ls) zs = true -> forall z, z ∈ zs -> integral g z.
  Proof.
    intros El Hf z Hz. rewrite forallb_forall in Hf. apply elem_of_list_In in Hz. specialize (Hf z Hz). apply existsb_exists in Hf as (l & Hl & Hb).
    destruct (l_cls l) as [| | | | | | | | | | | | | | |T| | | | |] eqn:Ec; try done. apply bool_decide_eq_true in Hb. left. exists l, T. split; [|done]. rewrite El. by apply elem_of_list_In.
  Qed.
  (** Blocks without user code. *)
  Definition closedb (l : leaf D) : bool := match l_cls l with CSource _ _ | CSources _ | CFunction _ | CSISO _ _ | CSO _ _ | CUser _ _ _ => false | _ => true end.
  Lemma closedb_ok X ls : forallb closedb ls = true -> forall l, l ∈ ls -> user_reads X l.
  Proof. rewrite forallb_forall. intros Hf l Hl. apply elem_of_list_In in Hl. specialize (Hf l Hl). unfold closedb in Hf. unfold user_reads. by destruct (l_cls l). Qed.
End checks.

(** The model of Props_Again.v: x' = -2 x, with a Memory, a Delay and a Derivative of
    x.  The stepper [wary] makes steps of Heun's method and rejects steps longer
    than 1/2. *)
Definition ex13_leaves : list (leaf Q) := leaves ex13_tree.
Lemma ex13_cfg_leaves m : leaves (g_tree (ex13_cfg m)) = ex13_leaves.
Proof. unfold ex13_cfg, ex13_leaves. cbn [g_tree]. reflexivity. Qed.
Definition ex13_zs : list nat := [0].
Lemma ex13_layout m : m = MDefault \/ m = MFast -> layout (ex13_0 m) = ex13_zs.
Proof. intros [-> | ->]; vm_compute; reflexivity. Qed.
Example C59_ex m : m = MDefault \/ m = MFast ->
  session_of ex13_world 0 (ex13_cfg m) (ex13_0 m) /\ g_dbg (ex13_cfg m) = true /\ (forall l, l ∈ leaves (g_tree (ex13_cfg m)) -> steady_class l) /\
  derivs_fit (initial_store ex13_world) /\ (forall l, l ∈ leaves (g_tree (ex13_cfg m)) -> user_reads (dom (initial_store ex13_world)) l) /\
  (forall t, well_posed (initial_store ex13_world) (ex13_cfg m) (layout (ex13_0 m)) t) /\
  (forall z, z ∈ layout (ex13_0 m) -> integral (ex13_cfg m) z) /\
  is_ok (run (ex13_cfg m) 20 2%Q (1#100)%Q 10%Q (ex13_0 m)) = true /\
  map (fun a => (mv_from a, mv_state a, mv_to a, mv_result a, mv_ok a)) (moves (new_log (ex13_0 m) (ex13_1 m))) =
    [(0, [5], 2, [25], false); (0, [5], 1, [5], false); (0, [5], 1#2, [5#2], true); (1#2, [5#2], 1, [5#4], true);
     (1, [5#4], 3#2, [5#8], true); (3#2, [5#8], 2, [5#16], true)]%Q.
Proof.
  intros Hm. split; [apply ex13_session; by destruct Hm as [-> | ->]; vm_compute|]. split; [reflexivity|]. rewrite ex13_cfg_leaves, (ex13_layout m Hm).
  split; [apply steadyb_ok; vm_compute; reflexivity|]. split; [apply fitb_ok; vm_compute; reflexivity|]. split; [apply closedb_ok; vm_compute; reflexivity|].
  split; [intros t; apply (posedb_ok _ _ ex13_leaves _ (fun l => if Nat.eqb (l_id l) 5 then 1 else 0)); [apply ex13_cfg_leaves|vm_compute; reflexivity]|].
  split; [apply (integb_ok _ ex13_leaves); [apply ex13_cfg_leaves|vm_compute; reflexivity]|].
  destruct Hm as [-> | ->]; vm_compute; split; reflexivity.
Qed.
(** The field of this model. *)
Lemma loop_field {D} `{NumOps D} (σ0 : store D) (g : cfg D) t M x dx l c0 k :
  field σ0 g [0] t M x dx -> l ∈ leaves (g_tree g) -> l_cls l = CGain TyD (VS k) -> required l = [0] ->
  h_in (l_h l) = Some 0 -> h_out (l_h l) = Some 1 -> σ0 !! 0 = Some c0 -> c_kind c0 = KScalar -> c_deriv c0 = Some 1 ->
  exists y, x = [y] /\ dx = [nmul k y].
Proof.
  intros (σ & Hi) Hl Hcl Hrq Hin Hout Hc0 Hk0 Hd0. destruct (in_known _ _ _ _ _ _ _ _ Hi 0) as (v & Ev); [apply elem_of_list_here|].
  destruct (in_typed _ _ _ _ _ _ _ _ Hi 0 v Ev) as (c & Hc & Hk & Hz).
  rewrite Hc0 in Hc. injection Hc as <-. rewrite Hk0 in Hk, Hz. destruct v as [y| | |]; try done.
  pose proof (in_state _ _ _ _ _ _ _ _ Hi) as Ex. rewrite pack_cons, Ev in Ex. cbn in Ex. exists y. split; [done|].
  destruct (in_laws _ _ _ _ _ _ _ _ Hi l Hl) as [(s & Hs & Ha)|[He _]].
  { by rewrite Hcl. }
  { rewrite Hrq in Hs. apply elem_of_list_singleton in Hs as ->. apply value_assigned in Ev. congruence. }
  unfold equation in He. rewrite Hcl in He. destruct He as (si & so & u & r & Hsi & Hso & Hu & Hr & Hsc). rewrite Hin in Hsi. injection Hsi as <-.
  rewrite Hout in Hso. injection Hso as <-. rewrite Ev in Hu. injection Hu as <-.
  assert (r = VS (nmul k y)) as -> by (inversion Hsc; by subst).
  destruct (in_deriv _ _ _ _ _ _ _ _ Hi) as (ds & Hds & ->). inversion Hds as [|z d zs' ds' (c1 & v1 & Hc1 & Hd1 & Hv1) Hn]; subst. inversion Hn; subst.
  rewrite Hc0 in Hc1. injection Hc1 as <-. rewrite Hd0 in Hd1. injection Hd1 as <-. rewrite pack_cons, Hr. cbn. done.
Qed.
Definition loop_gain (l : leaf Q) : bool :=
  match l_cls l, h_in (l_h l), h_out (l_h l) with
  | CGain TyD (VS k), Some 0, Some 1 => Z.eqb (Qnum k) (-2) && Pos.eqb (Qden k) 1 && bool_decide (required l = [0])
  | _, _, _ => false
  end.
Lemma loop_gain_ok ls : existsb loop_gain ls = true ->
  exists l, l ∈ ls /\ l_cls l = CGain TyD (VS (-2)%Q) /\ required l = [0] /\ h_in (l_h l) = Some 0 /\ h_out (l_h l) = Some 1.
Proof.
  intros E. apply existsb_exists in E as (l & Hl & E). exists l. split; [by apply elem_of_list_In|]. unfold loop_gain in E.
  destruct (l_cls l) as [|ty f|f|f|ty f|ty f|[] [k|k|k|k]|ty ini|ty ini| | |ty|ty|ty life| |ty|ty|inits ex|ex|ua up upo|]; try done.
  destruct (h_in (l_h l)) as [[|]|]; try done. destruct (h_out (l_h l)) as [[|[|]]|]; try done.
  apply andb_prop in E as [E E3]. apply andb_prop in E as [E1 E2]. apply Z.eqb_eq in E1. apply Pos.eqb_eq in E2. apply bool_decide_eq_true in E3.
  destruct k as [n d]. cbn in E1, E2. by subst.
Qed.
Example C59_field_ex m t M x dx : field (initial_store ex13_world) (ex13_cfg m) ex13_zs t M x dx -> exists y, x = [y] /\ dx = [nmul (-2)%Q y].
Proof.
  intros Hf. destruct (loop_gain_ok ex13_leaves) as (l & Hl & Hcl & Hrq & Hin & Hout); [vm_compute; reflexivity|].
  assert (exists c0, initial_store ex13_world !! 0 = Some c0 /\ c_kind c0 = KScalar /\ c_deriv c0 = Some 1) as (c0 & Hc0 & Hk0 & Hd0).
  { eexists. split; [vm_compute; reflexivity|]. split; reflexivity. }
  revert Hf Hl Hc0. rewrite <- (ex13_cfg_leaves m). unfold ex13_zs. generalize (initial_store ex13_world). generalize (ex13_cfg m). intros g σ0 Hf Hl Hc0.
  exact (loop_field σ0 g t M x dx l c0 (-2)%Q Hf Hl Hcl Hrq Hin Hout Hc0 Hk0 Hd0).
Qed.

Print Assumptions C59_steps.
Print Assumptions C59_unique.
Print Assumptions C60_path.
Print Assumptions C60_rk.
