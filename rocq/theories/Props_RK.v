(** The steppers: C44, C45, C46, C47. *)
From stdpp Require Import prelude.
From Coq Require Import Reals Lra QArith Qreals.
From Verif Require Import Num NumR NumQ Res Stepper SpecRK P_RK P_Rel P_Perm.
Local Open Scope R_scope.

(** ** C44.  Euler and RK4 are the methods of these names, for every callback
    whatever it does to the state it works on: the same calls in the same order, and
    the same result. *)
Theorem C44_euler : forall S (f : R -> list R -> M S (list R)) t0 v0 t1 s,
  euler S f t0 v0 t1 s = bnd (rk_step tab_euler f t0 v0 t1) (fun v1 => ret (v1, t1 - t0)) s.
Proof. exact euler_rk. Qed.
Theorem C44_rk4 : forall S (f : R -> list R -> M S (list R)) t0 v0 t1 s,
  rk4 S f t0 v0 t1 s = bnd (rk_step tab_rk4 f t0 v0 t1) (fun v1 => ret (v1, t1 - t0)) s.
Proof. exact rk4_rk. Qed.
(** RKF45 returns the result of Fehlberg's method of order 4. *)
Theorem C44_rkf45 : forall S (f : R -> list R -> M S (list R)) t0 v0 t1 s, v0 ≠ [] ->
  bnd (rkf45 S f t0 v0 t1) (fun r => ret (fst r)) s = rk_step tab_fehlberg4 f t0 v0 t1 s.
Proof.
  intros S f t0 v0 t1 s Hn. unfold bnd at 1. rewrite rkf45_rk by done. unfold rk_step. change (tb_rows tab_fehlberg4) with rows_fehlberg. unfold bnd. by destruct (rk_stages _ _ _ _ _ _ _).
Qed.

(** The order conditions. *)
Fixpoint forests (fuel n : nat) : list (list rtree) :=
  match n with
  | O => [[]]
  | S m => match fuel with
    | O => []
    | S f => concat (map (fun k => concat (map (fun ch => map (cons (RNode ch)) (forests f (m - k)%nat)) (forests f k))) (seq 0 (S m)))
    end
  end.
Lemma order_pos t : (1 <= order t)%nat.
Proof. destruct t. cbn. lia. Qed.
Lemma forests_all fuel n fs : (n <= fuel)%nat -> list_sum (map order fs) = n -> fs ∈ forests fuel n.
Proof.
  revert n fs. induction fuel as [|fuel IH]; intros n fs Hn Hs.
  - assert (n = 0%nat) as -> by lia. destruct fs as [|t fs]; [by apply elem_of_list_here|]. cbn in Hs. pose proof (order_pos t). lia.
  - destruct fs as [|[ch] fs]; [cbn in Hs; subst n; by apply elem_of_list_here|].
    change (S (list_sum (map order ch)) + list_sum (map order fs) = n)%nat in Hs. destruct n as [|m]; [lia|]. cbn [forests].
    apply elem_of_list_In, in_concat. exists (concat (map (fun c => map (cons (RNode c)) (forests fuel (m - list_sum (map order ch))%nat)) (forests fuel (list_sum (map order ch))))).
    split; [apply in_map_iff; exists (list_sum (map order ch)); split; [done|]; apply in_seq; lia|].
    apply in_concat. exists (map (cons (RNode ch)) (forests fuel (m - list_sum (map order ch))%nat)). split.
    + apply in_map_iff. exists ch. split; [done|]. apply elem_of_list_In, IH; [lia|done].
    + apply in_map. apply elem_of_list_In, IH; lia.
Qed.
Definition order_check (tb : tableau) (p : nat) : bool :=
  forallb (fun n => forallb (fun ch => Qeq_bool (tree_weight tb (RNode ch)) (1 / inject_Z (density (RNode ch)))) (forests n n)) (seq 0 p).
Lemma order_checked tb p : order_check tb p = true -> has_order tb p.
Proof.
  intros Hc [ch] Ho. cbn [order] in Ho. unfold order_check in Hc. rewrite forallb_forall in Hc. specialize (Hc (list_sum (map order ch))).
  rewrite forallb_forall in Hc. apply Qeq_bool_eq, Hc; [apply in_seq; lia|]. apply elem_of_list_In, forests_all; done.
Qed.
Theorem C44_order : has_order tab_euler 1 /\ has_order tab_rk4 4 /\ has_order tab_fehlberg4 4 /\ has_order tab_fehlberg5 5.
Proof. split_and!; apply order_checked; vm_compute; reflexivity. Qed.
(** There are such trees, and the methods have no higher order. *)
Example C44_order_ex : map (fun n => length (forests n n)) [0; 1; 2; 3; 4]%nat = [1; 1; 2; 5; 14]%nat /\
  ~ has_order tab_euler 2 /\ ~ has_order tab_rk4 5 /\ ~ has_order tab_fehlberg4 5 /\ ~ has_order tab_fehlberg5 6.
Proof.
  split; [vm_compute; reflexivity|]. split_and!; intros E.
  - specialize (E (RNode [RNode []]) ltac:(cbn; lia)). revert E. vm_compute. discriminate.
  - specialize (E (RNode [RNode []; RNode []; RNode []; RNode []]) ltac:(cbn; lia)). revert E. vm_compute. discriminate.
  - specialize (E (RNode [RNode []; RNode []; RNode []; RNode []]) ltac:(cbn; lia)). revert E. vm_compute. discriminate.
  - specialize (E (RNode [RNode []; RNode []; RNode []; RNode []; RNode []]) ltac:(cbn; lia)). revert E. vm_compute. discriminate.
Qed.

(** If the derivatives are those of polynomials in t of degree at most 1 for Euler
    and 4 for RK4 and RKF45, a step is exact. *)
Definition exact_degree (m : solver) : nat := match m with SEuler => 1 | _ => 4 end.
Lemma quad_exact m P t0 h : (length P <= S (exact_degree m))%nat ->
  h * quad (tb_weights (tab_of m)) (tb_rows (tab_of m)) (fun c => pderiv P (t0 + c * h)) = peval P (t0 + h) - peval P t0.
Proof.
  intros Hl. destruct m; cbn [exact_degree] in Hl; cbn [tab_of tab_euler tab_rk4 tab_fehlberg4 tb_weights tb_rows rows_fehlberg quad]; unfold Q2R; cbn [Qnum Qden];
    repeat (destruct P as [|?a P]; [cbn; field|]); cbn in Hl; lia.
Qed.
Theorem C44_polynomial : forall m S (s : S) (Ps : list (list R)) t0 v0 t1, length Ps = length v0 -> v0 ≠ [] -> Forall (fun P => (length P <= exact_degree m + 1)%nat) Ps ->
  exists h', stp_of m S (fun t _ => ret (map (fun P => pderiv P t) Ps)) t0 v0 t1 s =
    Ok (zip_with (fun x P => x + (peval P t1 - peval P t0)) v0 Ps, h') s.
Proof.
  intros m S s Ps t0 v0 t1 Hl Hn HP.
  assert (forall t, length (map (fun P => pderiv P t) Ps) = length v0) as Hlen by (intros t; by rewrite map_length).
  pose proof (stages_pure (fun t => map (fun P => pderiv P t) Ps) S (tb_rows (tab_of m)) t0 v0 (t1 - t0) [] s Hlen) as Hst. cbn [app] in Hst.
  assert (rk_add v0 (t1 - t0) (tb_weights (tab_of m)) (map (fun r => map (fun P => pderiv P (t0 + Q2R (fst r) * (t1 - t0))) Ps) (tb_rows (tab_of m))) =
    zip_with (fun x P => x + (peval P t1 - peval P t0)) v0 Ps) as E.
  { symmetry. apply rk_add_eq; [rewrite zip_with_length; lia|]. intros i Hi.
    rewrite (quad_sum _ _ (fun t => map (fun P => pderiv P t) Ps)).
    rewrite (quad_ext _ _ _ (fun c => pderiv (nth i Ps []) (t0 + c * (t1 - t0)))).
    2:{ intros c. rewrite (nth_indep _ 0 (pderiv [] (t0 + c * (t1 - t0)))) by (rewrite map_length; lia). by rewrite (map_nth (fun P => pderiv P (t0 + c * (t1 - t0)))). }
    rewrite quad_exact.
    - replace (t0 + (t1 - t0)) with t1 by lra. clear -Hi Hl. revert Ps i Hl Hi. induction v0 as [|x v0 IH]; intros [|P Ps] i Hl Hi; cbn in *; try lia.
      destruct i; [done|]. apply IH; lia.
    - rewrite Nat.add_1_r in HP. rewrite Forall_forall in HP. apply HP. apply elem_of_list_In, nth_In. lia. }
  destruct m; cbn [stp_of tab_of] in *.
  - exists (t1 - t0). rewrite euler_rk. unfold rk_step, bnd. by rewrite Hst, E.
  - exists (t1 - t0). rewrite rk4_rk. unfold rk_step, bnd. by rewrite Hst, E.
  - eexists. rewrite rkf45_rk by done. unfold bnd. change rows_fehlberg with (tb_rows tab_fehlberg4). rewrite Hst. cbv zeta. rewrite E. done.
Qed.
(** Not so for degree 5: t^5 over [0, 1]. *)
Example C44_degree_ex : quad (tb_weights tab_fehlberg4) rows_fehlberg (fun c => pderiv [0; 0; 0; 0; 0; 1] (0 + c * 1)) <> 1.
Proof. cbn -[Rmult Rplus]. unfold Q2R. cbn [Qnum Qden]. lra. Qed.

(** The linear equation y' = a y. *)
Theorem C44_linear : forall S (s : S) a t0 y t1, let z := a * (t1 - t0) in
  fst <$> (match rk4 S (fun _ v => ret (map (Rmult a) v)) t0 [y] t1 s with Ok r _ => Some r | _ => None end) = Some [y * (1 + z + z ^ 2 / 2 + z ^ 3 / 6 + z ^ 4 / 24)].
Proof.
  intros S s a t0 y t1 z. unfold rk4. cbv zeta. unfold bnd, call, ret, bnd. cbn [length map va vk zip_with Nat.eqb]. cbn. do 2 f_equal. unfold z, q. cbn. field.
Qed.

(** ** C45 *)
Theorem C45_rkf45 : forall S (f : R -> list R -> M S (list R)) t0 v0 t1 s v1 h' s', t0 < t1 -> rkf45 S f t0 v0 t1 s = Ok (v1, h') s' ->
  let h := t1 - t0 in exists ks, rk_stages f rows_fehlberg t0 v0 h [] s = Ok ks s' /\
    let err := dist_max v1 (rk_add v0 h (tb_weights tab_fehlberg5) ks) in
    (h' = h / 2 /\ h / 1000 / (2 * (3/4)^4) < err) \/
    (h' = 2 * h /\ 0 < err < h / 1000 / (2 * (3/2)^4)) \/
    (h' = h /\ (err = 0 \/ h / 1000 / (2 * (3/2)^4) <= err <= h / 1000 / (2 * (3/4)^4))).
Proof.
  intros S f t0 v0 t1 s v1 h' s' Ht Hr h.
  assert (v0 ≠ []) as Hn by (intros ->; by apply rkf45_nil in Hr).
  rewrite rkf45_rk in Hr by done. unfold bnd in Hr. fold h in Hr. destruct (rk_stages f rows_fehlberg t0 v0 h [] s) as [ks x| | |]; try done.
  injection Hr as <- <- <-. exists ks. split; [done|]. set (v1 := rk_add _ _ _ _). cbv zeta. set (err := dist_max _ _).
  assert (0 <= err) as He.
  { unfold err, dist_max. induction (map Rabs _) as [|y l IH]; cbn; [lra|]. eapply Rle_trans; [exact IH|apply Rmax_r]. }
  assert (0 < h) as Hh by (unfold h; lra). clearbody err h. clear -He Hh.
  unfold rkf45_new_h, eps_abs, q, n0, n1. cbn [nltb nofZ nmul ndiv num_R]. destruct (Rltb 0 err) eqn:E0.
  - apply Rltb_true in E0. set (s4 := 1 / 1000 * h / (2 * err)).
    assert (s4 * err = h / 2000) as E4 by (unfold s4; field; lra).
    destruct (Rltb s4 (81 / 256)) eqn:E1.
    + left. apply Rltb_true in E1. split; [done|]. apply Rmult_lt_compat_r with (r := err) in E1; [|done]. lra.
    + apply Rltb_false in E1. apply Rmult_le_compat_r with (r := err) in E1; [|done]. right. destruct (Rltb (81 / 16) s4) eqn:E2.
      * left. apply Rltb_true in E2. apply Rmult_lt_compat_r with (r := err) in E2; [|done]. split; [done|]. lra.
      * right. apply Rltb_false in E2. apply Rmult_le_compat_r with (r := err) in E2; [|done]. split; [done|]. right. lra.
  - apply Rltb_false in E0. assert (Rltb 1 (81 / 256) = false) as -> by (apply Rltb_false; lra). assert (Rltb (81 / 16) 1 = false) as -> by (apply Rltb_false; lra).
    right. right. split; [done|]. left. lra.
Qed.
Theorem C45_fixed : forall D `{NumOps D} S (f : D -> list D -> M S (list D)) t0 v0 t1 s v1 h' s',
  euler S f t0 v0 t1 s = Ok (v1, h') s' \/ rk4 S f t0 v0 t1 s = Ok (v1, h') s' -> h' = nsub t1 t0.
Proof.
  intros D ? S f t0 v0 t1 s v1 h' s' [Hr|Hr]; revert Hr; unfold euler, rk4, bnd; cbv zeta; repeat (destruct (call _ _ _ _ _); try done); by intros [= _ -> _].
Qed.

(** ** C46.  The steppers do not care about the order of the state variables
    (Props_Order.v: neither do whole simulations). *)
Theorem C46_steppers : stepper_perm (D:=R) euler /\ stepper_perm (D:=R) rk4 /\ stepper_perm (D:=R) rkf45.
Proof. split_and!; [apply euler_perm|apply rk4_perm|apply rkf45_perm, max_coeff_perm]. Qed.
(** Without a state: two variables exchanged. *)
Example C46_ex : forall t0 t1 x y, let f := fun (_ : R) v => ret (S:=unit) [nth 1 v 0; - nth 0 v 0] in let f' := fun (_ : R) v => ret (S:=unit) [- nth 1 v 0; nth 0 v 0] in
  exists a b h, rkf45 unit f t0 [x; y] t1 tt = Ok ([a; b], h) tt /\ rkf45 unit f' t0 [y; x] t1 tt = Ok ([b; a], h) tt.
Proof.
  intros t0 t1 x y f f'.
  assert (exists a b h, rkf45 unit f t0 [x; y] t1 tt = Ok ([a; b], h) tt) as (a & b & h & E).
  { rewrite rkf45_rk by done. unfold bnd. cbn [rk_stages rows_fehlberg]. unfold bnd, ret, f. cbn. by eexists _, _, _. }
  exists a, b, h. split; [done|].
  destruct (proj2 (proj2 C46_steppers) unit unit (fun _ _ => True) 2%nat [1; 0]%nat f f') with (t0 := t0) (v0 := [x; y]) (t1 := t1) (x1 := tt) (x2 := tt) (v1 := [a; b]) (h := h) (y1 := tt)
    as (_ & [] & E2 & _); try done.
  - apply perm_swap.
  - intros t v [] [] k [] Hv _ [= <-] Hk. exists tt. split; [|done]. destruct v as [|v0 [|v1 [|]]]; try done.
Qed.

(** ** C47.  If a linear combination of what the callback returns is always zero, a
    step does not change that combination of the state variables. *)
Theorem C47_invariant : forall m S (f : R -> list R -> M S (list R)) w t0 v0 t1 s v1 h' s',
  (forall t v x k x', f t v x = Ok k x' -> dot w k = 0) -> stp_of m S f t0 v0 t1 s = Ok (v1, h') s' -> dot w v1 = dot w v0.
Proof.
  intros m S f w t0 v0 t1 s v1 h' s' Hf Hr. apply stp_stages in Hr as (ks & Hk & ->). apply dot_add.
  by apply (rk_stages_inv (fun k => dot w k = 0)) in Hk as [Hk _].
Qed.
(** The exchange between two tanks keeps the sum. *)
Example C47_ex : forall t v x k x', (fun (_ : R) (v : list R) => ret [nth 1 v 0 - nth 0 v 0; nth 0 v 0 - nth 1 v 0]) t v x = Ok (S:=unit) k x' -> dot [1; 1] k = 0.
Proof. intros t v x k x' [= <- _]. unfold dot. cbn. lra. Qed.
Print Assumptions C44_euler. Print Assumptions C44_rk4. Print Assumptions C44_rkf45. Print Assumptions C44_order. Print Assumptions C44_polynomial. Print Assumptions C44_linear.
Print Assumptions C45_rkf45. Print Assumptions C45_fixed. Print Assumptions C46_steppers. Print Assumptions C47_invariant.
