(** The steppers are the Runge-Kutta methods they are named after. *)
From stdpp Require Import prelude.
From Coq Require Import Reals Lra QArith Qreals.
From Verif Require Import Num NumR Res Stepper SpecRK P_Evolve.
Local Open Scope R_scope.

Section vectors.
  Lemma nth_va (x y : list R) i : length y = length x -> nth i (va x y) 0 = nth i x 0 + nth i y 0.
  Proof.
    revert y i. induction x as [|a x IH]; intros [|b y] i; intros Hl; try discriminate Hl.
    - destruct i; cbn; lra.
    - destruct i; cbn; [done|]. apply IH. cbn in Hl. lia.
  Qed.
  Lemma nth_vs (x y : list R) i : length y = length x -> nth i (vs x y) 0 = nth i x 0 - nth i y 0.
  Proof.
    revert y i. induction x as [|a x IH]; intros [|b y] i; intros Hl; try discriminate Hl.
    - destruct i; cbn; lra.
    - destruct i; cbn; [done|]. apply IH. cbn in Hl. lia.
  Qed.
  Lemma nth_vk k (x : list R) i : nth i (vk k x) 0 = k * nth i x 0.
  Proof. revert i. induction x as [|a x IH]; intros [|i]; cbn; try lra. by apply IH. Qed.
  Lemma rk_add_len v h a ks : length (rk_add v h a ks) = length v.
  Proof. unfold rk_add. by rewrite map_length, seq_length. Qed.
  Lemma rk_add_nth v h a ks i : (i < length v)%nat -> nth i (rk_add v h a ks) 0 = nth i v 0 + h * rk_sum a ks i.
  Proof.
    intros Hi. unfold rk_add. rewrite (nth_indep _ 0 (nth 0 v 0 + h * rk_sum a ks 0)) by by rewrite map_length, seq_length.
    rewrite (map_nth (fun i => nth i v 0 + h * rk_sum a ks i) (seq 0 (length v)) 0%nat i). by rewrite seq_nth.
  Qed.
  Lemma rk_add_eq v h a ks x : length x = length v -> (forall i, (i < length v)%nat -> nth i x 0 = nth i v 0 + h * rk_sum a ks i) -> x = rk_add v h a ks.
  Proof.
    intros Hl Hi. apply (nth_ext _ _ 0 0); [by rewrite rk_add_len|]. intros i Hx. rewrite rk_add_nth by lia. apply Hi. lia.
  Qed.
  Lemma rk_add_none v h ks : v = rk_add v h [] ks.
  Proof. apply rk_add_eq; [done|]. intros i _. cbn. lra. Qed.
End vectors.

Ltac len := unfold va, vs, vk; rewrite ?zip_with_length, ?map_length; lia.
Ltac rk_rat := unfold q; cbn [rk_sum app]; unfold Q2R; cbn [Qnum Qden nofZ nadd nsub nmul ndiv num_R]; try (field; fail); try (field; lra).
Ltac rk_vec := apply rk_add_eq; [len|]; intros i Hi; repeat (first [rewrite nth_va by len|rewrite nth_vs by len]); rewrite ?nth_vk; rk_rat.

(** One step: the stages, then the result. *)
Definition rk_step {S} (tb : tableau) (f : R -> list R -> M S (list R)) (t0 : R) (v0 : list R) (t1 : R) : M S (list R) :=
  ks <~ rk_stages f (tb_rows tb) t0 v0 (t1 - t0) [] ;; ret (rk_add v0 (t1 - t0) (tb_weights tb) ks).

Lemma call_unfold {S} (f : R -> list R -> M S (list R)) n t v s :
  call f n t v s = match f t v s with Ok k s' => if Nat.eqb (length k) n then Ok k s' else UB UArith | Exn e s' => Exn e s' | UB u => UB u | OOF => OOF end.
Proof. unfold call, bnd. destruct (f t v s) as [k s'| | |]; try done. by destruct (Nat.eqb _ _). Qed.

Lemma euler_rk S (f : R -> list R -> M S (list R)) t0 v0 t1 s :
  euler S f t0 v0 t1 s = bnd (rk_step tab_euler f t0 v0 t1) (fun v1 => ret (v1, t1 - t0)) s.
Proof.
  unfold euler, rk_step, tab_euler. cbn [tb_rows tb_weights rk_stages]. unfold bnd at 1. rewrite call_unfold. unfold bnd.
  replace (t0 + Q2R 0 * (t1 - t0)) with t0 by rk_rat. rewrite <- rk_add_none.
  destruct (f t0 v0 s) as [k1 s1| | |]; try done. destruct (Nat.eqb_spec (length k1) (length v0)) as [L1|]; [|done].
  unfold ret. match goal with |- Ok (?x, _) _ = Ok (?y, _) _ => assert (x = y) as -> by rk_vec end. done.
Qed.
Ltac rk_call f k s L := rewrite call_unfold; cbn [app];
  match goal with |- ?l = ?r =>
    match l with context [f ?a ?b ?x] => match r with context [f ?c ?d x] =>
      replace c with a by rk_rat; replace d with b by (first [apply rk_add_none|rk_vec]);
      destruct (f a b x) as [k s| | |]; try done; lazymatch goal with |- context [Nat.eqb (length k) ?n] => destruct (Nat.eqb_spec (length k) n) as [L|]; [|done] end
    end end end.
Ltac rk_end := unfold ret; match goal with |- Ok (?x, _) _ = Ok (?y, _) _ => replace y with x by rk_vec end; done.
Lemma rk4_rk S (f : R -> list R -> M S (list R)) t0 v0 t1 s :
  rk4 S f t0 v0 t1 s = bnd (rk_step tab_rk4 f t0 v0 t1) (fun v1 => ret (v1, t1 - t0)) s.
Proof.
  unfold rk4, rk_step, tab_rk4. cbv zeta. cbn [tb_rows tb_weights rk_stages]. unfold bnd.
  rk_call f k1 s1 L1. rk_call f k2 s2 L2. rk_call f k3 s3 L3. rk_call f k4 s4 L4. rk_end.
Qed.

(** The largest component, when there is one. *)
Lemma fold_max (x : list R) a : 0 <= a -> Forall (fun y => 0 <= y) x -> fold_left nmax x a = Rmax a (fold_right Rmax 0 x).
Proof.
  revert a. induction x as [|b x IH]; intros a Ha Hx; cbn.
  - unfold Rmax. destruct (Rle_dec a 0); lra.
  - apply Forall_cons in Hx as [Hb Hx].
    assert (nmax a b = Rmax a b) as ->. { unfold nmax. cbn. unfold Rltb, Rmax. destruct (Rlt_dec a b), (Rle_dec a b); lra. }
    rewrite IH; [|unfold Rmax; destruct (Rle_dec a b); lra|done]. by rewrite Rmax_assoc.
Qed.
Lemma max_coeff_dist (x y : list R) : length x = length y -> x ≠ [] -> max_coeff (map nabs (vs x y)) = Some (dist_max x y).
Proof.
  intros Hl Hn. destruct x as [|a x]; [done|]. destruct y as [|b y]; [discriminate Hl|]. cbn -[Rabs]. f_equal.
  rewrite fold_max; [done|apply Rabs_pos|]. apply Forall_map, Forall_true. intros z. apply Rabs_pos.
Qed.
Lemma rkf45_rk S (f : R -> list R -> M S (list R)) t0 v0 t1 s : v0 ≠ [] ->
  rkf45 S f t0 v0 t1 s = bnd (rk_stages f rows_fehlberg t0 v0 (t1 - t0) [])
    (fun ks => let v1 := rk_add v0 (t1 - t0) (tb_weights tab_fehlberg4) ks in
      let z := rk_add v0 (t1 - t0) (tb_weights tab_fehlberg5) ks in ret (v1, rkf45_new_h (t1 - t0) (dist_max v1 z))) s.
Proof.
  intros Hn. unfold rkf45, rows_fehlberg, tab_fehlberg4, tab_fehlberg5. cbv zeta. cbn [tb_rows tb_weights rk_stages]. unfold bnd.
  rk_call f k1 s1 L1. rk_call f k2 s2 L2. rk_call f k3 s3 L3. rk_call f k4 s4 L4. rk_call f k5 s5 L5. rk_call f k6 s6 L6.
  rewrite max_coeff_dist.
  - unfold ret. cbn [nsub num_R].
    match goal with |- Ok (?x, rkf45_new_h _ (dist_max ?x ?z)) _ = Ok (?y, rkf45_new_h _ (dist_max ?y ?z')) _ => replace y with x by rk_vec; replace z' with z by rk_vec end. done.
  - len.
  - intros E. apply Hn. apply nil_length_inv. apply (f_equal length) in E. symmetry. etrans; [symmetry; exact E|len].
Qed.

(** What every method does to the results of its calls. *)
Section stages.
  Context {S : Type}.
  Lemma rk_stages_inv (P : list R -> Prop) (f : R -> list R -> M S (list R)) rows t0 v0 h ks s ks' s' :
    (forall t v x k x', f t v x = Ok k x' -> P k) -> Forall (fun k => length k = length v0 /\ P k) ks ->
    rk_stages f rows t0 v0 h ks s = Ok ks' s' -> Forall (fun k => length k = length v0 /\ P k) ks' /\ length ks' = (length ks + length rows)%nat.
  Proof.
    intros Hf. revert ks s. induction rows as [|[c a] rows IH]; intros ks s Hk; cbn [rk_stages].
    { intros [= <- <-]. cbn. split; [done|lia]. }
    unfold bnd. destruct (f _ _ s) as [k s1| | |] eqn:E; try done. destruct (Nat.eqb_spec (length k) (length v0)); [|done].
    intros Hr. apply IH in Hr as [H1 H2].
    - split; [done|]. rewrite H2, app_length. cbn. lia.
    - apply Forall_app. split; [done|]. apply Forall_cons. split; [|done]. eauto.
  Qed.
  Lemma dot_nil_r w : dot w [] = 0.
  Proof. by destruct w. Qed.
  Lemma dot_seq (w x : list R) : dot w x = fold_right Rplus 0 (map (fun i => nth i w 0 * nth i x 0) (seq 0 (length x))).
  Proof.
    revert x. induction w as [|a w IH]; intros [|b x]; try done.
    - change (dot [] (b :: x)) with 0. symmetry. generalize (seq 0 (length (b :: x))). intros l.
      induction l as [|i l IHl]; [done|]. cbn [map fold_right]. rewrite IHl. destruct i; cbn; lra.
    - unfold dot in *. cbn [zip_with fold_right]. rewrite IH. cbn [length seq map fold_right nth]. f_equal.
      rewrite <- seq_shift, map_map. done.
  Qed.
  Lemma sum_lin (l : list nat) (F G : nat -> R) h : fold_right Rplus 0 (map (fun i => F i + h * G i) l) = fold_right Rplus 0 (map F l) + h * fold_right Rplus 0 (map G l).
  Proof. induction l as [|i l IH]; cbn; [lra|]. rewrite IH. lra. Qed.
  Lemma sum_ext (l : list nat) (F G : nat -> R) : (forall i, i ∈ l -> F i = G i) -> fold_right Rplus 0 (map F l) = fold_right Rplus 0 (map G l).
  Proof.
    induction l as [|i l IH]; intros He; cbn; [done|]. rewrite (He i) by apply elem_of_list_here. f_equal. apply IH. intros j Hj. apply He. by apply elem_of_list_further.
  Qed.
  Lemma sum_zero (l : list nat) (F : nat -> R) : (forall i, i ∈ l -> F i = 0) -> fold_right Rplus 0 (map F l) = 0.
  Proof.
    induction l as [|i l IH]; intros He; cbn; [done|]. rewrite (He i) by apply elem_of_list_here. rewrite IH; [lra|]. intros j Hj. apply He. by apply elem_of_list_further.
  Qed.
  Lemma sum_stage (w : list R) a ks n : Forall (fun k => length k = n /\ dot w k = 0) ks ->
    fold_right Rplus 0 (map (fun i => nth i w 0 * rk_sum a ks i) (seq 0 n)) = 0.
  Proof.
    revert ks. induction a as [|x a IH]; intros ks Hk.
    - apply sum_zero. intros i _. cbn. lra.
    - destruct Hk as [|k ks [Hl Hd] Hk]; cbn [rk_sum].
      { apply sum_zero. intros i _. lra. }
      rewrite (sum_ext _ _ (fun i => nth i w 0 * rk_sum a ks i + Q2R x * (nth i w 0 * nth i k 0))) by (intros; lra).
      rewrite sum_lin, (IH ks Hk). rewrite dot_seq, Hl in Hd. rewrite Hd. lra.
  Qed.
  Lemma dot_add w v0 h a ks : Forall (fun k => length k = length v0 /\ dot w k = 0) ks -> dot w (rk_add v0 h a ks) = dot w v0.
  Proof.
    intros Hk. rewrite (dot_seq w (rk_add v0 h a ks)), rk_add_len.
    rewrite (sum_ext _ _ (fun i => nth i w 0 * nth i v0 0 + h * (nth i w 0 * rk_sum a ks i))).
    - rewrite sum_lin, (sum_stage w a ks (length v0) Hk), <- dot_seq. lra.
    - intros i Hi. apply elem_of_seq in Hi. rewrite rk_add_nth by lia. lra.
  Qed.
End stages.

Lemma rkf45_nil S (f : R -> list R -> M S (list R)) t0 t1 s r s' : rkf45 S f t0 [] t1 s ≠ Ok r s'.
Proof.
  unfold rkf45. cbv zeta. unfold bnd.
  do 6 (destruct (call _ _ _ _ _) as [? ?| | |]; try done).
Qed.
(** All methods at once: if a step returns, its stages returned and the result is
    computed from them. *)
Inductive solver := SEuler | SRk4 | SRkf45.
Definition stp_of (m : solver) : stepper R := match m with SEuler => euler | SRk4 => rk4 | SRkf45 => rkf45 end.
Definition tab_of (m : solver) : tableau := match m with SEuler => tab_euler | SRk4 => tab_rk4 | SRkf45 => tab_fehlberg4 end.
Lemma stp_stages m S (f : R -> list R -> M S (list R)) t0 v0 t1 s v1 h' s' : stp_of m S f t0 v0 t1 s = Ok (v1, h') s' ->
  exists ks, rk_stages f (tb_rows (tab_of m)) t0 v0 (t1 - t0) [] s = Ok ks s' /\ v1 = rk_add v0 (t1 - t0) (tb_weights (tab_of m)) ks.
Proof.
  destruct m; cbn [stp_of tab_of].
  - rewrite euler_rk. unfold rk_step, bnd. destruct (rk_stages _ _ _ _ _ _ _) as [ks x| | |]; try done. intros [= <- _ <-]. eauto.
  - rewrite rk4_rk. unfold rk_step, bnd. destruct (rk_stages _ _ _ _ _ _ _) as [ks x| | |]; try done. intros [= <- _ <-]. eauto.
  - destruct v0 as [|a v0]; [by intros E%rkf45_nil|]. rewrite rkf45_rk by done. unfold bnd.
    destruct (rk_stages _ _ _ _ _ _ _) as [ks x| | |]; try done. intros [= <- _ <-]. eauto.
Qed.

(** Right-hand sides that depend on t only. *)
Lemma stages_pure (F : R -> list R) S rows t0 v0 h ks (s : S) : (forall t, length (F t) = length v0) ->
  rk_stages (fun t _ => ret (F t)) rows t0 v0 h ks s = Ok (ks ++ map (fun r => F (t0 + Q2R (fst r) * h)) rows) s.
Proof.
  intros Hl. revert ks. induction rows as [|[c a] rows IH]; intros ks; cbn [rk_stages]; [by rewrite app_nil_r|].
  unfold bnd, ret. rewrite Hl, Nat.eqb_refl, IH. by rewrite <- app_assoc.
Qed.
(** sum_j b_j g(c_j) *)
Fixpoint quad (b : list Q) (rows : list (Q * list Q)) (G : R -> R) : R :=
  match b, rows with x :: b', (c, _) :: rows' => Q2R x * G (Q2R c) + quad b' rows' G | _, _ => 0 end.
Lemma quad_sum b rows (F : R -> list R) t0 h i : rk_sum b (map (fun r => F (t0 + Q2R (fst r) * h)) rows) i = quad b rows (fun c => nth i (F (t0 + c * h)) 0).
Proof. revert rows. induction b as [|x b IH]; intros [|[c a] rows]; cbn; try done. by rewrite IH. Qed.
Lemma quad_ext b rows G G' : (forall c, G c = G' c) -> quad b rows G = quad b rows G'.
Proof. intros He. revert rows. induction b as [|x b IH]; intros [|[c a] rows]; cbn; try done. by rewrite IH, He. Qed.
