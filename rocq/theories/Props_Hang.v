(** Runs in binary64 that never end: the part of C34 that does not hold for doubles. *)
From stdpp Require Import prelude gmap strings.
From Coq Require Import ZArith Floats.SpecFloat.
From Verif Require Import Num NumF Res Name Store Leaf Sched Stepper Sim World Api P_Eval SpecSim P_Simulated P_Pack P_World P_Order2 P_Evolve Props_Sched Ex_Models.
Local Open Scope nat_scope.

(** The body of the while loop of run, returning the new t1, t2 and force_accept. *)
Definition round {D} `{NumOps D} (g : cfg D) (t lo hi : D) (p : D * D * bool) : M (simst D) (D * D * bool) :=
  let '(t1, t2, force) := p in
  begin_step g t1 ;;;
  o <~ gets s_svo ;; x <~ get_sv g o ;; modify (put_svo x) ;;;
  match g_stepper g with
  | None => undef UNull
  | Some stp =>
      r <~ stp _ (minor_cb g) t1 x t2 ;;
      modify (put_sv (fst r)) ;;;
      on_core' (emit (EvTry t1 x t2 (fst r) (snd r))) ;;;
      let new_h := snd r in
      let h := nsub t2 t1 in
      if force || (nleb h new_h) || (nleb h lo) then
        (if nltb t2 t then sv <~ gets s_sv ;; reset_sv g sv ;;; process_model g t2 false true else ret tt) ;;;
        ret (t2, nmin (nadd t2 (clip lo hi new_h)) t, false)
      else ret (t1, nadd t1 (clip lo hi new_h), nleb new_h lo)
  end.
Lemma bnd_yields {S A B} (m : M S A) (k : A -> M S B) s b s' : bnd m k s = Ok b s' -> exists a s1, m s = Ok a s1 /\ k a s1 = Ok b s'.
Proof. unfold bnd. destruct (m s) as [a s1| | |]; try (intros E; discriminate E). eauto. Qed.
Lemma loop_round {D} `{NumOps D} (g : cfg D) t lo hi n t1 t2 force s s' p :
  nltb t1 t = true -> round g t lo hi (t1, t2, force) s = Ok p s' ->
  run_loop g (S n) t lo hi t1 t2 force s = run_loop g n t lo hi p.1.1 p.1.2 p.2 s'.
Proof.
  intros E. cbn [run_loop]. rewrite E. unfold round.
  intros H1. apply bnd_yields in H1 as ([] & s1 & E1 & H1). rewrite (bnd_goes _ _ _ _ _ E1).
  apply bnd_yields in H1 as (o & s2 & E2 & H1). rewrite (bnd_goes _ _ _ _ _ E2).
  apply bnd_yields in H1 as (x & s3 & E3 & H1). rewrite (bnd_goes _ _ _ _ _ E3).
  apply bnd_yields in H1 as ([] & s4 & E4 & H1). rewrite (bnd_goes _ _ _ _ _ E4).
  destruct (g_stepper g) as [stp|]; [|discriminate H1].
  apply bnd_yields in H1 as (r & s5 & E5 & H1). rewrite (bnd_goes _ _ _ _ _ E5).
  apply bnd_yields in H1 as ([] & s6 & E6 & H1). rewrite (bnd_goes _ _ _ _ _ E6).
  apply bnd_yields in H1 as ([] & s7 & E7 & H1). rewrite (bnd_goes _ _ _ _ _ E7).
  cbv zeta in H1 |- *. destruct (force || _ || _).
  - apply bnd_yields in H1 as ([] & s8 & E8 & H1). rewrite (bnd_goes _ _ _ _ _ E8). injection H1 as <- <-. done.
  - injection H1 as <- <-. done.
Qed.

(** x' = 10 x, x(0) = 1, method RKF45. *)
Definition fz (z : Z) : f64 := nofZ z.
Definition exf_ops : list (wop f64) :=
  [ ONewSig KScalar "x"; ONewSig KScalar "y"; ONewBus [0] ""; ONewBus [1] "";
    ONewBlock CSubmodel LNone None "root" NoIOLimit NoIOLimit;
    ONewBlock (CInteg TyD) (LInteg (VS (fz 1)) false) (Some 0) "int" 1 1;
    ONewBlock (CGain TyD (VS (fz 10))) LNone (Some 0) "gain" 1 1;
    OConnect 1 3 2; OConnect 2 2 3 ].
Definition exf_world : world f64 := world_of true exf_ops.
Definition exf_tree : tree f64 := default (TSub 0 [] []) (compile_model exf_world 0).
Definition exf_cfg : cfg f64 := Cfg true MDefault exf_tree None (fun _ => PRet tt) (Some rkf45) (fun x => x) (fz 0).
Definition exf_T : f64 := fz (2 ^ 50).
Definition exf_t : f64 := fz (2 ^ 50 + 8).
Definition exf_lo : f64 := ndiv (fz 1) (fz 1000).
Definition exf_hi : f64 := fz 1.
Definition st_of' {A B} (d : A) (r : res A B) : A := match r with Ok _ s => s | Exn _ s => s | _ => d end.
Definition exf_0 : simst f64 := st_of' (new_sim (initial_dyn exf_world)) (init exf_cfg exf_T (new_sim (initial_dyn exf_world))).
Fixpoint rounds (n : nat) (p : f64 * f64 * bool) : M (simst f64) (f64 * f64 * bool) :=
  match n with
  | O => ret p
  | S n => if nltb p.1.1 exf_t then p' <~ round exf_cfg exf_t exf_lo exf_hi p ;; rounds n p' else undef UArith
  end.
Lemma loop_rounds k n p p' s s' : rounds k p s = Ok p' s' ->
  run_loop exf_cfg (k + n) exf_t exf_lo exf_hi p.1.1 p.1.2 p.2 s = run_loop exf_cfg n exf_t exf_lo exf_hi p'.1.1 p'.1.2 p'.2 s'.
Proof.
  revert p s. induction k as [|k IH]; intros [[t1 t2] fo] s E; cbn [rounds fst snd] in E.
  { by injection E as <- <-. }
  destruct (nltb t1 exf_t) eqn:El; [|discriminate E]. apply bnd_yields in E as (q & s1 & E1 & E).
  change (S k + n) with (S (k + n)). cbn [fst snd]. rewrite (loop_round _ _ _ _ _ _ _ _ _ _ _ El E1). by apply IH.
Qed.
Lemma run_hangs {D} `{NumOps D} (g : cfg D) fuel t lo hi s stp : s_init s = true -> length (s_sv s) ≠ 0 -> nltb t (s_tprev s) = false ->
  neqb t (s_tprev s) = false -> g_stepper g = Some stp -> nltb n0 lo = true -> nltb lo hi = true ->
  run_loop g fuel t lo hi (s_tprev s) t false s = OOF -> run g fuel t lo hi s = OOF.
Proof.
  intros Hi Hn H1 H2 Hs H3 H4 Hl. unfold run. rewrite (bnd_goes _ _ s true s) by (unfold gets; by rewrite Hi). cbn [negb].
  unfold bnd at 1, gets at 1. unfold bnd at 1, gets at 1. unfold bnd at 1. destruct (length (s_sv s)) as [|n]; [done|].
  rewrite H1, H2, Hs, H3, H4. assert (debug_verify (g_dbg g) true EAssert s = Ok tt s) as E by (by destruct (g_dbg g)).
  rewrite !(bnd_goes _ _ _ _ _ E), Hl. done.
Qed.
(** A state without its log, as finite lists. *)
Definition relog {D} (l : list (event D)) (s : simst D) : simst D :=
  put_dyn (Dyn (Core (k_store (s_core s)) (k_lst (s_core s)) (k_done (s_core s)) l) (d_sdone (s_dyn s))) s.
Definition fields {D} (s : simst D) :=
  (map_to_list (k_store (s_core s)), map_to_list (k_lst (s_core s)), elements (k_done (s_core s)), elements (d_sdone (s_dyn s)),
   (s_po1 s, s_po2 s, s_cur s, s_fast s), (s_tprev s, s_vsigs s, s_scal s, s_arr s), (s_sv s, s_svo s, s_dv s, s_init s)).
Lemma fields_eq {D} (s s' : simst D) : fields s' = fields s -> s' = relog (s_log s') s.
Proof.
  destruct s as [[[σ ls dn lg] sd] p1 p2 cu fa tp vs sc ar sv svo dv i], s' as [[[σ' ls' dn' lg'] sd'] p1' p2' cu' fa' tp' vs' sc' ar' sv' svo' dv' i'].
  unfold fields, relog, put_dyn, s_log, s_core. cbn [s_dyn d_core k_store k_lst k_done k_log d_sdone s_po1 s_po2 s_cur s_fast s_tprev s_vsigs s_scal s_arr s_sv s_svo s_dv s_init].
  intros E. injection E as E1 E2 E3 E4 -> -> -> -> -> -> -> -> -> -> -> ->.
  assert (σ' = σ) as -> by (apply map_to_list_inj; by rewrite E1). assert (ls' = ls) as -> by (apply map_to_list_inj; by rewrite E2).
  assert (dn' = dn) as -> by (apply set_eq; intros x; rewrite <-!elem_of_elements; by rewrite E3).
  assert (sd' = sd) as -> by (apply set_eq; intros x; rewrite <-!elem_of_elements; by rewrite E4). done.
Qed.
Lemma ends_like {D A} (m : M (simst D) A) s a s1 :
  match m s with Ok b s' => Some (b, fields s') | _ => None end = Some (a, fields s1) -> exists l, m s = Ok a (relog l s1).
Proof.
  destruct (m s) as [b s'| | |]; intros E; try discriminate E.
  assert (b = a /\ fields s' = fields s1) as [-> E'] by (split; congruence). apply (fields_eq s1 s') in E'. exists (s_log s'). by rewrite <-E'.
Qed.

(** The state after four rejected attempts and one attempt of length zero. *)
Definition exf_stuck : simst f64 := st_of' exf_0 (rounds 5 (exf_T, exf_t, false) exf_0).

(** From there every further round ends where it began: t1 + min_time_step is t1. *)
Lemma stuck_round l : exists l', round exf_cfg exf_t exf_lo exf_hi (exf_T, exf_T, false) (relog l exf_stuck) = Ok (exf_T, exf_T, false) (relog l' exf_stuck).
Proof. apply ends_like. vm_compute. reflexivity. Qed.
Lemma exf_lt : nltb exf_T exf_t = true.
Proof. vm_compute. reflexivity. Qed.
Lemma stuck_loop n l : run_loop exf_cfg n exf_t exf_lo exf_hi exf_T exf_T false (relog l exf_stuck) = OOF.
Proof.
  revert l. induction n as [|n IH]; intros l; [vm_compute; reflexivity|].
  destruct (stuck_round l) as [l' E]. rewrite (loop_round exf_cfg exf_t exf_lo exf_hi n exf_T exf_T false _ _ _ exf_lt E). apply IH.
Qed.
Lemma stuck_reached : exists l, rounds 5 (exf_T, exf_t, false) exf_0 = Ok (exf_T, exf_T, false) (relog l exf_stuck).
Proof. apply ends_like. vm_compute. reflexivity. Qed.

(** C34 does not hold for doubles: from 2^50 on, with the default limits
    min_time_step = 1e-3 and max_time_step = 1, a run of RKF45 can get to a sub-step
    so short that t1 + h rounds to t1; it then repeats sub-steps of length zero for
    ever. *)
Theorem C34_refuted : exists (w : world f64) (g : cfg f64) (s : simst f64),
  drives w 0 g s /\ g_dbg g = true /\ s_init s = true /\ g_stepper g = Some rkf45 /\
  s_tprev s = nofZ (2 ^ 50) /\
  forall fuel, run g fuel (nofZ (2 ^ 50 + 8)) (ndiv (nofZ 1) (nofZ 1000)) (nofZ 1) s = OOF.
Proof.
  exists exf_world, exf_cfg, exf_0.
  split; [|split; [reflexivity|split; [vm_compute; reflexivity|split; [reflexivity|split; [vm_compute; reflexivity|]]]]].
  - assert (wreach true exf_world) as Hr by (reach_ops exf_world exf_ops).
    split; [by exists true|vm_compute; reflexivity|].
    eapply (sm_init _ _ _ (new_sim (initial_dyn exf_world)) exf_T); [apply sm_first; [done|]|].
    + intros stp E. apply (inj Some) in E as <-. apply rkf45_ok.
    + unfold exf_0. destruct (init exf_cfg exf_T (new_sim (initial_dyn exf_world))) as [[] s'|? ?|?|] eqn:E; [done|..];
        exfalso; apply (f_equal is_ok) in E; vm_compute in E; discriminate E.
  - intros fuel. change (run exf_cfg fuel exf_t exf_lo exf_hi exf_0 = OOF).
    apply (run_hangs _ _ _ _ _ _ rkf45); [vm_compute; reflexivity|vm_compute; intros E; discriminate E|vm_compute; reflexivity|vm_compute; reflexivity|reflexivity|vm_compute; reflexivity|vm_compute; reflexivity|].
    replace (s_tprev exf_0) with exf_T by (vm_compute; reflexivity). do 5 (destruct fuel as [|fuel]; [vm_compute; reflexivity|]).
    destruct stuck_reached as [l E]. change (S (S (S (S (S fuel))))) with (5 + fuel).
    pose proof (loop_rounds 5 fuel _ _ _ _ E) as El. cbn [fst snd] in El. rewrite El. apply stuck_loop.
Qed.
Print Assumptions C34_refuted.
