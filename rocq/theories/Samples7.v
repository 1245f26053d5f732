(** Property C84: the sample programs with a TriggeredIntegrator and with a PID controller. *)
From stdpp Require Import prelude gmap strings.
From Coq Require Import ZArith QArith Reals Lra Qreals Psatz.
From Verif Require Import Num NumQ NumR NumOrd NumAdd Res Name Store Leaf Sched Stepper Sim World Api SpecSched P_Store P_Prog P_Lib P_World P_Compile P_Simulated P_Evolve P_Rel P_Rel2 SpecHist P_Trace SpecBlock Ex_Models
  SpecRun P_Log P_Run Props_Run P_Pack P_Grow P_Again P_Repeat Props_Pack SpecRK P_RK SpecAgain P_Over P_Redo Props_Again SpecField P_Field P_FieldRun P_Posed P_Path Props_Field SpecConv P_Conv Props_Conv SpecLin P_Lin Props_Lin
  SpecOrd P_Ord P_Ord2 P_Ord3 Props_Ord SpecSmooth P_Tame P_Tame2 P_Tame3 P_Smooth Props_Smooth SpecDiag P_Diag P_Diag2 Props_Diag Samples Samples2 Samples3 Samples4 Props_Samples P_Picard SpecExist P_Exist Props_Exist
  SpecSafe SpecGoes SpecGoes2 SpecLint P_Goes P_Goes4 P_Goes6 Props_Goes P_Total Props_Total Samples6 Hist SpecRec SpecTable SpecRows P_Table Props_Rec Props_Table Props_Rows Props_Files.
Local Open Scope nat_scope.
Local Open Scope R_scope.


(** samples/test03_integrator.cpp:36-66: any initial value [a], any derivative [f] and any
    trigger [p]. Signals 0 x, 1 xd, 2 trigger. *)
Section trig.
  Context (a : R) (f : R -> R) (p : R -> bool).
  Definition ti_ops : list (wop R) :=
    [ ONewBlock (CTrig TyD) (LInteg (VS a) false) None "" 2 1; ONewSig KScalar "x"; ONewSig KScalar "xd"; ONewSig KBool "trigger";
      ONewBusL [("in", 1); ("trigger", 2)]%string ""; ONewBus [0] ""; OConnect 0 3 4 ]%nat.
  Definition ti_world : world R := world_of true ti_ops.
  Definition ti_tree : tree R := default (TSub 0 [] []) (compile_model ti_world 0).
  Definition ti_inputs (t : R) : prog R unit := PSet 1%nat (VS (f t)) (PSet 2%nat (VB (p t)) (PRet tt)).
  Definition ti_cfg : cfg R := Cfg true MDefault ti_tree (Some ti_inputs) (fun _ => PRet tt) (Some euler) (fun x => reverse x) 0.
  Definition ti_new : simst R := new_sim (initial_dyn ti_world).
  Definition ti_0 (t0 : R) : simst R := st_of ti_new (init ti_cfg t0 ti_new).

  (** The state of the simulator between two calls. *)
  Definition ti_store (t x : R) : list (nat * cell R) :=
    [(0, Cell KScalar (Some 1) true (Some (VS x))); (1, Cell KScalar None true (Some (VS (f t)))); (2, Cell KBool None true (Some (VB (p t))))]%nat.
  Definition ti_mk (log : list (event R)) (q1 q2 q3 t x : R) (b : bool) : simst R :=
    Simst (Dyn (Core (list_to_map (ti_store t x)) (list_to_map [(0%nat, LInteg (VS x) b)]) (list_to_set [0%nat]) log) (list_to_set [])) [] [] None [] t [0; 2; 1]%nat [0]%nat [] [q1] [q2] [q3] true.
  Definition ti_looks (t x : R) (b : bool) (s : simst R) : Prop :=
    map_to_list (s_store s) = ti_store t x /\ map_to_list (k_lst (s_core s)) = [(0%nat, LInteg (VS x) b)] /\ elements (k_done (s_core s)) = [0%nat] /\ elements (d_sdone (s_dyn s)) = [] /\
    s_po1 s = [] /\ s_po2 s = [] /\ s_cur s = None /\ s_fast s = [] /\ s_tprev s = t /\ s_vsigs s = [0; 2; 1]%nat /\ s_scal s = [0%nat] /\ s_arr s = [] /\
    (exists q, s_sv s = [q]) /\ (exists q, s_svo s = [q]) /\ (exists q, s_dv s = [q]) /\ s_init s = true.
  Lemma ti_made t x b s : ti_looks t x b s -> exists log q1 q2 q3, s = ti_mk log q1 q2 q3 t x b.
  Proof.
    intros (H1 & H2 & H3 & H4 & H5 & H6 & H7 & H8 & H9 & H10 & H11 & H12 & [q1 H13] & [q2 H14] & [q3 H15] & H16).
    destruct s as [[[σ ls dn log] sd] po1 po2 cur fast tp vs sc ar sv svo dv ini]. cbn in *. exists log, q1, q2, q3. unfold ti_mk. subst.
    rewrite <- H1, <- H2, <- H3, <- H4. by rewrite !list_to_map_to_list, !list_to_set_elements_L.
  Qed.


  (** A step of Euler's method in two halves: up to the derivatives, and the rest. *)
  Definition ti_half1 (t1 : R) : M (simst R) (list R * list R) :=
    begin_step ti_cfg t1 ;;; o <~ gets s_svo ;; x <~ get_sv ti_cfg o ;; modify (put_svo x) ;;; k <~ minor_cb ti_cfg t1 x ;; ret (x, k).
  Definition ti_half2 (t1 t : R) (xk : list R * list R) : M (simst R) unit :=
    (if Nat.eqb (length xk.2) (length xk.1) then ret tt else undef UArith) ;;;
    let y := va xk.1 (vk (t - t1) xk.2) in
    modify (put_sv y) ;;;
    on_core' (emit (EvTry t1 xk.1 t y (t - t1))) ;;;
    sv <~ gets s_sv ;; reset_sv ti_cfg sv ;;; process_model ti_cfg t false true ;;; modify (put_tprev t).
  Lemma ti_halves t1 t s : euler_run ti_cfg t1 t s = Res.bnd (ti_half1 t1) (ti_half2 t1 t) s.
  Proof.
    unfold euler_run, ti_half1, ti_half2. generalize ti_cfg. intros g. unfold Res.bnd. destruct (begin_step g t1 s) as [[] s1| | |]; try done. cbn [gets].
    destruct (get_sv g (s_svo s1) s1) as [x s2| | |]; try done. cbn [modify]. destruct (minor_cb g t1 x (put_svo x s2)) as [k s3| | |]; try done.
  Qed.
  Definition ti_at1 (r : res (simst R) (list R * list R)) : option (list R * list R) := match r with Ok v _ => Some v | _ => None end.
  Ltac looks := unfold ti_looks; split_and!; try (vm_compute; reflexivity); eexists; vm_compute; reflexivity.
  Definition ti_base (x : R) (b : bool) : R := if b then 0 else x.
  Definition ti_next (tp t x : R) (b : bool) : R := ti_base x b + (t - tp) * f tp.
  Lemma ti_init t0 : is_ok (init ti_cfg t0 ti_new) = true /\ ti_looks t0 a (p t0) (st_of ti_new (init ti_cfg t0 ti_new)).
  Proof. split; [vm_compute; reflexivity|]. looks. Qed.
  Lemma ti_first log q1 q2 q3 tp x b : let s := ti_mk log q1 q2 q3 tp x b in let r := ti_half1 tp s in
    ti_at1 r = Some ([ti_base x b], [f tp]) /\ ti_looks tp (ti_base x b) (p tp) (st_of s r).
  Proof. cbv zeta. destruct b; (split; [vm_compute; reflexivity|looks]). Qed.
  Lemma ti_second log q1 q2 q3 tp t y b : let s := ti_mk log q1 q2 q3 tp y b in let r := ti_half2 tp t ([y], [f tp]) s in
    is_ok r = true /\ ti_looks t (y + (t - tp) * f tp) (b || p t) (st_of s r).
  Proof. cbv zeta. destruct b; (split; [vm_compute; reflexivity|looks]). Qed.
  Lemma ti_step tp t x b s s' : ti_looks tp x b s -> euler_run ti_cfg tp t s = Ok tt s' -> ti_looks t (ti_next tp t x b) (p tp || p t) s'.
  Proof.
    intros Hs E. apply ti_made in Hs as (log & q1 & q2 & q3 & ->). rewrite ti_halves in E. unfold Res.bnd in E.
    pose proof (ti_first log q1 q2 q3 tp x b) as [H1 H2]. revert E H1 H2. generalize (ti_mk log q1 q2 q3 tp x b). intros s0.
    destruct (ti_half1 tp s0) as [v s1| | |]; try done. intros E H1 H2. assert (v = ([ti_base x b], [f tp])) as -> by (unfold ti_at1 in H1; congruence). cbn [st_of] in H2.
    apply ti_made in H2 as (log' & q1' & q2' & q3' & ->).
    pose proof (ti_second log' q1' q2' q3' tp t (ti_base x b) (p tp)) as [_ H3]. cbv zeta in H3. rewrite E in H3. exact H3.
  Qed.
  Lemma ti_reach : wreach true ti_world.
  Proof. reach_ops ti_world ti_ops. Qed.
  Lemma ti_model : compile_model ti_world 0 = Some ti_tree.
  Proof. vm_compute. reflexivity. Qed.
  Lemma ti_user K : Forall (user_ok K (fun a b : R => nltb a b = true)) (leaves ti_tree).
  Proof.
    assert (exists ls, leaves ti_tree = ls /\ Forall (user_ok K (fun a b : R => nltb a b = true)) ls) as (ls & -> & Hls); [|exact Hls].
    eexists. split; [vm_compute; reflexivity|]. repeat (apply Forall_cons_2; [try exact I|]); [..|apply Forall_nil_2].
  Qed.
  Lemma ti_sets K t : K 1%nat = Some KScalar -> K 2%nat = Some KBool -> goes K (fun _ => False) [1; 2]%nat (fun _ => True) (ti_inputs t).
  Proof. intros K1 K2. cbn. exists [2%nat], KScalar. split_and!; try done. exists [], KBool. done. Qed.
  Lemma ti_checked : checked ti_world 0 ti_cfg [1; 2]%nat [].
  Proof.
    apply checked_intro; [apply ti_reach|apply ti_model|intros l; apply reverse_Permutation|apply euler_carries|vm_compute; reflexivity| | | |intros E; discriminate E|intros E; discriminate E].
    - apply Forall_forall. apply ti_user.
    - intros l o Hl _. eapply no_user_ok; [|exact Hl]. vm_compute. reflexivity.
    - intros f' t [= <-]. apply ti_sets; vm_compute; reflexivity.
  Qed.
  (** Times that increase, with limits as run demands them. *)
  Fixpoint spaced (tp : R) (cs : list (R * R * R)) : Prop :=
    match cs with [] => True | (t, lo, hi) :: cs => tp < t /\ 0 < lo /\ lo < hi /\ spaced t cs end.
  Lemma spaced_permitted tp cs : spaced tp cs -> permitted ti_cfg tp cs.
  Proof.
    assert (g_stepper ti_cfg ≠ None) as Hn by done. revert Hn. generalize ti_cfg. intros g Hn. revert tp. induction cs as [|[[t lo] hi] cs IH]; intros tp; [done|].
    intros (H1 & H2 & H3 & H4). split; [|by apply IH]. split.
    - intros _. by apply Rltb_true.
    - intros _. split; [apply Rltb_false; lra|]. right. split; [done|]. split; by apply Rltb_true.
  Qed.
  (** The column of the integral after the first line. *)
  Fixpoint ti_column (tp x : R) (b : bool) (ts : list R) : list R :=
    match ts with [] => [] | t :: ts => ti_next tp t x b :: ti_column t (ti_next tp t x b) (p tp || p t) ts end.
  Lemma ti_value t x b s : ti_looks t x b s -> value (s_store s) 0%nat = Some (VS x) /\ value (s_store s) 1%nat = Some (VS (f t)).
  Proof.
    intros (H1 & _). assert (s_store s = list_to_map (ti_store t x)) as -> by (rewrite <- H1; symmetry; apply list_to_map_to_list). split; reflexivity.
  Qed.
  Lemma ti_ready t x b s : ti_looks t x b s -> s_init s = true /\ (exists n, length (s_sv s) = S n) /\ s_tprev s = t.
  Proof. intros Hs. apply ti_made in Hs as (log & q1 & q2 & q3 & ->). split_and!; [done|by exists 0%nat|done]. Qed.
  Lemma ti_ends fuel cs : forall tp x b s ss, ti_looks tp x b s -> spaced tp cs -> ends ti_cfg (S fuel) cs s ss ->
    map (fun s => value (s_store s) 0%nat) ss = map (fun y => Some (VS y)) (ti_column tp x b (times cs)) /\
    map (fun s => value (s_store s) 1%nat) ss = map (fun y => Some (VS y)) (map f (times cs)).
  Proof.
    induction cs as [|[[t lo] hi] cs IH]; intros tp x b s [|s1 ss] Hs Hsp He; try done.
    destruct Hsp as (H1 & H2 & H3 & H4). destruct He as [E He]. destruct (ti_ready _ _ _ _ Hs) as (R1 & R2 & R3).
    rewrite (run_euler ti_cfg s fuel t lo hi eq_refl R1 R2 ltac:(by rewrite R3) H2 H3), R3 in E. pose proof (ti_step _ _ _ _ _ _ Hs E) as Hs1.
    destruct (IH t _ _ s1 ss Hs1 H4 He) as [I1 I2]. destruct (ti_value _ _ _ _ Hs1) as [V1 V2]. cbn [map times ti_column]. split; f_equal; done.
  Qed.
  Lemma ti_ends0 fuel t0 lo0 hi0 cs ss : spaced t0 cs -> ends ti_cfg (S fuel) ((t0, lo0, hi0) :: cs) ti_new ss ->
    map (fun s => value (s_store s) 0%nat) ss = map (fun y => Some (VS y)) (a :: ti_column t0 a (p t0) (times cs)) /\
    map (fun s => value (s_store s) 1%nat) ss = map (fun y => Some (VS y)) (map f (times ((t0, lo0, hi0) :: cs))).
  Proof.
    intros Hsp He. destruct ss as [|s1 ss]; [done|]. destruct He as [E He]. pose proof (C38_first R ti_cfg (S fuel) t0 lo0 hi0 ti_new eq_refl) as [E1 _]. rewrite E1 in E. clear E1.
    destruct (ti_init t0) as [_ Hl]. rewrite E in Hl. cbn [st_of] in Hl. destruct (ti_ends fuel cs t0 a (p t0) s1 ss Hl Hsp He) as [I1 I2].
    destruct (ti_value _ _ _ _ Hl) as [V1 V2]. cbn [map times]. split; f_equal; done.
  Qed.
  (** What line [S k] contains. *)
  Definition ti_before (ts : list R) (k : nat) : bool := match k with O => false | S j => match ts !! j with Some t => p t | None => false end end.
  Lemma ti_column_spec ts : forall tp x b k t1 t2 y, (tp :: ts) !! k = Some t1 -> ts !! k = Some t2 -> (x :: ti_column tp x b ts) !! k = Some y ->
    ti_column tp x b ts !! k = Some ((if match k with O => b | S _ => p t1 || ti_before (tp :: ts) k end then 0 else y) + (t2 - t1) * f t1).
  Proof.
    induction ts as [|t ts IH]; intros tp x b k t1 t2 y H1 H2 H3; [done|]. destruct k as [|k].
    - cbn in *. injection H1 as ->. injection H2 as ->. injection H3 as ->. done.
    - change ((t :: ts) !! k = Some t1) in H1. change (ts !! k = Some t2) in H2. change ((ti_next tp t x b :: ti_column t (ti_next tp t x b) (p tp || p t) ts) !! k = Some y) in H3.
      change (ti_column t (ti_next tp t x b) (p tp || p t) ts !! k = Some ((if p t1 || ti_before (tp :: t :: ts) (S k) then 0 else y) + (t2 - t1) * f t1)).
      rewrite (IH t _ _ k t1 t2 y H1 H2 H3). destruct k as [|k]; [|done].
      cbn in H1. injection H1 as ->. cbn [ti_before lookup list_lookup]. by rewrite (orb_comm (p tp)).
  Qed.
End trig.

(** samples/test08_pendulum_with_pid.cpp:34-168: any gains, any values in place of those
    the callback assigns, any initial values. *)
Section pid.
  Context (θ0 ω0 i0 d0 kp ki kd ma le ga de : R).
  Definition pp_ops : list (wop R) :=
    [ ONewBlock CSubmodel LNone None "pendulum_with_PID" NoIOLimit NoIOLimit;
      ONewBlock CSub LNone (Some 0) "" 2 1;
      ONewBlock CSubmodel LNone (Some 0) "PI" NoIOLimit NoIOLimit;
      ONewBlock (CGain TyD (VS kp)) LNone (Some 2) "Kp" 1 1;
      ONewBlock (CInteg TyD) (LInteg (VS i0) false) (Some 2) "ix" 1 1;
      ONewBlock (CGain TyD (VS ki)) LNone (Some 2) "Ki" 1 1;
      ONewBlock (CAdd TyD (VS 0%R)) LNone (Some 2) "" NoIOLimit 1;
      ONewBlock CDeriv (LDeriv true None None d0) (Some 2) "" 1 1;
      ONewBlock (CGain TyD (VS kd)) LNone (Some 2) "Kd" 1 1;
      ONewBlock CSubmodel LNone (Some 0) "pendulum" NoIOLimit NoIOLimit;
      ONewSig KScalar "m"; ONewSig KScalar "g"; ONewSig KScalar "l"; ONewSig KScalar "dphi";
      ONewBlock (CMul TyD (VS 1%R)) LNone (Some 9) "tau" NoIOLimit 1;
      ONewBlock CDiv LNone (Some 9) "_ml2" 2 1;
      ONewBlock CSub LNone (Some 9) "err" 2 1;
      ONewBlock (CInteg TyD) (LInteg (VS ω0) false) (Some 9) "dphi" 1 1;
      ONewBlock (CInteg TyD) (LInteg (VS θ0) false) (Some 9) "phi" 1 1;
      ONewBlock (CSISO TyD sin_of) LNone (Some 9) "sin(phi)" 1 1;
      ONewBlock (CMul TyD (VS 1%R)) LNone (Some 9) "g" NoIOLimit 1;
      ONewBlock CDiv LNone (Some 9) "_l" 2 1;
      ONewSig KScalar "des_phi"; ONewSig KScalar "phi"; ONewSig KScalar "tau"; ONewSig KScalar "err";
      ONewBus [4; 5] ""; ONewBus [7] ""; OConnect 1 8 9;
      ONewBus [7] ""; ONewBus [6] ""; OConnect 2 10 11;
      ONewSig KScalar ""; ONewSig KScalar ""; ONewSig KScalar ""; ONewSig KScalar ""; ONewSig KScalar "";
      ONewBus [7] ""; ONewBus [12] ""; OConnect 3 17 18;
      ONewBus [7] ""; ONewBus [13] ""; OConnect 4 19 20;
      ONewBus [13] ""; ONewBus [14] ""; OConnect 5 21 22;
      ONewBus [7] ""; ONewBus [15] ""; OConnect 7 23 24;
      ONewBus [15] ""; ONewBus [16] ""; OConnect 8 25 26;
      ONewBus [12; 14; 16] ""; ONewBus [6] ""; OConnect 6 27 28;
      ONewBus [6] ""; ONewBus [5] ""; OConnect 9 29 30;
      ONewSig KScalar ""; ONewSig KScalar ""; ONewSig KScalar ""; ONewSig KScalar ""; ONewSig KScalar ""; ONewSig KScalar "";
      ONewBus [0; 2; 2] ""; ONewBus [31] ""; OConnect 10 37 38;
      ONewBus [6; 31] ""; ONewBus [32] ""; OConnect 11 39 40;
      ONewBus [32; 34] ""; ONewBus [35] ""; OConnect 12 41 42;
      ONewBus [35] ""; ONewBus [3] ""; OConnect 13 43 44;
      ONewBus [3] ""; ONewBus [5] ""; OConnect 14 45 46;
      ONewBus [5] ""; ONewBus [36] ""; OConnect 15 47 48;
      ONewBus [36; 1] ""; ONewBus [33] ""; OConnect 16 49 50;
      ONewBus [33; 2] ""; ONewBus [34] ""; OConnect 17 51 52 ]%nat.
  Definition pp_world : world R := world_of true pp_ops.
  Definition pp_tree : tree R := default (TSub 0 [] []) (compile_model pp_world 0).
  Definition pp_inputs (t : R) : prog R unit := PSet 0%nat (VS ma) (PSet 2%nat (VS le) (PSet 1%nat (VS ga) (PSet 4%nat (VS de) (PRet tt)))).
  Definition pp_cfg (m : mode) (meth : solver) (it : list nat -> list nat) : cfg R := Cfg true m pp_tree (Some pp_inputs) (fun _ => PRet tt) (Some (stp_of meth)) it 0.
  Lemma pp_reach : wreach true pp_world.
  Proof. reach_ops pp_world pp_ops. Qed.
  Lemma pp_model : compile_model pp_world 0 = Some pp_tree.
  Proof. vm_compute. reflexivity. Qed.
  Lemma pp_user K : K 5%nat = Some KScalar -> K 36%nat = Some KScalar -> Forall (user_ok K (fun a b : R => nltb a b = true)) (leaves pp_tree).
  Proof.
    intros K5 K36. assert (exists ls, leaves pp_tree = ls /\ Forall (user_ok K (fun a b : R => nltb a b = true)) ls) as (ls & -> & Hls); [|exact Hls].
    eexists. split; [vm_compute; reflexivity|]. repeat (apply Forall_cons_2; [try exact I|]); [..|apply Forall_nil_2]. by eapply user_siso.
  Qed.
  Lemma pp_sets K t : K 0%nat = Some KScalar -> K 1%nat = Some KScalar -> K 2%nat = Some KScalar -> K 4%nat = Some KScalar -> goes K (fun _ => False) [0; 2; 1; 4]%nat (fun _ => True) (pp_inputs t).
  Proof. intros K0 K1 K2 K4. cbn. exists [2; 1; 4]%nat, KScalar. split_and!; try done. exists [1; 4]%nat, KScalar. split_and!; try done. exists [4]%nat, KScalar. split_and!; try done. exists [], KScalar. done. Qed.
  Lemma pp_checked m meth it : m ≠ MReuse -> (forall l, it l ≡ₚ l) -> checked pp_world 0 (pp_cfg m meth it) [0; 2; 1; 4]%nat [].
  Proof.
    intros Hm Hi. apply checked_intro; [apply pp_reach|apply pp_model|exact Hi|apply stp_carries|destruct m; vm_compute; reflexivity| | | |intros E; discriminate E|done].
    - apply Forall_forall. apply pp_user; vm_compute; reflexivity.
    - intros l o Hl _. eapply no_user_ok; [|exact Hl]. vm_compute. reflexivity.
    - intros f' t [= <-]. apply pp_sets; vm_compute; reflexivity.
  Qed.
End pid.
