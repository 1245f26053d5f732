(** A model with one block of every class that has members, and its simulation. *)
From stdpp Require Import prelude gmap strings.
From Coq Require Import ZArith QArith.
From Verif Require Import Num NumQ Res Name Store Leaf Sched Stepper Sim World Api SpecSched P_Rel P_Rel2 SpecHist P_Trace P_Life Ex_Models.

Local Open Scope nat_scope.

(** Signals 0 u = t^2, 1 Memory of u, 2 Derivative of u, 3 integral of u, 4 trigger
    (t = 1), 5 triggered integral of u, 6 the delay 3/2, 7 initial of the delay,
    8 u delayed. *)
Definition ex6_ops : list (wop Q) :=
  [ ONewSig KScalar "u"; ONewSig KScalar "m"; ONewSig KScalar "du"; ONewSig KScalar "x"; ONewSig KBool "g"; ONewSig KScalar "y";
    ONewSig KScalar "d"; ONewSig KScalar "i"; ONewSig KScalar "z";
    ONewBus [0] ""; ONewBus [1] ""; ONewBus [2] ""; ONewBus [3] ""; ONewBus [4] "";
    ONewBusL [("in", 0); ("trigger", 4)]%string ""; ONewBus [5] ""; ONewBus [6] ""; ONewBus [7] "";
    ONewBusL [("in", 0); ("delay", 6); ("initial", 7)]%string ""; ONewBus [8] ""; ONewBus [] "";
    ONewBlock CSubmodel LNone None "root" NoIOLimit NoIOLimit;
    ONewBlock (CMemory TyD) (LMem (VS 7%Q)) (Some 0) "mem" 1 1;
    ONewBlock CDeriv (LDeriv true None None 9%Q) (Some 0) "der" 1 1;
    ONewBlock (CInteg TyD) (LInteg (VS 5%Q) false) (Some 0) "int" 1 1;
    ONewBlock (CTrig TyD) (LInteg (VS 5%Q) false) (Some 0) "trig" 2 1;
    ONewBlock (CDelay TyD 10%Q) (LDelay [] []) (Some 0) "delay" 3 1;
    ONewBlock (CSource TyD (fun t : Q => PRet (VS (nmul t t)))) LNone (Some 0) "u" NoIOLimit 1;
    ONewBlock (CSource TyB (fun t : Q => PRet (VB (neqb t 1%Q)))) LNone (Some 0) "g" NoIOLimit 1;
    ONewBlock (CConst TyD (VS (3#2)%Q)) LNone (Some 0) "d" 0 1;
    ONewBlock (CConst TyD (VS (-1)%Q)) LNone (Some 0) "i" 0 1;
    OConnect 1 9 10; OConnect 2 9 11; OConnect 3 9 12; OConnect 4 14 15; OConnect 5 18 19;
    OConnect 6 20 9; OConnect 7 20 13; OConnect 8 20 16; OConnect 9 20 17 ].
Definition ex6_world : world Q := world_of true ex6_ops.
Definition ex6_tree : tree Q := tree_of ex6_world.
Definition ex6_cfg (m : mode) (stp : stepper Q) : cfg Q := Cfg true m ex6_tree None (fun _ => PRet tt) (Some stp) (fun x => x) 0%Q.
Definition ex6_run (m : mode) (stp : stepper Q) (ts : list Q) : res (simst Q) unit :=
  runs (ex6_cfg m stp) 20 (map (fun t => (t, (1#100)%Q, 10%Q)) ts) (new_sim (initial_dyn ex6_world)).
Definition ex6_end (m : mode) (stp : stepper Q) (ts : list Q) : simst Q := st_of (new_sim (initial_dyn ex6_world)) (ex6_run m stp ts).
Lemma ex6_reach : wreach true ex6_world.
Proof. reach_ops ex6_world ex6_ops. Qed.
Lemma ex6_model : compile_model ex6_world 0 = Some ex6_tree.
Proof. vm_compute. reflexivity. Qed.

Lemma runs_simulated {D} `{NumOps D} dbg tr d0 (g : cfg D) fuel ops s s' :
  simulated_ok dbg tr d0 g s -> runs g fuel ops s = Ok tt s' -> simulated_ok dbg tr d0 g s'.
Proof.
  revert s. induction ops as [|[[t lo] hi] ops IH]; intros s Hs; cbn; [by intros [= <-]|].
  unfold bnd. destruct (run g fuel t lo hi s) as [[] s1| | |] eqn:E; try done. apply IH. by eapply so_run.
Qed.
Lemma ex6_sim m stp ts : stepper_rel stp -> is_ok (ex6_run m stp ts) = true -> simulation_of ex6_world 0 (ex6_cfg m stp) (ex6_end m stp ts).
Proof.
  intros Hstp Hok. split; [exists true; exact ex6_reach|]. exists ex6_tree. split; [exact ex6_model|].
  unfold ex6_end. destruct (ex6_run m stp ts) as [[] s'| | |] eqn:E; try discriminate Hok. cbn [st_of].
  eapply runs_simulated; [|exact E]. apply so_first; [done|done|]. by intros x [= <-].
Qed.
Lemma marked_lookup {D} (s : simst D) n e : marks (s_log s) !! n = Some e -> marked s (take n (marks (s_log s))) e.
Proof. intros Hn. exists (drop (S n) (marks (s_log s))). by rewrite take_drop_middle. Qed.
Lemma not_waits {D} (σ : store D) (l : leaf D) : forallb (assigned σ) (required l) = true -> ~ waits σ l.
Proof.
  intros Hf (s & Hs & Ha). rewrite forallb_forall in Hf. apply elem_of_list_In in Hs. rewrite (Hf s Hs) in Ha. done.
Qed.
(** The marks as a table: kind, time, values of the nine signals. *)
Definition show_mark (e : event Q) : nat * Q * list (option (val Q)) :=
  match e with
  | EvTry t _ _ _ _ => (0, t, [])
  | EvBegin t σ _ => (1, t, map (value σ) (seq 0 9))
  | EvEval t σ _ => (2, t, map (value σ) (seq 0 9))
  | EvStep t σ _ => (3, t, map (value σ) (seq 0 9))
  | _ => (4, 0%Q, [])
  end.
Definition ex6_leaf (i : nat) : leaf Q := default (Leaf 0 CSubmodel [] [] no_handles []) (leaves ex6_tree !! i).
Definition ex6_blk (b : nat) : blkobj Q := default (BlkObj "" None [] 0 0 false [] [] [] CSubmodel no_handles LNone) (w_blks ex6_world !! b).
Lemma ex6_block m stp i : i < 9 -> block_of ex6_world (ex6_cfg m stp) (ex6_leaf i) (ex6_blk (S i)).
Proof.
  intros Hi. split.
  - apply (elem_of_list_lookup_2 _ i). change (g_tree (ex6_cfg m stp)) with ex6_tree. unfold ex6_leaf.
    destruct (leaves ex6_tree !! i) eqn:E; [done|]. apply lookup_ge_None_1 in E.
    assert (length (leaves ex6_tree) = 9) as El by (vm_compute; reflexivity). rewrite El in E. lia.
  - do 9 (destruct i as [|i]; [vm_compute; reflexivity|]). lia.
Qed.
(** Four runs with Euler's method: 18 marks. *)
Definition ex6_s : simst Q := ex6_end MDefault euler [0; 1; 2; 3]%Q.
Definition ex6_g : cfg Q := ex6_cfg MDefault euler.
Lemma ex6_s_sim : simulation_of ex6_world 0 ex6_g ex6_s.
Proof. apply ex6_sim; [apply euler_rel|vm_compute; reflexivity]. Qed.
Definition ex6_mark (n : nat) : event Q := default (EvInputs 0%Q) (marks (s_log ex6_s) !! n).
Definition ex6_before (n : nat) : list (event Q) := take n (marks (s_log ex6_s)).
Definition mark_time (e : event Q) : Q := match e with EvBegin t _ _ | EvEval t _ _ | EvStep t _ _ => t | _ => 0%Q end.
Definition mark_store (e : event Q) : store Q := match e with EvBegin _ σ _ | EvEval _ σ _ | EvStep _ σ _ => σ | _ => ∅ end.
Definition mark_members (e : event Q) : gmap nat (lstate Q) := match e with EvBegin _ _ ms | EvEval _ _ ms | EvStep _ _ ms => ms | _ => ∅ end.
Definition ev_kind (e : event Q) : nat := fst (fst (show_mark e)).
Lemma ex6_marked n k : ev_kind (ex6_mark n) = k -> n < 18 -> marked ex6_s (ex6_before n)
  (match k with 1 => EvBegin | 2 => EvEval | 3 => EvStep | _ => fun t _ _ => ex6_mark n end (mark_time (ex6_mark n)) (mark_store (ex6_mark n)) (mark_members (ex6_mark n))).
Proof.
  intros Hk Hn. unfold ex6_before, ex6_mark in *. destruct (marks (s_log ex6_s) !! n) as [e|] eqn:E.
  - cbn [default] in *. assert (marked ex6_s (take n (marks (s_log ex6_s))) e) as Hm by (by apply marked_lookup). clear E. rewrite <- Hk. by destruct e.
  - exfalso. apply lookup_ge_None_1 in E. assert (length (marks (s_log ex6_s)) = 18) as El by (vm_compute; reflexivity). rewrite El in E. lia.
Qed.
Lemma ex6_mark_eq n k : ev_kind (ex6_mark n) = k -> ex6_mark n =
  (match k with 1 => EvBegin | 2 => EvEval | 3 => EvStep | _ => fun t _ _ => ex6_mark n end (mark_time (ex6_mark n)) (mark_store (ex6_mark n)) (mark_members (ex6_mark n))).
Proof. intros <-. by destruct (ex6_mark n). Qed.
Lemma ex6_before_S n : n < 18 -> ex6_before (S n) = ex6_before n ++ [ex6_mark n].
Proof.
  intros Hn. unfold ex6_before, ex6_mark. destruct (marks (s_log ex6_s) !! n) as [e|] eqn:E; [by apply take_S_r|].
  exfalso. apply lookup_ge_None_1 in E. assert (length (marks (s_log ex6_s)) = 18) as El by (vm_compute; reflexivity). rewrite El in E. lia.
Qed.
Lemma ex6_two n : n < 17 -> ev_kind (ex6_mark n) = 2 -> ev_kind (ex6_mark (S n)) = 3 -> mark_time (ex6_mark n) = mark_time (ex6_mark (S n)) ->
  ex6_before n ++ [EvEval (mark_time (ex6_mark n)) (mark_store (ex6_mark n)) (mark_members (ex6_mark n));
    EvStep (mark_time (ex6_mark n)) (mark_store (ex6_mark (S n))) (mark_members (ex6_mark (S n)))] = ex6_before (S (S n)).
Proof.
  intros Hn H2 H3 Et. rewrite Et at 2. apply ex6_mark_eq in H2, H3. cbn [ex6_mark_eq] in H2, H3.
  rewrite <- H2, <- H3, (ex6_before_S (S n)), (ex6_before_S n), <- app_assoc by lia. done.
Qed.
(** The store of the last accepted step before a mark. *)
Definition ex6_last (n : nat) : store Q := default ∅ (option_map snd (last (steps (ex6_before n)))).
Lemma ex6_last_eq n t : option_map fst (last (steps (ex6_before n))) = Some t -> last (steps (ex6_before n)) = Some (t, ex6_last n).
Proof. unfold ex6_last. destruct (last (steps (ex6_before n))) as [[]|]; [|done]. by intros [= ->]. Qed.
Example ex6_table : map show_mark (marks (s_log ex6_s)) =
  let r (x : option (val Q)) g y z u m du := [Some (VS u); Some (VS m); Some (VS du); x; Some (VB g); Some (VS y); Some (VS (3#2)%Q); Some (VS (-1)%Q); Some (VS z)] in
  let i x y := [None; None; None; Some (VS x); None; Some (VS y); None; None; None] in
  let s x := Some (VS x) in
  [ (1%nat, 0, i 5 5); (2%nat, 0, r (s 5) false 5 (-1) 0 7 9); (3%nat, 0, r (s 5) false 5 (-1) 0 7 9);
    (1%nat, 0, i 5 5); (2%nat, 0, r (s 5) false 5 (-1) 0 0 0); (0%nat, 0, []); (2%nat, 1, r (s 5) true 5 (-1) 1 0 1); (3%nat, 1, r (s 5) true 5 (-1) 1 0 1);
    (1%nat, 1, i 5 0); (2%nat, 1, r (s 5) true 0 (-1) 1 1 1); (0%nat, 1, []); (2%nat, 2, r (s 6) false 1 (1#2) 4 1 3); (3%nat, 2, r (s 6) false 1 (1#2) 4 1 3);
    (1%nat, 2, i 6 0); (2%nat, 2, r (s 6) false 0 (1#2) 4 4 4); (0%nat, 2, []); (2%nat, 3, r (s 10) false 4 (5#2) 9 4 5); (3%nat, 3, r (s 10) false 4 (5#2) 9 4 5) ]%Q.
Proof. vm_compute. reflexivity. Qed.

(** The same for any simulation over the rationals. *)
Section at_mark.
  Context (s : simst Q).
  Definition mark_at (n : nat) : event Q := default (EvInputs 0%Q) (marks (s_log s) !! n).
  Definition before (n : nat) : list (event Q) := take n (marks (s_log s)).
  Lemma marked_at n k : ev_kind (mark_at n) = k -> (n <? length (marks (s_log s))) = true -> marked s (before n)
    (match k with 1 => EvBegin | 2 => EvEval | 3 => EvStep | _ => fun t _ _ => mark_at n end (mark_time (mark_at n)) (mark_store (mark_at n)) (mark_members (mark_at n))).
  Proof.
    intros Hk Hn. apply Nat.ltb_lt in Hn. unfold before, mark_at in *. destruct (marks (s_log s) !! n) as [e|] eqn:E.
    - cbn [default] in *. assert (marked s (take n (marks (s_log s))) e) as Hm by (by apply marked_lookup). clear E. rewrite <- Hk. by destruct e.
    - exfalso. apply lookup_ge_None_1 in E. lia.
  Qed.
  Definition step_at (n i : nat) : store Q := default ∅ (option_map snd (steps (before n) !! i)).
  Lemma step_at_eq n i t : option_map fst (steps (before n) !! i) = Some t -> steps (before n) !! i = Some (t, step_at n i).
  Proof. unfold step_at. destruct (steps (before n) !! i) as [[]|]; [|done]. by intros [= ->]. Qed.
End at_mark.
