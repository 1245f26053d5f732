(** Concrete models, built with the client operations, used as non-trivial cases
    beside the theorems and as counterexamples.  Numbers are exact rationals. *)
From stdpp Require Import prelude gmap strings.
From Coq Require Import ZArith QArith.
From Verif Require Import Num NumQ Res Name Store Leaf Sched World Api Stepper Sim SpecSched.

Local Open Scope nat_scope.

(** The world [w] obtained by the operations [ops] is reachable. *)
Ltac reach_ops w ops := unfold w, world_of;
  let E := fresh in destruct (exec_all true ops empty_world) as [? ?|? ?|?|] eqn:E; [|constructor..];
  eapply exec_all_reach; [constructor| |exact E]; unfold ops;
  repeat (apply Forall_cons; split; [cbn; eauto|]); apply Forall_nil; done.

(** A model whose blocks are added in the wrong order: the Add first, then a
    submodel with the Gain, then the Const.
      signals 0 = x, 1 = 2x, 2 = x + 2x
      blocks  0 root, 1 Add, 2 submodel, 3 Gain, 4 Const *)
Definition ex1_ops : list (wop Q) :=
  [ ONewSig KScalar "x"; ONewSig KScalar "y"; ONewSig KScalar "z";
    ONewBus [0; 1] ""; ONewBus [2] ""; ONewBus [0] ""; ONewBus [1] ""; ONewBus [] "";
    ONewBlock CSubmodel LNone None "root" NoIOLimit NoIOLimit;
    ONewBlock (CAdd TyD (VS 0%Q)) LNone (Some 0) "add" NoIOLimit 1;
    ONewBlock CSubmodel LNone (Some 0) "sub" NoIOLimit NoIOLimit;
    ONewBlock (CGain TyD (VS 2%Q)) LNone (Some 2) "gain" 1 1;
    ONewBlock (CConst TyD (VS 5%Q)) LNone (Some 0) "const" 0 1;
    OConnect 1 3 4; OConnect 3 5 6; OConnect 4 7 5 ].
Definition ex1_world : world Q := world_of true ex1_ops.
Definition tree_of (w : world Q) : tree Q := default (TSub 0 [] []) (compile_model w 0).
Definition ex1_tree : tree Q := tree_of ex1_world.
Definition ex1_dyn : dyn Q := initial_dyn ex1_world.

Definition is_ok {S A} (r : res S A) : bool := match r with Ok _ _ => true | _ => false end.
Definition st_of {S A} (d : S) (r : res S A) : S := match r with Ok _ s => s | Exn _ s => s | _ => d end.

Example ex1_built : is_ok (exec_all true ex1_ops empty_world) = true /\ length (nodes ex1_tree) = 5 /\ map l_id (leaves ex1_tree) = [1; 3; 4].
Proof. by vm_compute. Qed.
Example ex1_runs :
  let r := process_all true ex1_tree 0%Q (mark_unprocessed ex1_tree ex1_dyn) in
  is_ok r = true /\ value (k_store (d_core (st_of ex1_dyn r))) 2 = Some (VS 15%Q).
Proof. by vm_compute. Qed.

(** The same leaves, the other way round and grouped differently. *)
Definition ex1_tree' : tree Q :=
  match leaves ex1_tree with
  | [a; g; c] => TSub 10 [] [TLeaf c; TSub 11 [] [TSub 12 [] []; TLeaf g; TLeaf a]]
  | _ => TSub 0 [] []
  end.

(** A model with states: the oscillator x' = v, v' = -x, a Memory and an
    unfinished algebraic loop.
      signals 0 = x, 1 = v, 2 = -x, 3 = memory of x
      blocks 0 root, 1 Integrator v -> x, 2 Integrator -x -> v, 3 Gain x -> -x,
             4 Memory x -> 3 *)
Definition ex2_ops : list (wop Q) :=
  [ ONewSig KScalar "x"; ONewSig KScalar "v"; ONewSig KScalar "a"; ONewSig KScalar "m";
    ONewBus [0] ""; ONewBus [1] ""; ONewBus [2] ""; ONewBus [3] "";
    ONewBlock CSubmodel LNone None "root" NoIOLimit NoIOLimit;
    ONewBlock (CInteg TyD) (LInteg (VS 1%Q) false) (Some 0) "ix" 1 1;
    ONewBlock (CInteg TyD) (LInteg (VS 0%Q) false) (Some 0) "iv" 1 1;
    ONewBlock (CGain TyD (VS (-1)%Q)) LNone (Some 0) "gain" 1 1;
    ONewBlock (CMemory TyD) (LMem (VS 7%Q)) (Some 0) "mem" 1 1;
    OConnect 1 5 4; OConnect 2 6 5; OConnect 3 4 6; OConnect 4 4 7 ].
Definition ex2_world : world Q := world_of true ex2_ops.
Definition ex2_tree : tree Q := tree_of ex2_world.
Definition ex2_dyn : dyn Q := initial_dyn ex2_world.
Example ex2_built : is_ok (exec_all true ex2_ops empty_world) = true /\ map l_id (leaves ex2_tree) = [1; 2; 3; 4].
Proof. by vm_compute. Qed.

Definition ex2_cfg (m : mode) (dbg : bool) (s : stepper Q) : cfg Q :=
  Cfg dbg m ex2_tree None (fun _ => PRet tt) (Some s) (fun x => x) 0%Q.
Example ex2_runs :
  is_ok ((init (ex2_cfg MDefault true rk4) 0%Q ;;; run (ex2_cfg MDefault true rk4) 10 1%Q (1#100)%Q 10%Q) (new_sim ex2_dyn)) = true.
Proof. by vm_compute. Qed.
Lemma ex1_reach : wreach true ex1_world.
Proof.
  unfold ex1_world, world_of. destruct (exec_all true ex1_ops empty_world) as [u w|? ?|?|] eqn:E; [|constructor..].
  eapply exec_all_reach; [constructor| |exact E]. unfold ex1_ops. repeat (apply Forall_cons; split; [cbn; auto|]). apply Forall_nil. done.
Qed.
Lemma ex2_reach : wreach true ex2_world.
Proof.
  unfold ex2_world, world_of. destruct (exec_all true ex2_ops empty_world) as [u w|? ?|?|] eqn:E; [|constructor..].
  eapply exec_all_reach; [constructor| |exact E]. unfold ex2_ops. repeat (apply Forall_cons; split; [cbn; eauto|]). apply Forall_nil. done.
Qed.
