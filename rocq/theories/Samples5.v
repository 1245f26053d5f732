(** Property C83: the sample programs without states, for all numbers and functions. *)
From stdpp Require Import prelude gmap strings.
From Coq Require Import ZArith NArith.
From Verif Require Import Num NumOrd NumAdd Res Name Store Leaf Sched Stepper Sim World Api P_Store P_World P_Rel SpecHist SpecSafe SpecGoes SpecGoes2 SpecLint SpecTable SpecRows P_Goes P_Goes4 Props_Goes Ex_Models.
Local Open Scope nat_scope.

Ltac each_leaf := repeat (apply Forall_cons_2; [try exact I|]); [..|apply Forall_nil_2].
Section samples.
  Context {D : Type} `{NumOps D}.
  (** [x = f(t)] in the callback for the input signals; [x] is signal 0. *)
  Definition set_x (f : D -> D) (t : D) : prog D unit := PSet 0 (VS (f t)) (PRet tt).
  Lemma set_x_goes K f t : K 0 = Some KScalar -> goes K (fun _ => False) [0] (fun _ => True) (set_x f t).
  Proof. intros K0. cbn. exists [], KScalar. done. Qed.
  Lemma checked_free w b m (tr : tree D) inp it tol ins1 : wreach true w -> compile_model w b = Some tr -> (forall l, it l ≡ₚ l) ->
    lint m w ins1 [] tr = true -> (forall l, l ∈ leaves tr -> user_ok (sig_kinds w) (fun a b => nltb a b = true) l) -> forallb no_user (leaves tr) = true ->
    (forall f t, inp = Some f -> goes (sig_kinds w) (fun _ => False) ins1 (fun _ => True) (f t)) -> (inp = None -> ins1 = []) -> m ≠ MReuse ->
    checked w b (Cfg true m tr inp (fun _ => PRet tt) None it tol) ins1 [].
  Proof.
    intros Hw Hm Hi Hl Hu Hb Hin Hin0 Hr. split; cbn; try done.
    intros l o Hl' _. by eapply no_user_ok.
  Qed.

  (** samples/memory_block.cpp:34-48 *)
  Section memory.
    Context (x0 : D) (f : D -> D).
    Definition mb_ops : list (wop D) :=
      [ ONewBlock (CMemory TyD) (LMem (VS x0)) None "" 1 1; ONewSig KScalar "x"; ONewSig KScalar "y";
        ONewBus [0] ""; ONewBus [1] ""; OConnect 0 2 3 ]%nat.
    Definition mb_world : world D := world_of true mb_ops.
    Definition mb_tree : tree D := default (TSub 0 [] []) (compile_model mb_world 0).
    Definition mb_cfg (m : mode) (it : list nat -> list nat) : cfg D := Cfg true m mb_tree (Some (set_x f)) (fun _ => PRet tt) None it n0.
    Lemma mb_reach : wreach true mb_world.
    Proof. reach_ops mb_world mb_ops. Qed.
    Lemma mb_model : compile_model mb_world 0 = Some mb_tree.
    Proof. vm_compute. reflexivity. Qed.
    Lemma mb_user K nxt : Forall (user_ok K nxt) (leaves mb_tree).
    Proof.
      assert (exists ls, leaves mb_tree = ls /\ Forall (user_ok K nxt) ls) as (ls & -> & Hls); [|exact Hls].
      eexists. split; [vm_compute; reflexivity|]. each_leaf.
    Qed.
    Lemma mb_checked m it : m ≠ MReuse -> (forall l, it l ≡ₚ l) -> checked mb_world 0 (mb_cfg m it) [0] [].
    Proof.
      intros Hm Hi. apply checked_free; [apply mb_reach|apply mb_model|exact Hi|destruct m; vm_compute; reflexivity| |vm_compute; reflexivity| |intros E; discriminate E|exact Hm].
      - apply Forall_forall. apply mb_user.
      - intros f' t [= <-]. apply set_x_goes. vm_compute. reflexivity.
    Qed.
  End memory.

  (** samples/gain_block.cpp:34-48 *)
  Section gain.
    Context (k : D) (f : D -> D).
    Definition gb_ops : list (wop D) :=
      [ ONewBlock (CGain TyD (VS k)) LNone None "" 1 1; ONewSig KScalar "x"; ONewSig KScalar "y";
        ONewBus [0] ""; ONewBus [1] ""; OConnect 0 2 3 ]%nat.
    Definition gb_world : world D := world_of true gb_ops.
    Definition gb_tree : tree D := default (TSub 0 [] []) (compile_model gb_world 0).
    Definition gb_cfg (m : mode) (it : list nat -> list nat) : cfg D := Cfg true m gb_tree (Some (set_x f)) (fun _ => PRet tt) None it n0.
    Lemma gb_reach : wreach true gb_world.
    Proof. reach_ops gb_world gb_ops. Qed.
    Lemma gb_model : compile_model gb_world 0 = Some gb_tree.
    Proof. vm_compute. reflexivity. Qed.
    Lemma gb_user K nxt : Forall (user_ok K nxt) (leaves gb_tree).
    Proof.
      assert (exists ls, leaves gb_tree = ls /\ Forall (user_ok K nxt) ls) as (ls & -> & Hls); [|exact Hls].
      eexists. split; [vm_compute; reflexivity|]. each_leaf.
    Qed.
    Lemma gb_checked m it : m ≠ MReuse -> (forall l, it l ≡ₚ l) -> checked gb_world 0 (gb_cfg m it) [0] [].
    Proof.
      intros Hm Hi. apply checked_free; [apply gb_reach|apply gb_model|exact Hi|destruct m; vm_compute; reflexivity| |vm_compute; reflexivity| |intros E; discriminate E|exact Hm].
      - apply Forall_forall. apply gb_user.
      - intros f' t [= <-]. apply set_x_goes. vm_compute. reflexivity.
    Qed.
  End gain.

  (** samples/delay_block.cpp:29-69: [source] with any function, any delay [d] and initial
      value [a], any lifespan [L]. *)
  Section delay.
    Context (f : D -> D) (d a L : D).
    Definition db_ops : list (wop D) :=
      [ ONewBlock CSubmodel LNone None "" NoIOLimit NoIOLimit;
        ONewBlock (CSource TyD (fun t => PRet (VS (f t)))) LNone (Some 0) "" NoIOLimit 1;
        ONewBlock (CConst TyD (VS d)) LNone (Some 0) "" 0 1;
        ONewBlock (CConst TyD (VS a)) LNone (Some 0) "" 0 1;
        ONewBlock (CDelay TyD L) (LDelay [] []) (Some 0) "" 3 1;
        ONewSig KScalar ""; ONewSig KScalar ""; ONewSig KScalar ""; ONewSig KScalar "";
        ONewBus [] ""; ONewBus [0] ""; OConnect 1 4 5;
        ONewBus [] ""; ONewBus [2] ""; OConnect 2 6 7;
        ONewBus [] ""; ONewBus [3] ""; OConnect 3 8 9;
        ONewBusL [("delay"%string, 2); ("in"%string, 0); ("initial"%string, 3)] ""; ONewBus [1] ""; OConnect 4 10 11 ]%nat.
    Definition db_world : world D := world_of true db_ops.
    Definition db_tree : tree D := default (TSub 0 [] []) (compile_model db_world 0).
    Definition db_cfg (m : mode) (it : list nat -> list nat) : cfg D := Cfg true m db_tree None (fun _ => PRet tt) None it n0.
    Lemma db_reach : wreach true db_world.
    Proof. reach_ops db_world db_ops. Qed.
    Lemma db_model : compile_model db_world 0 = Some db_tree.
    Proof. vm_compute. reflexivity. Qed.
    Lemma db_user K : K 0 = Some KScalar -> Forall (user_ok K (fun a b : D => nltb a b = true)) (leaves db_tree).
    Proof.
      intros K0. assert (exists ls, leaves db_tree = ls /\ Forall (user_ok K (fun a b : D => nltb a b = true)) ls) as (ls & -> & Hls); [|exact Hls].
      eexists. split; [vm_compute; reflexivity|]. each_leaf.
      - intros t. cbn. split; [done|]. exists 0, KScalar. done.
      - intros x y Hxy. exact Hxy.
    Qed.
    Lemma db_checked m it : m ≠ MReuse -> (forall l, it l ≡ₚ l) -> checked db_world 0 (db_cfg m it) [] [].
    Proof.
      intros Hm Hi. apply checked_free; [apply db_reach|apply db_model|exact Hi|destruct m; vm_compute; reflexivity| |vm_compute; reflexivity| |done|exact Hm].
      - apply Forall_forall. apply db_user. vm_compute. reflexivity.
      - intros f' t E. discriminate E.
    Qed.
  End delay.

  (** samples/test10_memory_with_bus.cpp:34-91: any functions for the three signals that are
      set, any initial value [z] of [Z.z3]. *)
  Section bus.
    Context (f0 f2 f3 : D -> D) (z : D).
    Definition bm_ops : list (wop D) :=
      [ ONewBlock CSubmodel LNone None "" NoIOLimit NoIOLimit; ORenameBlk 0 "test10";
        ONewBlock (CBusMem [("Z.z3"%string, VS z)] ["x1"%string]) LNone (Some 0) "" NoIOLimit NoIOLimit;
        ONewSig KScalar "x0"; ONewSig KScalar "x1"; ONewSig KScalar "z3"; ONewBusL [("z3"%string, 2)] "Z"; ONewSig KScalar "x2";
        ONewBusL [("x0"%string, 0); ("x1"%string, 1); ("Z"%string, 3); ("x2"%string, 4)] "x";
        ONewSig KScalar "x0"; ONewSig KScalar "x1"; ONewSig KScalar "z3"; ONewBusL [("z3"%string, 8)] "Z"; ONewSig KScalar "x2";
        ONewBusL [("x0"%string, 6); ("x1"%string, 7); ("Z"%string, 9); ("x2"%string, 10)] "y";
        OConnect 1 5 11 ]%nat.
    Definition bm_world : world D := world_of true bm_ops.
    Definition bm_tree : tree D := default (TSub 0 [] []) (compile_model bm_world 0).
    Definition bm_inputs (t : D) : prog D unit := PSet 0 (VS (f0 t)) (PSet 4 (VS (f2 t)) (PSet 2 (VS (f3 t)) (PRet tt))).
    Definition bm_cfg (m : mode) (it : list nat -> list nat) : cfg D := Cfg true m bm_tree (Some bm_inputs) (fun _ => PRet tt) None it n0.
    Lemma bm_reach : wreach true bm_world.
    Proof. reach_ops bm_world bm_ops. Qed.
    Lemma bm_model : compile_model bm_world 0 = Some bm_tree.
    Proof. vm_compute. reflexivity. Qed.
    Lemma bm_user K nxt : Forall (user_ok K nxt) (leaves bm_tree).
    Proof.
      assert (exists ls, leaves bm_tree = ls /\ Forall (user_ok K nxt) ls) as (ls & -> & Hls); [|exact Hls].
      eexists. split; [vm_compute; reflexivity|]. each_leaf.
    Qed.
    Lemma bm_sets K t : K 0 = Some KScalar -> K 2 = Some KScalar -> K 4 = Some KScalar -> goes K (fun _ => False) [0; 4; 2] (fun _ => True) (bm_inputs t).
    Proof. intros K0 K2 K4. cbn. exists [4; 2], KScalar. split_and!; try done. exists [2], KScalar. split_and!; try done. exists [], KScalar. done. Qed.
    (** Only for a Simulator: a FastSimulator also waits for the inputs of the BusMemory
        itself, and nobody assigns x1. *)
    Lemma bm_checked it : (forall l, it l ≡ₚ l) -> checked bm_world 0 (bm_cfg MDefault it) [0; 4; 2] [].
    Proof.
      intros Hi. apply checked_free; [apply bm_reach|apply bm_model|exact Hi|vm_compute; reflexivity| |vm_compute; reflexivity| |intros E; discriminate E|discriminate].
      - apply Forall_forall. apply bm_user.
      - intros f' t [= <-]. apply bm_sets; vm_compute; reflexivity.
    Qed.
    Lemma bm_fast : lint MFast bm_world [0; 4; 2] [] bm_tree = false.
    Proof. vm_compute. reflexivity. Qed.
  End bus.
End samples.
