(** Property C43 for models without states. *)
From stdpp Require Import prelude gmap strings.
From Coq Require Import ZArith QArith.
From Verif Require Import Num NumQ Res Name Store Leaf Sched Stepper Sim World Api P_Rel P_Rel2 SpecHist P_Trace P_Delay SpecRun P_Log P_Run Ex_Models Ex_Hist Samples Props_Run.
Local Open Scope nat_scope.

(** A run of an initialised simulator whose model has no states, to any time: no stepper,
    one pre_step and one post_step of every block in the order of the model, around one
    evaluation, all at the time of the call. *)
Theorem C43_stateless : forall D `{NumOps D} (g : cfg D) fuel t lo hi s s', run g fuel t lo hi s = Ok tt s' -> s_init s = true -> s_sv s = [] ->
  s_tprev s' = t /\ exists acts σ0 ms0 σ1 ms1 σ2 ms2,
    s_log s' = s_log s ++ EvInputs t :: map (fun l => EvPre (l_id l) t) (leaves (g_tree g)) ++ EvBegin t σ0 ms0 ::
      map (fun b => EvAct b t) acts ++ EvEval t σ1 ms1 :: map (fun l => EvPost (l_id l) t) (leaves (g_tree g)) ++ [EvStep t σ2 ms2].
Proof.
  intros D ? g fuel t lo hi s s' Hr Hi Hn. unfold run in Hr. unfold bnd at 1, gets at 1 in Hr. rewrite Hi in Hr. cbn [negb] in Hr.
  unfold bnd at 1, gets at 1 in Hr. unfold bnd at 1, gets at 1 in Hr. rewrite Hn in Hr. cbn [length] in Hr.
  unfold bnd at 1, ret at 1 in Hr. unfold bnd at 1, gets at 1 in Hr. rewrite Hn in Hr.
  unfold bnd at 1 in Hr. destruct (reset_sv g [] s) as [[] s1| | |] eqn:E1; try done.
  unfold bnd at 1 in Hr. destruct (process_model g t true true s1) as [[] s2| | |] eqn:E2; try done. injection Hr as <-. split; [done|].
  destruct (adds_reset g [] _ _ _ E1) as (v0 & L1 & ->). destruct (adds_first g t _ _ _ E2) as (v & L2 & v1 & acts & σ1 & ms1 & v2 & -> & (σ0 & ms0 & ->) & (σ2 & ms2 & ->)).
  exists acts, σ0, ms0, σ1, ms1, σ2, ms2. change (s_log (put_tprev t s2)) with (s_log s2). rewrite L2, L1, app_nil_r, !map_map. cbn. rewrite <- !app_assoc. cbn. done.
Qed.
Print Assumptions C43_stateless.

(** A Memory that feeds another one: signals 0 u, 1 v, 2 x. *)
Definition mm_ops : list (wop Q) :=
  [ ONewBlock CSubmodel LNone None "m" NoIOLimit NoIOLimit; ONewBlock (CMemory TyD) (LMem (VS 7%Q)) (Some 0) "a" 1 1; ONewBlock (CMemory TyD) (LMem (VS 8%Q)) (Some 0) "b" 1 1;
    ONewSig KScalar "u"; ONewSig KScalar "v"; ONewSig KScalar "x"; ONewBus [0] ""; ONewBus [1] ""; OConnect 1 3 4; ONewBus [1] ""; ONewBus [2] ""; OConnect 2 5 6 ]%string.
Definition mm_world : world Q := world_of true mm_ops.
Definition mm_cfg : cfg Q := Cfg true MDefault (default (TSub 0 [] []) (compile_model mm_world 0)) (Some (fun t => PSet 0 (VS t) (PRet tt))) (fun _ => PRet tt) None (fun l => l) 0%Q.
Definition mm_0 : simst Q := st_of (new_sim (initial_dyn mm_world)) (init mm_cfg 0%Q (new_sim (initial_dyn mm_world))).
Definition mm_1 : simst Q := st_of mm_0 (run mm_cfg 1 1%Q 1%Q 1%Q mm_0).
Example C43_stateless_ex : run mm_cfg 1 1%Q 1%Q 1%Q mm_0 = Ok tt mm_1 /\ s_init mm_0 = true /\ s_sv mm_0 = [] /\
  pres_of (new_log mm_0 mm_1) = [EvPre 1 1%Q; EvPre 2 1%Q] /\ posts (new_log mm_0 mm_1) = [EvPost 1 1%Q; EvPost 2 1%Q].
Proof. split; [apply is_ok_run; vm_compute; reflexivity|]. split_and!; vm_compute; reflexivity. Qed.
