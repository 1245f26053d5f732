(** Simulators that iterate over their sets of signals in different orders. *)
From stdpp Require Import prelude gmap.
From Verif Require Import Num Res Store Leaf Sched Stepper Sim P_Perm.

Section spec.
  Context {D : Type} `{NumOps D}.

  (** The same simulator where the hash sets of init are iterated in the order [it]. *)
  Definition with_iter (it : list nat -> list nat) (g : cfg D) : cfg D :=
    Cfg (g_dbg g) (g_mode g) (g_tree g) (g_inputs g) (g_icb g) (g_stepper g) it (g_junk g).

  (** A simulation: init and then runs, each with the arguments given (the first number
      bounds the attempts the model of run makes). *)
  Definition replay (g : cfg D) (t0 : D) (calls : list (nat * D * D * D)) : M (simst D) unit :=
    init g t0 ;;; forM calls (fun '(fuel, t, lo, hi) => run g fuel t lo hi).

  (** The same event; the state vectors that go into and come out of the stepper have
      their elements in the order [p]. *)
  Definition same_event (p : list nat) (e1 e2 : event D) : Prop :=
    match e1, e2 with
    | EvTry t1 x t2 y h, EvTry t1' x' t2' y' h' => t1' = t1 /\ x' = perm p x /\ t2' = t2 /\ y' = perm p y /\ h' = h
    | _, _ => e2 = e1
    end.

  (** Two simulators after the same simulation: signals, block members and times are
      the same, and since [L] the same events were recorded. *)
  Record same_simulation (L : list (event D)) (s1 s2 : simst D) : Prop := {
    ss_store : s_store s2 = s_store s1;
    ss_lst : k_lst (s_core s2) = k_lst (s_core s1);
    ss_time : s_tprev s2 = s_tprev s1;
    ss_scal : s_scal s2 ≡ₚ s_scal s1;
    ss_arr : s_arr s2 ≡ₚ s_arr s1;
    ss_vec : exists p v1 v2, p ≡ₚ seq 0 (length (s_sv s1)) /\ s_sv s2 = perm p (s_sv s1) /\
      s_log s1 = L ++ v1 /\ s_log s2 = L ++ v2 /\ Forall2 (same_event p) v1 v2
  }.
End spec.
