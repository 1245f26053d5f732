(** The unit tests of the repository (tests/*.cpp), run in the model with doubles as
    IEEE 754 binary64.  They do not support any theorem; they show that the model
    agrees with the code wherever the authors of the code wrote down what it should
    do.  Each test is run in a debug build ([true]) and, where it does not test a
    debug check, in a release build ([false]). *)
From stdpp Require Import prelude gmap strings.
From Coq Require Import ZArith Floats.SpecFloat.
From Verif Require Import Num NumF Res Name Store Leaf Sched World Api Stepper Sim.

(** The double nearest to [p / q]: what the compiler makes of a decimal literal. *)
Definition lit (p : Z) (q : positive) : f64 := ndiv (nofZ p) (nofZ (Zpos q)).
Definition lits (q : positive) (l : list Z) : list f64 := map (fun p => lit p q) l.

Section test.
  Context (dbg : bool).
  Notation world := (world f64). Notation simst := (simst f64). Notation cfg := (cfg f64).

  Definition built (ops : list (wop f64)) : world := world_of dbg ops.
  (** [pooya::Simulator sim(block, inputs, stepper)] *)
  Definition simulator (w : world) (b : nat) (inp : option (f64 -> prog f64 unit)) (stp : option (stepper f64)) : cfg :=
    Cfg dbg MDefault (default (TSub 0 [] []) (compile_model w b)) inp (fun _ => PRet tt) stp (fun x => x) (nofZ 0).
  (** default arguments of run (simulator_base.hpp:46) *)
  Definition run1 (g : cfg) (t : f64) : M simst unit := run g 10 t (lit 1 1000) (nofZ 1).
  (** [for (; cond(t); t += dt) sim.run(t);] *)
  Fixpoint run_while (n : nat) (g : cfg) (cond : f64 -> bool) (dt t : f64) : M simst f64 :=
    if cond t then
      match n with
      | O => fun _ => OOF
      | S n' => run1 g t ;;; run_while n' g cond dt (nadd t dt)
      end
    else ret t.
  Definition after {A} (m : M simst A) (w : world) (k : A -> store f64 -> bool) : bool :=
    match m (new_sim (initial_dyn w)) with Ok a s => k a (s_store s) | _ => false end.
  (** EXPECT_EQ on doubles, and EXPECT_NEAR *)
  Definition reads (σ : store f64) (s : nat) (p : val f64 -> bool) : bool :=
    match get_value dbg s σ with Ok v _ => p v | _ => false end.
  Definition eq_d (x : f64) (v : val f64) : bool := match v with VS y => neqb x y | _ => false end.
  Definition eq_a (x : list f64) (v : val f64) : bool :=
    match v with VA y => Nat.eqb (length x) (length y) && forallb (fun p => neqb (fst p) (snd p)) (zip x y) | _ => false end.
  Definition near (tol x y : f64) : bool := nleb (nabs (nsub x y)) tol.
  Definition near_d (tol x : f64) (v : val f64) : bool := match v with VS y => near tol x y | _ => false end.
  Definition near_a (tol : f64) (x : list f64) (v : val f64) : bool :=
    match v with VA y => Nat.eqb (length x) (length y) && forallb (fun p => near tol (fst p) (snd p)) (zip x y) | _ => false end.

  (** *** tests/test_gain.cpp *)
  (** ScalarGain, lines 38-59.  Signals 0 x, 1 y; buses 2, 3. *)
  Definition scalar_gain : bool :=
    let x := lit 37 10 in let k := nofZ 2 in
    let w := built [ONewBlock (CGain TyD (VS k)) LNone None "gain" 1 1; ONewSig KScalar "x"; ONewSig KScalar "y";
                    ONewBus [0] ""; ONewBus [1] ""; OConnect 0 2 3] in
    after (init (simulator w 0 (Some (fun _ => PSet 0 (VS x) (PRet tt))) None) (nofZ 0)) w
      (fun _ σ => reads σ 1 (eq_d (nmul k x))).
  (** IntGain, lines 62-83 *)
  Definition int_gain : bool :=
    let w := built [ONewBlock (CGain TyI (VI 2)) LNone None "" 1 1; ONewSig KInt ""; ONewSig KInt "";
                    ONewBus [0] ""; ONewBus [1] ""; OConnect 0 2 3] in
    after (init (simulator w 0 (Some (fun _ => PSet 0 (VI 3) (PRet tt))) None) (nofZ 0)) w
      (fun _ σ => reads σ 1 (fun v => match v with VI z => Z.eqb z 6 | _ => false end)).
  (** ArrayGain, lines 87-112 *)
  Definition array_gain : bool :=
    let x := lits 100 [370; -250; 1045; 0]%Z in let k := lit (-589) 100 in
    let w := built [ONewBlock (CGain TyA (VS k)) LNone None "" 1 1; ONewSig (KArray 4) ""; ONewSig (KArray 4) "";
                    ONewBus [0] ""; ONewBus [1] ""; OConnect 0 2 3] in
    after (init (simulator w 0 (Some (fun _ => PSet 0 (VA x) (PRet tt))) None) (nofZ 0)) w
      (fun _ σ => reads σ 0 (fun v => match v with VA xs => reads σ 1 (near_a (lit 1 10000000000) (map (nmul k) xs)) | _ => false end)).

  (** *** tests/test_memory.cpp *)
  (** ScalarMemory, lines 38-58 *)
  Definition scalar_memory : bool :=
    let x := lit 37 10 in let x0 := lit (-48) 10 in
    let w := built [ONewBlock (CMemory TyD) (LMem (VS x0)) None "" 1 1; ONewSig KScalar ""; ONewSig KScalar "";
                    ONewBus [0] ""; ONewBus [1] ""; OConnect 0 2 3] in
    after (init (simulator w 0 (Some (fun _ => PSet 0 (VS x) (PRet tt))) None) (nofZ 0)) w
      (fun _ σ => reads σ 1 (eq_d x0)).
  (** ArrayMemory, lines 61-85 *)
  Definition array_memory : bool :=
    let x := lits 100 [370; -250; 1045; 0]%Z in let x0 := lits 100 [-1056; 18; 724; -367]%Z in
    let w := built [ONewBlock (CMemory TyA) (LMem (VA x0)) None "" 1 1; ONewSig (KArray 4) ""; ONewSig (KArray 4) "";
                    ONewBus [0] ""; ONewBus [1] ""; OConnect 0 2 3] in
    after (init (simulator w 0 (Some (fun _ => PSet 0 (VA x) (PRet tt))) None) (nofZ 0)) w
      (fun _ σ => reads σ 1 (eq_a x0)).

  (** *** tests/test_delay.cpp *)
  (** ScalarDelay, lines 38-80.  Signals 0 time_delay, 1 initial, 2 x, 3 y. *)
  Definition delay_world (T : ty) (k : kind) : world :=
    built [ONewBlock (CDelay T (nofZ 10)) (LDelay [] []) None "" 3 1;
           ONewSig KScalar ""; ONewSig k ""; ONewSig k ""; ONewSig k "";
           ONewBusL [("delay", 0); ("in", 2); ("initial", 1)]%string ""; ONewBus [3] ""; OConnect 0 4 5].
  Definition delay_test (w : world) (initial : val f64) (func : f64 -> val f64) (same : val f64 -> bool) (close : val f64 -> val f64 -> bool) : bool :=
    let td := lit 278 100 in let t_end := lit 732 100 in let dt := lit 1 100 in
    let g := simulator w 0 (Some (fun t => PSet 0 (VS td) (PSet 1 initial (PSet 2 (func t) (PRet tt))))) None in
    after (init g (nofZ 0) ;;;
           t <~ run_while 1000 g (fun t => nltb t (ndiv td (nofZ 2))) dt dt ;;
           s <~ gets (fun s => reads (s_store s) 3 same) ;;
           verify s EAssert ;;;
           run_while 1000 g (fun t => nltb t t_end) dt t) w
      (fun _ σ => reads σ 3 (close (func (nsub t_end td)))).
  Definition scalar_delay : bool :=
    delay_test (delay_world TyD KScalar) (VS (nofZ 0)) (fun t => VS (nadd (nmul (lit (-13) 10) t) (lit 492 100)))
      (eq_d (nofZ 0)) (fun x => match x with VS x => near_d (lit 1 10000000000) x | _ => fun _ => false end).
  (** ArrayDelay, lines 83-127 *)
  Definition array_delay : bool :=
    let A := lits 100 [370; -250; 1045; 0; -2]%Z in let B := lits 1000 [-10560; 180; 7240; -3670; 876]%Z in
    let zero := replicate 5 (nofZ 0 : f64) in
    delay_test (delay_world TyA (KArray 5)) (VA zero) (fun t => VA (map (fun p => nadd (nmul (fst p) t) (snd p)) (zip A B)))
      (eq_a zero) (fun x => match x with VA x => near_a (lit 1 10000000000) x | _ => fun _ => false end).
End test.

(** *** tests/test_scalar_signal.cpp, lines 34-76: a signal in a debug build.  [throws]
    is EXPECT_THROW of a std::runtime_error (pooya_verify), [fine] EXPECT_NO_THROW. *)
Definition throws {A} (m : M (store f64) A) : M (store f64) unit :=
  fun σ => match m σ with Exn _ σ' => Ok tt σ' | _ => Exn EAssert σ end.
Definition gives (m : M (store f64) (val f64)) (x : f64) : M (store f64) unit :=
  v <~ m ;; verify (eq_d x v) EAssert.
Definition scalar_signal : M (store f64) unit :=
  let x := lit 37 10 in
  throws (get_value true 0) ;;; throws (get_value true 0) ;;;
  set_value true 0 (VS x) ;;; gives (get_value true 0) x ;;; clear_sig 0 ;;;
  throws (get_value true 0) ;;; throws (get_value true 0) ;;;
  set_value true 0 (VS x) ;;; gives (get_value true 0) x ;;;
  throws (set_value true 0 (VS x)) ;;; throws (set_value true 0 (VS x)).

(** *** tests/test_bus.cpp, lines 33-53: signal 0 is x, 1 is bus1, 2 is bus2. *)
Definition test_bus : bool :=
  match exec_all true [ONewSig KScalar "x"; ONewBusL [("s0", 0)]%string ""; ONewBus [0; 1] ""] (empty_world (D:=f64)) with
  | Ok _ w =>
      match bus_members 1 w, bus_members 2 w with
      | Ok m1 _, Ok m2 _ =>
          Nat.eqb (length m1) 1 && bool_decide (snd <$> m1 !! 0 = Some 0) &&
          Nat.eqb (length m2) 2 && bool_decide (snd <$> m2 !! 0 = Some 0) &&
          match w_sigs w !! 0 with Some o => negb (is_bus (so_kind o)) | None => false end
      | _, _ => false
      end
  | _ => false
  end.

(** All unit tests pass. *)
Theorem tests_scalar_gain : scalar_gain true = true /\ scalar_gain false = true. Proof. split; vm_compute; reflexivity. Qed.
Theorem tests_int_gain : int_gain true = true /\ int_gain false = true. Proof. split; vm_compute; reflexivity. Qed.
Theorem tests_array_gain : array_gain true = true /\ array_gain false = true. Proof. split; vm_compute; reflexivity. Qed.
Theorem tests_scalar_memory : scalar_memory true = true /\ scalar_memory false = true. Proof. split; vm_compute; reflexivity. Qed.
Theorem tests_array_memory : array_memory true = true /\ array_memory false = true. Proof. split; vm_compute; reflexivity. Qed.
Theorem tests_scalar_signal : match scalar_signal {[0 := Cell KScalar None false None]} with Ok _ _ => True | _ => False end.
Proof. vm_compute. exact I. Qed.
Theorem tests_bus : test_bus = true. Proof. vm_compute. reflexivity. Qed.
Theorem tests_scalar_delay : scalar_delay true = true /\ scalar_delay false = true. Proof. split; vm_compute; reflexivity. Qed.
Theorem tests_array_delay : array_delay true = true /\ array_delay false = true. Proof. split; vm_compute; reflexivity. Qed.
