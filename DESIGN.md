# Formal model of modjtabaf/pooya in Rocq (Coq 8.16.1)

Sources: `/repo/src` (C++17). Nothing is built or run; the model is a hand
transcription, function by function, and every definition cites the file and
lines it transcribes. This file is written before the proofs and kept current.

## 1. Shape of the model

| File (rocq/theories) | Models |
| --- | --- |
| `Num.v`   | `double` as an abstract type `D` with the operations the code uses (class `NumOps`); instances `R` (`NumR.v`), exact rationals (`NumQ.v`, executable) and IEEE binary64 (`NumF.v`, executable) |
| `Res.v`   | outcome of a C++ call: normal return, exception (with the state at the throw), undefined behaviour, out of fuel; the corresponding state monad |
| `Name.v`  | `shared/named_object.*` |
| `Store.v` | value signals: `signal/*_signal.hpp`, and programs over signals (what an activation function or a user callback does) |
| `World.v` | signal objects, buses (`signal/bus.hpp`), blocks and hierarchy (`block/block.*`, `block/submodel.*`), all `connect` overrides, `BusMemory`, `BusPipe` |
| `Leaf.v`  | `activation_function`, `pre_step`, `post_step` of all library blocks |
| `Sched.v` | `visit`, `_mark_unprocessed`, `process`, `Simulator::process_model` (both modes), `FastSimulator::init/process_model` |
| `Stepper.v` | `Euler`, `Rk4`, `Rkf45` |
| `Sim.v`   | `SimulatorBase::init/run/reset_with_state_variables/get_state_variables`, `Simulator::init` |
| `Hist.v`  | `History` |
| `Own.v`   | the `shared_ptr`s inside signal objects, use counts, the cascade of destructors |
| `Trace.v` | `helper/trace.*`, `helper/util.cpp`, `helper/verify.hpp` |
| `Visit.v` | `Block::visit`, `Submodel::visit` with an arbitrary callback |
| `Api.v`   | the operations a client can perform on signals and blocks (`wop`), and the worlds any sequence of them can lead to (`wreach`) |

The model is executable Gallina. A C++ `double` computation is modelled by the
same expression tree over `D` (same association, same comparisons), so
theorems that use no law of arithmetic hold for IEEE doubles, NaN included.
Theorems about numerical values are stated over `R` (rounding not modelled) and
say so; float specific claims use the binary64 instance.

`POOYA_DEBUG` is a boolean parameter `dbg`: `pooya_debug_verify` throws only if
`dbg = true`.

User code (callbacks, `Function` blocks, `input_cb`) is a `prog`: an arbitrary
finite program that reads and writes signals and may throw. Hidden mutable
state of a user callback is not modelled.

Unspecified iteration order of `std::unordered_set` is an oracle: any
permutation. Uninitialised doubles are an oracle value or `None`.

The log in `core` (`k_log`, events `EvPre`, `EvAct`, `EvTry`, `EvStep`, ...) is
ghost state: it records what an observer of the callbacks would see, no modelled
function reads it. Theorems about the course of a run are stated on it.

## 2. Properties and how they are treated

See `properties.jsonl` for the statements and `MANIFEST.json` for the theorem names.
Specifications live in `Spec*.v` files, which do not use the helpers of the model's
algorithms; property theorems live in `Props_*.v`, each followed by an `Example`
(a concrete case that meets the hypotheses) and `Print Assumptions`; the `P_*.v`
files are lemmas.

| Id | File | Treatment |
| --- | --- | --- |
| C01, C03, C04, C06 | `Props_Signal` (`SpecName`, `SpecStore`) | induction on strings; refinement of operation sequences to write-once registers |
| C02, C05, C07-C10 | `Props_World` | full names, handles, buses; C09 false in general: refuted |
| C11, C12 | `Props_Tree` (`Steps`, `P_Steps`, `P_Ops`, `P_World`, `P_Frame`) | every client operation decomposed into elementary steps with their preconditions; invariants over all reachable worlds |
| C13 | `Props_Wait` (`P_Compile`) | what connect leaves in the link list |
| C14-C16 | `Props_Forest` | hierarchy; C15 false in general: refuted |
| C17-C20 | `Props_Sched` (`SpecSched`, `P_Prog`, `P_Sched`, `P_Modes`, `P_Conf`, `P_Eval`) | an evaluation is a maximal sequence of legal activations; confluence |
| C21, C22 | `Props_Sched2` (`P_Sim`, `P_Rel`, `P_Rel2`) | relation between two simulators carried through whole runs; C22 false for stateless models |
| C23-C27 | `Props_Sched3` (`P_Fast`, `P_Lib`, `SpecBlock`, `P_Refine`) | recorded order; block equations; debug/release refinement |
| C28, C31, C32, C41, C56 | `Props_Block` (`SpecHist`, `P_Trace`, `P_Life`, `Ex_Hist`; `P_Diff`, `Props_Diff` for whole runs in C32) | the history of one block through whole sessions; C32, C56 partly false |
| C29, C30 | `Props_Delay` (`NumOrd`, `P_Delay`) | invariant of the buffers; C30 false in general |
| C33, C35-C38, C43 | `Props_Run`, `Props_Round` (`SpecRun`, `P_Log`, `NumAdd`, `P_Run`) | the log of one run; C36, C37 false in general |
| C34 | `Props_Term` (`P_Term`), `Props_Hang` | termination measure over the reals; a run in binary64 that never ends |
| C39, C40, C55 | `Props_Pack` (`P_Pack`, `P_Grow`, `P_Again`, `P_Repeat`) | state vector; C40, C55 false as expected by a user |
| C42 | `Props_Again` (`SpecAgain`, `P_Over`, `P_Redo`) | rejected steps; false for `TriggeredIntegrator` |
| C44-C47 | `Props_RK` (`SpecRK`, `P_RK`, `P_Perm`) | Butcher tableaus, order conditions, over the reals |
| C48-C51 | `Props_Rec` (`SpecRec`, `P_Rec`) | History against the sequence of calls; C49-C51 false in general |
| C52-C54 | `Props_Bus` (`SpecBus`, `P_Bus`, `P_Build`) | bus builders against paths; C54 false as expected |
| C57 | `Props_Fast` (`P_Both`, `P_Fast2`) | the two evaluations of `FastSimulator::init` have the effect of one; false for `TriggeredIntegrator` |
| C58 | `Props_Fast` (`P_Rel`, `P_Rel2`, `P_FastRun`) | the relation of C21 between a `Simulator` and a `FastSimulator`, through whole runs |
| C59, C60 | `Props_Field` (`SpecField`, example of a user class `Props_User`, `P_Field`, `P_FieldRun`, `P_Posed`, `P_Path`) | `field`: the differential equation of a model, by the equations of its blocks (C25) at one instant; `obeys`: the stepper given any function that computes it; the invariant of C42 through the loop of run |
| C61 | `Props_Conv` (`SpecConv`, `P_Conv`) | error of one Runge-Kutta step by the mean value theorem, growth along the path of C60 and over a sequence of runs |
| C62 | `Props_Lin` (`SpecLin`, `P_Lin`) | stages as polynomials in h A, tall-tree order conditions, Taylor's formula for the solution; same growth argument as C61 |
| C63 | `Props_Calls` (`SpecCalls`) | grammar of the log of one run |
| C64 | `Props_Sized` (`SpecSized`, `P_Sized`) | every operation that returns keeps the sizes equal; the refutation is a concrete client |
| C65 | `Props_Order` (`SpecOrder`, `P_Order`, `P_Order2`) | simulation relation between the two simulators; the state vectors are related by the permutation of blocks given by the two orders |
| C66 | `Props_Own` (`Own`, `SpecOwn`, `P_Own`) | use counts against reachability; integrators in a loop leak |
| C67 | `Props_Fail` (`SpecFail`, `P_Fail`) | what an exception out of `run` leaves; a retry integrates twice |
| C68 | `Props_Safe` (`SpecSafe`, `P_Bound`, `P_Safe`, `P_Safe2`, `P_Safe3`) | no undefined behaviour in a debug build but array sizes and int overflow |
| C69 | `Props_Port` (`P_Port`) | typed members are bound to their ports; integrators link derivatives |
| C70 | `Props_Ord` (`SpecOrd`, `P_Ord`, `P_Ord2`, `P_Ord3`) | O(h^k) calculus; the solution, every stage and one step expanded in elementary differentials up to h^4; the eight tree conditions; Lipschitz stability and the growth argument of C61 |
| C71 | `Props_Smooth` (`SpecSmooth`, `P_Tame`, `P_Tame2`, `P_Tame3`, `P_Smooth`) | jets along a curve are closed under sums, products and smooth functions (Taylor by the mean value theorem); induction over the wiring; C70 |
| C72 | `Props_Dead` (`Dead`, `P_Dead`, `P_Dead2`) | the functions that go through blocks, once more with every access explicit; equality with the plain ones while the model is usable; unlinking false |
| C73 | `Props_Diag`, `Samples`, `Props_Samples` (`SpecDiag`, `P_Diag`, `P_Diag2`, `Samples2`–`Samples4`, `Samples6`, `Props_Tut`) | formulas of a diagram evaluated in order; uniqueness by induction on the order, existence by a store built from the values; order of convergence from C71; the models of six sample programs |
| C74 | `Props_Exist` (`SpecExist`, `P_Exist`, `P_Picard`) | Lipschitz bounds by recursion over the formulas; Picard iteration with antiderivatives of the standard library |
| C75 | `Props_Goes` (`SpecGoes`, `SpecGoes2`, `SpecLint`, `P_Goes`–`P_Goes6`, `P_Lint`) | a Hoare-style predicate `goes` for the programs of blocks; invariant of sane models through evaluation, stepping, init and run; a boolean check that implies sanity |
| C76 | `Props_Total` (`P_Total`) | C73, C74 and C75 put together for six samples (`Props_Tut`: the tutorial) |
| C77 | `Props_Same` (`P_Same`–`P_Same3`) | two legal complete orders of evaluation give the same state; a relation between two simulators of different kinds, kept by evaluation, stepping, init and run; composed with C65 (orders) and C27 (builds) |
| C78 | `Props_Junk` (`P_Junk`) | functions of the simulator commute with exchanging the three arrays; the reads of states and derivatives fill them completely; an attempted step makes the state variables equal |
| C79 | `Props_Trace` (`Trace`, `SpecTrace`) | induction over programs: the global stack holds the records of the active scopes |
| C80 | `Props_Sess` (`SpecSess`, `P_Sess`) | what a sitting leaves (members fit, the values of Delays older than the last time, all blocks marked processed unless refused) is what the next one needs; induction over the sequence; C27 for the release build |
| C81 | `Props_Table` (`SpecTable`, `P_Table`) | invariants of C75 and C48 carried through the loop together; C77 for every prefix of the calls |
| C82 | `Props_Rows` (`SpecRows`, `P_Rows`) | the record of marks ends, after each call, with an evaluation in which nothing is missing and a step; C28, C30, C31 and the lives of the blocks read off there; in a model without states a call adds one step |
| C83 | `Props_Files` (`Samples5`) | the four programs built by the API for any number type, checked by `lint`; C75, C81 and C82 |
| C84 | `Props_Main` (`Samples7`) | the resetting integrator by canonical states between the steps (each step computed with the trigger as a variable); the PID program by C75, C81 and the equations of C82 |

Where the code violates what a user would expect, the statement in
`properties.jsonl` says what does hold, mentions the failing part in
parentheses, a theorem `..._refuted` proves the failure from a concrete reachable
witness, and the note in `MANIFEST.json` calls it a defect.

`P_Evolve`, `SpecSim`, `P_Simulated` describe the states a model can reach through
`init` and `run` (including calls that throw) of any number of simulators one after
the other.

## 3. Trusted base

* Coq 8.16.1 kernel (and `coqchk`).
* std++ (definitions and lemmas only; it has no axioms).
* Axioms: see section 5.
* The transcription: correspondence of the model to the C++ text is by reading.

## 4. Modelled and not modelled

Modelled: everything named in section 1. Simplifications, each repeated in the
comment at the definition concerned:

* user callbacks (`Function`, `Source`, inputs callback, ...) have no hidden state
  (a user-defined block class, `CUser`, has explicit state) and cannot ask
  `is_assigned()` or call `clear()`;
* if a block function throws, the members of that block keep their old values;
* using a typed signal member that is not connected is undefined behaviour;
* the debug check of `IntegratorBase::pre_step` for an output already assigned is the
  one of the signal (`EReassign`), not a separate assertion;
* `vector` capacity checks are left out; allocation always succeeds;
* `Subtract`, `Divide` and `Derivative` are modelled for scalars only (the array
  variants `SubtractA`, `DivideA`, `DerivativeA` apply `-` and `/` to `ArraySignal`
  objects, for which no such operator exists, so they cannot be instantiated);
* a user class that overrides `connect` (as `samples/test09_mass_spring_damper.cpp` does)
  is modelled by client operations after `Leaf::connect`: `OLink` for the protected
  `link_signal` with any flags, `OSetDeriv` for the public `set_deriv_signal`; links
  added to blocks of the library from outside (`io_at` is public) are not modelled
  except through `input` and `output`; blocks are not copied;
* if the search of `FastSimulator::init` throws half way, the partial order is lost;
* NaN in `maxCoeff` is a fold of `nmax`;
* `History`: null signals and the text format of numbers are not modelled.

Destruction of blocks is modelled in `Dead.v` only (C72, which shows that the rest of the
model is right about models whose blocks exist), use counts of signals in `Own.v`.

Not modelled: lifetimes of simulators and histories (they stay alive), message texts
(except for the trace, `Trace.v`), Eigen internals, file system and number formatting in `export_csv`,
gnuplot output, the Python prototype in `misc/`, rounding (except where the
binary64 instance is named), threads (the library has none), wrap-around of the
32-bit block counters. `InitialValueT` does not compile when instantiated
(`get`, `set` and assignment of `nullptr` to a `Bus` do not exist) and is left out.

`Ex_Tests.v` runs every unit test of the repository (`tests/*.cpp`) in the model, with
doubles as IEEE 754 binary64, in a debug and in a release build. All pass, including
the two Delay tests, whose outcome depends on how 732 additions of 0.01 round. They are
evidence that the transcription is faithful and support no theorem.

## 5. Assumptions

`Print Assumptions` says "Closed under the global context" for every theorem of
`MANIFEST.json` except those about real numbers:

    C29_between C33_exact C34_terminates C34_steppers C34_accepted C44_euler
    C44_rk4 C44_rkf45 C44_polynomial C44_linear C45_rkf45 C46_steppers
    C47_invariant C60_rk C61_converges C62_order C70_order C71_order
    C73_field C73_diagram C73_order C73_pendulum C73_spring C73_torque C73_pi C73_damper C73_tutorial
    C74_exists C74_unique C74_order C74_pendulum C74_spring C74_torque C74_pi C74_damper C74_tutorial
    C75_adaptive C75_steppers C76_pendulum C76_spring C76_torque C76_pi C76_damper C76_tutorial C78_reals
    C84_integrator C84_pid C84_once_refuted C32_euler C32_integral

These depend on the standard library's real numbers, that is on

    ClassicalDedekindReals.sig_forall_dec
    FunctionalExtensionality.functional_extensionality_dep

and on nothing else, except that `C84_pid` (which uses the sine) also depends on
`ClassicalDedekindReals.sig_not_dec`, and `C61_converges`, `C62_order`, `C70_order`, `C71_order`, `C73_order`,
the `C73` theorems about samples and all of `C74` and `C76`, which use the exponential
function and the mean value theorem, also depend on

    ClassicalDedekindReals.sig_not_dec
    Classical_Prop.classic

## How to read seeded/LOG.jsonl

Each line is one edit of the model in a scratch copy, rebuilt with `make -k`.

* `first_failure`: the proofs at which the build stopped, as `file:lemma`. This is what was observed.
* `theorems_failed`: theorems of the property named in `claim_broken` that are one of these proofs, or whose proof uses one of them, directly or through other lemmas. This was computed afterwards from the `.glob` files of the unedited build at the time of the last rewrite of the log, not observed one theorem at a time. Uses through hints or tactics are missed.
* `theorems_not_reached`: theorems of that property that were only in, or behind, a file that did not build. Nothing is known about them: they may well be provable for the edited model.

Until this section was written, the last two were one list called `theorems_failed`, which claimed too much: of 657 names 6 were the broken proof itself, and 5 stand before the broken proof in their file. Some of the names had been filled in from MANIFEST.json because the output of the script was cut after 60 theorems.

After the split 34 of the 198 lines had no theorem in `theorems_failed`. 20 of these were made again (field `rerun`): broken lemmas that the claimed theorems do not use were admitted in the scratch copy until a lemma they do use broke. Two edits survived. Line 110 was logged under the wrong property. Line 85 was a real gap, which `C43_stateless` closes. Now 414 names are in `theorems_failed` and 255 in `theorems_not_reached`, and 14 lines (two of which claim nothing) have no theorem in `theorems_failed`. For those the log shows that the edit breaks the build, or in line 23 and 170 led to a tightened theorem, but not that a theorem of the claim, as it was then, notices it.

A proof that breaks does not show that its statement is false of the edited model, since a script may also break at a detail. This was not checked systematically.
