{
 "claims": [
  {
   "property": "C01",
   "status": "proved",
   "theorems": [
    "C01_sanitised",
    "C01_reachable"
   ],
   "note": ""
  },
  {
   "property": "C02",
   "status": "proved",
   "theorems": [
    "C02_full_name",
    "C02_decodes"
   ],
   "note": "Holds for the reachable worlds because names are sanitised to be free of '/'."
  },
  {
   "property": "C03",
   "status": "proved",
   "theorems": [
    "C03_write_once"
   ],
   "note": ""
  },
  {
   "property": "C04",
   "status": "proved",
   "theorems": [
    "C04_frame"
   ],
   "note": ""
  },
  {
   "property": "C05",
   "status": "proved",
   "theorems": [
    "C05_handles",
    "C05_members"
   ],
   "note": "C05_members also shows that the typed members of connected blocks hold signals of their type in every reachable world."
  },
  {
   "property": "C06",
   "status": "proved",
   "theorems": [
    "C06_array_size"
   ],
   "note": ""
  },
  {
   "property": "C07",
   "status": "proved",
   "theorems": [
    "C07_labelled",
    "C07_unlabelled",
    "C07_index"
   ],
   "note": ""
  },
  {
   "property": "C08",
   "status": "proved",
   "theorems": [
    "C08_at",
    "C08_components"
   ],
   "note": ""
  },
  {
   "property": "C09",
   "status": "proved",
   "theorems": [
    "C09_try_at",
    "C09_refuted"
   ],
   "note": "The original claim (nullopt in every other case) is false of the code: C09_refuted shows try_at throwing when a nested component is missing, and undefined behaviour (dereferencing a failed cast) when a non-final first component is not a bus. The restated property is what holds."
  },
  {
   "property": "C10",
   "status": "proved",
   "theorems": [
    "C10_names"
   ],
   "note": ""
  },
  {
   "property": "C11",
   "status": "proved",
   "theorems": [
    "C11_connect"
   ],
   "note": ""
  },
  {
   "property": "C12",
   "status": "proved",
   "theorems": [
    "C12_links",
    "C12_reachable"
   ],
   "note": ""
  },
  {
   "property": "C13",
   "status": "proved",
   "theorems": [
    "C13_required"
   ],
   "note": "TriggeredIntegrator over double and array as instantiated by the library (the boolean instance would make input and trigger the same type)."
  },
  {
   "property": "C14",
   "status": "proved",
   "theorems": [
    "C14_views",
    "C14_parent_kept",
    "C14_set_parent"
   ],
   "note": ""
  },
  {
   "property": "C15",
   "status": "proved",
   "theorems": [
    "C15_forest",
    "C15_empty",
    "C15_ends",
    "C15_refuted"
   ],
   "note": "The original claim is false: Block::set_parent accepts the block itself or one of its descendants (C15_refuted: a submodel that is its own parent; full_name and traversal never end). The restated property holds for clients that avoid this."
  },
  {
   "property": "C16",
   "status": "proved",
   "theorems": [
    "C16_visit",
    "C16_calls",
    "C16_blocks",
    "C16_insertion",
    "C16_siblings"
   ],
   "note": ""
  },
  {
   "property": "C17",
   "status": "proved",
   "theorems": [
    "C17_passes",
    "C17_terminates",
    "C17_fast"
   ],
   "note": ""
  },
  {
   "property": "C18",
   "status": "proved",
   "theorems": [
    "C18_at_most_once"
   ],
   "note": ""
  },
  {
   "property": "C19",
   "status": "proved",
   "theorems": [
    "C19_exhaustive"
   ],
   "note": ""
  },
  {
   "property": "C20",
   "status": "proved",
   "theorems": [
    "C20_confluence",
    "C20_both",
    "C20_release",
    "C20_nested_bus_refuted"
   ],
   "note": "User functions must read only signals their block waits for; C20_nested_bus_refuted shows the condition is needed."
  },
  {
   "property": "C21",
   "status": "proved",
   "theorems": [
    "C21_order",
    "C21_evaluation",
    "C21_runs",
    "C21_builder_refuted"
   ],
   "note": "Debug build; release follows by C27. C21_builder_refuted: the unrestricted claim is false, with a BusPipe in the model initialisation with reuse_order throws in a debug build while it works without."
  },
  {
   "property": "C22",
   "status": "proved",
   "theorems": [
    "C22_stateful",
    "C22_stateless",
    "C22_stateless_refuted"
   ],
   "note": "Defect: simulator.cpp:129 sets _current_po only if there are state variables, simulator.cpp:47 dereferences it always. C22_stateless: initialisation never returns; C22_stateless_refuted: it is a null dereference on a model that works without reuse_order."
  },
  {
   "property": "C23",
   "status": "proved",
   "theorems": [
    "C23_accepts",
    "C23_order",
    "C23_init",
    "C23_used_model_refuted",
    "C23_bus_refuted"
   ],
   "note": "C23_accepts is for the debug build; C23_order for both. C23_used_model_refuted: a model already evaluated by Simulator is refused. DEFECT: C23_bus_refuted: FastSimulator refuses the model of samples/test10_memory_with_bus.cpp, because it waits for the inputs of the BusMemory itself, one of which (excluded) nobody assigns; Simulator marks such blocks processed from the start."
  },
  {
   "property": "C24",
   "status": "proved",
   "theorems": [
    "C24_evaluation",
    "C24_library"
   ],
   "note": "One evaluation, both directions, debug build. C24_library: library blocks meet the condition that a block always writes the same signals."
  },
  {
   "property": "C25",
   "status": "proved",
   "theorems": [
    "C25_equations",
    "C25_fast"
   ],
   "note": "Simulator with and without reuse_order, and FastSimulator."
  },
  {
   "property": "C26",
   "status": "proved",
   "theorems": [
    "C26_ranked",
    "C26_loop",
    "C26_library"
   ],
   "note": ""
  },
  {
   "property": "C27",
   "status": "proved",
   "theorems": [
    "C27_evaluation",
    "C27_process",
    "C27_init",
    "C27_run",
    "C27_solvers",
    "C27_client",
    "C27_converse_refuted"
   ],
   "note": "C27_converse_refuted: release builds go on where debug builds throw."
  },
  {
   "property": "C28",
   "status": "proved",
   "theorems": [
    "C28_steps",
    "C28_evaluations"
   ],
   "note": "C28_steps: over all accepted steps of any simulation (any world, history of runs, stepper, mode); its hypothesis that the Memory requires nothing holds of connected Memories (C28_ex shows one). C28_evaluations: also in every evaluation inside a step."
  },
  {
   "property": "C29",
   "status": "proved",
   "theorems": [
    "C29_safe",
    "C29_output",
    "C29_between",
    "C29_nan"
   ],
   "note": "For every simulation over numbers with the order laws (NumOrd: reals, rationals). C29_nan shows that the laws are needed: DEFECT in binary64, a NaN delay signal makes DelayT::activation_function index one past the end."
  },
  {
   "property": "C30",
   "status": "proved",
   "theorems": [
    "C30_delayed",
    "C30_first",
    "C30_lifespan",
    "C30_refuted"
   ],
   "note": "DEFECT: DelayT::post_step erases every sample older than t - lifespan, also the one needed to interpolate at t - lifespan, so the block falls back to the initial value although delay <= lifespan (C30_refuted). Property restated."
  },
  {
   "property": "C31",
   "status": "proved",
   "theorems": [
    "C31_first",
    "C31_quotient"
   ],
   "note": "For every evaluation in any simulation in which the block was processed."
  },
  {
   "property": "C32",
   "status": "proved",
   "theorems": [
    "C32_repeat",
    "C32_refuted",
    "C32_integral_refuted",
    "C32_euler",
    "C32_integral"
   ],
   "note": "DEFECT: re-evaluated at the time of the last accepted step, Derivative outputs its input instead of a derivative (derivative.hpp: post_step assigns _y = _x, and activation_function outputs _y if _t == t). Every fixed-step method evaluates the model at the start of a step, so a model integrating a Derivative sees wrong values. Property restated; C32_refuted is the counterexample to the natural claim. C32_integral_refuted shows what this does in a simulation: an Integrator fed by a Derivative of u = 5 + t, with Euler, records v = 1 in every line but x grows by u instead of 1. C32_euler is the general statement: in any model, with Euler, a state fed by a Derivative grows by the step times the input of the Derivative. C32_integral is the table of the program Derivative -> Integrator for every input signal, every mode but MReuse and all increasing times, which also instantiates C32_euler."
  },
  {
   "property": "C33",
   "status": "proved",
   "theorems": [
    "C33_ends",
    "C33_exact"
   ],
   "note": "Over any ordered number type with the listed laws of addition (reals, rationals). In binary64 the loop may not make progress when t1 + h = t1."
  },
  {
   "property": "C34",
   "status": "proved",
   "theorems": [
    "C34_terminates",
    "C34_steppers",
    "C34_accepted",
    "C34_refuted"
   ],
   "note": "over the reals; `OOF` (the loop of run still running after the given number of iterations) never happens once the bound is large enough, whatever the model does DEFECT (C34_refuted, binary64): x' = 10 x with RKF45 and the default step limits, run from 2^50 to 2^50+8, never returns: after four rejected attempts t1 + h rounds to t1 and sub-steps of length zero are accepted for ever."
  },
  {
   "property": "C35",
   "status": "proved",
   "theorems": [
    "C35_min"
   ],
   "note": ""
  },
  {
   "property": "C36",
   "status": "proved",
   "theorems": [
    "C36_max",
    "C36_first",
    "C36_refuted"
   ],
   "note": "DEFECT: the first attempt of a run ignores max_time_step (C36_first, C36_refuted)."
  },
  {
   "property": "C37",
   "status": "proved",
   "theorems": [
    "C37_back",
    "C37_refuted"
   ],
   "note": "DEFECT: stateless models skip the check (C37_refuted)."
  },
  {
   "property": "C38",
   "status": "proved",
   "theorems": [
    "C38_first"
   ],
   "note": ""
  },
  {
   "property": "C39",
   "status": "proved",
   "theorems": [
    "C39_layout",
    "C39_load",
    "C39_back"
   ],
   "note": "For every state of a simulator initialised once (session_of), in any mode and build and any iteration order of the hash sets."
  },
  {
   "property": "C40",
   "status": "proved",
   "theorems": [
    "C40_again",
    "C40_refuted"
   ],
   "note": "The property as first intended is refuted (DEFECT: SimulatorBase::init appends to value_signals_/scalar_state_signals_/array_state_signals_ without clearing; the next run overruns the state vector). C40_again shows no later run ever returns."
  },
  {
   "property": "C41",
   "status": "proved",
   "theorems": [
    "C41_start"
   ],
   "note": "For every start of a sub-step in any simulation."
  },
  {
   "property": "C42",
   "status": "proved",
   "theorems": [
    "C42_restart",
    "C42_refuted"
   ],
   "note": "Restarting after a rejected attempt. DEFECT (C42_refuted): TriggeredIntegrator latches _triggered in activation_function, also during an attempt that is rejected later; pre_step of the repeated step then zeroes the integrator although the trigger did not fire in the accepted interval. Derivative's _t0/_x0 before its first post_step are not compared (they are overwritten before being read)."
  },
  {
   "property": "C43",
   "status": "proved",
   "theorems": [
    "C43_rounds",
    "C43_stateless"
   ],
   "note": "C43_rounds is for models with states, C43_stateless for models without, where run calls pre_step and post_step once for every block around one evaluation. The latter was added after a rerun showed that no theorem of C41 or C43 noticed a run without pre_step in such models."
  },
  {
   "property": "C44",
   "status": "proved",
   "theorems": [
    "C44_euler",
    "C44_rk4",
    "C44_rkf45",
    "C44_order",
    "C44_polynomial",
    "C44_linear"
   ],
   "note": "Over the reals. The callback is an arbitrary computation on an arbitrary state. Fehlberg's published coefficients in SpecRK.v; order conditions over all rooted trees (14 trees of order 5 and so on are enumerated, with a proof that none is missing). C44_order_ex shows that the orders are not higher."
  },
  {
   "property": "C45",
   "status": "proved",
   "theorems": [
    "C45_rkf45",
    "C45_fixed"
   ],
   "note": "The error estimate is the largest difference between the returned solution and the embedded solution of order 5, both built from the same evaluations."
  },
  {
   "property": "C46",
   "status": "proved",
   "theorems": [
    "C46_steppers"
   ],
   "note": "For callbacks working on arbitrary states related by an arbitrary relation."
  },
  {
   "property": "C47",
   "status": "proved",
   "theorems": [
    "C47_invariant"
   ],
   "note": ""
  },
  {
   "property": "C48",
   "status": "proved",
   "theorems": [
    "C48_recorded"
   ],
   "note": "Both builds. The signals may hold anything at each update, provided they keep their types. Not covered: a release build holding an array of the wrong size, k + nrows_grow wrapping around, nrows_grow = 0."
  },
  {
   "property": "C49",
   "status": "proved",
   "theorems": [
    "C49_shrunk",
    "C49_refuted"
   ],
   "note": "DEFECT: shrink_to_fit before the first update makes the row counts of the time column and the matrices diverge for ever; C49_refuted is a sequence of calls after which shrink_to_fit leaves a matrix with more rows than nrows."
  },
  {
   "property": "C50",
   "status": "proved",
   "theorems": [
    "C50_table",
    "C50_complete",
    "C50_refuted"
   ],
   "note": "DEFECT: export_csv uses the allocated instead of the recorded number of rows: it prints uninitialised memory if shrink_to_fit was not called, and reads outside the matrices if it was called before the first update (C50_refuted). The text format of the numbers is not modelled."
  },
  {
   "property": "C51",
   "status": "proved",
   "theorems": [
    "C51_picked",
    "C51_untrack",
    "C51_refuted"
   ],
   "note": "DEFECT: untrack of a value signal that is not tracked erases the end iterator, for every such call (C51_refuted)."
  },
  {
   "property": "C52",
   "status": "proved",
   "theorems": [
    "C52_memory",
    "C52_memory_succeeds",
    "C52_pipe",
    "C52_pipe_succeeds"
   ],
   "note": "all nestings, exclusion lists and initial values, over every world the API can build; paths, exclusion and lookup are described independently in SpecBus.v"
  },
  {
   "property": "C53",
   "status": "proved",
   "theorems": [
    "C53_used",
    "C53_unused"
   ],
   "note": "C53_unused: a concrete bus where the debug build reports the unused value and the release build drops it"
  },
  {
   "property": "C54",
   "status": "proved",
   "theorems": [
    "C54_excludes",
    "C54_path_ignored",
    "C54_refuted"
   ],
   "note": "DEFECT: the path of a nested bus without a trailing dot is ignored (C54_path_ignored for every bus, C54_refuted a concrete one), because visit_bus compares sub-buses with the dot already appended"
  },
  {
   "property": "C55",
   "status": "proved",
   "theorems": [
    "C55_integrator",
    "C55_states",
    "C55_refuted"
   ],
   "note": "Debug builds. DEFECT for a latched TriggeredIntegrator (C55_refuted)."
  },
  {
   "property": "C56",
   "status": "proved",
   "theorems": [
    "C56_restart",
    "C56_start",
    "C56_refuted"
   ],
   "note": "DEFECT: the trigger is latched in every evaluation, also in the minor ones inside a step and in rejected attempts, so the integrator may restart although the trigger is false in the accepted step (C56_refuted). Property restated."
  },
  {
   "property": "C57",
   "status": "proved",
   "theorems": [
    "C57_alike",
    "C57_refuted"
   ],
   "note": "DEFECT found: as first stated the property is false (C57_refuted): FastSimulator::init evaluates the model twice, so a TriggeredIntegrator whose trigger is true at t0 starts from zero. C57_alike: for all other blocks (user classes must not change members in pre_step/activation_function) everything is the same."
  },
  {
   "property": "C58",
   "status": "proved",
   "theorems": [
    "C58_runs"
   ],
   "note": "Whole runs.  Hypotheses: debug build, no TriggeredIntegrator (C57_refuted shows the initialisations differ) and no user block with pre_step, blocks assign a fixed set of signals at every activation (C24_library: true of all library blocks), inputs assign a fixed set of signals, integrator outputs are states, both initialisations returned.  C58_ex: ex13 (integrator in a loop, Memory, Derivative, Delay, rejected steps) meets them, with two further run calls."
  },
  {
   "property": "C59",
   "status": "proved",
   "theorems": [
    "C59_steps",
    "C59_unique"
   ],
   "note": "Premise derivs_fit: FloatSignalImplT::set_deriv_signal assigns _deriv_sig before it checks the size (float_signal.hpp:39-44), so a caught exception can leave a link of the wrong size."
  },
  {
   "property": "C60",
   "status": "proved",
   "theorems": [
    "C60_path",
    "C60_rk"
   ],
   "note": "C60_rk is over the real numbers; the classical axioms of Coq.Reals appear in its assumptions. Examples: a loop with an Integrator (Props_Field.v) and the mass-spring-damper of samples/test09, a user class keeping its own two states (Props_User.v)."
  },
  {
   "property": "C61",
   "status": "proved",
   "theorems": [
    "C61_converges"
   ],
   "note": "Order 1 for all three methods (the nominal orders are C44). Over the real numbers: the axioms of Coq.Reals and classical logic appear in its assumptions. The example runs x' = -2x over the reals by Euler's method."
  },
  {
   "property": "C62",
   "status": "proved",
   "theorems": [
    "C62_order"
   ],
   "note": "Over the reals. Order 1 for Euler, 4 for Rk4 and Rkf45 (which advances with Fehlberg's fourth order formula). The solution phi is a hypothesis (it exists for every linear system, which is not proved here). The example is a mass on a spring with Rk4."
  },
  {
   "property": "C63",
   "status": "proved",
   "theorems": [
    "C63_calls"
   ],
   "note": "Which blocks are activated in an evaluation is C17-C20; which times the steppers evaluate at is C44."
  },
  {
   "property": "C64",
   "status": "proved",
   "theorems": [
    "C64_kinds",
    "C64_writes",
    "C64_refuted"
   ],
   "note": "DEFECT: C64_refuted gives a client that catches the exception of a failed Integrator connect; the next run writes 3 derivatives into an array of 2 (float_signal.hpp:42 assigns before the check of line 43), in debug and release builds. C64_kinds and C64_writes hold for models built without an exception. In C64_writes undefined behaviour inside the evaluation of the blocks is not excluded, only attributed to it."
  },
  {
   "property": "C65",
   "status": "proved",
   "theorems": [
    "C65_order",
    "C65_refuted"
   ],
   "note": "The model iterates the three sets of init in the orders g_iter all/scalar/array, an arbitrary permutation function; with_iter changes it. C65_refuted (DEFECT, the same as in C64): after a caught exception of connect two orders end with different signals. Nothing is claimed about simulations that throw."
  },
  {
   "property": "C66",
   "status": "proved",
   "theorems": [
    "C66_survivors",
    "C66_nothing_left",
    "C66_refuted"
   ],
   "note": "Reference counting of signal objects (Own.v) against reachability. DEFECT (C66_refuted): FloatSignalImplT::_deriv_sig is an owning pointer, so two integrators in a loop (or one from a signal to itself) leak their signals."
  },
  {
   "property": "C67",
   "status": "proved",
   "theorems": [
    "C67_left",
    "C67_refuted",
    "C67_init_refuted"
   ],
   "note": "DEFECT (C67_refuted): run does not restore the integrators when it throws after completed sub-steps, while _t_prev is not advanced, so a retry integrates twice. DEFECT (C67_init_refuted): base init sets _initialized before the model was evaluated, so a FastSimulator that refused its model can be run and silently skips blocks."
  },
  {
   "property": "C68",
   "status": "proved",
   "theorems": [
    "C68_defined",
    "C68_steppers",
    "C68_sizes_refuted",
    "C68_connected_refuted"
   ],
   "note": "Debug build. The conditions on the client (record proper) are those the C++ type checker enforces plus: all leaves connected, no connect whose exception was swallowed (C64_refuted shows why), at most one init (C40), a total order on numbers (C29_nan shows why), a state variable if the processing order is reused (C22). DEFECT: element-wise operations on arrays of different sizes are not checked by Add, Multiply and Delay (C68_sizes_refuted); unconnected leaves are activated (C68_connected_refuted)."
  },
  {
   "property": "C69",
   "status": "proved",
   "theorems": [
    "C69_connect",
    "C69_holds",
    "C69_members",
    "C69_links"
   ],
   "note": "C69_connect is about a returning connect from any reachable world; C69_holds about models built without failing operations; C69_members and C69_links hold in all reachable worlds, also after exceptions."
  },
  {
   "property": "C70",
   "status": "proved",
   "theorems": [
    "C70_order"
   ],
   "note": "Over the reals; F may be nonlinear and time dependent. Order 1 for Euler, 4 for Rk4 and Rkf45 (which advances with Fehlberg's fourth order formula). The solution phi and the smoothness of F near phi are hypotheses. The example is x' = -x x, built from an Integrator and a Multiply block, with Rk4; its hypotheses are proved with phi(t) = 1/(1+t)."
  },
  {
   "property": "C71",
   "status": "proved",
   "theorems": [
    "C71_order"
   ],
   "note": "Over the reals. The hypotheses speak about blocks, wiring and signal values only; the Lipschitz constants and Taylor expansions that C70 asks for are derived from them. The example is x' = 1 / exp x, built from Const, SISO function, Divide and Integrator, with Rk4 and the solution ln(1 + t); all hypotheses are proved for it."
  },
  {
   "property": "C72",
   "status": "proved",
   "theorems": [
    "C72_alive",
    "C72_init_dead",
    "C72_run_dead",
    "C72_visit",
    "C72_unlink_refuted"
   ],
   "note": "Dead.v repeats the functions that go through blocks with every access explicit (outcome UDead); C72_alive shows they equal the functions used everywhere else while the model is usable. DEFECT (C72_unlink_refuted): ~Block does not unlink, so destroying a child (for example a BusMemory, which owns the Memory blocks it has built inside its parent) leaves a dangling pointer in the parent and the next init is undefined."
  },
  {
   "property": "C73",
   "status": "proved",
   "theorems": [
    "C73_field",
    "C73_diagram",
    "C73_order",
    "C73_pendulum",
    "C73_spring",
    "C73_torque",
    "C73_pi",
    "C73_damper",
    "C73_tutorial"
   ],
   "note": "C73_diagram reads the formulas off the wiring; C73_field: existence and uniqueness of the derivatives; the six sample theorems are about any solution of the textbook equation (C74: there is exactly one; C73_ex gives one for the sample's spring explicitly, with runs). C73_tutorial_ex: the tutorial's step force meets the condition for T < 1; C73_tutorial_jump: it is not continuous at 1."
  },
  {
   "property": "C74",
   "status": "proved",
   "theorems": [
    "C74_exists",
    "C74_unique",
    "C74_order",
    "C74_pendulum",
    "C74_spring",
    "C74_torque",
    "C74_pi",
    "C74_damper",
    "C74_tutorial"
   ],
   "note": "Picard iteration over the standard library's antiderivatives (P_Picard.v). With it the sample theorems of C73 hold without assuming a solution. C74_needed shows that the condition on products cannot be dropped."
  },
  {
   "property": "C75",
   "status": "proved",
   "theorems": [
    "C75_never_fails",
    "C75_fixed",
    "C75_adaptive",
    "C75_steppers",
    "C75_blocks",
    "C75_empty_refuted"
   ],
   "note": "DEFECT: an Integrator of arrays of size zero is accepted by constructor, signal and connect, but the first run throws a re-assignment exception (C75_empty_refuted): with an empty state vector run both loads the states and calls pre_step. [lint] in SpecLint.v is the check; a class written by the user (CUser) is accepted if it is linked with signals that are all assigned, what its functions do is a hypothesis (user_begins, met by the class of test09: Props_Total.dm_checked). Loops and open inputs are left out silently (C75_needed)."
  },
  {
   "property": "C76",
   "status": "proved",
   "theorems": [
    "C76_pendulum",
    "C76_spring",
    "C76_torque",
    "C76_pi",
    "C76_damper",
    "C76_tutorial"
   ],
   "note": "combines C73 (order), C74 (existence) and C75 (no failure, termination)."
  },
  {
   "property": "C77",
   "status": "proved",
   "theorems": [
    "C77_kinds",
    "C77_same",
    "C77_steppers",
    "C77_trig_refuted"
   ],
   "note": "C77_kinds: two kinds of simulators in lockstep, both directions, including the recorded calls. C77_same: kind, build and iteration order changed at once. C77_steppers: Euler and Rk4 qualify (Rkf45 by C46 and P_Rel over the reals). C77_trig_refuted: DEFECT with TriggeredIntegrator and FastSimulator, as in C57. Contents of freshly allocated state arrays (g_junk) are the same on both sides here; see C78_same."
  },
  {
   "property": "C78",
   "status": "proved",
   "theorems": [
    "C78_junk",
    "C78_reals",
    "C78_same",
    "C78_nan_refuted",
    "C78_thrown_refuted"
   ],
   "note": "C78_junk: main theorem; C78_reals: over the reals every sequence of times qualifies; C78_same: C77 with the contents of memory changed as well. In the model all elements of fresh arrays hold one value (g_junk); the relation `blur` of P_Junk, which every run keeps, allows any contents. C78_nan_refuted and C78_thrown_refuted: DEFECTS, uninitialised memory reaches the state signals (time NaN, in binary64 arithmetic; or a connect that threw before)."
  },
  {
   "property": "C79",
   "status": "proved",
   "theorems": [
    "C79_stack",
    "C79_main",
    "C79_builds"
   ],
   "note": "C79_stack: refinement of a specification without global state (SpecTrace.locally); C79_main: the check of the samples; C79_builds: debug and release. Programs are trees of statements whose shape may depend on the state; which functions of the library contain pooya_trace is not modelled (the theorem holds for any)."
  },
  {
   "property": "C80",
   "status": "proved",
   "theorems": [
    "C80_sittings",
    "C80_fixed",
    "C80_release",
    "C80_steppers"
   ],
   "note": "DEFECT (documented by the library as an exception): a FastSimulator refuses every model that was simulated before. [refused] is exact: the theorem says which sittings are refused and which return. Hypotheses are those of C75 (checked) for each simulator; examples C80_ex, C80_ex_runs, C80_needed (the condition on times with a Delay is needed)."
  },
  {
   "property": "C81",
   "status": "proved",
   "theorems": [
    "C81_table",
    "C81_same"
   ],
   "note": "The history is equal, not only similar, for all kinds, builds and iteration orders. Examples C81_ex (hypotheses), C81_ex_csv (the exported numbers, FastSimulator and release Simulator)."
  },
  {
   "property": "C82",
   "status": "proved",
   "theorems": [
    "C82_rows",
    "C82_inputs",
    "C82_equations",
    "C82_memory",
    "C82_derivative",
    "C82_delay"
   ],
   "note": "For Memory the equation in C82_equations leaves its member open; C82_memory says what it is. With states in the model the sub-steps between two rows are steps too, so (4) to (6) are stated for models without states; C28, C30 and C31 cover the others step by step. Example ex82_tabulated (hypotheses)."
  },
  {
   "property": "C83",
   "status": "proved",
   "theorems": [
    "C83_memory",
    "C83_gain",
    "C83_delay",
    "C83_bus"
   ],
   "note": "The plots and the timing output of the samples are not modelled. Examples ex83_memory, ex83_gain, ex83_delay, ex83_delay2 run the programs and show the lines. C83_bus says nothing about the columns of x1 and y1, which nobody assigns; in ex83_bus they are zeros."
  },
  {
   "property": "C84",
   "status": "proved",
   "theorems": [
    "C84_integrator",
    "C84_pid",
    "C84_once_refuted"
   ],
   "note": "DEFECT: a trigger that is true in one line resets the TriggeredIntegrator in two consecutive steps (C84_once_refuted: times 0, 1, 2, 3, trigger true at 1 only). Over the real numbers. C84_integrator is for Euler and Simulator, as in the sample. The plots and the timing output are not modelled. C84_pid_ex instantiates C84_pid. The internal derivative d of the PID in a line is not what the solver used at the start of the next step (C32_integral_refuted)."
  }
 ]
}