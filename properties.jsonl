{"id": "C01", "title": "Object names are sanitised", "statement": "Whatever string a block, signal or bus label is given, the stored name has the same length, contains only [A-Za-z0-9_], keeps every character that was already legal at its position, and replaces every other byte by '_'; sanitising twice changes nothing.", "quantifier": "every byte string", "why_tests_cant": "the set of strings is infinite; tests sample a few names", "anchors": ["src/shared/named_object.cpp: ValidName::emend", "src/shared/named_object.hpp: ValidName, NamedObject::rename"]}
{"id": "C02", "title": "Full names identify the path", "statement": "The full name of a block is '/'-separated from the root to the block, and two blocks whose full names are equal have the same list of names along their parent chains (the path can be decoded from the full name).", "quantifier": "every hierarchy depth and every names", "why_tests_cant": "injectivity over all hierarchies cannot be sampled", "anchors": ["src/block/block.cpp: Block::full_name", "src/shared/named_object.hpp: ValidName::operator/"]}
{"id": "C03", "title": "Value signals are write-once registers (debug build)", "statement": "For every sequence of assign / clear / read on a scalar, int, bool or array signal in a debug build: an assignment succeeds exactly when the signal is unassigned, otherwise throws and changes nothing; a read returns the value of the last successful assignment and throws exactly when no assignment happened since the last clear.", "quantifier": "every finite sequence of operations on every set of signals, every values", "why_tests_cant": "depends on arbitrary histories of operations", "anchors": ["src/signal/scalar_signal.hpp", "src/signal/int_signal.hpp", "src/signal/bool_signal.hpp", "src/signal/array_signal.hpp", "src/signal/value_signal.hpp"]}
{"id": "C04", "title": "Signals do not interfere", "statement": "Operating on one signal never changes the assigned flag or value of a different signal, whatever sequence of operations is performed.", "quantifier": "every operation sequence, every pair of signals", "why_tests_cant": "needs all histories and all pairs", "anchors": ["src/signal/value_signal.hpp", "src/signal/scalar_signal.hpp"]}
{"id": "C05", "title": "Typed handles only bind to signals of their type", "statement": "Binding a typed signal handle (ScalarSignal, IntSignal, BoolSignal, ArraySignal, Bus) to a signal succeeds exactly when the signal object has that type and throws otherwise.", "quantifier": "every pair of handle type and signal object", "why_tests_cant": "the claim must cover every pairing, including the ones reached inside connect", "anchors": ["src/signal/signal.hpp: Signal::fail_if_invalid_signal_type, SignalT::reset"]}
{"id": "C06", "title": "Array signals keep their declared size (debug build)", "statement": "In a debug build an array signal that is assigned always holds exactly as many elements as it was created with; assigning a value of another size throws and leaves the signal unassigned.", "quantifier": "every history of operations", "why_tests_cant": "invariant over all histories", "anchors": ["src/signal/array_signal.hpp: ArraySignalImpl::set_value"]}
{"id": "C07", "title": "Bus construction keeps order and labels", "statement": "A bus built from a list of (label, signal) pairs has one entry per pair, in order, whose label is the sanitised label; a bus built from an unlabelled list gets labels sig0, sig1, ... which are pairwise distinct; index access returns the i-th signal and throws (at) for an index out of range.", "quantifier": "every list of signals and labels, every index", "why_tests_cant": "unbounded list length", "anchors": ["src/signal/bus.hpp: BusImpl::BusImpl, at(size_t), operator[]"]}
{"id": "C08", "title": "Dotted lookup descends through nested buses", "statement": "bus.at(\"a.b.c\") returns exactly the signal found by looking up a, then b in it, then c in it, each lookup taking the first entry with that label; it throws exactly when some component is missing or some non-final component is not a bus, and it never has undefined behaviour.", "quantifier": "every bus nesting, every label string", "why_tests_cant": "unbounded nesting depth and label strings", "anchors": ["src/signal/bus.hpp: BusImpl::at(string_view)"]}
{"id": "C09", "title": "try_at reports absence instead of failing", "statement": "bus.try_at(label) returns the signal whenever at(label) would return it; for a label without dots, or when the first component of a dotted label is missing, it returns nullopt instead of failing; when the first component is a bus, failures of the rest of the label are those of at. (The stronger claim that it returns nullopt in every other case is false: a missing nested label throws, and a first component that is not a bus is undefined behaviour.)", "quantifier": "every bus, every label", "why_tests_cant": "the failing cases need a particular nesting that tests do not contain", "anchors": ["src/signal/bus.hpp: BusImpl::try_at"]}
{"id": "C10", "title": "Bus construction names anonymous signals only", "statement": "Putting signals into a bus gives the label as name to a signal whose name is empty and never changes the name of a signal that has one.", "quantifier": "every list of signals (with repetitions)", "why_tests_cant": "depends on every prior history of naming", "anchors": ["src/signal/bus.hpp: BusImpl::BusImpl"]}
{"id": "C11", "title": "Port counts are enforced and failure is clean", "statement": "connect on a block with declared port counts succeeds past the port check exactly when the numbers of signals in the two buses match (65535 meaning unlimited); on a mismatch, or when the block is already connected, it throws and leaves every block and signal unchanged.", "quantifier": "every block, every pair of buses, every prior history", "why_tests_cant": "all sizes and histories", "anchors": ["src/block/block.cpp: Block::connect"]}
{"id": "C12", "title": "Each signal is linked once with the union of its roles", "statement": "After any sequence of link operations (connect, input, output, with repeated signals) a block's linked-signal list has no repeated signal, contains only value signals, and each signal's flag word is the bitwise union of the link types requested for it.", "quantifier": "every block, every buses, every sequence of links", "why_tests_cant": "arbitrary repetition patterns", "anchors": ["src/block/block.cpp: Block::link_signal, find_linked_signal, connect"]}
{"id": "C13", "title": "What a block waits for", "statement": "After a successful connect, the set of signals a block must wait for before it is activated is: all top-level value signals of its input bus for ordinary blocks; nothing from the input for Memory; its own output and not its derivative input for an Integrator; output and trigger for a TriggeredIntegrator.", "quantifier": "every wiring, including the same signal used in several ports", "why_tests_cant": "all aliasing patterns of the ports", "anchors": ["src/block/block.cpp: Block::connect", "src/block/integrator_base.hpp: connect", "src/block/extra/memory.hpp: connect", "src/block/extra/triggered_integrator.hpp: connect"]}
{"id": "C14", "title": "Parent and child views agree", "statement": "After every sequence of block constructions, set_parent and add_block calls: a block is listed by a submodel exactly when that submodel is its parent, at most once, and a parent once set never changes (the call that tries returns false and changes nothing).", "quantifier": "every sequence of hierarchy operations", "why_tests_cant": "invariant over all call sequences", "anchors": ["src/block/block.cpp: Block::Block, set_parent", "src/block/submodel.cpp: link_block, add_block"]}
{"id": "C15", "title": "The hierarchy is a forest unless a block is put below itself", "statement": "As long as no set_parent or add_block call gives a block itself or one of its own descendants as parent, no sequence of client operations (including ones that throw) makes a block its own ancestor, and then traversing a model and computing a full name end within a number of calls bounded by the number of blocks. (Without that restriction it is false: a submodel accepts itself as parent, and traversal and full_name never end.)", "quantifier": "every sequence of hierarchy operations", "why_tests_cant": "a cycle needs a specific call sequence that tests do not try", "anchors": ["src/block/block.cpp: set_parent", "src/block/submodel.cpp: visit"]}
{"id": "C16", "title": "visit is a depth-limited preorder traversal with early exit", "statement": "visit(cb, level, max_level) calls cb on exactly the blocks of the hierarchy whose level does not exceed max_level, parents before children and siblings in insertion order, stops after the first call that returns false, and returns false exactly in that case.", "quantifier": "every hierarchy, callback and level limit", "why_tests_cant": "all trees and all callbacks", "anchors": ["src/block/block.hpp: Block::visit", "src/block/submodel.cpp: Submodel::visit, const_visit"]}
{"id": "C17", "title": "Evaluating a model terminates", "statement": "One evaluation of the model by Simulator finishes within (number of leaf blocks + 1) passes, for every model, wiring and user callback.", "quantifier": "every hierarchy and every wiring, cyclic or not", "why_tests_cant": "all graphs", "anchors": ["src/solver/simulator.cpp: process_model", "src/block/submodel.cpp: process"]}
{"id": "C18", "title": "A block runs at most once, only when its inputs are there", "statement": "During one evaluation of the model each leaf block is activated at most once, and when it is activated every signal it must wait for has been assigned.", "quantifier": "every model, wiring, inputs, and both ordering modes", "why_tests_cant": "all schedules", "anchors": ["src/block/leaf.cpp: Leaf::process, ready_to_process", "src/solver/simulator.cpp: process_model"]}
{"id": "C19", "title": "No block that could run is left out", "statement": "When an evaluation ends, every leaf block that was not activated still has an unassigned signal it is waiting for.", "quantifier": "every model and wiring", "why_tests_cant": "all graphs and orders", "anchors": ["src/solver/simulator.cpp: process_model", "src/block/submodel.cpp: process"]}
{"id": "C20", "title": "Results do not depend on block order or grouping", "statement": "If every signal has at most one writer and user functions read only signals their block waits for, two models made of the same leaf blocks in any order and grouped into submodels in any way give, from the same starting state, the same set of activated blocks, the same signal values and the same block states after one evaluation. (Without the condition on user functions it is false: a Function reading a signal inside a nested bus does not wait for it.)", "quantifier": "every permutation and every grouping of every model", "why_tests_cant": "factorially many orders", "anchors": ["src/solver/simulator.cpp: process_model", "src/block/submodel.cpp: process"]}
{"id": "C21", "title": "Remembered processing order does not change results", "statement": "For models without bus builders (BusMemory, BusPipe), Simulator with reuse_order gives, at every evaluation, the same signal values and block states as without it, whatever order it has remembered; the remembered order is always a permutation of all blocks of the model; over every sequence of run calls both simulators return in the same cases with the same signals, block states, state vectors, times, attempted steps and pre/post-step calls. (With a bus builder it is false in a debug build: the order loses the builder and the size check throws.)", "quantifier": "every model and every history of evaluations", "why_tests_cant": "the order depends on the full history", "anchors": ["src/solver/simulator.cpp: process_model, init"]}
{"id": "C22", "title": "reuse_order works for every model", "statement": "Initialising a Simulator with reuse_order = true behaves as without the flag for every model with at least one state variable. (It is false for a model without state variables: the null order is dereferenced, so no such model can be initialised.)", "quantifier": "every model", "why_tests_cant": "needs a model without state variables and the non-default flag", "anchors": ["src/solver/simulator.cpp: init (line 129), process_model (line 47)"]}
{"id": "C23", "title": "FastSimulator accepts exactly the fully schedulable models", "statement": "On a model not processed before, FastSimulator::init gets past its order search without an exception exactly when every leaf block can be activated from the signals assigned at t0, and the order found activates every leaf exactly once after the blocks it waits for. (On a model that a Simulator has evaluated before the search always fails, because blocks are never marked unprocessed.) (Blocks that only build other blocks are waited for as well, although Simulator never runs them: the program of samples/test10_memory_with_bus.cpp, which leaves a signal excluded from its BusMemory unassigned, works with Simulator and is refused by FastSimulator.)", "quantifier": "every model and wiring", "why_tests_cant": "all graphs", "anchors": ["src/solver/fast_simulator.cpp: init", "src/block/extra/bus_block_builder.cpp: _mark_unprocessed", "samples/test10_memory_with_bus.cpp"]}
{"id": "C24", "title": "FastSimulator computes what Simulator computes", "statement": "Evaluating a model in the order FastSimulator recorded gives the same signal values and block states as Simulator's evaluation, for every time and inputs, when each block always writes the same outputs and at least the signals assigned at init are assigned again.", "quantifier": "every model, every later time and inputs", "why_tests_cant": "the order is found once and reused for ever", "anchors": ["src/solver/fast_simulator.cpp: process_model, init"]}
{"id": "C25", "title": "Block equations hold after an evaluation", "statement": "After an evaluation every activated Gain, Add, Multiply, Subtract, Divide, Const, Source, Pipe, SISOFunction, SOFunction block's output equals its defining expression of the values its inputs have at the end of the evaluation.", "quantifier": "every model, wiring, order, inputs", "why_tests_cant": "all models", "anchors": ["src/block/extra/*.hpp: activation_function"]}
{"id": "C26", "title": "Algebraic loops are never entered; other models run completely", "statement": "If leaf blocks can be ranked so that each waits only for signals that are assigned beforehand or written by lower-ranked blocks, every leaf is activated; if a set of blocks each waits for a signal only written inside the set, none of them is activated.", "quantifier": "every wiring", "why_tests_cant": "all graphs", "anchors": ["src/block/leaf.cpp: ready_to_process", "src/solver/simulator.cpp: process_model"]}
{"id": "C27", "title": "Debug and release builds agree", "statement": "Every evaluation, initialisation or run that completes without an exception in a debug build completes in a release build with the same signal values, block states and simulator state.", "quantifier": "every model, inputs and history", "why_tests_cant": "two builds compared over all executions", "anchors": ["src/helper/verify.hpp: pooya_debug_verify", "src/signal/*.hpp"]}
{"id": "C28", "title": "Memory delays by one accepted step", "statement": "Over every sequence of accepted steps, the output of a Memory block in a step is its input in the previous accepted step, and its initial value in the first.", "quantifier": "every simulation of every model: every history of init and run calls, every stepper that goes through the callback, every processing mode, debug and release", "why_tests_cant": "unbounded histories", "anchors": ["src/block/extra/memory.hpp"]}
{"id": "C29", "title": "Delay never indexes outside its buffers and outputs are well placed", "statement": "In every simulation the two buffers of a Delay have equal length and strictly increasing times, neither evaluating the block nor its post_step accesses them outside their bounds, whatever time and signals are, and the output is the initial value, the last sample, or the linear interpolation of two consecutive recorded samples at different times around t - delay, hence between them. (In binary64 a NaN as delay makes it read outside the buffers.)", "quantifier": "every simulation of every model, every moment of it, every delay and lifespan", "why_tests_cant": "unbounded histories and real parameters", "anchors": ["src/block/extra/delay.hpp: post_step, activation_function"]}
{"id": "C30", "title": "Delay reproduces the delayed input within its lifespan", "statement": "With a lifespan that is not negative: if some accepted step not more than the lifespan before the last accepted step is strictly before t - delay, the output at t is the linear interpolation of the recorded input at t - delay, otherwise it is the initial value. So with accepted steps at most h apart and lifespan at least delay + h the delayed input is reproduced after the first step. (That delay <= lifespan is enough is false: the sample before t - delay, needed for the interpolation, may already be erased.)", "quantifier": "every simulation of every model, every evaluation in it", "why_tests_cant": "needs particular spacing of the steps", "anchors": ["src/block/extra/delay.hpp: post_step lines 62-76"]}
{"id": "C31", "title": "Derivative is the finite difference from the last accepted step", "statement": "After the first step the Derivative block outputs (x(t) - x(t_n)) / (t - t_n) where t_n is the last accepted step, for t different from t_n, and its given initial output during the first step.", "quantifier": "every simulation of every model, every evaluation in it (also the minor ones inside a step)", "why_tests_cant": "all histories and inputs", "anchors": ["src/block/extra/derivative.hpp"]}
{"id": "C32", "title": "Derivative re-evaluated at the last step time outputs its input", "statement": "Evaluating the Derivative block again at the time of the last accepted step makes it output the value its input had in that step. (That it repeats the output it had in that step, which is what one would expect, is false.) With Euler, in any model, a state that is the integral of the output of a Derivative block therefore grows in each call of run by the step times the value of the block's input at the start of the step. (That integrating a Derivative gives back the signal up to a constant is false, too: solvers evaluate the model at the start of each step, where the block outputs its input, so with Euler the integral of the derivative of u grows by h u instead of by the change of u, although the recorded derivative is right in every line.)", "quantifier": "every simulation of every model, every evaluation in it", "why_tests_cant": "needs an evaluation at exactly the last accepted time, which every multi-stage solver makes", "anchors": ["src/block/extra/derivative.hpp: post_step line 47"]}
{"id": "C33", "title": "run ends exactly at the requested time, without overshoot", "statement": "Between the previous and the requested time the simulator's accepted sub-steps have strictly increasing end times that never exceed the requested time, and the last one equals it.", "quantifier": "every model with states, every build, scheduling mode and stepper behaviour, every previous and later requested time, every positive min_time_step (required by a debug build); exact equality of the last end over the real numbers, equality as numbers over any ordered number type", "why_tests_cant": "all sequences of step size suggestions", "anchors": ["src/solver/simulator_base.cpp: run"]}
{"id": "C34", "title": "run terminates", "statement": "In exact arithmetic and a debug build, run finishes for Euler, RK4 and RKF45 and every user stepper that suggests either a step not smaller than the attempted one or one smaller by at least a fixed factor; the number of loop iterations is bounded by a number that depends only on the interval, min_time_step and that factor; the number of accepted sub-steps is bounded by the interval divided by min_time_step, plus one. (With doubles this is false: where min_time_step is less than half the distance between neighbouring doubles, t1 + h can round to t1, and run repeats sub-steps of length zero for ever; from t = 2^44 on this can happen with the default limits.)", "quantifier": "every model, simulator, history, times, step limits", "why_tests_cant": "termination over all executions", "anchors": ["src/solver/simulator_base.cpp: run lines 194-236"]}
{"id": "C35", "title": "Sub-steps respect min_time_step", "statement": "Every sub-step of run, tried or accepted, is at least min_time_step long, except one that ends at the requested time.", "quantifier": "every model with states, build, scheduling mode, stepper behaviour and times", "why_tests_cant": "all sequences of suggestions", "anchors": ["src/solver/simulator_base.cpp: run lines 214-235"]}
{"id": "C36", "title": "Sub-steps respect max_time_step", "statement": "No sub-step of run, tried or accepted, is longer than max_time_step, except the first attempt of the run, which always takes the whole interval. (A limit on the first attempt, as the parameter's name suggests, is refuted: with a stepper that accepts it, run(3) with max_time_step 1 makes one sub-step of length 3.)", "quantifier": "every model with states, build, scheduling mode, stepper behaviour and times, with min_time_step not above max_time_step (required by a debug build)", "why_tests_cant": "needs an interval longer than max_time_step", "anchors": ["src/solver/simulator_base.cpp: run lines 196, 219-221"]}
{"id": "C37", "title": "Time never goes backwards in models with states", "statement": "For a model with states, run(t) with t smaller than the time of the previous run throws and changes neither signals, block states nor the simulator. (For a model without states the check is skipped and the claim is refuted: run goes back in time and a Memory block records the value of the earlier time.)", "quantifier": "every initialised simulator with a non-empty state vector; a concrete reachable stateless simulation for the refutation", "why_tests_cant": "all models, including those without integrators", "anchors": ["src/solver/simulator_base.cpp: run lines 155-166"]}
{"id": "C38", "title": "The first run initialises", "statement": "run(t) on a simulator that was not initialised does exactly what init(t) does: afterwards the simulator is initialised with previous time t, and the stepper was not used. Simulator calls the inputs callback, pre_step of every block, evaluates the model once and calls post_step of every block, all at time t. (FastSimulator evaluates the model twice in init: once to find the order, once in that order.)", "quantifier": "every model, build, scheduling mode and earlier state", "why_tests_cant": "all models", "anchors": ["src/solver/simulator_base.cpp: run lines 148-153, init"]}
{"id": "C39", "title": "State vector packing is lossless", "statement": "Loading a state vector into the integrators' output signals and reading it back gives the same vector, every state signal gets its own slice, and the iteration order of the hash sets does not matter for which value a state signal gets back.", "quantifier": "every number, order and sizes of scalar and array states", "why_tests_cant": "all layouts", "anchors": ["src/solver/simulator_base.cpp: reset_with_state_variables, get_state_variables, init"]}
{"id": "C40", "title": "A second init makes the simulator unusable", "statement": "After init has been called a second time on a simulator of a model with a state variable, no call of run returns normally (so the second init of a model with an integrator never works; the intended 'init may be called again without undefined behaviour' is false: the state signals are appended a second time while the state vectors keep their size, the second init returns, and the next run writes past the end of the state vector, in debug builds with the default processing and in release builds).", "quantifier": "every model with an integrator, every history, every later call of run, all modes and builds", "why_tests_cant": "needs a second init", "anchors": ["src/solver/simulator_base.cpp: init lines 81-101"]}
{"id": "C41", "title": "Integrators carry their value from step to step", "statement": "The value an integrator starts a step with is the value its output had at the end of the previous accepted step, and its initial condition in the first.", "quantifier": "every simulation of every model, every start of a sub-step in it, also those that are rejected later", "why_tests_cant": "unbounded histories", "anchors": ["src/block/integrator_base.hpp: pre_step, post_step"]}
{"id": "C42", "title": "A rejected step leaves no trace", "statement": "When the stepper asks to redo a step, the repeated attempt starts at the same time, from the same values of the linked signals, the same block states and the same state vector as the rejected one, as far as no block changes its members in pre_step or activation_function. (The unrestricted claim is false: a TriggeredIntegrator whose trigger became true during the rejected attempt is reset when the step begins again.)", "quantifier": "every model driven through init and run in debug mode, both simulators, every stepper behaviour, every run", "why_tests_cant": "needs a rejected step together with a block whose activation changes its state", "anchors": ["src/solver/simulator_base.cpp: run lines 229-235", "src/block/extra/triggered_integrator.hpp"]}
{"id": "C43", "title": "post_step is called once per accepted step", "statement": "During run, each accepted sub-step causes exactly one round of post_step calls, at the end time of that sub-step, in increasing time order, and within a round every block is called once in the order of the model; rejected attempts cause none. In a model without states every run that returns causes exactly one round of pre_step calls and one round of post_step calls, around one evaluation, all at the time of the call.", "quantifier": "every model with states (second sentence: without states), build, scheduling mode, stepper behaviour and times, positive min_time_step (required by a debug build)", "why_tests_cant": "all executions", "anchors": ["src/solver/simulator_base.cpp: run", "src/solver/simulator.cpp: process_model"]}
{"id": "C44", "title": "Explicit Runge-Kutta steps have their nominal order", "statement": "The Euler, RK4 and RKF45 update formulas are those of the explicit Runge-Kutta methods of these names, for every right-hand side: they make the same evaluations in the same order. These methods satisfy the order conditions of every rooted tree of order up to 1, 4 and 4 (the embedded solution that RKF45 compares with: 5). A step is exact if the derivatives are polynomials in t of degree 0, 3 and 3 (and not for degree 4 in general: RKF45 returns its solution of order 4).", "quantifier": "every step size, initial value and polynomial", "why_tests_cant": "a wrong coefficient gives small errors that tolerance-based tests accept", "anchors": ["src/solver/euler.cpp", "src/solver/rk4.cpp", "src/solver/rkf45.cpp"]}
{"id": "C45", "title": "RKF45 step size suggestions", "statement": "RKF45 suggests half, the same or twice the attempted step; half exactly when the error estimate exceeds the threshold eps*h/(2*0.75^4), double exactly when it is non-zero and below eps*h/(2*1.5^4); Euler and RK4 always suggest the attempted step.", "quantifier": "every right-hand side, state and step", "why_tests_cant": "all inputs", "anchors": ["src/solver/rkf45.cpp: lines 46-60", "src/solver/euler.cpp", "src/solver/rk4.cpp"]}
{"id": "C46", "title": "Steps do not depend on the order of the state variables", "statement": "Permuting the state vector (as the unspecified iteration order of the hash sets may) permutes the result of a step and leaves the suggested step size unchanged.", "quantifier": "every permutation, right-hand side and step", "why_tests_cant": "the order is unspecified and differs between runs", "anchors": ["src/solver/rk4.cpp", "src/solver/rkf45.cpp", "src/solver/euler.cpp", "src/solver/simulator_base.cpp: init"]}
{"id": "C47", "title": "Linear invariants are preserved", "statement": "If a linear combination of the derivatives is identically zero, every step of Euler, RK4 and RKF45 preserves that combination of the state variables.", "quantifier": "every system with such an invariant", "why_tests_cant": "all systems", "anchors": ["src/solver/rk4.cpp", "src/solver/rkf45.cpp", "src/solver/euler.cpp"]}
{"id": "C48", "title": "History records what was there", "statement": "After any sequence of update and shrink_to_fit calls, row k of the time column and of every tracked signal's matrix holds the time and the value (0 if unassigned) at the last update with that k; updates of other rows do not change it; nrows is one more than the largest k. No call fails or is undefined, as long as k + nrows_grow stays below 2^32 and nrows_grow is positive.", "quantifier": "every sequence of updates and tracked signals", "why_tests_cant": "all histories, growth patterns", "anchors": ["src/solver/history.cpp: update", "src/solver/history.hpp"]}
{"id": "C49", "title": "shrink_to_fit keeps the recorded rows", "statement": "shrink_to_fit leaves exactly nrows rows in the time column and in each matrix with their contents unchanged, unless shrink_to_fit was called before the first update (then the matrices may keep more rows than the time column).", "quantifier": "every history", "why_tests_cant": "all histories", "anchors": ["src/solver/history.cpp: shrink_to_fit"]}
{"id": "C50", "title": "The exported table contains only recorded data", "statement": "After updates followed by shrink_to_fit, export_csv writes one line per row below nrows, with as many columns as the header, holding the time and values recorded for the row; every element is a recorded one if no row number was skipped. (Without shrink_to_fit it also writes never initialised rows, and if shrink_to_fit was called before the first update it can read outside the matrices.)", "quantifier": "every history", "why_tests_cant": "needs gaps, or exporting before shrink_to_fit", "anchors": ["src/solver/history.cpp: export_csv"]}
{"id": "C51", "title": "untrack is safe", "statement": "Tracking keeps every chosen signal once and untrack removes exactly the signal named, for every sequence of track and untrack calls in which only tracked signals are untracked. (Untracking a value signal that is not tracked is undefined behaviour: the end iterator is erased.)", "quantifier": "every sequence of track and untrack", "why_tests_cant": "needs untrack of an untracked signal", "anchors": ["src/solver/history.cpp: untrack"]}
{"id": "C52", "title": "Bus blocks cover every signal once", "statement": "Connecting a BusMemory, or a BusPipe that has a parent, creates one Memory/Pipe per dotted path that leads in the input bus to a value signal and is not excluded (exactly one if no bus has two members of one label), as the newest blocks and newest children of the builder's parent, named after the path, wired from the signal of that path in the input bus to the one of the same path and type in the output bus, with the given or zero initial value; no other block or signal changes. Connecting an unconnected builder succeeds whenever every such path has a signal of the same type in the output bus and the given values have the right types. (With duplicate labels the first match is wired each time and only its first memory gets the given value.)", "quantifier": "every bus nesting and exclusion list", "why_tests_cant": "unbounded nesting", "anchors": ["src/block/extra/bus_block_builder.cpp: visit_bus", "src/block/extra/bus_memory.cpp", "src/block/extra/bus_pipe.cpp"]}
{"id": "C53", "title": "All initial values given to BusMemory are used or reported", "statement": "In a debug build BusMemory::connect returns normally only if each given initial value was used by the memory of exactly that path; otherwise it throws. (A release build silently drops unused values.)", "quantifier": "every bus and initial value map", "why_tests_cant": "all maps", "anchors": ["src/block/extra/bus_memory.cpp: connect"]}
{"id": "C54", "title": "Excluding a sub-bus by its path", "statement": "Giving the dotted path of a nested bus followed by a dot in the exclusion list excludes all signals below it. (Without the trailing dot, as the path is written everywhere else, the entry has no effect at all: blocks are built for every signal of the bus.)", "quantifier": "every bus nesting", "why_tests_cant": "needs an excluded label naming a bus", "anchors": ["src/block/extra/bus_block_builder.cpp: visit_bus lines 45-54"]}
{"id": "C55", "title": "A repeated step does not change states", "statement": "run(t) with t equal to the previous time leaves the value of every Integrator as it was; if all states belong to Integrators and the previous step was made by run, the state vector too. (False for a TriggeredIntegrator that was triggered in the previous step: the repeated step sets it to zero.)", "quantifier": "every model, mode and history of one simulator, debug builds", "why_tests_cant": "all histories", "anchors": ["src/solver/simulator_base.cpp: run lines 168-186"]}
{"id": "C56", "title": "TriggeredIntegrator resets at the step after the trigger", "statement": "If the trigger is true in an accepted step the TriggeredIntegrator restarts from zero at the next step. If the trigger was false in every evaluation since the last start of a step, it continues from its value. (That it continues whenever the trigger is false in the accepted step is false: one evaluation with a true trigger inside the step is enough to restart.)", "quantifier": "every simulation of every model, every start of a sub-step in it", "why_tests_cant": "unbounded histories", "anchors": ["src/block/extra/triggered_integrator.hpp"]}
{"id": "C57", "title": "FastSimulator and Simulator initialise alike", "statement": "If a new FastSimulator and a new Simulator are given the same model in the same state and both init(t0) return, then the signals, the block members, the lists of signals and the state vector are the same, provided no block changes its members in pre_step or activation_function, although FastSimulator evaluates the model twice. (Not so with a TriggeredIntegrator: if its trigger is true at t0, FastSimulator starts from zero and Simulator from the initial value.)", "quantifier": "every world, model block, configuration in debug mode, starting state and time", "why_tests_cant": "needs a block whose activation changes its state, such as TriggeredIntegrator", "anchors": ["src/solver/fast_simulator.cpp: init lines 97, 119", "src/block/extra/triggered_integrator.hpp"]}
{"id": "C58", "title": "FastSimulator and Simulator run alike", "statement": "Give a new FastSimulator and a new Simulator the same model, the same inputs and the same stepper, in a debug build.  No block is a TriggeredIntegrator or a user block with its own pre_step, every block assigns the same signals whenever it is activated, the input callbacks assign the same signals at all times, and integrators' outputs are state signals.  If both accept the model at t0, then for every sequence of later run(t, min_step, max_step) calls either both return or neither does, and when they return they have the same signals, the same block members, the same state vector and previous time, and have made the same input reads, pre_step and post_step calls, evaluations and attempted steps, in the same order.", "quantifier": "all models reachable by the API meeting the conditions, all initial times, all steppers that treat related simulators alike, all sequences of run calls with any times and step limits", "why_tests_cant": "a test compares the two simulators on a few models and step sequences; the orders in which the two activate blocks differ from model to model, so that agreement needs confluence of the schedules at every evaluation of every (also rejected) step", "anchors": ["src/solver/fast_simulator.cpp: FastSimulator::process_model, FastSimulator::init", "src/solver/simulator.cpp: Simulator::process_model, Simulator::init", "src/solver/simulator_base.cpp: SimulatorBase::run"]}
{"id": "C59", "title": "The derivatives handed to the stepper are those of the model's differential equation", "statement": "Whenever run returns (debug build, no block that changes its members while being evaluated), every step it tried, accepted or rejected, is one the given stepper makes for the differential equation the model stands for: at every time and state at which the stepper asked for a derivative there are values for the signals such that the states have the given values, the user's inputs are set, every block satisfies its equation unless it waits for a signal without a value, and the derivative returned consists of the values of the states' derivative signals, in the order of the state vector. If the model has no algebraic loop (each block needs only states, inputs and signals that earlier blocks assign whenever their activation function returns), that derivative is unique. (Premise: every derivative signal has the type and size of its state; set_deriv_signal stores the link before it checks the size.)", "quantifier": "every world built with the API, every model and initialised Simulator or FastSimulator, every stepper, time and step limits", "why_tests_cant": "the claim is about every intermediate evaluation of every stepper for every block diagram, with evaluation order, state vector layout and signal clearing all involved", "anchors": ["src/solver/simulator_base.cpp: SimulatorBase::run, lines 119-244", "src/solver/simulator.cpp: Simulator::process_model", "src/solver/stepper_base.hpp: StepperBase::step"]}
{"id": "C60", "title": "A run follows a numerical solution of the model's differential equation", "statement": "Under the conditions of C59, if all states are outputs of Integrators or kept by blocks of user classes (whose pre_step assigns them from members and whose post_step saves them there), the steps tried by run form a path: the first starts at the previous time in the states the signals had before the run, each starts where the last accepted one ended, a rejected one starts where the next one starts, and the last accepted one ends at the requested time in the states the signals have after the run. With Euler, Rk4 or Rkf45 and exact arithmetic each of the steps is a solution of the Runge-Kutta equations of that method for the model's differential equation.", "quantifier": "every world, model, initialised simulator, stepper, target time and step limits for which run returns", "why_tests_cant": "joins state-vector packing, signal clearing, retry logic and the method's stages in one statement over all models", "anchors": ["src/solver/simulator_base.cpp: SimulatorBase::run, lines 198-244", "src/solver/euler.cpp", "src/solver/rk4.cpp", "src/solver/rkf45.cpp", "src/block/integrator_base.hpp: post_step, activation_function"]}
{"id": "C61", "title": "Simulation results converge to the solution of the model's differential equation", "statement": "Let all states of a model be outputs of Integrators or kept by blocks of user classes (whose pre_step assigns them from members and whose post_step saves them there) and let its differential equation (C59) be x' = F(t, x), with solution φ from t0 to T starting in the states the signals have after init(t0). Let F be Lipschitz continuous near φ and bounded on φ. Then for each of Euler, Rk4 and Rkf45 there are constants K and H0 > 0, depending only on the method, the Lipschitz constant, the bound, the radius and T - t0, such that for every sequence of run calls each going forward by at most H <= H0, whatever min_time_step and max_time_step are, and however many sub-steps are rejected or accepted, the states in the signals afterwards differ from φ by at most K*H (exact arithmetic, debug build, no block that changes its members while being evaluated).", "quantifier": "every model built with the API meeting the conditions, every right-hand side and solution, every sequence of runs with any step limits, the three methods of the library, Simulator and FastSimulator", "why_tests_cant": "a bound on the error of all step sequences for all models is a limit statement; tests see single step sizes of single models", "anchors": ["src/solver/simulator_base.cpp: SimulatorBase::run", "src/solver/euler.cpp", "src/solver/rk4.cpp", "src/solver/rkf45.cpp"]}
{"id": "C62", "title": "For linear models the error shrinks with the order of the method", "statement": "If the differential equation of a model is linear with constant coefficients, x' = A x + c, and phi is its solution on [t0, T] that starts at the states of the model, then there is a constant K, not depending on how time is divided, such that after any sequence of successful calls of run, each going forward by at most H (H <= 1), the states of the model differ from phi by at most K * H with Euler, K * H^4 with Rk4 and K * H^4 with Rkf45.", "quantifier": "all models built with the API (debug build) with library blocks other than TriggeredIntegrator (and user classes whose pre_step and activation_function change no members) whose states are outputs of Integrators or kept by blocks of user classes (whose pre_step assigns them from members and whose post_step saves them there) and whose differential equation is x' = A x + c for some matrix A and vector c of any size; all three steppers; all sequences of runs with any step limits; all end times up to T; over the real numbers (rounding not modelled)", "why_tests_cant": "A test compares a few step sizes for a few models; the order is a statement about all step sizes at once, and about everything between the steppers and the blocks: a wrong stage time, a stale signal in one stage, or a state not written back would leave the result plausible but lower the order.", "anchors": ["src/solver/rk4.cpp: Rk4::step", "src/solver/rkf45.cpp: Rkf45::step", "src/solver/euler.cpp: Euler::step", "src/solver/simulator_base.cpp: SimulatorBase::run, stepper_callback, reset_with_state_variables"]}
{"id": "C63", "title": "The order of the calls in a run", "statement": "The calls a run to a later time makes are exactly the following, attempt by attempt: the inputs callback at the start time of the attempt; pre_step at that time once for every block in the order of the model; evaluations ordered by the stepper, each consisting of the inputs callback and activation functions at one time; and, if and only if the attempt is accepted, after it one evaluation at its end time followed by post_step at that time once for every block in the order of the model. Nothing else is called.", "quantifier": "every model with states, build, scheduling mode, stepper behaviour and times, positive min_time_step (required by a debug build)", "why_tests_cant": "all executions, with all patterns of accepted and rejected attempts; a test sees the calls of a few runs of a few models", "anchors": ["src/solver/simulator_base.cpp: run, stepper_callback", "src/solver/simulator.cpp: process_model", "src/solver/fast_simulator.cpp: process_model"]}
{"id": "C64", "title": "A state and its derivative have the same size", "statement": "In a model built by operations none of which threw, every signal that has a derivative has one of its own kind (both scalars, or arrays of one size). Then an evaluation of the derivatives writes exactly one element per state variable into the array of derivatives and never outside of it. (Not so if the exception of a connect was caught: set_deriv_signal stores the derivative before it compares the sizes, and a later run writes the longer derivative past the end of the array.)", "quantifier": "every sequence of client operations that return, every simulator and session on the resulting model, every time and state vector, debug and release builds", "why_tests_cant": "unbounded operation sequences and models; the overflow corrupts memory silently", "anchors": ["src/signal/float_signal.hpp: set_deriv_signal", "src/block/integrator_base.hpp: connect", "src/solver/simulator_base.cpp: init, run (minor_solver_step_cb)"]}
{"id": "C65", "title": "The iteration order of the hash sets does not show in a simulation", "statement": "Let a model be built by operations none of which threw, and let the stepper treat the state variables alike (all three do, C46). If init followed by any runs succeeds with the unordered sets of signals iterated in one order, it succeeds with them iterated in any other order, and leaves the same signals, block members and times; the calls of blocks and input callbacks, their times, and the signals at every evaluation are the same, and the state vectors are the same up to the order of their elements. (Not so after a caught exception of connect: an Integrator whose derivative is shorter than its output takes derivatives of another state, depending on the order.)", "quantifier": "every model built without exception, every simulator class, debug and release builds, every initial time, every finite sequence of runs, every pair of iteration orders (including different ones for the three sets), every stepper that treats the variables alike", "why_tests_cant": "the order of an unordered_set of pointers depends on addresses and on the standard library, so a test sees one order; infinitely many models and runs", "anchors": ["src/solver/simulator_base.cpp: init, run, reset_with_state_variables, get_state_variables", "src/solver/simulator.cpp: init, process_model", "src/solver/fast_simulator.cpp: init, process_model"]}
{"id": "C66", "title": "Signals are destroyed exactly when nothing needs them any more", "statement": "If a client holds references (shared_ptr) to all signals of a model and gives up any of them in any order, the cascade of destructors ends and never releases an object that is already destroyed; a signal survives if and only if it can be reached, from a bus to its members and from a state to its derivative, from a reference that was kept or from a signal that is its own derivative of some order. If no signal is its own derivative of some order, nothing is left after the last reference is gone. (Integrators connected in a loop, x' = y and y' = x, make such signals: they are never destroyed.)", "quantifier": "every reachable set of signals, buses and blocks; every multiset of references to all signals; every part of it given up, in every order", "why_tests_cant": "the claim is about all object graphs and all orders of destruction; a leak does not change any result", "anchors": ["src/signal/float_signal.hpp: _deriv_sig, set_deriv_signal", "src/signal/bus.hpp: BusImpl::_signals", "src/signal/signal.hpp: Signal::_ptr, SignalT::_typed_ptr", "src/block/integrator_base.hpp: connect"]}
{"id": "C67", "title": "What a run that throws leaves behind", "statement": "If run throws (from user code or from a check) in a debug build, the simulator keeps its time and its lists of signals and stays initialised, and the members of every block are those the last completed sub-step of that run left, or those from before the run if it completed none; so after a run that threw before its first sub-step was completed the blocks are as before. (Not restored: if sub-steps were completed, the integrators are ahead of the simulator's time and a client that runs again integrates part of the interval twice. And an initialisation that throws leaves the simulator marked as initialised: after FastSimulator refused a model, later runs return normally without ever evaluating the blocks of the algebraic loop.)", "quantifier": "every model without TriggeredIntegrator and without user classes that change members outside post_step; every session of runs; all three kinds of simulation; every stepper; every exception", "why_tests_cant": "exceptions can leave from any of the calls inside any sub-step; tests throw at a few places and rarely look at the simulator afterwards", "anchors": ["src/solver/simulator_base.cpp: SimulatorBase::run, init", "src/solver/fast_simulator.cpp: FastSimulator::init", "src/solver/simulator.cpp: Simulator::process_model"]}
{"id": "C68", "title": "A simulation of a connected model has no undefined behaviour in a debug build", "statement": "In a debug build, take a model built by calls that all returned, every leaf of which is connected, with constructor arguments of the types the compiler checks, whose user functions access only existing signals with their own kind, and a simulator whose input callbacks and stepper are equally well behaved. However many simulators are constructed for it one after the other, each initialised at most once and run any number of times, and whether or not calls throw: no init and no run dereferences a null pointer, reads a signal value that was never assigned, writes or reads beyond the packed state vectors or a delay's history, or uses a signal as another type than its own. The only undefined behaviour left is Eigen's element-wise operation on arrays of different sizes, or overflow of int multiplication, and it needs a GainI block in the model, or an AddA or MultiplyA block with an input array of another size than the initial value given to its constructor; models where these sizes agree have none, whatever the values. The steppers Euler, Rk4 and Rkf45 meet the condition on the stepper. (False without the conditions: a leaf that was never connected is activated and dereferences an unset member; AddA of arrays of sizes 2 and 3 is undefined even when every connect and check succeeded. Reuse of the processing order needs a state variable, see C22.)", "quantifier": "all numbers with a total order (so no NaN), all models built by client operations, all simulator modes, steppers that meet the condition, user functions and callbacks that meet the condition, all sequences of simulators, init and run calls including ones that throw", "why_tests_cant": "Undefined behaviour need not show in a test run, and the claim ranges over all models, user functions and sequences of calls including those after exceptions.", "anchors": ["src/solver/simulator_base.cpp: SimulatorBase::init, run, reset_with_state_variables, get_state_variables", "src/solver/simulator.cpp: Simulator::init, process_model", "src/solver/fast_simulator.cpp: FastSimulator::init, process_model", "src/block/extra: activation_function, pre_step, post_step of the blocks", "src/signal: get_value, set_value, clear"]}
{"id": "C69", "title": "Wiring: typed members are the signals of their ports, and integrators link derivatives", "statement": "When connect of a block returns, the block keeps exactly the given buses, and its typed members are the signals of those ports: _s_in and _s_out are input 0 and output 0, _s_x1 and _s_x2 of Subtract and Divide are inputs 0 and 1, _s_x, _s_delay and _s_initial of a Delay and the trigger of a TriggeredIntegrator are the first entries labelled in, delay, initial and trigger, whatever the order of the bus. Connecting an Integrator or TriggeredIntegrator makes its input 0 the derivative of its output 0. This stays so: in every model built without a failing operation all connected blocks hold these members, and also after operations that threw a member that holds a signal holds that of its port. No operation changes the derivative of a signal except set_deriv_signal of that very signal and connecting a so far unconnected integrator whose first output it is.", "quantifier": "every world any sequence of client operations can reach, including operations that threw; every block class, all buses, both build types, every further operation", "why_tests_cant": "Tests connect a few blocks in the documented order of ports; they cannot show that no other sequence of operations, including failed ones, leaves a member bound to another port or changes a derivative.", "anchors": ["src/block/singlei.hpp: SingleInputT::connect", "src/block/singleo.hpp: SingleOutputT::connect", "src/block/extra/subtract.hpp, src/block/extra/divide.hpp: connect", "src/block/extra/delay.hpp: DelayT::connect", "src/block/integrator_base.hpp: IntegratorBaseT::connect", "src/block/extra/triggered_integrator.hpp: connect", "src/signal/float_signal.hpp: set_deriv_signal", "src/block/block.cpp: Block::connect, Block::input, Block::output"]}
{"id": "C70", "title": "For smooth models the error shrinks with the order of the method", "statement": "If phi solves the differential equation x' = F(t, x) of a model on [t0, T] and starts at the states of the model, and near phi the function F is smooth (it is Lipschitz continuous and has Taylor expansions along phi up to third order with uniformly bounded coefficients and remainder, as every function with continuous fourth derivatives has), then there are K and H0 > 0, not depending on how time is divided, such that after any sequence of successful calls of run, each going forward by at most H <= H0, the states of the model differ from phi by at most K * H with Euler, K * H^4 with Rk4 and K * H^4 with Rkf45. F may be nonlinear and may depend on time.", "quantifier": "all models built with the API (debug build) with library blocks other than TriggeredIntegrator (and user classes whose pre_step and activation_function change no members) whose states are outputs of Integrators or kept by blocks of user classes (whose pre_step assigns them from members and whose post_step saves them there) and whose differential equation is smooth near the solution, in any number of dimensions; all three steppers; all sequences of runs with any step limits; all end times up to T; over the real numbers (rounding not modelled)", "why_tests_cant": "A test compares a few step sizes for a few models. Nonlinear models exercise order conditions which linear ones do not (the bushy trees), so that a stage coefficient can be wrong and every test with a linear model still shows order 4; and the order is a statement about all step sizes and all smooth right-hand sides at once.", "anchors": ["src/solver/rk4.cpp: Rk4::step", "src/solver/rkf45.cpp: Rkf45::step", "src/solver/euler.cpp: Euler::step", "src/solver/simulator_base.cpp: SimulatorBase::run, stepper_callback, reset_with_state_variables"]}
{"id": "C71", "title": "Models wired from smooth blocks converge with the order of the method", "statement": "Consider a model with scalar states whose derivatives are computed from the states by a graph without loops of Const, Source, SISO function, Gain, Add, Multiply, Subtract, Divide and Pipe blocks, of blocks with functions or classes of the user (Function, for instance) and of input callbacks that set signals to expressions in other signals, where the functions of Source and SISO blocks and in expressions have four derivatives (the fourth continuous) on an open set that contains their arguments on the solution, and the denominators are not zero on the solution. If phi is a solution of the differential equation of the model on [t0, T] that starts at its states, then there are K and H0 > 0 such that after any sequence of successful calls of run, each going forward by at most H <= H0, the states differ from phi by at most K * H with Euler, K * H^4 with Rk4 and K * H^4 with Rkf45. No bound, Lipschitz constant or Taylor expansion has to be supplied: smoothness follows from how the blocks are wired.", "quantifier": "all models built with the API (debug build) with such blocks between states and derivatives, any other blocks that are not TriggeredIntegrator elsewhere, all solutions, all sequences of successful runs with small steps, the three steppers of the library; over the reals", "why_tests_cant": "the constants range over all step sequences and the blocks can be wired in infinitely many ways; a test checks one model with some step sizes", "anchors": ["src/solver/rk4.cpp: Rk4::step", "src/solver/rkf45.cpp: Rkf45::step", "src/solver/euler.cpp: Euler::step", "src/solver/simulator_base.cpp: SimulatorBase::run, stepper_callback, reset_with_state_variables", "src/block/extra/const.hpp, source.hpp, siso_function.hpp, gain.hpp, add.hpp, multiply.hpp, subtract.hpp, divide.hpp, pipe.hpp: activation_function"]}
{"id": "C72", "title": "A model may be simulated exactly as long as its blocks exist; destroying a block unlinks nothing", "statement": "Parents, children and simulators refer to blocks by plain pointers and Block's destructor does not unlink. Call a model usable if the block handed to the simulator and every block below it still exist and, in a debug build (where each call builds the full name for the trace), every block above it too. While a model is usable, init, run and process_model touch no destroyed block whatever else has been destroyed, and behave exactly as if all blocks lived for ever; the pointers the simulator stores are to blocks of the model only. If it is not usable, init is undefined behaviour in every mode, and neither run nor process_model ever returns normally (for FastSimulator, whose evaluation does not look above the model or at submodels, if a block of the model itself is gone and pre_step or post_step is called). A visit with a depth limit touches no block deeper than the limit. (That the model stays usable when only a block below it is destroyed is false: the destructor does not remove the block from its parent.)", "quantifier": "all reachable worlds without parent cycles, all sets of destroyed blocks, all blocks as models, simulator modes, builds, simulator states (all states reachable from construction for the positive part), times and step bounds", "why_tests_cant": "Use of a destroyed block is undefined behaviour, which a test may not notice; the set of destroyed blocks is arbitrary.", "anchors": ["src/block/block.hpp: ~Block, _parent, visit", "src/block/submodel.hpp: _components, pre_step, post_step", "src/block/submodel.cpp: process, visit, _mark_unprocessed", "src/block/block.cpp: full_name, _mark_unprocessed", "src/block/leaf.cpp: process", "src/solver/simulator_base.hpp: _model", "src/solver/simulator.cpp: init, process_model", "src/solver/fast_simulator.cpp: init, process_model", "src/helper/trace.hpp: pooya_trace"]}
{"id": "C73", "title": "A wired model means the differential equation its diagram shows, and the sample programs converge to theirs", "statement": "Give every signal that is not a state the formula that its block or input callback computes from the signals it waits for (a constant, a function of time or of one signal, a product with a constant, a sum, a product, a difference, a quotient, a copy, or whatever expression a user's function computes). If each block waits only for states and for signals of earlier formulas and no signal is set twice, then at each time and for each state vector x there is exactly one vector of derivatives that blocks and input callbacks can produce together: the one obtained by evaluating the formulas in order. Consequently, if phi satisfies that explicit differential equation between t0 and T, no denominator is zero on phi and the functions are smooth there, then there are K and H0 > 0 such that after any sequence of successful calls of run, each going forward by at most H <= H0, every state signal has a scalar value that differs from phi by at most K * H with Euler and K * H^4 with Rk4 and Rkf45. In particular, the models of samples test04 (spring: x'' = k x), test05 (pendulum: angle'' = -(g / l) sin angle), test06 (pendulum with torque: angle'' = tau / (m l^2) - (g / l) sin angle), test07 (pendulum with PI controller: tau = Kp e + Ki * integral of e, e = target - angle) and test09 (mass, spring and damper: x'' = tau / m - (c / m) x' - (k / m) x, a block of a user class) and tut01_mass_spring_damper (the same mass built from library blocks: x'' = (F - c x' - k x) / m) converge to the solutions of these equations, for all parameters and initial values (test09 and tut01: and every force that is smooth between 0 and T; the tutorial's own force, a step at 1 s, is smooth until just before 1 s only).", "quantifier": "all models built with the API (debug build) whose derivatives have formulas, all orders of blocks, all times and states, all solutions, all sequences of successful runs with small steps, the three steppers of the library; the six samples with all parameters (masses and lengths not zero); over the reals", "why_tests_cant": "equality of the computed derivatives with a formula at all states and convergence for all step sequences are statements about infinitely many runs; the samples only plot one run each", "anchors": ["samples/test04_mass_spring.cpp: MyModel, main", "samples/test05_pendulum.cpp: Pendulum, main", "samples/test06_pendulum_with_torque.cpp: Pendulum, main", "samples/test07_pendulum_with_pi.cpp: Pendulum, PI, PendulumWithPI, main", "samples/test09_mass_spring_damper.cpp: MassSpringDamper, main", "samples/tut01_mass_spring_damper.cpp: main", "src/solver/simulator.cpp: Simulator::process_model", "src/solver/simulator_base.cpp: SimulatorBase::run, stepper_callback", "src/block/extra/*.hpp: activation_function"]}
{"id": "C74", "title": "The differential equation of a diagram without products of states has exactly one solution", "statement": "Consider a diagram as in C73 in which products have at most one factor that depends on states, denominators depend on time alone and are not zero, and functions of signals that depend on states have bounded slope (functions of time alone need only be continuous). Then for all initial values and all T >= t0 there is a function that satisfies the differential equation of the diagram between t0 and T and has these initial values, and only one. Consequently, where the functions are smooth, a simulation of such a model, started in any state, comes as close to that one solution as the order of its method promises (C73), without assuming that a solution exists. In particular, the equations of samples test04, test05, test06, test07, test09 and tut01 have exactly one solution for all parameters (masses and lengths not zero, a continuous force in test09 and tut01), all initial values and all durations. (The condition cannot be dropped: an Integrator fed with the square of its output and started at 1 has no solution over one second.)", "quantifier": "all diagrams of the stated form, all initial values, all intervals of time, all sequences of successful runs with small steps, the three steppers of the library; the six samples with all parameters; over the reals", "why_tests_cant": "existence and uniqueness of a function on an interval of reals are not observable by running the program", "anchors": ["samples/test04_mass_spring.cpp: MyModel", "samples/test05_pendulum.cpp: Pendulum", "samples/test06_pendulum_with_torque.cpp: Pendulum", "samples/test07_pendulum_with_pi.cpp: Pendulum, PI, PendulumWithPI", "samples/test09_mass_spring_damper.cpp: MassSpringDamper", "samples/tut01_mass_spring_damper.cpp: main", "src/solver/simulator_base.cpp: SimulatorBase::run, stepper_callback", "src/block/extra/*.hpp: activation_function"]}
{"id": "C75", "title": "A model that passes a check of its wiring is simulated without exceptions and without undefined behaviour, and no block is left out", "statement": "There is a check, computed once from blocks and signals, that accepts a model if every signal is assigned in exactly one place (client, pre_step, or activation function), signals that go together have kinds and sizes that go together, the members blocks are constructed with fit, the signals with derivatives are the ones assigned in pre_step and the derivatives are assigned, arrays of states are not empty, and the blocks can be put in an order in which each comes after the blocks that assign what it requires (for Simulator this concerns only blocks that compute something, for FastSimulator also BusMemory, BusPipe and the like). Take a model that was built with the library in a debug build from blocks of the library and of classes written by the user, and passes the check. A class of the user assigns in pre_step the signals it is linked with and waits for besides its inputs, in its activation function those it does not wait for, and keeps some condition on its members under which its three functions read only what is ready and assign exactly these signals values that fit. Take it with functions of the user and input callbacks that read only what is ready and set exactly their outputs to values that fit, any of the three simulators (reuse_order only with states and without bus builders), and a stepper that works if its callback does. Then init succeeds, and so does every sequence of calls of run to times that do not decrease (that increase, if there is a Delay; any times, if there are no states), with a stepper and limits 0 < min < max where there are states: no call throws, none is undefined, each ends at its time, and afterwards every signal that client or blocks assign holds a value of its kind and size. With Euler and Rk4 each call returns after one attempt; over the reals, with a stepper that backs off by a factor, such as Rkf45, each call returns, within a number of attempts that depends on the times and limits only. (The condition on sizes is needed: an Integrator of arrays of size zero is accepted by the library, and the first run throws a re-assignment exception. Algebraic loops and inputs that nothing assigns do not throw: the blocks are silently left out.)", "quantifier": "all worlds reachable by calls of the API that pass the check, all configurations of the simulators, all permitted sequences of calls, all iteration orders of unordered sets; ordered number types with exact addition (rationals, reals)", "why_tests_cant": "a test shows that one model runs for one sequence of calls; that a whole class of models never fails, with rejected steps, reused orders and histories of Delay and Derivative, needs an invariant of init, run, the steppers and every block", "anchors": ["src/solver/simulator_base.cpp: SimulatorBase::init, run, stepper_callback, reset_with_state_variables", "src/solver/simulator.cpp: Simulator::init, process_model", "src/solver/fast_simulator.cpp: FastSimulator::init, process_model", "src/block/extra/*.hpp: activation_function, pre_step, post_step", "src/block/integrator_base.hpp: pre_step, post_step", "src/signal/value_signal.hpp: set, get", "src/solver/euler.cpp, rk4.cpp, rkf45.cpp: step"]}
{"id": "C76", "title": "Six sample programs return, with results as accurate as the order of the method promises", "statement": "Take the models of samples test04 (mass on a spring), test05 (pendulum), test06 (pendulum with torque, order reused), test07 (pendulum with PI controller), test09 (mass with spring and damper, a class written by the user, any force that is smooth between 0 and T) and tut01 (the same mass built from library blocks, likewise), with any parameters (masses and lengths not zero), any initial values, any of the three steppers, any T > 0 and any limits 0 < min < max. The differential equations have a solution between 0 and T with these initial values (exactly one, C74), and there are K and N0 such that for every N >= N0 the program that constructs the model and the simulator, calls init at time 0 and then run at T/N, 2T/N, ..., T returns (no exception, no undefined behaviour, no endless loop) and leaves in the signals of the states values that differ from the solution at T by at most K (T/N)^p, where p is 1 for Euler and 4 for Rk4 and Rkf45.", "quantifier": "all parameters and initial values, all durations, all step limits, the three steppers, all sufficiently large numbers of steps; over the reals", "why_tests_cant": "total correctness for uncountably many parameters, and an asymptotic bound against the exact solution", "anchors": ["samples/test04_mass_spring.cpp: MyModel, main", "samples/test05_pendulum.cpp: Pendulum, main", "samples/test06_pendulum_with_torque.cpp: Pendulum, main", "samples/test07_pendulum_with_pi.cpp: Pendulum, PI, PendulumWithPI, main", "samples/test09_mass_spring_damper.cpp: MassSpringDamper, main", "samples/tut01_mass_spring_damper.cpp: main", "src/solver/simulator_base.cpp: SimulatorBase::init, run"]}
{"id": "C77", "title": "For a checked model neither the kind of simulator, nor the build, nor the iteration order of hash sets shows in the results", "statement": "Take a model that passes the check of C75, for two of the three kinds of simulators (default, reuse_order, FastSimulator), the same client callbacks, and a stepper that depends only on what its callback answers. If one of the two is a FastSimulator and the other is not, let every block behave the same when its activation function is called twice at the same time (all blocks of the library do but the TriggeredIntegrator) and let functions of the user read only required signals. Then after init at the same time and the same permitted calls of run both programs have returned, or neither has within the same number of attempts; if they have, every signal has the same value, the members of every block and the state variables are the same, and since init the same input reads, pre_step and post_step calls, finished evaluations and attempted steps happened in the same order at the same times with the same data. Moreover, if the stepper treats the elements of the state vector alike, what a debug build returns with one iteration order of the hash sets is also returned, with the same signals and members, by every kind of simulator, in the debug and the release build, with every iteration order. (With a TriggeredIntegrator it is false: initialised while the trigger is true, its output is its initial value in the default simulator and 0 in the FastSimulator.)", "quantifier": "all models that pass the check, all callbacks and functions of the user that keep to the rules, all pairs of kinds of simulators, both builds, all iteration orders, all sequences of permitted calls, all number types with the stated order and addition laws", "why_tests_cant": "the claim compares three scheduling algorithms, two builds and all hash orders on all accepted models; a test can only compare single runs, and one process has one hash order and one build", "anchors": ["src/solver/simulator.cpp: Simulator::init, process_model", "src/solver/fast_simulator.cpp: FastSimulator::init, process_model", "src/solver/simulator_base.cpp: SimulatorBase::init, run", "src/block/extra/triggered_integrator.hpp: TriggeredIntegratorT::activation_function"]}
{"id": "C78", "title": "What freshly allocated arrays of state variables contain does not show", "statement": "SimulatorBase::init resizes _state_variables, _state_variables_orig and _state_variable_derivs without giving their elements values. Take a model that was built without an exception, any simulator for it with a stepper that depends only on what its callback answers, and a program that calls init and then run at times of which each can be compared with the one before. If the program returns with one contents of the fresh arrays, it returns with every other, and the simulators are the same afterwards, with all signals, members of blocks, recorded calls and their data, except for the three arrays themselves; the state variables are the same, too, once run was called. (False without the conditions: if the first call of run after init has the time NaN, the states are loaded with what the fresh array contains, in all three simulators and also in the debug build, because no comparison with NaN holds; and if a connect threw before, so that the derivative of a state has fewer elements than the state, elements of the fresh array of derivatives are used by the stepper in an ordinary run.)", "quantifier": "all models built without an exception, all simulators, both builds, all steppers with the stated properties, all contents of memory, all sequences of calls at comparable times (over the reals: all)", "why_tests_cant": "memory happens to hold zeros or old values in a test; only memory checkers see the read, and only on the paths that are run", "anchors": ["src/solver/simulator_base.cpp: SimulatorBase::init, run, get_state_variables, reset_with_state_variables"]}
{"id": "C79", "title": "The trace stack is balanced and tracebacks list exactly the active functions", "statement": "In a debug build, a function that uses pooya_trace and pooya_trace_update, directly and in the functions it calls, leaves the global vector of trace records exactly as it found it, whether it returns or an exception leaves it, from the library, the standard library or the client, caught or not; pop_back is never called on an empty vector, and the check 'Empty trace queue!' never fails. What such a program does is what it would do if each active scope had a record of its own: the text of an exception of the library lists exactly the scopes that are active at that point, the innermost first, each with the file and line of the last trace statement executed in it and the last message that was not empty. So the check at the end of the main functions of the samples (size of the stack is 1) always holds. Without debug checks both builds do the same to the state and throw at the same places, the text in the debug build being the text of the release build with the traceback appended.", "quantifier": "all programs built from statements, branches, calls, checks, exceptions and handlers in which pooya_trace_update is used only below a pooya_trace (otherwise it does not compile); all stacks at the start", "why_tests_cant": "a test sees the text of one exception thrown from one place; exceptions that leave scopes at other places and are caught at other levels are not covered", "anchors": ["src/helper/trace.hpp: PooyaTracer, pooya_trace, pooya_trace_update", "src/helper/trace.cpp: pooya_trace_info_string", "src/helper/util.cpp: pooya_throw_exception", "src/helper/verify.hpp: pooya_verify, pooya_debug_verify", "samples/*.cpp: main (last check)"]}
{"id": "C80", "title": "A checked model can be simulated again and again, by one simulator after the other; only a FastSimulator needs a new model", "statement": "Take a model that passes the check of C75, and any sequence of simulators for it, each constructed after the one before was used, of any of the three kinds, with callbacks and steppers as in C75 that may differ from one to the next, each initialised and then run at permitted times. If there is a Delay, let each simulator be initialised at a later time than the last run of the one before. Then no call throws and none is undefined, each simulator ends at its time, and every signal that client or blocks assign then holds a value that fits; except that FastSimulator::init throws its exception ('does not seem the right choice') if and only if the model has blocks and was simulated before, by whatever kind of simulator, because the blocks are still marked processed. A client that catches it can go on with another Simulator. With steppers of fixed step every call returns. If no FastSimulator is refused, a release build returns the same results. (Without the condition on the times it is false: a second simulator that starts at the time the first one ended throws if there is a Delay.)", "quantifier": "all models that pass the check, all finite sequences of simulators of all kinds with permitted calls, all iteration orders, all callbacks and steppers that keep to the rules; number types with the stated laws", "why_tests_cant": "unbounded sequences of simulators that share the members of the blocks; what one leaves behind is what the next starts from", "anchors": ["src/solver/fast_simulator.cpp: FastSimulator::init", "src/solver/simulator.cpp: Simulator::init, process_model", "src/solver/simulator_base.cpp: SimulatorBase::init, run", "src/block/leaf.cpp: Leaf::process", "src/block/block.cpp: Block::_mark_unprocessed", "src/block/extra/delay.hpp: DelayT::post_step"]}
{"id": "C81", "title": "The recorded and exported table of a simulation is what a client would write down by hand, whatever simulator and build", "statement": "Take the main function of the samples for a model that passes the check of C75: construct a simulator and a History, track value signals (at least one), call run and then History::update with row number ind++ and the same time in a loop, and at the end shrink_to_fit. If the calls of run are permitted and rows plus growth stay within 32 bits, then recording does not influence the simulation: it returns exactly if the calls of run alone return, with the simulator in the same state, and neither throws nor is undefined. The history then has one row per call; the time column holds the times of the calls; the matrix of every tracked signal holds, in row k, the values of the signal after call k, and every signal that client or blocks assign had a value there (no zero stands for a missing value); no other signal has a matrix. export_csv writes exactly these lines. Another kind of simulator, build or iteration order gives the identical table (under the hypotheses of C77).", "quantifier": "all checked models, all simulators, callbacks and steppers of C75 and C77, all lists of tracked signals (also with repetitions), all growth steps, all permitted sequences of calls up to the 32 bit limit; number types with the stated laws", "why_tests_cant": "unbounded sequences of calls and growth of the matrices, all models; the tests compare a few values", "anchors": ["samples/tut01_mass_spring_damper.cpp: main", "src/solver/history.cpp: History::track, update, shrink_to_fit, export_csv", "src/solver/simulator_base.cpp: SimulatorBase::run", "src/solver/simulator.cpp: Simulator::process_model", "src/solver/fast_simulator.cpp: FastSimulator::process_model"]}
{"id": "C82", "title": "Every row of a table satisfies the equations of the blocks, and the rows of Memory, Derivative and Delay follow from the earlier rows", "statement": "Simulate a model that passes the check of C75 by any permitted sequence of calls of run, all of which return, and take the state of the signals after each call as a row (this is what C81 shows to be recorded and exported). Then (1) in every row the last completed step is the one at the time of the row with the signals of the row, and in a model without states the completed steps up to a row are exactly the rows up to it; (2) in every row, what the callbacks for input signals write at the time of the row is what the signals hold; (3) in every row, every block other than a bus block builder satisfies its own equation at the time of the row (the equations of C25); (4) in a model without states the column of a Memory is the column of its input moved down by one row, below its initial value; (5) a Derivative without states in the model holds its initial value in the first row and in every other row the difference quotient of its input between this row and the one before (if their times differ; equal times are the defect of C32); (6) a Delay holds its initial signal until a row within its lifespan is older than the delayed time, and from then on the linear interpolation of its input's column at the delayed time.", "quantifier": "all checked models (C75), all kinds of simulator, steppers, callbacks and permitted sequences of calls that return; (4) to (6) all models in which no block has states; number types with the stated laws", "why_tests_cant": "all models, all numbers of rows; the tests look at single blocks with a few rows each", "anchors": ["src/solver/simulator_base.cpp: run, process_model", "src/solver/history.cpp: update", "src/block/extra/memory.hpp: activation_function, post_step", "src/block/extra/derivative.hpp: activation_function, post_step", "src/block/extra/delay.hpp: activation_function, post_step"]}
{"id": "C83", "title": "The sample programs memory_block, gain_block, delay_block and test10_memory_with_bus produce exactly the tables their authors intend", "statement": "The main functions of samples/memory_block.cpp, samples/gain_block.cpp and samples/delay_block.cpp, with any number in place of the constructor arguments, any function in place of the sine, any (for the delay: increasing) list of times in place of 0, 0.1, ..., 10, with Simulator or FastSimulator, return without an exception or undefined behaviour, and the history (and the file export_csv writes) consists of one line per time t with t, f(t) and, in the third column: memory_block: the initial value in the first line and f of the previous time in all others; gain_block: the gain times f(t); delay_block with delay d, initial value a and lifespan L >= 0: a as long as no earlier line within L of the previous line is older than t - d, and otherwise f at the previous time if that is not later than t - d, else the linear interpolation of f between the two consecutive earlier times around t - d. The main function of samples/test10_memory_with_bus.cpp, with any three functions for the signals it sets and any initial value of Z.z3, with Simulator, any iteration order of unordered sets and any times, also returns, and in the history x0, x2 and z3 of x hold the functions of the times and x0, x2 and z3 of y the same columns one line later, beginning with zero, zero and the initial value. (Not with FastSimulator: see C23.)", "quantifier": "all functions, parameters, lists of times and growth steps within 32 bits; number types with the stated laws of order and addition (in particular the real numbers)", "why_tests_cant": "the samples are programs with plots and without assertions; all functions and all numbers of rows", "anchors": ["samples/memory_block.cpp: main", "samples/gain_block.cpp: main", "samples/delay_block.cpp: MyModel, main", "samples/test10_memory_with_bus.cpp: MyBus, main", "src/block/extra/bus_memory.cpp"]}
{"id": "C84", "title": "The sample programs test03_integrator (resetting an integrator) and test08_pendulum_with_pid produce the tables their equations call for", "statement": "(a) The main function of samples/test03_integrator.cpp, with any number as the initial value, any function f as the input, any predicate p of time as the trigger and any increasing list of times, returns without an exception or undefined behaviour; its history has one line per time; the column of xd is f(t); the column of x starts with the initial value, and line k+1 is line k plus (t_{k+1} - t_k) f(t_k), where line k is replaced by zero exactly if the trigger is true in line k or (k > 0) in line k-1. (That a trigger that is true in a single line resets the integrator only once is false: Euler evaluates the model at the start of the next step, when the trigger signal is still processed as true once more, so the integrator is put to zero in two consecutive steps; C84_once_refuted.) (b) The main function of samples/test08_pendulum_with_pid.cpp, with any initial values, gains and parameters, any of the three fixed or adaptive solvers, with Simulator or FastSimulator and any increasing list of times, returns for any sufficiently large bound on the number of solver steps, and in every line of its table tau = Kp (des_phi - phi) + Ki i + Kd d, where i and d are the outputs of the controller's internal integrator and derivative in that same line.", "quantifier": "all initial values, gains, inputs, triggers and increasing lists of times; for (b) the solvers Euler, RK4, RKF45, the modes default and fast, all processing orders of the connections, all growth steps of the history", "why_tests_cant": "The reset happens only in certain combinations of solver, trigger and line; a test sees one trigger, one input and one list of times. That the printed torque belongs to the printed angle, and not to an intermediate solver evaluation, has to hold in every line for every gain.", "anchors": ["samples/test03_integrator.cpp: main", "samples/test08_pendulum_with_pid.cpp: main", "src/block/extra/triggered_integrator.hpp: TriggeredIntegrator", "samples/test08_pendulum_with_pid.cpp: PID", "src/solver/euler.cpp: Euler::step", "src/solver/simulator_base.cpp: SimulatorBase::run"]}
