# Design of the formal model of `taeruh/mbqc_scheduling`

The model is written in Coq 8.16.1 with std++ (lists, finite maps, permutations), in `rocq/theories`.
Build: `cd rocq && coq_makefile -f _CoqProject -o Makefile && make -j4`.

## 1. Layers

| files | content |
|------|---------|
| `Base.v` | panics (`out`), `Result`, machine arithmetic of `usize` in debug and release builds |
| `Spec.v` | the independent specification: well-formed inputs, schedules, the memory rules of the README, costs, Pareto order. It does not import any model file |
| `Combinatoric.v`, `Space.v`, `Time.v`, `Tree.v`, `Scheduler.v`, `Search.v`, `Threaded.v`, `Locks.v`, `LocksInterface.v`, `Probabilistic.v`, `Timer.v`, `Interface.v`, `Python.v`, `Results.v`, `Codec.v`, `Cli.v`, `Roundtrip.v`, `Decimal64.v`, `Output.v`, `Plotting.v`, `Pipeline.v`, `Uniform.v`, `Execution.v` | the model, function by function, every definition with file and lines of `/repo`; no proofs |
| `Histories.v`, `Sweeping.v`, `Executions.v`, `Contributions.v`, `Measured.v`, `Dangling.v`, `WorkSpec.v`, `PartsSpec.v`, `WidthSpec.v`, `BoundsSpec.v`, `SeriesSpec.v`, `AmountSpec.v`, `Callbacks.v`, `Randomness.v`, `FormatSpec.v`, `CliSpec.v`, `JsonSpec.v`, `OutputSpec.v`, `PlotSpec.v`, `Check.v` | vocabulary of the statements: call histories and what a caller observes, complete sweeps, executions of the thread pool and the results the tasks bring along, the questions to an accept function and the random numbers behind its verdicts, texts of the file formats, JSON documents and what the output files have to contain and the figures have to show, command lines; decidable versions of the specification used by the examples |
| `*Facts.v`, `DanglingSearch.v`, `WorkCount.v`, `WorkAny.v`, `Termination.v`, `LocksRefine.v`, `LocksProgress.v`, `ThreadedCover.v`, `ThreadedExact.v`, `ThreadedUnion.v`, `ThreadedWitness.v`, `ThreadedDefault.v`, `ProbabilisticSearch.v`, `FloatRound.v`, `FloatValid.v`, `FloatError.v`, `ShortestWitness.v`, `BenchmarkRuns.v`, `PlotNames.v`, `Counting.v`, `RandomCounts.v` | invariants and proofs |
| `Main*.v` | the statements of the properties as lemmas |
| `Properties_*.v` | only the property theorems, each closed by `exact`, followed by `Print Assumptions`, and examples that meet the hypotheses |

`MANIFEST.json` lists for every property of `properties.jsonl` the theorems `Cnn_…`. A theorem whose name ends in
`_refuted` proves the negation of the claim that is written inside it, with a concrete witness that Coq evaluates.

## 2. Modelling conventions

* A function taking `&mut self` returns the new value. `Result`/`Option` stay data.
* A panic (index out of bounds, `expect`, `unwrap`, arithmetic overflow in a debug build, capacity overflow) is the
  explicit value `Panic` of the type `out`. A thread that panics makes the whole search panic.
* `usize` counters (memory, dependency counts) are `N` with explicit overflow: a debug build panics, a release build
  wraps modulo 2^64. Qubit ids, lengths and indices are `nat`; 64 bit bounds on them appear as hypotheses where they
  matter (`wf_spacial` asks for less than 2^64 - 1 nodes).
* Both build profiles (`cfg(debug_assertions)`: checked or unchecked focusing of the space graph) are modelled; the
  profile is a parameter of every function that depends on it, and every theorem holds for both.
* Hash maps are std++ `gmap`s; where an iteration order is observable, an arbitrary permutation is a parameter.
* Loops run on fuel; running out of fuel is a separate value (`None`). `finishes f o` says that from some fuel on the
  result is always `o`; the termination theorems (C26, C36, …) are stated with it, so fuel never hides non-termination.
* Floating point numbers are exact IEEE binary64 numbers (`SpecFloat` of the standard library, precision 53, emax
  1024), including NaN, infinities and rounding. `exp` is a parameter; where something is needed of it, it is a
  hypothesis of the theorem.
* The timer as seen by a search and the random samples are arbitrary functions. An accept function is an arbitrary
  function of the number of the call and of the arguments, so it may have internal state, and it may panic. `Timer.v` models
  the timer itself (thread, condition variable with spurious wake-ups, drop) and `Interface.v` connects both: there
  the answers seen by a search are those of the modelled timer for an arbitrary behaviour of clock and scheduler.
* Threads: an execution is a list of atomic events (start of a task, one iteration, end of a task with the merge), for
  every interleaving that the FIFO pool allows, after all tasks have been submitted. `Locks.v` is a second, finer model
  in which every lock operation, every access to an entry of the shared data, every poll of the timer and every
  submission is a step of its own; C64 proves that both models have the same results, so nothing depends on the
  coarse steps. Shared data is only accessed under a lock, except for the flag of the timer, which is read and written
  with `Ordering::Relaxed`: a read of a task may miss a write that has happened (`timed_events`, `timed_moves`), and
  C65 shows that late reads of a single threaded search are reads of a flag that is written late.

## 3. What is modelled and what is not

| source | modelled in | not modelled |
|--------|-------------|--------------|
| `mbqc_scheduling/src/scheduler/combinatoric.rs` | `Combinatoric.v` (all) | laziness of the iterator; `itertools` 0.12 `combinations`/`powerset` by their documented order |
| `…/scheduler/space.rs` | `Space.v` (all functions) | derives (`Clone`, `Debug`), `Display` of the errors |
| `…/scheduler/time.rs` | `Time.v` (all functions) | the same |
| `…/scheduler/tree.rs` | `Tree.v` (all) | |
| `…/scheduler.rs` | `Scheduler.v` (all) | error formatting |
| `…/search.rs` | `Search.v` (all) | serde derives of `Path` |
| `…/search/threaded.rs` | `Threaded.v` (all), `Locks.v` (all, with locks and submission) | tracing output, except for the lock that a message takes; `scoped_threadpool` by its documented behaviour (FIFO, n workers, a worker is lost if its task panics) |
| `…/probabilistic.rs` | `Probabilistic.v` (all) | – (for several threads the accept function of a task is a function of the number of the call in this task and its arguments; a state shared between the tasks is, for each single execution, described by some such functions, and the theorems hold for all of them) |
| `…/timer.rs` | `Timer.v` (all) | – (the flag itself is sequentially consistent here; searches may read it late, see section 2) |
| `…/interface.rs`, `…/main.rs` | `Interface.v` (all) | the file system calls are parameters |
| serde derives of the graphs and of `Path`, as read and written by `serde_json` and `bincode` | `Codec.v`, used instead of the codec parameters of `Interface.v` from C56 on | for reading `Path`: unknown fields and escapes in field names; size limits of memory; text that is not UTF-8 is rejected like other text outside the grammar |
| `…/cli.rs`, `results/src/cli.rs` | `Cli.v` (all), with the part of `clap` 4.4 that they use | texts and exit codes of help and error messages; `f64::from_str` is a parameter; arguments that are not UTF-8 |
| `python_lib/rust/src/{lib,probabilistic}.rs` | `Python.v` | pyo3 argument conversion, serialization methods (macros of `pauli_tracker_pyo3`), module registration, doc-only `__init__` |
| `results/src/{lib,plots}.rs`, `plots/{node,density}.rs` | `Results.v`; `Output.v` (names and contents of the output files), with `Decimal64.v` (decimal texts of doubles) | `println!`; the search for the shortest digits of a number (`ryu`, `std`), which is a parameter with the contract `shows` of `Decimal64.v`; `induced_order::get_order` of `pauli_tracker` is a parameter with the contract `induces_orders`; the generator is an arbitrary stream; `Uniform.v` transcribes how rand 0.8.5 (not part of the repository) turns 64 random bits into a sample or an index, and is used by the second half of C72 only |
| `mbqc_scheduling/tests/roundtrip.rs` | `Roundtrip.v`, from the dependency graph on; `Circuits.v`, the part before | proptest (the inputs are universally quantified); `induced_order::get_order` is a parameter with the contract `orders_corrections` of `CircuitSpec.v` (shown to be satisfiable); the threads are carried out one after the other (they share nothing) |
| `pauli_tracker/pauli_tracker/tests/roundtrips/tracking.rs` (included by the former) | `Circuits.v` | code in comments, except for the comparison of both trackers, which is C83; the trackers and stacks of the crate `pauli_tracker` are modelled by their meaning (Pauli operators up to the phase as bits, gates as conjugations, a panic for a missing qubit or twice the same one) |
| unit tests of `space.rs` and `time.rs`, examples of `xdocs/scheduler.md` | `UnitTests.v` | – |
| `results/plotting/*.py` | `Plotting.v`: which files are opened, which numbers are drawn at which places, axis limits, colour ranges | styles, labels, legends, colours of curves, saving; `json.load` for the texts of the grammar, a Python exception is `None` |
| `results/src/main.rs`, `results/scripts/exe_*.bash`, `results/parameters/*.dat` | `Pipeline.v` | splitting of lines at other white space than blanks, patterns for file names; the files named `hardware_info*`; jobs that are killed |
| `python_lib/examples/compile_flow.py` | `Execution.v` | the classes of the Python package `pauli_tracker` are modelled by their meaning (Pauli operators as bits, gates as conjugations); `get_py_order` by what it has to guarantee (`compiled`); local Clifford corrections; everything marked pseudo code except for the corrections |
| `python_lib/examples/simple.py`, `python_lib/tests/main.py` | the calls of `run` are those of `Python.v` | printing |
| other docs | – | everything |

Findings that contradict the documentation or the evident intention of the code are stated as `_refuted` theorems
(C08, C11, C14, C24, C28, C32, C34, C35, C37, C40, C43, C66, C70, C73, C74, C75, C77, C78, C79, C81, C82, C86, C87, C88, C91, C92, C93, C95, C96) or as exact characterisations (C09, C30, C41, C42).

Further observations, made while reading, that are not theorems: the comment in `runtimes.py` says
999 hours where the value is 999 minutes; `density.rs` writes `walltime` 10 into its output although the job asks for 5
hours; the output file of a benchmark program is only created after the last run, so that a missing permission loses
everything; the Python and the `results` crate import the name `SpacialGraph` from places where it is not public.

## 4. Trusted base

* The Coq 8.16.1 kernel, including its virtual machine (`vm_compute` is used for concrete examples, witnesses and two
  finite checks of constants; `coqchk` re-checks these without the virtual machine).
* Axioms: none. `Print Assumptions` is run after every property theorem in `Properties_*.v` and prints
  "Closed under the global context" for **every** theorem listed in `MANIFEST.json`. (Checking the whole library also
  lists seven parameters `Coq.ssr.ssrunder.Under_rel.*`; they belong to a module of the standard library that std++
  loads, and no theorem depends on them.)
* The translation of the Rust code into the model by hand, with the simplifications of section 3, the behaviour of the
  external crates named there, and `Spec.v` as the meaning of the statements.

How the translation was checked: every definition cites the lines it models; `UnitTests.v` carries out on the model
what the repository's unit tests and documentation examples assert about concrete values; the model was extracted and run (outside
this repository) on the reference input `test_files/fourier_4o` and reproduced exactly the expected pairs (time, space)
(4,6), (5,5), (6,4), (9,3), (15,2) of the repository's test data; the 22 files in `results/data`, written by the real
programs, have exactly the layout of `Output.v` (order of the members, no blanks, numbers of entries) and agree with what
the theorems say about them: each of the 2016 means is the double nearest to an integer divided by 3000 (C68), all
deviations belong to integer sums of squares divided by 3000 and not 2999, the means of the first exact schedules equal
those of the fastest schedules for all 19 sizes, and the last exact ones need the least space (C46); and the theorems were tested against wrong programs
(section 6).

## 5. Properties and proof methods

* C01: `powerset`/`Partition::next` as functions; induction over the set and the index lists.
* C02, C03: complete sweeps over `PathGenerator`, induction over the number of
  unmeasured nodes; counting by the recurrence of the ordered Bell numbers; upper bound by an injection.
* C04: `Sweep` over an abstract `FocusIterator`; induction over call histories.
* C05-C08: invariant of `Graph` by induction over histories, compared with the declarative cost in `Spec.v`;
  C07 by comparing with arbitrary executions of the README rules; C08 includes a refutation of atomicity.
* C09: invariant of the edge loop.
* C10-C14: invariant relating a generator to the set of measured nodes, for every history. C11, C14 contain
  refutations of the documentation.
* C15, C16: combination of both invariants, both build profiles.
* C17-C19: induction over the greedy loop; lower bound via dependency chains.
* C20-C27, C29, C30: inductive invariants of one iteration of the search loop
  (chain of nodes on the stack, soundness of results, `best_memory` witnessed by results, coverage:
  every schedule is dominated or still to be visited), termination measure, then the filter.
* C28: characterisation for malformed graphs and concrete refutations.
* C31-C36: transition system of task events (start, iteration, merge) with the FIFO thread pool;
  invariants for all event sequences. C32 is refuted by a concrete interleaving (computed in Coq) and proved
  for the minimal time and for interleavings in which the tasks that reach the periodic exchange are
  undisturbed (or no task reaches one). For all interleavings: every optimum is among the results of some
  task when it ends, so the loss happens in the merge, and merging by comparing results would avoid it.
* C37: transition system of the timer with clock, spurious wake-ups, drop.
* C38-C40: the entry points; codecs (see C56), file system calls and Python objects are parameters.
* C41, C45: exact facts about binary64 arithmetic; the eager part of the search with the default accept function.
* C42: loops over an arbitrary random stream.
* C43, C44: whole runs: dependence on the environment, combination of timer, search and files.
* C46, C47: the benchmark programs, on top of C31/C44; complete executions exist for all arguments.
* C48, C49: two accept functions that agree on the questions of the specification give the same run (invariant: the
  array of the search holds the lowest spaces of what would be returned now); simulation for panics.
* C50-C55: simulation of the search by the sweep, and comparisons of sets of schedules: renaming and relaxing inputs
  maps valid schedules to valid schedules with the same or lower costs, splitting steps never costs memory.
* C56-C58: `FormatSpec.v` describes the texts of both formats as relations; readers are sound and complete for them by
  induction over values and texts; combined with C39, C43 and C44.
* C59-C61: `CliSpec.v` describes command lines as sequences of pieces; the parser is sound and complete for them.
* C62: the test is a program like any other here; a failing assertion is a panic. It compares the search with the
  enumeration through `selected` (C50), and the split through an invariant on lists of steps.
* C63: two runs with the same verdicts go through the same states except for the numbers of samples drawn; the
  questions are collected along the first run, for every task separately.
* C64: simulation in both directions. The iteration with an exchange is the event at the release of the lock; the
  answer of the timer, polled after it, is not known there, so the simulation holds for every possible answer until
  the poll. Lock and queue invariants give mutual exclusion and progress; a measure gives termination.
* C65: results only depend on the order of events and on whether the flag was set at all when a read sees it, so all
  events of clock and timer thread can be moved to the front in both models; then C64 applies.
* C66: as long as the shared bounds are at their maximum the first descent of the first task is decided as in C45;
  after it the fastest time has a bound below the maximum, first in the task, then in the shared bounds, and a time
  with such a bound has a path (as for C33). The refutation is a computed execution; C64 carries it to the locks.
* C67: the first task is alive until some bound is below the maximum (its first descent accepts every step). A result
  of the least time that ever gets such a bound is never dropped, so the shared results are not empty in the end.
* C68: from C67 all columns have 3000 entries, at most the number of nodes. `FloatRound.v` proves for the functions of
  Coq's `SpecFloat` that sums of small integers are exact, that a quotient is nearest (the guard and sticky bits
  describe the remainder) and that sums, products, quotients and roots stay below integer bounds.
* C69: the writer is compared with a declarative description of JSON texts (`JsonSpec.v`) and of their contents
  (`OutputSpec.v`). Numbers: digits found by `ryu` are laid out in one of five forms; each of them is read as the same
  decimal number, whose correctly rounded double is the original by the contract. Reading is complete for the
  declarative texts, hence a text has only one document.
* C70: the document written by C69 is read back and each list is followed to its place in the figure; the parameter
  files are concrete texts that Coq evaluates. The 21 files of the density runs have different names, so every order of
  the jobs leaves the same files. Names: integers, and factors in the stated ranges, are written alike by Rust and Python.
* C71: `FloatError.v` bounds the relative error of each operation of `SpecFloat` by 1/(2^53 - 1) (for a root, by
  comparing squares of integers), as long as the result is in the normal range; exponents are bounded from below by
  following them through the program and from above by C68. Errors of sums of squares add up because no summand is
  negative. The sum of squares around the rounded mean exceeds the one around the mean by n times the square of the
  error, which is negligible because a variance of integers is either zero (then the mean is exact) or at least 1/n^2.
* C72: a probability is a number of equally likely draws. The draws that lead to a given result are enumerated by a
  function on lists that follows the loop of the program (each pair of nodes, or of measurements, is decided by a sample
  of its own; the place of a qubit in the pool is the only index that takes it out), and the length of the list is the
  product of the numbers of samples on either side of the density. For rand, a sample is exactly its 52 bit fraction, so
  the words below the density form an initial segment; the accepted words of an index form one interval per index, all
  of the same length.
* C73: the corrections known after the qubits of a list have been measured are the product of the frames chosen by
  `upto`; by induction over the list the loop keeps this product. In a legal schedule all qubits that a qubit comes
  after lie in earlier steps, so nothing is missing when it is measured. For the converse, the ancestors of the
  corrected qubit are measured first, one by one (`ancestors`). The buffer is right because conjugation is linear.
* C74: nothing is known about the time half of the scheduler here, so the invariant only speaks about the space half: a
  successful checked `focus_inplace` proves that the step was new and in range, and then the graph is the one of the
  extended schedule. For the agreement of the builds, each function is shown to return in release builds what it returns
  in debug builds, from the arithmetic upwards.
* C75: the code is run on the graph and on the pruned graph in lockstep. As long as the first one does not panic, both do
  the same and every measured node has nodes as neighbours only; if all qubits that can become measurable are listed and
  have nodes as neighbours only, a panic of the first one is a panic of the second one. The panics follow from what is
  known about the pruned graph, which is well-formed: a returned path would have to measure every listed qubit.
* C76: an inductive relation lists the nodes that a sweep still visits below a state. Its length gives the exact number of
  iterations of a sweep, and a quantity that every iteration of a search or of a task decreases. The listed nodes are
  matched with the beginnings of schedules, each is met once; their number satisfies the recursion of the ordered Bell
  numbers. The depth of a sweep is bounded by the unmeasured qubits, for every input. What C76 does not give is a lower
  bound for searches: how much they skip depends on the input.
* C77: until the search reaches its first leaf it is run in lockstep with `get_time_optimal`: both measure the same list in
  each step, in the same order. The order of a sweep follows from the order in which a node offers its children.
* C78: a schedule restricted to the qubits of one part is a schedule of this part that needs no more; schedules of the parts
  are combined by joining their steps, or by appending them. With the exactness of the search (C22) the statements about
  the paths follow; without search the joined steps are again as early as possible, and there is only one such schedule.
* C79: the sets of qubits that are in memory during the steps of a schedule are the bags of a path decomposition; from a
  decomposition one gets a schedule by measuring each qubit when its last bag is reached. With the exactness of the
  search (C22) the trade-off between time and space is that between the number and the size of the bags.
* C80: what is measured in a step is in memory during this step; when the first member of a clique is measured, all members
  are. That the bounds are attained follows with C79 from explicit decompositions.
* C81: the first step with a qubit of the second stage comes after all qubits of the first stage, so that every schedule is
  one of the first stage followed by one of the second; with the exactness of the search (C22) the costs follow. A total
  order leaves one schedule.
* C82: invariant of the instructor (the qubits in memory are tracked, the measured ones are stored, and a stored stack has
  operators only for earlier measurements), then C62; the contract of `get_order` is met by a layer per measurement.
* C83: both trackers side by side; gates are additive, so they commute with taking the product over the results.
* C84: finitely many Pauli operators per gate, compared with matrices of Gaussian integers (`GateSpec.v`); the rest is where
  in a state the operators change.
* C85: a stronger order has fewer schedules, then C22; conversely, if b need not wait for d, first everything that b has to wait
  for, then b, then the rest is a schedule with b before d.
* C86: a schedule of the whole, restricted to the part and without the steps that become empty, is one of the part; the
  renaming maps what occupies memory injectively. Then C22.
* C87: for a fixed schedule every additional edge keeps at most one of its ends in memory; a dependency chain uses every
  additional dependency at most once.
* C88: schedules read backwards.
* C89: measuring block by block; when the first set of a bramble is measured completely, all others have a qubit in memory.
* C90: C89 with the numbers column by column and row by row, and the bramble of the crosses of a row and a column together
  with the last row and the last column.
* C91: a joined qubit is measured together with the last qubit it stands for; while it is in memory, so is one of those, since
  a connected set that is partly measured has an unmeasured qubit next to a measured one. Then C22 and the bramble of C90.
* C92: first the rest as before, then S one by one; then C22.
* C93: recursively the largest subtree first, then the others while the root stays in memory: those have at most half of the
  qubits; then C22.
* C94: C20, C22 and the second part of C32; two Pareto fronts have the same costs.
* C95: C39, C57, C74 and C75; the memory needed does not change if the neighbours that are not nodes are deleted.
* C96: injections between the schedules of two orders; the sweep enumerates every schedule once (C02); a schedule of a series
  is cut at the first step of the second part, one of two independent parts is restricted to the parts (C78);
  two consecutive steps without dependencies between them can be made at once, which gives a second schedule.
* C97: numbered along one schedule, the last qubit of a step gets a step of its own or is put back, at the first place where
  this is possible; this pairs all schedules but one. A step with two qubits can be made in two.

## 6. Tests of the theorems against wrong programs

`seeded/LOG.jsonl` has one line per attempt: the model definition that was edited, the edit (old and new text), the
claim that it should break, and what happened. The edits are bugs that could happen in the Rust code: a wrong comparison,
an index off by one, a forgotten update, a bound that is not exchanged, a lock released too early, a sample used twice, a
wrong file name, a wrong divisor. Each edit was made in a scratch copy and the library was rebuilt; every proof that no longer
went through was replaced by a marker (an axiom, in the scratch copy only), until the library built again. `failed_proofs`
lists the marked proofs, `failed_theorems` the property theorems whose proofs depend on one of them, `failed_examples` the
concrete cases.

Reading the log: a theorem in `failed_theorems` is a theorem whose proof depends on a fact that is wrong, or whose proof
script does not fit any more; it need not itself be false. What matters is that no edit that breaks a claim passes unnoticed.
Each file had a time limit; where a proof was marked because its file exceeded it, it is named in `timed_out` as well, and
`failed_theorems` may then list theorems that the edit does not touch (mostly C69 and C70, through `PlotNames.factor_texts`,
which was slow until it was rewritten). Every such edit has failed proofs besides.
Edits that no theorem can notice because the edited program behaves the same are marked `survived, equivalent`; edits
that broke a proof but no claim are marked as well. `tightened` names theorems that were added or strengthened because an
earlier version did not notice the edit: which random sample decides which step (C63), what an accept function is asked (C48),
the recorded numbers of the benchmark (C42, C46, C47, later C68 and C71), the ends of the colour ranges (C70), the
distribution of the random instances (C72).

Known gap: the edit `py_param` (the Python binding ignores the parameters of a `ParametrizedHeavyside`) survives and is not
equivalent. `C40_same_as_run` is stated with the conversion `to_real` of the model, so it moves along with an edit of it.
