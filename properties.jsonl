{"id": "C01", "title": "Partition iterator is exhaustive and duplicate-free", "statement": "Iterating Partition::new(set, set.len()) yields exactly 2^n pairs (left, right); in every pair left and right together are an order-preserving split of the set, every sub-collection of positions occurs as `left` exactly once, the first pair is ([], set), the last is (set, []), and afterwards the iterator returns None forever.", "quantifier": "every set (any length, any elements)", "why_tests_cant": "the number of pairs is exponential and tests only look at a handful of tiny sets", "anchors": ["mbqc_scheduling/src/scheduler/combinatoric.rs: Partition::new, Iterator for Partition::next"]}
{"id": "C02", "title": "Sweeping a path generator yields every legal schedule exactly once", "statement": "Collecting the paths of a full Sweep (push on Forward, record on Backward(Some), pop on Backward) over a generator built from a well-formed dependency graph gives a list that contains only complete schedules respecting the dependencies, and contains, up to the order inside a step, every such schedule exactly once. The exception is a graph without nodes: its only schedule is the empty one, and the sweep records nothing, because the root is never left by a Backward step. Sweeping the scheduler instead records the space cost of each path with it.", "quantifier": "every well-formed dependency graph, every schedule", "why_tests_cant": "the unit test checks one 4-node graph and the counts for at most 5 independent nodes", "anchors": ["mbqc_scheduling/src/scheduler/tree.rs: Sweep::next", "mbqc_scheduling/src/scheduler/time.rs: PathGenerator::next_and_focus, at_leaf", "mbqc_scheduling/src/scheduler/time.rs: tests::simple_paths"]}
{"id": "C03", "title": "The number of schedules is the ordered Bell number, which bounds every graph", "statement": "For n \u2265 1 mutually independent nodes the sweep yields exactly the n-th ordered Bell number of paths, and for every other well-formed dependency graph over n nodes it yields at most that many.", "quantifier": "every n and every well-formed dependency graph", "why_tests_cant": "the test stops at n = 5 and never tests the upper bound", "anchors": ["mbqc_scheduling/src/scheduler/time.rs: tests::max", "mbqc_scheduling/xdocs/scheduler.md: Performance"]}
{"id": "C04", "title": "Sweep protocol: balanced, fused, skip prunes exactly one subtree", "statement": "A Sweep emits Forward/Backward steps that are balanced (its stack depth equals the number of unmatched Forwards), after returning None it keeps returning None, and skip_current after a Forward restores the parent exactly as it was after that Forward, so the rest of the iteration is the one in which the skipped child had no descendants; skip_current on an empty stack errs and changes nothing.", "quantifier": "every tree (any FocusIterator), every interleaving of next and skip_current calls", "why_tests_cant": "histories of next/skip calls are unbounded", "anchors": ["mbqc_scheduling/src/scheduler/tree.rs: Sweep::next, Sweep::skip_current, EmptyStack"]}
{"id": "C05", "title": "Memory counters describe the node states", "statement": "After any sequence of successful measurements current_memory() equals the number of nodes() in state InMemory, current_memory() <= max_memory(), and max_memory() never decreases.", "quantifier": "every graph with in-range neighbours, every sequence of successful focus/focus_inplace calls", "why_tests_cant": "all histories", "anchors": ["mbqc_scheduling/src/scheduler/space.rs: Graph::focus_inplace, measure, initialize, update_memory, current_memory, max_memory, nodes"]}
{"id": "C06", "title": "Reported memory is the memory cost of the schedule", "statement": "After measuring the steps S1..Sk from a fresh graph, max_memory() is the maximum over the steps j of the number of nodes that are not measured before step j and that have been measured or are neighbours of something measured up to and including step j. It therefore depends only on the sets in the steps and on the neighbour sets: neither the order inside a step, nor repeated edges, nor self loops change it.", "quantifier": "every graph with in-range neighbours, every sequence of disjoint steps", "why_tests_cant": "the space of graphs and histories is infinite; only two small sequences are tested", "anchors": ["mbqc_scheduling/src/scheduler/space.rs: Graph::new, Graph::focus_inplace, max_memory"]}
{"id": "C07", "title": "Reported memory is the least memory with which the schedule can be executed", "statement": "Under the README rules (a node is measured only when it and all its neighbours have been initialized, a node once initialized occupies memory until measured), no way of initializing qubits executes the steps with a smaller peak number of initialized qubits than the reported space, and the reported value is attained.", "quantifier": "every graph, schedule and every initialization strategy", "why_tests_cant": "quantifies over all possible executions", "anchors": ["README.md: rules 1-3", "mbqc_scheduling/src/scheduler/space.rs: Graph::focus_inplace", "mbqc_scheduling/src/interface.rs: Path::space"]}
{"id": "C08", "title": "Measuring a node twice is rejected; focus never changes its receiver", "statement": "Graph::focus on a set that contains an already measured or repeated node returns Err(AlreadyMeasured(first such node)) and a set of distinct unmeasured in-range nodes returns Ok with the same graph focus_inplace would produce; focus leaves the receiver unchanged. A failing focus_inplace however is not atomic: it may leave the receiver with a changed counter that no longer counts the nodes in memory.", "quantifier": "every graph, history and measure set", "why_tests_cant": "all histories, error paths", "anchors": ["mbqc_scheduling/src/scheduler/space.rs: Focus for Graph, AlreadyMeasured"]}
{"id": "C09", "title": "Checked graph buffer construction builds the simple graph of the edge list", "statement": "GraphBuffer::new with check_loop_multi_edge builds neighbour lists that are symmetric, loop free and duplicate free and whose adjacency is exactly the (relabelled) edge list without loops; without the check and on an edge list without loops and repeated edges it builds the same buffer. An endpoint outside 0..num_nodes panics, except that with the check a loop at a node outside the buffer is skipped silently.", "quantifier": "every edge list, node count and relabelling", "why_tests_cant": "tests check a single 4-node graph", "anchors": ["mbqc_scheduling/src/scheduler/space.rs: GraphBuffer::new, new_loop!, new_body!"]}
{"id": "C10", "title": "Manual scheduling accepts exactly the measurable sets", "statement": "focus/focus_inplace of a path generator with a set no longer than the measurable set succeeds iff the set consists of distinct currently measurable nodes; otherwise it returns NotMeasurable listing exactly the nodes that are not measurable (with multiplicity) and the generator is unchanged.", "quantifier": "every generator state reachable from a well-formed graph, every instruction", "why_tests_cant": "all histories and all instructions", "anchors": ["mbqc_scheduling/src/scheduler/time.rs: PathGenerator::partition, Focus for PathGenerator, NotMeasurable"]}
{"id": "C11", "title": "Instructions longer than the measurable set", "statement": "The documented outcome of an instruction that is not measurable is an error NotMeasurable. For instructions with more entries than the measurable set the code instead panics (capacity subtraction underflow), in debug and release builds.", "quantifier": "every generator state and every longer instruction", "why_tests_cant": "needs all states; no test feeds such an instruction", "anchors": ["mbqc_scheduling/src/scheduler/time.rs: PathGenerator::partition (Vec::with_capacity)", "mbqc_scheduling/src/scheduler/time.rs: NotMeasurable docs"]}
{"id": "C12", "title": "The measurable set is always the set of enabled nodes", "statement": "After any sequence of accepted instructions the measurable set contains, without repetition, exactly the nodes of the dependency graph that have not been measured and whose dependencies have all been measured, and each unmeasured node outside it is reported by has_unmeasureable.", "quantifier": "every well-formed dependency graph, every sequence of accepted instructions", "why_tests_cant": "all histories", "anchors": ["mbqc_scheduling/src/scheduler/time.rs: from_dependency_graph, update_unchecked, measurable, has_unmeasureable"]}
{"id": "C13", "title": "Dependency buffers can be reused and are bounds-checked", "statement": "The behaviour of a path generator does not depend on what the dependency buffer contained before, so a buffer can be reused; building a generator panics iff some node of the graph is outside the buffer; a bit mapping is equivalent to relabelling the graph first.", "quantifier": "every graph, buffer content, mapping", "why_tests_cant": "all previous buffer contents", "anchors": ["mbqc_scheduling/src/scheduler/time.rs: PathGenerator::from_dependency_graph, DependencyBuffer"]}
{"id": "C14", "title": "num_remaining_nodes counts the not yet measurable nodes only", "statement": "num_remaining_nodes(), documented as the number of nodes left to be measured, is the number of unmeasured nodes that are not measurable yet; it differs from the number of unmeasured nodes whenever something is measurable.", "quantifier": "every well-formed dependency graph, every history", "why_tests_cant": "all histories", "anchors": ["mbqc_scheduling/src/scheduler/time.rs: num_remaining_nodes", "mbqc_scheduling/src/probabilistic.rs: Accept (num_remaining_nodes)"]}
{"id": "C15", "title": "Scheduler keeps time and space consistent under manual instructions", "statement": "A scheduler built from fresh parts accepts an instruction iff its path generator does; on acceptance the node states are Measured exactly for the measured nodes and max_memory() is the memory cost of the instructions so far; on NotMeasurable nothing changes; AlreadyMeasured never occurs.", "quantifier": "every well-formed input, every sequence of instructions (accepted or rejected)", "why_tests_cant": "all histories", "anchors": ["mbqc_scheduling/src/scheduler.rs: Focus for Scheduler, Scheduler::new, InstructionError"]}
{"id": "C16", "title": "Debug and release builds behave identically", "statement": "On well-formed inputs the checked (debug_assertions) and unchecked (release) variants return the same values for the search and for every history of manual scheduling, and neither panics (unless a custom accept function does), except on focus instructions that are longer than the measurable set (C11) or name nodes outside of the graph.", "quantifier": "every well-formed input, every history", "why_tests_cant": "tests only run in one build profile", "anchors": ["mbqc_scheduling/src/scheduler.rs: cfg(debug_assertions)", "mbqc_scheduling/src/scheduler/space.rs: focus_inplace_unchecked, measure_unchecked"]}
{"id": "C17", "title": "run without search returns one valid schedule with exact costs", "statement": "run(.., do_search=false, ..) returns exactly one path; its steps form a complete schedule respecting all dependencies, time is the number of steps and space the memory cost of the steps; it never panics on well-formed input.", "quantifier": "every well-formed pair of graphs, all values of the other parameters", "why_tests_cant": "all inputs", "anchors": ["mbqc_scheduling/src/search.rs: get_time_optimal", "mbqc_scheduling/src/interface.rs: run"]}
{"id": "C18", "title": "run without search is time optimal", "statement": "No schedule that respects the dependencies has fewer steps than the returned one, and the number of steps equals the length of a longest dependency chain.", "quantifier": "every well-formed pair of graphs, every competing schedule", "why_tests_cant": "quantifies over all schedules", "anchors": ["mbqc_scheduling/src/search.rs: get_time_optimal"]}
{"id": "C19", "title": "The time optimal steps are the layers of a canonical dependency graph", "statement": "If every node outside the first layer depends on a node of the directly preceding layer, the returned steps are exactly the non-empty layers (as sets, in order).", "quantifier": "every well-formed canonical dependency graph", "why_tests_cant": "all inputs", "anchors": ["mbqc_scheduling/src/search.rs: get_time_optimal (PERF comment)"]}
{"id": "C20", "title": "Every path returned by a search is a valid schedule with exact costs", "statement": "Whatever the timeout, accept function (also one with internal state or one that panics in some calls), seed and build, every path returned by the single threaded search is a complete schedule respecting the dependencies whose time is its number of steps and whose space is its memory cost.", "quantifier": "every well-formed input, every moment of the timeout, every accept function and random sequence", "why_tests_cant": "all timeouts and random sequences", "anchors": ["mbqc_scheduling/src/search.rs: search, do_search, do_probabilistic_search, backward"]}
{"id": "C21", "title": "The returned list is a strict trade-off curve", "statement": "The returned paths are sorted by strictly increasing time and have strictly decreasing space.", "quantifier": "every input, timeout, accept function, seed, thread interleaving", "why_tests_cant": "all inputs and interleavings", "anchors": ["mbqc_scheduling/src/search.rs: search (filtering and sorting)"]}
{"id": "C22", "title": "The exhaustive search returns the exact Pareto front", "statement": "Without timeout and accept function the single threaded search terminates, and for every schedule respecting the dependencies it returns a path that is at least as good in time and in space; hence every returned path is Pareto optimal and the first one is time optimal, the last one space optimal.", "quantifier": "every well-formed input, every competing schedule", "why_tests_cant": "quantifies over all schedules; the proptest samples at most 8 nodes and compares against the same sweep", "anchors": ["mbqc_scheduling/src/search.rs: search, do_search, forward, backward, minimum_path_length"]}
{"id": "C23", "title": "A deterministic search that returns anything returns a time optimal path first", "statement": "If a deterministic single threaded search is stopped by the timeout at any moment, then either it returns nothing or its first path has the same time as the time optimal path; it returns something as soon as the timer answered 'not finished' for as many iterations as some schedule has steps.", "quantifier": "every well-formed input, every moment of the timeout", "why_tests_cant": "all timeouts", "anchors": ["mbqc_scheduling/src/search.rs: do_search", "mbqc_scheduling/src/interface.rs: run (timeout docs)"]}
{"id": "C24", "title": "Searching longer never makes the result worse", "statement": "For two timeouts of a single threaded search where the second fires later, every path returned with the first is matched by a path returned with the second that is at least as good in time and space. With several threads this is refuted: of two executions that agree until a task finds the timer finished in the first one, the second one can return less (the results of the tasks overwrite each other, see C32).", "quantifier": "every well-formed input, every pair of timeouts, every accept function and random sequence; for the refutation: two interleavings", "why_tests_cant": "all pairs of timeouts", "anchors": ["mbqc_scheduling/src/search.rs: do_search, backward, search"]}
{"id": "C25", "title": "The search terminates on every input", "statement": "The sweep and hence get_time_optimal and the search loops perform finitely many iterations (returning or panicking) for every input, well-formed or not.", "quantifier": "every input, well-formed or not, every timeout, accept function, random sequence", "why_tests_cant": "termination on all inputs", "anchors": ["mbqc_scheduling/src/search.rs: get_time_optimal, do_search, do_probabilistic_search", "mbqc_scheduling/src/scheduler/tree.rs: Sweep::next"]}
{"id": "C26", "title": "The search never panics on well-formed input", "statement": "No index, subtraction or unwrap in the sweep, in the pruning (best_memory index, at most num_bits) and in the bookkeeping fails on well-formed input: if no call of the accept function panics the search returns.", "quantifier": "every well-formed input, timeout, accept function, random sequence, build", "why_tests_cant": "all inputs", "anchors": ["mbqc_scheduling/src/search.rs: forward, backward, minimum_path_length"]}
{"id": "C27", "title": "Accept functions that always accept give the deterministic search", "statement": "If the accept function never returns less than 1 the probabilistic search returns exactly what the deterministic search returns; an accept function that always returns 0 (or NaN) returns no paths.", "quantifier": "every well-formed input, every such accept function, every random sequence, timeout", "why_tests_cant": "all accept functions", "anchors": ["mbqc_scheduling/src/search.rs: do_probabilistic_search, probabilistic_forward", "mbqc_scheduling/src/probabilistic.rs: Accept docs"]}
{"id": "C28", "title": "Malformed dependency graphs are silently truncated", "statement": "For a dependency graph whose nodes are distinct and in range but whose dependencies are malformed, run behaves without any error as for the graph that is left when, layer by layer, every node after the first layer is removed that has no dependencies, a repeated dependency, or a dependency that is missing, removed or not in an earlier layer (dependencies in the first layer are ignored): the time optimal path is the one of the remaining graph, every path of a search is a complete schedule of the remaining graph with exact costs, and the removed nodes are never measured. The search does not have to find the best schedules of the remaining graph.", "quantifier": "accept functions that do not panic (the last claim: all accept functions); exact characterisation over every graph with distinct in-range nodes of the nodes that are measured", "why_tests_cant": "all malformed graphs", "anchors": ["mbqc_scheduling/src/scheduler/time.rs: from_dependency_graph", "mbqc_scheduling/src/search.rs: get_time_optimal"]}
{"id": "C29", "title": "The result does not depend on hash map iteration order", "statement": "The list returned by search is the same for every iteration order of the randomly seeded hash map that holds the filtered results.", "quantifier": "every iteration order", "why_tests_cant": "hash seeds are random per process", "anchors": ["mbqc_scheduling/src/search.rs: search (filtered_results.into_iter().collect, sort_by_key)"]}
{"id": "C30", "title": "Inputs without nodes", "statement": "If the dependency graph lists no node, run without search returns one path of time 0 and space 0 with no steps, while run with search returns no path (single and multi threaded).", "quantifier": "every spacial graph, every timeout, accept function, nthreads, task bound", "why_tests_cant": "all parameters", "anchors": ["mbqc_scheduling/src/search.rs: get_time_optimal, search", "mbqc_scheduling/src/search/threaded.rs: search"]}
{"id": "C31", "title": "Every path returned by the multi threaded search is valid", "statement": "For every interleaving of the worker threads, every moment of the timeout, every accept function and random sequence, every path returned is a complete schedule respecting the dependencies with exact time and space, and no thread panics unless a call of the accept function does.", "quantifier": "every well-formed input, thread count, task bound, interleaving, timeout", "why_tests_cant": "thread schedules cannot be enumerated by tests", "anchors": ["mbqc_scheduling/src/search/threaded.rs: search, task, do_search, do_probabilistic_search, update"]}
{"id": "C32", "title": "Multi threaded optimality", "statement": "Claim: without timeout and accept function, the multi threaded search returns the Pareto front for every interleaving. False: when a task exchanges best_memory after UPDATE_INTERVAL iterations it can later overwrite a better result of another task by its own worse one of the same length. It holds for every interleaving in which no task reaches such an exchange, and more generally if no other task ends or exchanges while a task that reaches an exchange is running. In every interleaving the results that the tasks have when they end contain, for every schedule, one at least as good; only the merge loses some of them, and a merge that compared the results would give the Pareto front.", "quantifier": "every well-formed input, thread count, task bound, interleaving", "why_tests_cant": "requires a particular interleaving of long tasks; tests are not deterministic", "anchors": ["mbqc_scheduling/src/search/threaded.rs: task (merge), update, UPDATE_INTERVAL"]}
{"id": "C33", "title": "The multi threaded search always finds the optimal time", "statement": "Without timeout and accept function, for every interleaving the first path of the multi threaded search has the same time as the time optimal path.", "quantifier": "every well-formed input with at least one node, thread count, task bound, interleaving", "why_tests_cant": "all interleavings", "anchors": ["mbqc_scheduling/src/search/threaded.rs: search, task"]}
{"id": "C34", "title": "Tasks split the search tree exactly", "statement": "The tasks created for any task bound together sweep every schedule exactly once; with a task bound b >= 1 at most b + 1 tasks are created (not b), a task bound of 0 is no bound.", "quantifier": "every well-formed input, every task bound", "why_tests_cant": "all task bounds", "anchors": ["mbqc_scheduling/src/search/threaded.rs: search (ntasks, task_bound)", "mbqc_scheduling/src/interface.rs: run (task_bound docs)"]}
{"id": "C35", "title": "Reaction to the timeout", "statement": "Single threaded: once the timer has finished at most one more search iteration is done. Multi threaded: once the timer has finished each task still does up to UPDATE_INTERVAL + 1 iterations, tasks that need fewer iterations and tasks that have not been started yet ignore the timeout; the claim that no task is started after the timeout is false.", "quantifier": "every input, timeout, interleaving", "why_tests_cant": "all timings", "anchors": ["mbqc_scheduling/src/search.rs: do_search", "mbqc_scheduling/src/search/threaded.rs: update, UPDATE_INTERVAL, search"]}
{"id": "C36", "title": "The multi threaded search terminates and cannot deadlock", "statement": "For every input every interleaving of the worker threads is finite, and as long as not all tasks are finished some thread can make progress.", "quantifier": "every input, thread count >= 1, task bound, interleaving, timeout", "why_tests_cant": "all interleavings", "anchors": ["mbqc_scheduling/src/search/threaded.rs: search, task, update"]}
{"id": "C37", "title": "Timer", "statement": "finished() is false for a timer that was never started and before the duration has elapsed, once it is true it stays true, a started timer that is not dropped eventually finishes, dropping a timer never waits for the duration and never sets finished.", "quantifier": "every interleaving of timer thread, user calls, spurious wake-ups and clock ticks", "why_tests_cant": "all interleavings of the timer thread", "anchors": ["mbqc_scheduling/src/timer.rs: Timer::new, start, finished, Drop"]}
{"id": "C38", "title": "run dispatches on do_search and defaults the task bound", "statement": "With do_search = false all of timeout, nthreads, task_bound and probabilistic are ignored; with do_search = true nthreads 0 and 1 give the single threaded search and ignore task_bound; a missing task bound means 100000.", "quantifier": "all parameter values", "why_tests_cant": "all parameter combinations", "anchors": ["mbqc_scheduling/src/interface.rs: run", "mbqc_scheduling/src/search.rs: search (nthreads < 2)"]}
{"id": "C39", "title": "run_serialized writes only complete results", "statement": "run_serialized touches no file unless both inputs were read successfully; on success it writes exactly the encoding of run(..) without seed; an unknown input format fails before anything is searched, an unknown output format fails without creating or truncating the output file (but only after the search).", "quantifier": "every file system content, formats, parameters", "why_tests_cant": "all file system states", "anchors": ["mbqc_scheduling/src/interface.rs: run_serialized, serialize_to_file, deserialize_from_file, UnknownFormat"]}
{"id": "C40", "title": "Python run rejects custom accept functions with several threads", "statement": "The Python run raises ValueError iff the accept function is custom and nthreads > 1, otherwise it returns exactly the paths of interface::run with the timeout in seconds; converting paths to Python and back is the identity; AcceptFunc(kind, ..) is constructed iff kind is known and the parameter it needs is given; exceptions raised by the time_order object itself are handed on unchanged. The documentation's claim that nothing is multithreaded below 3 threads is refuted: with two threads results can be lost that one thread finds.", "quantifier": "all parameter values", "why_tests_cant": "all parameter combinations", "anchors": ["python_lib/rust/src/lib.rs: run, Paths, Path", "python_lib/rust/src/probabilistic.rs: AcceptFunc::__new__, to_real"]}
{"id": "C41", "title": "Builtin accept function", "statement": "BuiltinHeavyside equals ParametrizedHeavyside with parameters (0,2,1,1,3,1) bit for bit and is never negative, for all binary64 arguments. For the integers the search passes to it (all below 2^53, the best memory possibly still usize::MAX): it is 0 or NaN, so that the step is rejected whatever the random number, whenever the memory of the step is not below the best memory found; it is NaN iff the memories are equal and no node remains; it is at least 1 if no node remains and the memory is below; as long as nothing has been found every step that measures a node is accepted.", "quantifier": "all binary64 inputs, resp. all integers below 2^53; every exp that is correct at special values (and between 1/2 and 1 on [-1/2,0] for the last part)", "why_tests_cant": "2^448 inputs", "anchors": ["mbqc_scheduling/src/probabilistic.rs: builtin_heavyside, create_parametrized_heavyside, AcceptFunc::get_accept_func"]}
{"id": "C42", "title": "Random benchmark graphs are simple graphs", "statement": "get_graph returns for every random sequence a graph with `size` nodes whose neighbour lists are in range, symmetric, loop free and duplicate free (so well-formed scheduler input); an edge is there iff its sample is below the density (the factor, the factor over size-1, or the factor over the square root of size-1); density 0 gives no edge; get_order chooses every node once and only adds corrections from earlier to later chosen nodes; density 1 gives the complete graph; get_graph panics exactly for one node with a reciprocal density.", "quantifier": "every size, density, random sequence", "why_tests_cant": "all random sequences", "anchors": ["results/src/plots.rs: get_graph, get_order"]}
{"id": "C43", "title": "A fixed seed makes single threaded runs reproducible, but no multi threaded run is", "statement": "Two single threaded runs without timeout with the same arguments and the same seed return the same paths, whatever the hash map order, clock and entropy; for two or more threads the statement is false even for the set of (time, space) pairs and even without random numbers.", "quantifier": "every input, accept function, seed, environment", "why_tests_cant": "all environments and interleavings", "anchors": ["mbqc_scheduling/src/interface.rs: run", "mbqc_scheduling/src/search.rs: do_probabilistic_search", "mbqc_scheduling/src/search/threaded.rs: search"]}
{"id": "C44", "title": "run as a whole: valid trade-offs always, exact Pareto front for an uninterrupted single threaded search, and the same through the binary", "statement": "Whatever the options, a run on a well-formed input returns, unless a custom accept function panics, and gives valid paths with exact costs sorted by strictly increasing time and strictly decreasing space; with one thread, without accept function and with a clock that stays within the timeout it returns the exact Pareto front, and the binary writes exactly this front to the output file.", "quantifier": "every well-formed input, options, environment, file system", "why_tests_cant": "all inputs and environments", "anchors": ["mbqc_scheduling/src/interface.rs: run, run_serialized", "mbqc_scheduling/src/main.rs: main", "mbqc_scheduling/src/timer.rs: Timer"]}
{"id": "C45", "title": "The randomized search with the default accept function never loses the fastest schedule", "statement": "A single threaded randomized search with the default accept function (BuiltinHeavyside) returns, whatever the random numbers, either nothing or a path of minimal time first, and it does return something as soon as the timer leaves it as many iterations as the fastest schedule has steps; so it is never empty on a non-empty input without timeout.", "quantifier": "every well-formed input with less than 2^53 nodes, every random sequence, timer, hash order, every exp that is correct at special values and between 1/2 and 1 on [-1/2,0]", "why_tests_cant": "all inputs and all random sequences", "anchors": ["mbqc_scheduling/src/probabilistic.rs: builtin_heavyside", "mbqc_scheduling/src/search.rs: do_probabilistic_search, probabilistic_forward"]}
{"id": "C46", "title": "Every recorded benchmark data point comes from valid schedules", "statement": "do_it, if it returns, does not panic and has run 3000 random instances, each a simple graph with an acyclic time order of all qubits; it records for each of them the time and space of a valid fastest schedule, of the last schedule of the approximate search if there is one, and, if requested, of a first and a last schedule of the full search, where the first is as fast as the fastest and the last uses at most as much space as the first; the returned numbers are mean and standard deviation of exactly these recorded values, in the documented column order, and the times are the elapsed times averaged over the 3000 instances; instance and seed i are drawn right after those of instance i-1, and each recorded schedule is the one that interface::run returned for that instance.", "quantifier": "every size, densities that can be evaluated, random sequence, thread interleaving, timer and hash order, every induced_order::get_order that returns well-formed orders", "why_tests_cant": "3000 random instances with arbitrary thread interleavings per call", "anchors": ["results/src/plots.rs: do_it, Times"]}
{"id": "C47", "title": "The benchmark programs fill rectangular arrays and stay inside their time budget", "statement": "The node program panics only for an unknown density type or a factor outside [0,1] and otherwise returns 16 arrays, the first 8 of length 44 (sizes 2..45), the last 8 of length 19 (sizes 2..20), holding mean and deviation of the recorded columns in order, and the times of every size, for the densities that the arguments name; the density program likewise returns 8 arrays of length 21; the timeouts handed to the searches sum up, over all shots, to at most the configured sweep time minus the reserve, and increase with the size.", "quantifier": "every argument, random sequence, interleaving, environment", "why_tests_cant": "a run takes days; all arguments and random sequences", "anchors": ["results/src/plots/node.rs: run, timeouts", "results/src/plots/density.rs: run, density, timeouts", "results/src/plots.rs: Density"]}
{"id": "C48", "title": "What an accept function is asked", "statement": "The accept function is only ever asked about a step that may legally be taken after the steps so far and whose memory stays below the memory to be beaten, and its seven arguments are: the lowest space of the known paths with at most as many steps as any completion needs at least (the steps so far and this one, one more if everything left can be measured at once, two more otherwise; usize::MAX if there is none), the lowest space of all known paths, the largest memory of the steps before, the number of qubits kept in memory before this step and after it, the number of qubits that can still not be measured after this step, and the number of nodes. In the single threaded search the known paths are exactly those that would have been returned if the search had been stopped before this question; with several threads the memory to be beaten is the space of some schedule with at most that many steps.", "quantifier": "every well-formed input, every accept function (with internal state, or panicking), random sequence, timer, hash order, interleaving, thread count and task bound", "why_tests_cant": "the questions depend on the whole history of the search, on the random numbers and on the interleaving", "anchors": ["mbqc_scheduling/src/search.rs: probabilistic_forward, do_probabilistic_search", "mbqc_scheduling/src/search/threaded.rs: do_probabilistic_search", "mbqc_scheduling/src/probabilistic.rs: Accept"]}
{"id": "C49", "title": "A panicking accept function has no other effect than the panic", "statement": "If one custom accept function answers wherever another one answers, and with the same values, then a run with the latter either panics or gives exactly what the run with the former gives: a run either needs an answer that the function does not give, and then it panics, or it behaves as if the function were total. The same holds for a Python callback that raises exceptions.", "quantifier": "every input (also malformed ones), every accept function, environment and option", "why_tests_cant": "all functions, histories and interleavings", "anchors": ["mbqc_scheduling/src/search.rs: probabilistic_forward", "mbqc_scheduling/src/interface.rs: run", "python_lib/rust/src/probabilistic.rs: to_real"]}
{"id": "C50", "title": "The pruned search selects from the complete enumeration", "statement": "The schedules can be enumerated with the sweep of a Scheduler (as the roundtrip test does it). A single threaded search goes through a beginning of this enumeration - the whole enumeration if it is not interrupted by the timeout - and returns exactly what a look at all schedules of this beginning selects: for every number of steps that has one, the first schedule in the enumeration among those with the least memory, if no schedule with fewer steps needs as little memory. So pruning never changes the result, not even the choice between schedules with the same costs.", "quantifier": "every well-formed input, timer behaviour, timeout, hash order, both build profiles", "why_tests_cant": "the roundtrip test compares the costs for random circuits with at most eight qubits; here all inputs, interruptions and the choice of the schedule are covered", "anchors": ["mbqc_scheduling/src/search.rs: do_search, search", "mbqc_scheduling/src/scheduler/tree.rs: Sweep", "mbqc_scheduling/tests/roundtrip.rs: roundtrip"]}
{"id": "C51", "title": "The names of the qubits do not matter", "statement": "If two inputs differ only by a renaming of the qubits (and by the order of neighbours, repeated neighbours, loops, or the layers that represent the same dependencies), then the uninterrupted single threaded searches return the same list of costs, and the time optimal schedules measure corresponding qubits in the same steps and have the same costs.", "quantifier": "every pair of well-formed inputs that are renamings of each other, every environment and option", "why_tests_cant": "relates two runs, for all renamings; the search visits the schedules in another order and prunes differently", "anchors": ["mbqc_scheduling/src/interface.rs: run", "mbqc_scheduling/src/search.rs: search, get_time_optimal"]}
{"id": "C52", "title": "Removing edges or dependencies never makes the result worse", "statement": "If an input has the same qubits as another one, but no additional edges and no additional dependencies, then for every path that the uninterrupted single threaded search returns for the other one it returns a path with at most the same time and at most the same space; the time optimal schedule does not need more steps.", "quantifier": "every pair of well-formed inputs, every environment and option", "why_tests_cant": "relates two runs, for all inputs", "anchors": ["mbqc_scheduling/src/interface.rs: run", "mbqc_scheduling/src/search.rs: search"]}
{"id": "C53", "title": "One measurement per step needs the least memory", "statement": "The last path of an uninterrupted single threaded search needs exactly the least memory of all schedules that measure one qubit in every step: measuring qubits together can save steps, but never memory.", "quantifier": "every well-formed input with at least one qubit to be measured, every environment", "why_tests_cant": "all schedules of all inputs", "anchors": ["mbqc_scheduling/src/search.rs: search", "mbqc_scheduling/src/scheduler/space.rs: Graph::focus"]}
{"id": "C54", "title": "Bounds of the results", "statement": "Every run that ends returns at most as many paths as there are qubits to be measured; every path has at least one and at most that many steps, and its space is at least one and at most the number of nodes.", "quantifier": "every well-formed input with at least one qubit to be measured, every environment, interleaving, timeout, accept function and option", "why_tests_cant": "all inputs, interleavings and options", "anchors": ["mbqc_scheduling/src/interface.rs: run", "mbqc_scheduling/src/search.rs: get_time_optimal, search", "mbqc_scheduling/src/search/threaded.rs: search"]}
{"id": "C55", "title": "The time optimal schedule measures every qubit as early as possible", "statement": "Without search, a qubit that the returned schedule measures in step k stands at the end of a chain of k dependencies, and no legal schedule, complete or not, measures this qubit in an earlier step: the schedule is optimal for every single qubit, not only in its number of steps.", "quantifier": "every well-formed input, all legal schedules", "why_tests_cant": "all inputs and all schedules", "anchors": ["mbqc_scheduling/src/search.rs: get_time_optimal"]}
{"id": "C56", "title": "Which files are graphs", "statement": "A byte string is read as a spacial graph or dependency graph exactly if it is a text of the grammar of that format for this value: for serde_json nested arrays of decimal numbers below 2^64 without leading zeros, with blanks between the tokens and nothing but blanks around; for bincode the concatenation of little-endian 64 bit lengths and numbers, whatever follows. Every other file is rejected with an error, never read as something else.", "quantifier": "every byte string, both graphs, both formats", "why_tests_cant": "all byte strings; a sampled corpus only contains a few malformed files", "anchors": ["mbqc_scheduling/src/interface.rs: get_graphs", "mbqc_scheduling/src/main.rs: main"]}
{"id": "C57", "title": "What is written can be read back", "statement": "Reading back what the writers produce gives the same graphs and the same list of paths, in both formats, as long as the numbers and lengths are below 2^64.", "quantifier": "all graphs and lists of paths in range", "why_tests_cant": "all values", "anchors": ["mbqc_scheduling/src/search.rs: Path", "mbqc_scheduling/src/interface.rs: run_serialized"]}
{"id": "C58", "title": "From files to files", "statement": "If the two input files hold texts of a well-formed input, every run of the binary that ends leaves in the output file a text of paths that are valid schedules with their true costs and no two of which dominate each other, and changes no other file; with search, one thread, no timeout and no filter it ends, and the output file holds exactly one schedule for each point of the Pareto front.", "quantifier": "every file system state, every environment, options and build profile", "why_tests_cant": "all texts of all inputs, all schedules", "anchors": ["mbqc_scheduling/src/main.rs: main", "mbqc_scheduling/src/interface.rs: run_serialized"]}
{"id": "C59", "title": "The command line is read as documented", "statement": "A command line is accepted exactly if it consists of six operands and of options, each at most once, in the usual spellings (long, short, grouped, value attached, after = or as next argument, operands after --), with numbers in the range of their types; the arguments are then those that are asked for, one thread being the default. The expect calls never panic, and every combination of arguments can be asked for.", "quantifier": "every command line; every combination of arguments", "why_tests_cant": "all command lines", "anchors": ["mbqc_scheduling/src/cli.rs: build, parse"]}
{"id": "C60", "title": "From the command line to the files", "statement": "If the command line asks for nothing, the program ends without touching a file; otherwise it behaves like main with the arguments asked for. In particular a search with one thread, without timeout and filter, ends with the Pareto front in the named output file.", "quantifier": "every command line, file system state, environment and build profile", "why_tests_cant": "all command lines and inputs", "anchors": ["mbqc_scheduling/src/main.rs: main", "mbqc_scheduling/src/cli.rs: parse"]}
{"id": "C61", "title": "The command line of the benchmark programs", "statement": "The unwrap calls and the unreachable branch are never reached in a panic: every accepted command line gives arguments. Accepted are exactly the subcommand node with both densities followed by both types, and the subcommand density with number of nodes and density.", "quantifier": "every command line and every way of reading floats", "why_tests_cant": "all command lines", "anchors": ["results/src/cli.rs: build, parse"]}
{"id": "C62", "title": "The repository's own property test passes for every input", "statement": "For every well-formed dependency graph and every list of edges inside the graph, the roundtrip test succeeds: no assertion fails, no unwrap or index panics. The search with skipping and the enumeration filtered afterwards agree including the paths, and splitting the sweep of the generator into tasks and replaying each task on its own graph gives every path with its memory exactly once and in the same order; the tasks differ in size by at most one path.", "quantifier": "every dependency graph, edge list, number of nodes (below 2^64-1), number of tasks and build profile", "why_tests_cant": "the property test draws at most 7 nodes at random", "anchors": ["mbqc_scheduling/tests/roundtrip.rs: roundtrip, split_instructions, final_filter"]}
{"id": "C63", "title": "Which random numbers decide which step", "statement": "The accept function is asked a sequence of questions in every task; a step is taken exactly if the answer is at least 1 or larger than the next random number of that task that has not been used before, and answers of at least 1 use none. The result of a run depends on these verdicts only: every run is equal to a run with a function that only answers 0 and 1, whatever the seed. The numbers of a single threaded run are those of the generator with the given seed; with several threads task i uses the generator whose seed is the i-th number of the generator with the given seed.", "quantifier": "every input (also malformed ones), accept function (with state or panicking), generator, seed, timer, interleaving, thread count and build profile", "why_tests_cant": "the questions and the numbers of draws depend on the whole history and on the interleaving", "anchors": ["mbqc_scheduling/src/search.rs: probabilistic_forward, do_probabilistic_search", "mbqc_scheduling/src/search/threaded.rs: search, do_probabilistic_search"]}
{"id": "C64", "title": "Locks and interleavings of the multi threaded search", "statement": "Let submitting a task, taking it from the queue, acquiring and releasing a lock, every access to an entry of the shared array or map and every poll of the timer be separate steps that interleave arbitrarily, also with the submission of further tasks and with or without the debug messages that take a lock. Then exactly those results are possible that are possible if starting a task, one iteration and the end of a task are uninterrupted and all tasks are submitted beforehand; the same without timeouts. There is no deadlock, every execution is finite, at most one task is in a section of each lock, shared data is only written under the lock, and no task panics while it holds a lock, so that no lock is ever poisoned.", "quantifier": "every input (also malformed ones), thread count, task bound, accept function, interleaving, timer behaviour and build profile", "why_tests_cant": "the number of interleavings is astronomic and the scheduler of the operating system is not under control of a test", "anchors": ["mbqc_scheduling/src/search/threaded.rs: search, task, update, do_search, do_probabilistic_search"]}
{"id": "C65", "title": "Relaxed reads of the timer's flag in whole runs", "statement": "Let the threads of a run with two or more threads interleave at the level of single lock operations and accesses, and with the clock and the timer thread, where a poll may miss that the flag has been set (Ordering::Relaxed). For every behaviour of clock and timer thread exactly the same results are possible as in the model in which an iteration with its poll is uninterrupted. Hence every such run returns valid paths that form a trade-off (or panics because the accept function does), and without a timeout, or as long as the clock stays within it, the first path of an exhaustive search has the least possible time. For one thread, answers that see the flag late, but keep seeing it afterwards, are the answers of another behaviour of the timer thread in which no more time passes, so the run is a run of the sequentially consistent model.", "quantifier": "every input, timeout, thread count, task bound, accept function, seed, generator, interleaving, behaviour of clock and timer thread, visibility of the flag, build profile", "why_tests_cant": "tests run on the memory model of one machine, mostly with strong ordering, and see few interleavings", "anchors": ["mbqc_scheduling/src/timer.rs: finished, start", "mbqc_scheduling/src/interface.rs: run", "mbqc_scheduling/src/search/threaded.rs: update"]}
{"id": "C66", "title": "Fastest schedule with the default accept function and several threads", "statement": "Run the search with two or more threads and the default accept function on a well-formed input with at most 1000 nodes. If no other task ends or reaches an exchange (1000 iterations) before the first task copies the shared bounds, then the first returned path has the least possible time, whatever numbers are drawn, however the tasks interleave afterwards and whatever the timeout. Without that condition this is false, even if no timeout occurs: if another task lowers the last shared bound first, the accept function turns every step towards the fastest schedule down, and the result does not contain a fastest path (in contrast to a single thread, C45, and to the exhaustive search, C33).", "quantifier": "every well-formed input with at most 1000 nodes, thread count, task bound, sequence of drawn numbers, interleaving, behaviour of the timer, build profile, exponential function with the stated properties", "why_tests_cant": "the loss needs a thread to be delayed between taking its task and copying the shared bounds, and the guarantee is about all interleavings and all drawn numbers", "anchors": ["mbqc_scheduling/src/search/threaded.rs: search, task, update", "mbqc_scheduling/src/probabilistic.rs: builtin_heavyside", "mbqc_scheduling/src/search.rs: do_probabilistic_search, probabilistic_forward"]}
{"id": "C67", "title": "The default accept function never leaves the result empty", "statement": "Run the search with two or more threads and the default accept function on a well-formed input with at least one and at most 1000 nodes. Whatever the timeout, the behaviour of the timer, the interleaving of the threads, the drawn numbers, the task bound and the seed, the run does not panic and returns at least one path (valid by C31). An accept function of the user can turn every step down, then the result may be empty.", "quantifier": "every well-formed input with 1 to 1000 nodes, thread count of at least two, task bound, seed, generator, interleaving (also at the level of the locks), behaviour of the timer, timeout, build profile, exponential function with the stated properties", "why_tests_cant": "the result could be empty only for unlikely drawn numbers, tight timeouts or unlucky interleavings", "anchors": ["mbqc_scheduling/src/search/threaded.rs: search, task, update", "mbqc_scheduling/src/probabilistic.rs: builtin_heavyside", "mbqc_scheduling/src/search.rs: do_probabilistic_search, probabilistic_forward", "mbqc_scheduling/src/interface.rs: run"]}
{"id": "C68", "title": "Numbers in the benchmark output: complete, finite, nearest", "statement": "In every run of the two benchmark programs that returns (density sweep: 1 to 1000 nodes), each average and deviation is computed from 3000 recorded values, i.e. no search, not even an approximate one with a timeout, comes back empty and the warning about missing results never applies. Each mean is a number with 53 binary digits that is nearest to the true quotient of sum and 3000 (the sum is computed exactly), no number in the output is NaN, infinite or negative, and if all 3000 values agree the mean is exactly that value and the deviation exactly zero.", "quantifier": "every command line, random generator, drawn instance, interleaving of the searches, behaviour of the timers, build profile", "why_tests_cant": "the program runs for days on 30 cores; whether some search comes back empty, or a rounding error accumulates, depends on rare draws", "anchors": ["results/src/plots.rs: do_it", "results/src/plots/node.rs: run", "results/src/plots/density.rs: run"]}
{"id": "C69", "title": "The output files hold the computed numbers bit for bit", "statement": "If a benchmark program finishes, it has created exactly one file, leaving all other files alone, or it panics because its arguments are wrong or the file cannot be created. The file is a JSON document with the documented constants, the given densities and seed, and every number of the results and every duration: the decimal text of each floating point number denotes, correctly rounded, exactly the computed number, and the nanoseconds are exact. Texts of this form determine the document, and Python's json.load finds it. The name of the file says which arguments were used: runs with different densities, or different sizes or multipliers, never write to the same file, and neither do the two programs.", "quantifier": "every command line (valid floating point numbers; density sweep: 1 to 1000 nodes), random generator, interleaving, behaviour of the timers and of the file system, every algorithm for shortest decimal digits that meets its contract", "why_tests_cant": "the program runs for days; whether a number survives printing and reading depends on the number, and there are 2^64 of them", "anchors": ["results/src/plots/node.rs: run", "results/src/plots/node.rs: Output", "results/src/plots/density.rs: run", "results/src/plots/density.rs: Output", "results/src/plots.rs: Times", "results/src/plots.rs: Density"]}
{"id": "C70", "title": "The figures show the computed means, and what they do not show", "statement": "Run the scripts of results/scripts with the parameter files of the repository, copy the directory output to data and run the plotting scripts. If the node run ends, the node figure has for each of the four strategies and for time and space one curve whose points are exactly the means of the recorded values of every size (2 to 45, exact searches 2 to 20), the figure of the appendix has in addition their deviations as error bars (which are never negative, as errorbar demands), and the run time figure the recorded average durations to the nanosecond. If all 21 density runs end, one after the other or as an array of jobs that end in any order, panel p of the density figure shows in row k and column m the mean recorded for the edge density k/22 and the correction density m/22, the colour range covers all values and ends at values (or at its initial bounds 0 and 20), and likewise for the durations. Such runs exist. But the largest size, 45, always lies outside of the drawn range (2, 44). For other parameters the file of the program and the file that is opened can have different names: the factor of a node run is found if both factors are above 1e-4 or below 1e-9, and not found if the first lies in between; density runs are only found for 20 nodes. The time limits of the node run fit into the wall time of its job, those of a density run (9.5 h) do not (5 h).", "quantifier": "every behaviour of random generators, timers, threads and hash maps in every run, every order of the jobs, every other content of the directories, build profile, every algorithm for shortest decimal digits that meets its contract; every factor, number of nodes and multiplier (below 1000) for the file names", "why_tests_cant": "the runs take days on 30 cores, and nothing checks that a drawn point is the number that was computed; the names agree for the parameters that were tried", "anchors": ["results/plotting/nodes.py: main, appendix, get_data", "results/plotting/densities.py: draw_images, get_data", "results/plotting/runtimes.py", "results/plotting/utils.py: get_parameters", "results/scripts/exe_node_hpc.bash", "results/scripts/exe_density_hpc.bash", "results/scripts/exe_density_local.bash", "results/parameters/node.dat", "results/parameters/density.dat", "results/src/plots/node.rs: run", "results/src/plots/density.rs: run"]}
{"id": "C71", "title": "The deviations in the benchmark output are standard deviations up to rounding", "statement": "In every run of the two benchmark programs that returns (density sweep: 1 to 1000 nodes), each reported deviation is finite, not negative and off the standard deviation of its 3000 recorded values (divisor 3000, exact rational arithmetic) by at most the part 2^-40 of it, and it is zero exactly if all 3000 values agree. In general, for up to 4096 values of at most 1024 the square of the computed deviation is off the variance by at most the part (n + 8) / 2^52: neither the rounded mean nor cancellation in the differences x - mean nor the accumulation of thousands of rounded squares does more harm than that.", "quantifier": "every command line, random generator, drawn instance, interleaving, timer behaviour, build profile; every column of up to 4096 values of at most 1024", "why_tests_cant": "rounding errors depend on the order and the values of thousands of summands; a test compares with another floating point computation that has errors of its own", "anchors": ["results/src/plots.rs: do_it (mean and standard deviation)"]}
{"id": "C72", "title": "The random instances of the benchmark programs have the intended distribution", "statement": "get_graph draws each set of edges with exactly the probability of independent edges that all have the same probability p, and get_order draws each measurement order with the same probability 1/n! and, independently of the order, each set of corrections (of qubits measured later, by earlier measurements) with exactly the probability of independent corrections; graph and order of an instance are independent. With the samples of rand 0.8.5, p is the density rounded up to the next multiple of 2^-52, all indices of gen_range are equally likely, and for reciprocal linear densities the expected node degree is the given factor up to rounding, as the comment in the code says.", "quantifier": "every size, density, set of edges, order and set of corrections; counting over all possible sequences of samples and indices", "why_tests_cant": "a test of a random generator is statistical: it cannot tell small biases or dependencies (a pool element that is favoured by swap_remove, a sample used twice) from chance, and it looks at few of the exponentially many outcomes", "anchors": ["results/src/plots.rs: get_graph", "results/src/plots.rs: get_order", "results/src/plots.rs: ReziprocalLinearDensity::get"]}
{"id": "C73", "title": "Executed patterns apply all Pauli corrections", "statement": "When the loop of the example program executes any schedule returned by run (any mode), it never raises, and the correction read for each qubit is the product of the frames of all measurements with outcome 1, including the ones not yet done; it is already complete before the step of the qubit begins, so the qubits of a step can be measured simultaneously; and it is the same for every schedule of the trade-off curve. into_py_paths()[0] always exists. Conversely, if a corrected qubit is not ordered after the qubit of its frame, some legal schedule measures it with a wrong correction. Taking over corrections of a previous widget through a buffer tracker is right if the frames of output idx are addressed by 2*idx and 2*idx+1. Refuted for the example as written: Y corrections are performed as Z only (if/elif), and the buffer is addressed by idx and idx+1, which is right for a single output only.", "quantifier": "all well-formed inputs, frames, frame flags without repetition, measurement outcomes, initial corrections, modes of run, Clifford circuits of the example's gates", "why_tests_cant": "the measurement outcomes are random and exponentially many, the executing lines of the example are pseudo code that no test runs, and a missing correction shows up only in the statistics of a quantum computation", "anchors": ["python_lib/examples/compile_flow.py: main", "python_lib/examples/compile_flow.py: buffer_tracker", "python_lib/examples/simple.py", "python_lib/rust/src/lib.rs: run", "mbqc_scheduling/src/interface.rs: run"]}
{"id": "C74", "title": "Debug builds are exact for every dependency graph", "statement": "For dependency graphs of any shape (repeated qubits, arbitrary dependencies), every path that a debug build of run returns, in any mode, measures nodes of the spacial graph only, none of them twice, has no empty step and reports exactly the number of its steps and the memory of its schedule, and the paths form a trade-off curve. Whatever a debug build returns, a release build returns as well in the same environment, for all pairs of graphs. A listed qubit that is not a node is a panic in both builds and all modes; a qubit repeated in the first layer is a panic of the time optimal mode in debug builds. Release builds do not have the first property: they measure repeated qubits twice and report a memory that is too small or has wrapped around (18446744073709551615).", "quantifier": "all dependency graphs, modes, timeouts, thread numbers, interleavings, accept functions; the agreement of the builds also for all spacial graphs", "why_tests_cant": "tests run one build and well-formed graphs only; the claim is about all malformed graphs, all interleavings and the relation of two builds", "anchors": ["mbqc_scheduling/src/scheduler.rs: focus_inplace", "mbqc_scheduling/src/scheduler.rs: next_and_focus", "mbqc_scheduling/src/scheduler/space.rs: focus_inplace", "mbqc_scheduling/src/scheduler/space.rs: focus_inplace_unchecked", "mbqc_scheduling/src/interface.rs: run"]}
{"id": "C75", "title": "Neighbours that are not nodes", "statement": "The spacial graph may contain neighbours that are not nodes (nothing checks it on input). No path that run returns measures a qubit with such a neighbour, for any graphs, build, mode, timeout, number of threads and interleaving. Every value that run returns is the value for the graph with these neighbours deleted. If the dependency graph does not list a qubit with such a neighbour, run behaves on both graphs in exactly the same way. If a well-formed dependency graph lists one, then the time optimal mode panics in both builds, every search returns an empty list or panics, and a deterministic search that is not interrupted by its timeout panics, single threaded (always) and multi threaded (in every execution that ends). Refuted: that such a qubit is always noticed; an interrupted search returns an empty list.", "quantifier": "all spacial graphs, all dependency graphs (the panics: well-formed ones), builds, modes, timeouts, thread numbers, interleavings, accept functions, hash orders", "why_tests_cant": "tests use well-formed graphs; the claims compare the behaviour on two graphs for all modes and interleavings, and whether a bad neighbour is met depends on the schedule and the time of an interruption", "anchors": ["mbqc_scheduling/src/scheduler/space.rs: measure", "mbqc_scheduling/src/scheduler/space.rs: initialize", "mbqc_scheduling/src/scheduler/space.rs: focus_inplace", "mbqc_scheduling/src/search.rs: search", "mbqc_scheduling/src/interface.rs: run"]}
{"id": "C76", "title": "Work and memory of sweeps and searches", "statement": "Let k be the number of beginnings of schedules (legal sequences of at least one step, not distinguishing the order within a step). A full sweep over the scheduler or over the path generator calls next exactly 2k+1 times. A single threaded search (any timeout, build, probabilistic or not) never makes more than 2k+1 iterations; neither do all tasks of a multi threaded search together, in any execution. For n qubits k is at most 2a(n)-1, where a(n) is the ordered Bell number, with equality for independent qubits; hence fewer than 4*n^n iterations, which is at most 2^(2^n), and at least n! for a sweep over independent qubits (the README: between factorial and double-exponentially). A sweep, with any skips, never holds more than n states on its stack (scheduler.md: the memory cost scales linearly). For arbitrary, also malformed, inputs with n listed entries a search makes at most 4a(n)-1 iterations and a run without search at most n+1 rounds.", "quantifier": "all well-formed inputs (memory: all inputs), builds, timeouts, thread numbers, task bounds, interleavings, accept functions, samples", "why_tests_cant": "complexity bounds speak about all inputs and all interleavings; tests only see the running time of a few", "anchors": ["mbqc_scheduling/src/scheduler/tree.rs: Sweep", "mbqc_scheduling/src/scheduler/time.rs: next_and_focus", "mbqc_scheduling/src/search.rs: do_search", "mbqc_scheduling/src/search/threaded.rs: search", "README.md", "mbqc_scheduling/xdocs/scheduler.md"]}
{"id": "C77", "title": "The first path", "statement": "A run without search returns exactly the path that a deterministic single threaded search completes first (not only the same costs, the same steps in the same order): a search whose timer fires right after as many iterations as this path has steps plus one returns just this path, one whose timer fires earlier returns the empty list, and one that runs longer lists first a path with the same time and at most the same space. That this is always the first path of the list of a complete search is refuted. A sweep, and with it the search, comes across the schedules such that of two schedules with a common beginning the one that measures more in the next step comes first; that the schedules come in order of their length (\"always first tries the more time optimal patterns\") is refuted.", "quantifier": "all well-formed inputs with at least one qubit, clocks, timeouts, hash map orders, builds", "why_tests_cant": "the two code paths (run without search, search) are separate implementations; their agreement and the moment of the first result concern all inputs and all clocks", "anchors": ["mbqc_scheduling/src/interface.rs: run", "mbqc_scheduling/src/search.rs: get_time_optimal", "mbqc_scheduling/src/search.rs: do_search", "mbqc_scheduling/src/scheduler/time.rs: next_and_focus"]}
{"id": "C78", "title": "Independent parts", "statement": "If the measured qubits fall into two parts that share no edges and no dependencies, the paths of a complete search fit to the complete searches of the parts: every path needs at least the time and the space of some path of each part; any two paths of the parts are matched by a path with at most the larger time and the sum of the memories, and, if all neighbours of measured qubits are measured, by a path with at most the sum of the times and the larger memory. Hence the least time is the larger one of the least times of the parts, and the least memory the larger one of the least memories; for inputs with neighbours that are never measured the latter is refuted. A run without search measures in each step exactly what the runs for the parts measure in this step.", "quantifier": "all well-formed inputs and all two-colourings that separate edges and dependencies, all environments, settings without threads and timeouts, builds", "why_tests_cant": "relates three exponential searches for all inputs of this shape; tests compare single small instances with fixed numbers", "anchors": ["mbqc_scheduling/src/interface.rs: run", "mbqc_scheduling/src/search.rs: do_search", "mbqc_scheduling/src/search.rs: get_time_optimal", "mbqc_scheduling/src/scheduler/space.rs: focus_inplace"]}
{"id": "C79", "title": "Schedules are path decompositions", "statement": "For undirected spacial graphs, a complete deterministic search returns a path with at most t steps and at most w qubits in memory if and only if the graph has a path decomposition with at most t bags of at most w nodes that respects the dependencies (nodes that are never measured stay until the last bag). In particular, without dependencies the least memory is the pathwidth of the graph plus one, for example two for a line of any length. Every path of every run, also an interrupted, randomized or multi threaded one, belongs to a decomposition with as many bags as steps, so that no run undercuts the pathwidth. For graphs with directed edges this is refuted.", "quantifier": "all well-formed inputs with undirected edges, environments, settings, builds", "why_tests_cant": "equates the result of the search with an independent graph theoretical quantity (NP-hard to compute) for all graphs", "anchors": ["mbqc_scheduling/src/interface.rs: run", "mbqc_scheduling/src/search.rs: do_search", "mbqc_scheduling/src/scheduler/space.rs: Graph", "mbqc_scheduling/src/scheduler/space.rs: focus_inplace"]}
{"id": "C80", "title": "Lower bounds of time and space", "statement": "Every path of every run (with or without search, interrupted, randomized, multi threaded) satisfies: time times space is at least the number of qubits; space is at least the size of every clique that contains a measured qubit; space is at least the size of the closed neighbourhood of some qubit without dependencies. The bounds are sharp: for n qubits without edges and dependencies a complete search finds a path with at most t steps and memory w exactly if n <= t * w; for a complete graph without dependencies it returns a single path with one step and memory n.", "quantifier": "all well-formed inputs, environments, settings, builds; all n, t, w", "why_tests_cant": "universally quantified bounds over all inputs and executions, and exact results for unbounded families of inputs", "anchors": ["mbqc_scheduling/src/interface.rs: run", "mbqc_scheduling/src/search.rs: search", "mbqc_scheduling/src/scheduler/space.rs: focus_inplace"]}
{"id": "C81", "title": "One part after the other", "statement": "If an input consists of two stages, so that every qubit of the second stage has to wait (directly or indirectly) for all qubits of the first, and no edges lead out of the first stage, then a complete deterministic search returns exactly the best combinations of the paths of the stages: every returned path costs the sum of the times and the larger of the memories of two paths of the stages, every two paths of the stages are matched, and each returned path measures the first stage completely before the second. Without search the steps of the second stage follow those of the first. If the dependencies order all qubits, every run with whatever settings returns the only path or nothing; for a wire of n qubits this takes n steps and two qubits of memory. If neighbours of the first stage are never measured, the memories do not combine like this (refuted).", "quantifier": "all well-formed inputs that consist of two stages, all total orders, all n; environments, settings, builds", "why_tests_cant": "relates the complete results of three runs for all inputs of this shape; exact result for an unbounded family", "anchors": ["mbqc_scheduling/src/interface.rs: run", "mbqc_scheduling/src/search.rs: do_search", "mbqc_scheduling/src/search.rs: get_time_optimal", "mbqc_scheduling/src/scheduler/time.rs: focus_inplace"]}
{"id": "C82", "title": "The circuits of the property test", "statement": "Every circuit that the repository's property test can draw (numbers of the operations small enough not to overflow) is carried out without panic and yields corrections for exactly the qubits of the test, in which no qubit is measured twice and no qubit is corrected for a result that comes after its own measurement. For every function induced_order::get_order that lists all qubits and orders them by these corrections, and all edges, the whole test passes in both builds; such functions exist; measuring the qubits one after the other in the order of the circuit is then always a valid schedule. Circuits with rotations, measurements and new qubits, which the test removes, do not panic and are causal as well. That the numbers may be arbitrary, as the strategy draws them, is refuted: numbers at the upper end of usize make the test itself panic.", "quantifier": "all operations, numbers of qubits, edges, functions get_order with the stated contract, builds", "why_tests_cant": "is a statement about all runs of the test itself; the refuted part needs numbers that a random test practically never draws", "anchors": ["mbqc_scheduling/tests/roundtrip.rs: roundtrip", "pauli_tracker/pauli_tracker/tests/roundtrips/tracking.rs: Instructor", "pauli_tracker/pauli_tracker/tests/roundtrips/tracking.rs: double_mem_idx", "pauli_tracker/pauli_tracker/tests/roundtrips/tracking.rs: ExtendCircuit"]}
{"id": "C83", "title": "Tracking with known results", "statement": "If the same circuit is carried out with frames (one stack of Pauli operators per qubit) and live (the results of the measurements are known when they happen), the same qubits are measured in the same order, and for every qubit with a stack the operator of the live tracker is the product of those operators of the stack whose measurements had the result 1.", "quantifier": "all operations, numbers of qubits, results of measurements, builds", "why_tests_cant": "all circuits and all sequences of results; the comparison of both trackers is not part of this repository's test (it is commented out)", "anchors": ["pauli_tracker/pauli_tracker/tests/roundtrips/tracking.rs: ExtendCircuit", "pauli_tracker/pauli_tracker/tests/roundtrips/tracking.rs: Instructor", "pauli_tracker/pauli_tracker/tests/roundtrips/tracking.rs: WhereMeasured"]}
{"id": "C84", "title": "The gates are conjugations", "statement": "For every operation on one or two qubits that the property test can draw, carrying it out replaces every Pauli operator (pair of operators) of the stacks by the one that is, up to a phase, its conjugate under the unitary matrix of the gate, at the chosen qubits only; the teleportations of X, Y and Z append exactly X, Y or Z as correction of the destination, and the identity for all other qubits; a rotation hands the operators of the measured qubit over to the new one, which is corrected by Z, and leaves the measured qubit the X parts. The same holds for the gates of the example program compile_flow.py. The bits of an operator are determined by its matrix up to the phase.", "quantifier": "all operations, states, stacks, builds", "why_tests_cant": "all states and operators; compares with matrices, which the code never forms", "anchors": ["pauli_tracker/pauli_tracker/tests/roundtrips/tracking.rs: apply", "pauli_tracker/pauli_tracker/tests/roundtrips/tracking.rs: pauli_teleportation", "python_lib/examples/compile_flow.py: compile_widget_a", "python_lib/examples/compile_flow.py: compile_widget_b"]}
{"id": "C85", "title": "Only the partial order matters", "statement": "If two well-formed dependency graphs have the same qubits and the same order (the transitive closure of the dependencies; redundant dependencies and the choice of layers may differ), then a complete deterministic search returns the same costs for both, and the run without search the same steps. If one order is stronger than the other, its results are never better, and every path of every run for it is a valid path with exact costs for the weaker one. Conversely two dependency graphs have the same valid schedules only if their orders are the same. In particular it does not matter which function with the contract of induced_order::get_order produces the dependency graph.", "quantifier": "all pairs of well-formed inputs, environments, settings, builds", "why_tests_cant": "relates complete results for all ways to write down the same order; the converse constructs a schedule for every pair of different orders", "anchors": ["mbqc_scheduling/src/interface.rs: run", "mbqc_scheduling/src/scheduler/time.rs: from_dependency_graph", "mbqc_scheduling/src/search.rs: search", "mbqc_scheduling/src/search.rs: get_time_optimal"]}
{"id": "C86", "title": "A part never costs more than the whole", "statement": "If one input is contained in another one (after an injective renaming, every measured qubit, every edge at a measured qubit and every order constraint of the first is one of the second, and neighbours that the second measures are measured by the first), then for every path of every run for the larger input a complete search for the smaller one returns a path that takes at most as many steps and needs at most as much memory; the run without search takes at most as many steps. The memory of the run without search can be larger for the part, and measuring fewer qubits of the same graph can need more memory, because their neighbours stay.", "quantifier": "all pairs of well-formed inputs and renamings; all environments, settings and builds for the larger input", "why_tests_cant": "relates complete results for all pairs of inputs that are contained in each other", "anchors": ["mbqc_scheduling/src/interface.rs: run", "mbqc_scheduling/src/search.rs: search", "mbqc_scheduling/src/search.rs: get_time_optimal", "mbqc_scheduling/src/scheduler/space.rs: focus"]}
{"id": "C87", "title": "Sensitivity to edges and dependencies", "statement": "If k edges are added to the spacial graph, then for every path of a complete search the search with the additional edges returns one with at most as many steps and at most k more qubits in memory; the least numbers of steps are the same, the least memories differ by at most k; without search the steps are the same and the memory grows by at most k. If k dependencies are added, the least number of steps grows at most by the factor k + 1. No such bound holds for the memory: a single dependency can raise the least memory by more than the factor two.", "quantifier": "all pairs of well-formed inputs that differ in the given edges or dependencies, all environments, settings, builds", "why_tests_cant": "relates complete results for all pairs of similar inputs", "anchors": ["mbqc_scheduling/src/interface.rs: run", "mbqc_scheduling/src/search.rs: search", "mbqc_scheduling/src/search.rs: get_time_optimal", "mbqc_scheduling/src/scheduler/space.rs: focus"]}
{"id": "C88", "title": "The opposite order takes the same time, but not the same memory", "statement": "If two well-formed dependency graphs have the same qubits and opposite orders, the runs without search need the same number of steps (whatever the spacial graphs are), and every path of every run, read backwards, is a valid schedule for the opposite order. The least memory is not the same in general, even if all qubits are measured: a star needs five places if its centre comes first and two if it comes last.", "quantifier": "all pairs of well-formed inputs with opposite orders, all environments, settings, builds", "why_tests_cant": "relates complete results for all pairs of opposite orders", "anchors": ["mbqc_scheduling/src/interface.rs: run", "mbqc_scheduling/src/search.rs: search", "mbqc_scheduling/src/search.rs: get_time_optimal", "mbqc_scheduling/src/scheduler/time.rs: from_dependency_graph"]}
{"id": "C89", "title": "Bounds by numberings and brambles", "statement": "If the qubits can be numbered such that edges lead to numbers that are at most w larger, all qubits are measured, and no qubit depends on one in the same or a later block of c consecutive numbers, then a complete search returns a path with at most n/c steps (rounded up) and at most c + w qubits in memory. If the spacial graph has a bramble (connected sets of measured qubits that pairwise touch) of order m, then every path of every run has at least m qubits in memory at the same time.", "quantifier": "all well-formed inputs, numberings, brambles; for the lower bound all environments, settings and builds", "why_tests_cant": "bounds for all graphs of a class, of any size", "anchors": ["mbqc_scheduling/src/interface.rs: run", "mbqc_scheduling/src/search.rs: search", "mbqc_scheduling/src/scheduler/space.rs: focus"]}
{"id": "C90", "title": "Cluster states", "statement": "For the rectangular grid with a rows and b columns in which every qubit depends on its neighbour in the column before, the run without search measures column by column, in b steps with 2a qubits in memory; a complete search returns, for every c up to a, a path with at most ab/c steps (rounded up) and at most a + c qubits in memory; the least memory it finds is min(a, b) + 1, and no run finds less with any other dependencies.", "quantifier": "all sizes of the grid (up to the number of nodes that fits into a machine word), environments, settings, builds", "why_tests_cant": "exact results for an infinite family of inputs, whose search is infeasible except for the smallest ones", "anchors": ["mbqc_scheduling/src/interface.rs: run", "mbqc_scheduling/src/search.rs: search", "mbqc_scheduling/src/search.rs: get_time_optimal"]}
{"id": "C91", "title": "Minors never cost more", "statement": "If one input arises from another one by deleting qubits, edges and dependencies and by joining connected sets of qubits to single qubits (where a joined qubit depends on another one only if everything the latter stands for has to be measured before something the former stands for), then for every path of every run for the larger input a complete search for the smaller one returns a path that takes at most as many steps and needs at most as much memory; the run without search takes at most as many steps. For the memory the dependencies do not matter: the least memory of a graph without dependencies is a lower bound for every run on every input whose measured qubits contain it as a minor; with a grid of a rows and b columns as a minor at least min(a, b) + 1 qubits are in memory at the same time. If the joined sets are not connected, the memory can grow.", "quantifier": "all pairs of well-formed inputs one of which is a minor of the other, all environments, settings and builds", "why_tests_cant": "a relation between the results for all inputs and all their minors", "anchors": ["mbqc_scheduling/src/interface.rs: run", "mbqc_scheduling/src/search.rs: search, get_time_optimal", "mbqc_scheduling/src/scheduler/space.rs: focus"]}
{"id": "C92", "title": "A few qubits that can wait", "statement": "If nothing else has to wait for the qubits of a set S and all neighbours of measured qubits are measured, then for every path of a complete search for the input without S a complete search for the whole input returns a path with at most |S| more steps and at most |S| more qubits in memory, however many edges the qubits of S have. In particular, if every edge has an end in S and only qubits of S have dependencies, there is for every c a returned path with at most m/c (rounded up) plus |S| steps and at most c + |S| qubits in memory, where m is the number of the other qubits. If other qubits have to wait for S, no such bound holds.", "quantifier": "all well-formed inputs and all such sets of qubits, all group sizes c", "why_tests_cant": "a relation between the results for all inputs with and without arbitrary sets of qubits", "anchors": ["mbqc_scheduling/src/interface.rs: run", "mbqc_scheduling/src/search.rs: search", "mbqc_scheduling/src/scheduler/space.rs: focus"]}
{"id": "C93", "title": "Trees need logarithmic memory", "statement": "If the spacial graph consists of trees with at most w qubits each, all of them measured, with roots such that qubits have to wait at most for qubits below them (for example no dependencies at all, or dependencies from the leaves to the root), then a complete search returns a path with at most as many steps as there are qubits and at most log2(w) + 1 (rounded down) qubits in memory. If the qubits have to wait for those above them, the memory can be as large as the tree.", "quantifier": "all well-formed inputs whose graph is a forest with such dependencies, of any size", "why_tests_cant": "a bound for all trees of any size", "anchors": ["mbqc_scheduling/src/interface.rs: run", "mbqc_scheduling/src/search.rs: search", "mbqc_scheduling/src/scheduler/space.rs: focus"]}
{"id": "C94", "title": "One thread and several threads", "statement": "For every path of every run, with or without search, interrupted, randomized or multi threaded, an uninterrupted deterministic search with one thread returns a path that takes at most as many steps and needs at most as much memory. A multi threaded deterministic search in which nobody sees a timeout returns exactly the same list of times and memories as with one thread, for every number of threads, task bound and interleaving, provided that no other task ends or exchanges results while a task that makes an exchange is running (without this condition: see C32). So what is known about the costs with one thread carries over.", "quantifier": "all well-formed inputs, environments, numbers of threads, task bounds, builds and interleavings of this kind", "why_tests_cant": "all interleavings and all settings", "anchors": ["mbqc_scheduling/src/interface.rs: run", "mbqc_scheduling/src/search.rs: search", "mbqc_scheduling/src/search/threaded.rs: search, task"]}
{"id": "C95", "title": "Input files with any contents", "statement": "Whatever graphs the input files contain (repeated qubits, senseless dependencies, neighbours that are not nodes): if a debug build of the program ends regularly, then the file of the results can be read, its paths measure nodes only, no node twice, no node with a neighbour that is not a node, no step is empty, the costs are exact and the paths form a strict trade-off; no other file has been changed, and the release build writes the same file. If a qubit that is to be measured has a neighbour that is not a node, then either build writes the empty list or fails, and it fails unless it was called with a timeout or -p. In release builds a written path may measure a qubit twice (refuted).", "quantifier": "all contents of files, command lines, environments, interleavings; spacial graphs that fit into memory", "why_tests_cant": "unbounded family of malformed files times all options and interleavings", "anchors": ["mbqc_scheduling/src/main.rs: main", "mbqc_scheduling/src/interface.rs: run_serialized, run", "mbqc_scheduling/src/scheduler/space.rs: measure, focus_inplace"]}
{"id": "C96", "title": "The number of schedules", "statement": "Sweeps over a path generator and over a scheduler record the same number of paths: the number of schedules that respect the dependencies, not counting the order inside the steps. A stronger order has fewer schedules, and strictly fewer unless it is the same order. If one part has to wait for the other, the numbers of the parts are multiplied. For two independent, non-empty parts the number is at least three times the product (which is attained, but not always: refuted). The number is one if and only if the dependencies order all qubits; without dependencies it is the ordered Bell number, which is never exceeded.", "quantifier": "all well-formed inputs, pairs of orders, series compositions, colourings of the qubits", "why_tests_cant": "the test counts the paths of at most five independent qubits; here all orders and all compositions", "anchors": ["mbqc_scheduling/src/scheduler/time.rs: tests::get_all_paths, tests::max", "mbqc_scheduling/src/scheduler/tree.rs: Sweep::next", "mbqc_scheduling/src/scheduler/time.rs: PathGenerator::next_and_focus", "mbqc_scheduling/xdocs/scheduler.md: Performance"]}
{"id": "C97", "title": "The number of schedules is odd", "statement": "Whatever the dependencies are, the number of schedules that respect them is odd, so sweeps over a path generator and over a scheduler record an odd number of paths. There is a schedule with t steps if and only if t lies between the time of the time optimal path and the number of qubits.", "quantifier": "all well-formed inputs, both builds, all numbers of steps", "why_tests_cant": "the tests count the paths for a few fixed graphs; here all dependency graphs", "anchors": ["mbqc_scheduling/src/scheduler/time.rs: tests::get_all_paths, tests::max", "mbqc_scheduling/src/scheduler/tree.rs: Sweep::next", "mbqc_scheduling/src/search.rs: get_time_optimal"]}
