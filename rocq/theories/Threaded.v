(** * Model of [mbqc_scheduling/src/search/threaded.rs]

    The tasks run on a thread pool.  An execution is a list of events; each
    event is one atomic action of one task: being started by a worker (including
    the initial copy of the shared array), one iteration of its loop (including
    the periodic exchange, which holds the lock), and its end (including the
    merge, which holds both locks).  Between two events of a task, any events
    of other tasks may happen.  Not modelled: the tracing output, lock poisoning
    (it needs a panic, which is modelled as a panic of the whole search). *)
From Verif Require Export Base Combinatoric Tree Space Time Scheduler Search.
From Coq Require Export ZArith.

(** [UPDATE_INTERVAL], threaded.rs:33. *)
Definition UPDATE_INTERVAL : N := 1000.

(** A submitted task: the arguments [scheduler] and [measure] of [task],
    threaded.rs:73-83 and 97-99. *)
Record Job := mkJob {
  job_scheduler : Scheduler Partitioner;
  job_measure : option (list nat)
}.

(** One round of the [while let] loop of [search], threaded.rs:66-88.  State:
    scheduler, submitted tasks, [ntasks].  Submitting the remaining task,
    threaded.rs:91-99, is done when the loop is left. *)
Definition spawn_body (bd : build) (task_bound : Z)
    (s : Scheduler Partitioner * list Job * Z)
    : out ((Scheduler Partitioner * list Job * Z) + list Job) :=
  let '(scheduler, jobs, ntasks) := s in
  let* '(scheduler, r) := scheduler_next_and_focus bd scheduler in
  match r with
  | None => Val (inr (jobs ++ [mkJob scheduler None]))
  | Some (scheduler_focused, init_measure) =>
      let jobs := jobs ++ [mkJob scheduler_focused (Some init_measure)] in
      let ntasks := (ntasks + 1)%Z in
      if (ntasks =? task_bound)%Z then Val (inr (jobs ++ [mkJob scheduler None]))
      else Val (inl (scheduler, jobs, ntasks))
  end.

(** All submitted tasks in order, threaded.rs:59-99. *)
Definition spawn (bd : build) (fuel : nat) (task_bound : Z)
    (scheduler : Scheduler Partitioner) : option (out (list Job)) :=
  loop (spawn_body bd task_bound) fuel (scheduler, [], 0%Z).

(** Local variables of [do_search]/[do_probabilistic_search], threaded.rs:193-201
    and 249-257. *)
Record Task := mkTask {
  t_search : SearchState;
  t_initialized : bool;
  t_counter : N;
  t_drawn : Draws
}.

(** Entry of [do_search], threaded.rs:193-201: copies the shared array. *)
Definition task_start (shared : list N) (j : Job) : Task :=
  mkTask
    (mkSearchState (sweep_new (job_scheduler j))
       (match job_measure j with Some e => [e] | None => [] end) shared ∅)
    (match job_measure j with Some _ => true | None => false end) 0 (0, 0).

(** The pointwise exchange in [update], threaded.rs:169-178. *)
Fixpoint exchange (shared this : list N) : list N * list N :=
  match shared, this with
  | s :: shared', t :: this' =>
      let r := exchange shared' this' in
      match (t ?= s)%N with
      | Gt => (s :: r.1, s :: r.2)
      | Lt => (t :: r.1, t :: r.2)
      | Eq => (s :: r.1, t :: r.2)
      end
  | _, _ => (shared, this)
  end.

(** [update], threaded.rs:161-185.  Result: shared array, own array, counter and
    the returned flag.  [finished] is what [timer.finished()] returns. *)
Definition update (shared this : list N) (counter : N) (finished : bool)
    : list N * list N * N * bool :=
  if (counter =? UPDATE_INTERVAL)%N
  then let r := exchange shared this in (r.1, r.2, 1%N, finished)
  else (shared, this, (counter + 1)%N, false).

(** One iteration of the loop of [do_search], threaded.rs:203-228, respectively
    of [do_probabilistic_search], threaded.rs:259-296.  Result: shared array,
    task, and whether the loop is left. *)
Definition task_iteration (bd : build) (probabilistic : option (Accept * (nat → f64)))
    (shared : list N) (finished : bool) (t : Task) : out (list N * Task * bool) :=
  let* r :=
    match probabilistic with
    | None =>
        let* r := search_iteration bd (t_search t) in
        Val (match r with inl s => inl (t_drawn t, s) | inr s => inr s end)
    | Some (accept_func, samples) =>
        probabilistic_iteration bd accept_func samples (t_drawn t, t_search t)
    end in
  match r with
  | inr s => Val (shared, mkTask s (t_initialized t) (t_counter t) (t_drawn t), true)
  | inl (drawn, s) =>
      let '(shared, this, counter, stop) := update shared (ss_best s) (t_counter t) finished in
      Val (shared,
           mkTask (mkSearchState (ss_scheduler s) (ss_path s) this (ss_results s))
             (t_initialized t) counter drawn,
           stop)
  end.

(** After the loop: threaded.rs:230-239 and 298-307.  Result: own results and own
    array. *)
Definition task_end (t : Task) : out (MappedPaths * list N) :=
  let s := t_search t in
  if ((t_counter t =? 0)%N && t_initialized t)%bool then
    let* '(_, best, res) :=
      backward (Some (max_memory (s_space (current (ss_scheduler s)))))
        (ss_path s) (ss_best s) (ss_results s) in
    Val (res, best)
  else Val (ss_results s, ss_best s).

(** The merge loop of [task], threaded.rs:144-157, from index [t] on. *)
Fixpoint merge_from (t : nat) (shared this : list N) (new_results results : MappedPaths)
    : list N * MappedPaths :=
  match shared, this with
  | s :: shared', m :: this' =>
      if (m <=? s)%N then
        let results :=
          match new_results !! t with
          | Some r => <[t := r]> results
          | None => results
          end in
        let r := merge_from (S t) shared' this' (delete t new_results) results in
        (m :: r.1, r.2)
      else
        let r := merge_from (S t) shared' this' new_results results in (s :: r.1, r.2)
  | _, _ => (shared, results)
  end.

(** The end of [task], threaded.rs:137-157. *)
Definition merge (shared : list N) (results : MappedPaths) (new_results : MappedPaths)
    (this : list N) : list N * MappedPaths :=
  if size new_results =? 0 then (shared, results)
  else merge_from 0 shared this new_results results.

(** ** The thread pool *)

(** Where a submitted task is in its life. *)
Inductive Status :=
| Waiting (j : Job)
| Running (t : Task)
| Ending (t : Task) (* has left its loop *)
| Finished.

(** The state shared by all threads, threaded.rs:45-46, and the tasks. *)
Record System := mkSystem {
  sys_tasks : list Status;
  sys_best : list N;
  sys_results : MappedPaths
}.

(** Start of the search, threaded.rs:45-46. *)
Definition system_init (num_bits : nat) (jobs : list Job) : System :=
  mkSystem (map Waiting jobs) (replicate (num_bits + 1) usize_max) ∅.

(** Atomic actions: a worker starts task [i]; task [i] performs one iteration,
    [finished] being what the timer would answer; task [i] ends. *)
Inductive event := EStart (i : nat) | EIter (i : nat) (finished : bool) | EEnd (i : nat).

Definition is_finished (s : Status) : bool :=
  match s with Finished => true | _ => false end.

(** Number of tasks that are not finished yet. *)
Definition unfinished (tasks : list Status) : nat :=
  length (filter (λ s, is_finished s = false) tasks).

(** One event; [None] if it is not possible in this state.  The pool
    ([scoped_threadpool], an external crate) has [nthreads] workers; an idle
    worker takes the first submitted task that no worker has taken yet, so task
    [i] has been taken as soon as fewer than [nthreads] earlier tasks are
    unfinished.  Between taking a task and its first action (copying the shared
    array) other tasks can run, also later ones.  Simplification: all tasks are
    submitted before the first one starts (the submission does not depend on
    anything the tasks do). *)
Definition exec (bd : build) (nthreads : nat)
    (probabilistic : option ((nat → Accept) * (nat → nat → f64)))
    (sys : System) (e : event) : option (out System) :=
  match e with
  | EStart i =>
      match sys_tasks sys !! i with
      | Some (Waiting j) =>
          if unfinished (take i (sys_tasks sys)) <? nthreads
          then Some (Val (mkSystem
                 (<[i := Running (task_start (sys_best sys) j)]> (sys_tasks sys))
                 (sys_best sys) (sys_results sys)))
          else None
      | _ => None
      end
  | EIter i finished =>
      match sys_tasks sys !! i with
      | Some (Running t) =>
          let prob := match probabilistic with
                      | Some (accept_func, samples) => Some (accept_func i, samples i)
                      | None => None
                      end in
          Some (
            let* '(shared, t', stop) :=
              task_iteration bd prob (sys_best sys) finished t in
            Val (mkSystem
                   (<[i := if stop : bool then Ending t' else Running t']> (sys_tasks sys))
                   shared (sys_results sys)))
      | _ => None
      end
  | EEnd i =>
      match sys_tasks sys !! i with
      | Some (Ending t) =>
          Some (
            let* '(new_results, this) := task_end t in
            let r := merge (sys_best sys) (sys_results sys) new_results this in
            Val (mkSystem (<[i := Finished]> (sys_tasks sys)) r.1 r.2))
      | _ => None
      end
  end.

(** A list of events; [None] if one of them is not possible. *)
Fixpoint run_events (bd : build) (nthreads : nat)
    (probabilistic : option ((nat → Accept) * (nat → nat → f64)))
    (sys : System) (es : list event) : option (out System) :=
  match es with
  | [] => Some (Val sys)
  | e :: es =>
      match exec bd nthreads probabilistic sys e with
      | None => None
      | Some Panic => Some Panic
      | Some (Val sys') => run_events bd nthreads probabilistic sys' es
      end
  end.

(** [pool.scoped] returns when all tasks are done. *)
Definition all_finished (sys : System) : bool :=
  forallb is_finished (sys_tasks sys).

(** [threaded::search], threaded.rs:35-103.  [None] if the fuel does not suffice
    to submit the tasks or [events] is not a complete execution. *)
Definition threaded_search (bd : build) (fuel : nat) (events : list event)
    (nthreads num_bits : nat) (scheduler : Scheduler Partitioner) (task_bound : Z)
    (probabilistic : option ((nat → Accept) * (nat → nat → f64)))
    : option (out MappedPaths) :=
  match spawn bd fuel task_bound scheduler with
  | None => None
  | Some Panic => Some Panic
  | Some (Val jobs) =>
      match run_events bd nthreads probabilistic (system_init num_bits jobs) events with
      | None => None
      | Some Panic => Some Panic
      | Some (Val sys) => if all_finished sys then Some (Val (sys_results sys)) else None
      end
  end.

(** What a search does not determine itself: fuel of the model, answers of the
    timer to a single threaded search, interleaving (and timer answers) of a
    multi threaded search, hash map iteration order, random samples (task 0 is
    also the single threaded search). *)
Record World := mkWorld {
  w_fuel : nat;
  w_timer : nat → bool;
  w_events : list event;
  w_hash_order : list (nat * (N * Steps)) → list (nat * (N * Steps));
  w_samples : nat → nat → f64
}.

(** [search], search.rs:86-143.  [a i] is the accept function as task [i] sees
    it. *)
Definition search (bd : build) (w : World) (spacial_graph : SpacialGraph)
    (time_ordering : PartialOrderGraph) (nthreads : nat)
    (probabilistic : option (nat → Accept)) (task_bound : Z) : option (out (list path)) :=
  if nthreads <? 2 then
    search_single bd (w_fuel w) (w_timer w) (w_hash_order w) spacial_graph time_ordering
      (match probabilistic with Some a => Some (a 0, w_samples w 0) | None => None end)
  else
    let num_bits := length spacial_graph in
    match search_scheduler spacial_graph time_ordering with
    | Panic => Some Panic
    | Val scheduler =>
        match threaded_search bd (w_fuel w) (w_events w) nthreads num_bits scheduler
                task_bound
                (match probabilistic with
                 | Some a => Some (a, w_samples w) | None => None end) with
        | None => None
        | Some Panic => Some Panic
        | Some (Val results) => Some (finish (w_hash_order w) num_bits results)
        end
    end.
