(** * A finer model of [mbqc_scheduling/src/search/threaded.rs]

    In [Threaded.v] an execution is a list of events, each of which is carried out
    without interruption, after all tasks have been submitted.  Here the submission
    of a task, taking it from the queue, acquiring and releasing a lock, reading or
    writing one entry of a shared array, polling the timer and the computations
    between them are single moves, and the moves of all threads interleave
    arbitrarily.  The computations of a task that do not touch shared data are one
    move. *)
From Verif Require Export Threaded.

(** Where the closure passed to [pool.scoped] is, threaded.rs:60-100. *)
Inductive Main :=
| Submitting (scheduler : Scheduler Partitioner) (ntasks : Z)  (* in the loop, threaded.rs:66-88 *)
| Remaining (scheduler : Scheduler Partitioner)                (* threaded.rs:90-99 *)
| Joining_                                                     (* waits for the tasks *)
| MainPanicked.

(** Where a submitted task is. *)
Inductive FStatus :=
| FWaiting (j : Job)                      (* in the queue *)
| FTaken (j : Job)                        (* a worker has taken it *)
| FLogging (j : Job)                      (* holds [best_memory] for a message, threaded.rs:117-121 *)
| FLogged (j : Job)
| FCopying (j : Job)                      (* holds [best_memory], threaded.rs:196-197, 252-253 *)
| FLoop (t : Task)                        (* before an iteration *)
| FUpdate (t : Task)                      (* wants [best_memory] for the exchange, threaded.rs:169-171 *)
| FExchanging (t : Task) (k : nat)        (* holds it, [k] entries are done, threaded.rs:172-178 *)
| FPolling (t : Task)                     (* has released it, threaded.rs:179-180 *)
| FLeaving (t : Task)                     (* after the loop, threaded.rs:230-239, 298-307 *)
| FWantBest (new_results : MappedPaths) (this : list N)     (* threaded.rs:141 *)
| FWantResults (new_results : MappedPaths) (this : list N)  (* holds [best_memory], threaded.rs:142 *)
| FMerging (new_results : MappedPaths) (this : list N) (k : nat)
                                          (* holds both, [k] entries are done, threaded.rs:144-157 *)
| FReleasing                              (* has released [results] again, threaded.rs:158 *)
| FDone
| FPanicked.

(** All threads and the shared data; a lock contains the task that holds it. *)
Record Fine := mkFine {
  f_main : Main;
  f_tasks : list FStatus;
  f_best : list N;
  f_best_lock : option nat;
  f_results : MappedPaths;
  f_results_lock : option nat
}.

(** The start of the search, threaded.rs:45-60. *)
Definition fine_init (num_bits : nat) (scheduler : Scheduler Partitioner) : Fine :=
  mkFine (Submitting scheduler 0) [] (replicate (num_bits + 1) usize_max) None ∅ None.

(** One move of the closure passed to [pool.scoped]: one round of the loop,
    threaded.rs:66-88, or the last task, threaded.rs:90-99. *)
Definition main_move (bd : build) (task_bound : Z) (f : Fine) : option Fine :=
  let go m tasks := Some (mkFine m tasks (f_best f) (f_best_lock f) (f_results f) (f_results_lock f)) in
  match f_main f with
  | Submitting scheduler ntasks =>
      match scheduler_next_and_focus bd scheduler with
      | Panic => go MainPanicked (f_tasks f)
      | Val (scheduler, None) => go (Remaining scheduler) (f_tasks f)
      | Val (scheduler, Some (scheduler_focused, init_measure)) =>
          let ntasks := (ntasks + 1)%Z in
          go (if (ntasks =? task_bound)%Z then Remaining scheduler else Submitting scheduler ntasks)
            (f_tasks f ++ [FWaiting (mkJob scheduler_focused (Some init_measure))])
      end
  | Remaining scheduler => go Joining_ (f_tasks f ++ [FWaiting (mkJob scheduler None)])
  | Joining_ | MainPanicked => None
  end.

(** Whether a worker is occupied with the task; a worker whose task has panicked
    is lost. *)
Definition occupied (st : FStatus) : bool :=
  match st with FWaiting _ | FDone => false | _ => true end.
Definition is_waiting (st : FStatus) : bool :=
  match st with FWaiting _ => true | _ => false end.

(** What an iteration of the loop does before [update], and the part of [update]
    without a lock: threaded.rs:203-223, 259-288, 168 and 182-183. *)
Inductive Local := Next (t : Task) | Full (t : Task) | Leave (t : Task).
Definition task_local (bd : build) (probabilistic : option (Accept * (nat → f64))) (t : Task)
    : out Local :=
  let* r :=
    match probabilistic with
    | None =>
        let* r := search_iteration bd (t_search t) in
        Val (match r with inl s => inl (t_drawn t, s) | inr s => inr s end)
    | Some (accept_func, samples) =>
        probabilistic_iteration bd accept_func samples (t_drawn t, t_search t)
    end in
  match r with
  | inr s => Val (Leave (mkTask s (t_initialized t) (t_counter t) (t_drawn t)))
  | inl (drawn, s) =>
      if (t_counter t =? UPDATE_INTERVAL)%N
      then Val (Full (mkTask s (t_initialized t) (t_counter t) drawn))
      else Val (Next (mkTask s (t_initialized t) (t_counter t + 1) drawn))
  end.

(** The task with another array and counter. *)
Definition task_with (t : Task) (this : list N) (counter : N) : Task :=
  let s := t_search t in
  mkTask (mkSearchState (ss_scheduler s) (ss_path s) this (ss_results s))
    (t_initialized t) counter (t_drawn t).

(** One entry of the exchange, threaded.rs:174-178. *)
Definition exchange_entry (k : nat) (shared this : list N) : list N * list N :=
  match shared !! k, this !! k with
  | Some s, Some t =>
      match (t ?= s)%N with
      | Gt => (shared, <[k := s]> this)
      | Lt => (<[k := t]> shared, this)
      | Eq => (shared, this)
      end
  | _, _ => (shared, this)
  end.

(** One entry of the merge, threaded.rs:147-156. *)
Definition merge_entry (k : nat) (shared this : list N) (new_results results : MappedPaths)
    : list N * MappedPaths * MappedPaths :=
  match shared !! k, this !! k with
  | Some s, Some m =>
      if (m <=? s)%N then
        (<[k := m]> shared, delete k new_results,
         match new_results !! k with Some r => <[k := r]> results | None => results end)
      else (shared, new_results, results)
  | _, _ => (shared, new_results, results)
  end.

(** One move of task [i].  [answer] is the answer of the timer if the task polls it;
    [debug] says whether the debug messages are enabled: the one at the start of a
    task acquires a lock. *)
Definition task_move (bd : build) (debug : bool) (nthreads : nat)
    (probabilistic : option ((nat → Accept) * (nat → nat → f64)))
    (f : Fine) (i : nat) (answer : bool) : option Fine :=
  let set st best lock results lock' :=
    Some (mkFine (f_main f) (<[i := st]> (f_tasks f)) best lock results lock') in
  (* nothing shared changes *)
  let go st := set st (f_best f) (f_best_lock f) (f_results f) (f_results_lock f) in
  (* [best_memory] is acquired, or released with a new content *)
  let acquire st :=
    match f_best_lock f with
    | None => set st (f_best f) (Some i) (f_results f) (f_results_lock f)
    | Some _ => None
    end in
  let release st := set st (f_best f) None (f_results f) (f_results_lock f) in
  st ← f_tasks f !! i;
  match st with
  | FWaiting j =>
      (* an idle worker takes the first task of the queue *)
      if forallb (λ st, negb (is_waiting st)) (take i (f_tasks f)) &&
         (length (List.filter occupied (f_tasks f)) <? nthreads)
      then go (FTaken j) else None
  | FTaken j => if debug then acquire (FLogging j) else acquire (FCopying j)
  | FLogging j => release (FLogged j)
  | FLogged j => acquire (FCopying j)
  | FCopying j => release (FLoop (task_start (f_best f) j))
  | FLoop t =>
      match task_local bd (match probabilistic with
                           | Some (accept_func, samples) => Some (accept_func i, samples i)
                           | None => None
                           end) t with
      | Panic => go FPanicked
      | Val (Next t) => go (FLoop t)
      | Val (Full t) => go (FUpdate t)
      | Val (Leave t) => go (FLeaving t)
      end
  | FUpdate t => acquire (FExchanging t 0)
  | FExchanging t k =>
      let this := ss_best (t_search t) in
      if (k <? length (f_best f)) && (k <? length this) then
        let r := exchange_entry k (f_best f) this in
        set (FExchanging (task_with t r.2 (t_counter t)) (S k)) r.1 (f_best_lock f)
          (f_results f) (f_results_lock f)
      else release (FPolling (task_with t this 1))
  | FPolling t => if answer then go (FLeaving t) else go (FLoop t)
  | FLeaving t =>
      match task_end t with
      | Panic => go FPanicked
      | Val (new_results, this) =>
          if size new_results =? 0 then go FDone else go (FWantBest new_results this)
      end
  | FWantBest new_results this => acquire (FWantResults new_results this)
  | FWantResults new_results this =>
      match f_results_lock f with
      | None => set (FMerging new_results this 0) (f_best f) (f_best_lock f) (f_results f) (Some i)
      | Some _ => None
      end
  | FMerging new_results this k =>
      if (k <? length (f_best f)) && (k <? length this) then
        let '(best, new_results, results) := merge_entry k (f_best f) this new_results (f_results f) in
        set (FMerging new_results this (S k)) best (f_best_lock f) results (f_results_lock f)
      else set FReleasing (f_best f) (f_best_lock f) (f_results f) None
  | FReleasing => release FDone
  | FDone | FPanicked => None
  end.

Inductive move := MainMove | TaskMove (i : nat) (answer : bool).

(** A move that is not possible gives [None]. *)
Definition fine_move (bd : build) (debug : bool) (nthreads : nat) (task_bound : Z)
    (probabilistic : option ((nat → Accept) * (nat → nat → f64)))
    (f : Fine) (m : move) : option Fine :=
  match m with
  | MainMove => main_move bd task_bound f
  | TaskMove i answer => task_move bd debug nthreads probabilistic f i answer
  end.

Fixpoint fine_run (bd : build) (debug : bool) (nthreads : nat) (task_bound : Z)
    (probabilistic : option ((nat → Accept) * (nat → nat → f64)))
    (f : Fine) (ms : list move) : option Fine :=
  match ms with
  | [] => Some f
  | m :: ms =>
      f' ← fine_move bd debug nthreads task_bound probabilistic f m;
      fine_run bd debug nthreads task_bound probabilistic f' ms
  end.

Definition is_done (st : FStatus) : bool := match st with FDone => true | _ => false end.
Definition is_panicked (st : FStatus) : bool := match st with FPanicked => true | _ => false end.

(** What the search gives if the execution ends here: a panic if the closure has
    panicked or, while it waits, one of the tasks (threaded.rs:60); the results,
    threaded.rs:102, if all tasks are done. *)
Definition fine_result (f : Fine) : option (out MappedPaths) :=
  match f_main f with
  | MainPanicked => Some Panic
  | Joining_ =>
      if existsb is_panicked (f_tasks f) then Some Panic
      else if forallb is_done (f_tasks f) then Some (Val (f_results f)) else None
  | _ => None
  end.

(** [search], search.rs:86-143, for two or more threads, with an execution in terms
    of moves; the counterpart of [search] in [Threaded.v]. *)
Definition fine_search (bd : build) (debug : bool) (ms : list move)
    (hash_order : list (nat * (N * Steps)) → list (nat * (N * Steps)))
    (spacial_graph : SpacialGraph) (time_ordering : PartialOrderGraph) (nthreads : nat)
    (probabilistic : option ((nat → Accept) * (nat → nat → f64))) (task_bound : Z)
    : option (out (list path)) :=
  let num_bits := length spacial_graph in
  match search_scheduler spacial_graph time_ordering with
  | Panic => Some Panic
  | Val scheduler =>
      f ← fine_run bd debug nthreads task_bound probabilistic (fine_init num_bits scheduler) ms;
      o ← fine_result f;
      match o with
      | Panic => Some Panic
      | Val results => Some (finish hash_order num_bits results)
      end
  end.

(** ** Vocabulary for the statements *)

(** The task is between acquiring and releasing [best_memory], respectively
    [results]. *)
Definition holds_best (st : FStatus) : bool :=
  match st with
  | FLogging _ | FCopying _ | FExchanging _ _ | FWantResults _ _ | FMerging _ _ _ | FReleasing => true
  | _ => false
  end.
Definition holds_results (st : FStatus) : bool :=
  match st with FMerging _ _ _ => true | _ => false end.

(** The timer never answers that the time is over. *)
Definition no_timeout_moves (ms : list move) : Prop := ∀ i answer, TaskMove i answer ∈ ms → answer = false.
