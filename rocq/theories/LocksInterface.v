(** * [run] on top of the finer model of the thread pool

    The moves of the threads interleave with the clock and the timer thread. *)
From Verif Require Export Locks Interface.

(** The moves with the answers of the timer.  The flag is read and written with
    [Ordering::Relaxed], timer.rs:74 and 83: the boolean of [TaskMove] says whether
    the read, threaded.rs:180, sees a write that has happened. *)
Fixpoint timed_moves (t : Timer) (ms : list (timer_event + move)) : list move :=
  match ms with
  | [] => []
  | inl e :: ms => timed_moves (timer_env t e) ms
  | inr (TaskMove i sees) :: ms => TaskMove i (sees && timer_finished t) :: timed_moves t ms
  | inr MainMove :: ms => MainMove :: timed_moves t ms
  end.

(** [run], interface.rs:71-92, with [do_search] and two or more threads, for an
    execution in terms of moves; the counterpart of [run] in [Interface.v]. *)
Definition run_moves (bd : build) (debug : bool) (ms : list (timer_event + move)) (env : Env)
    (spacial_graph : SpacialGraph) (time_ordering : PartialOrderGraph) (timeout : option nat)
    (nthreads : nat) (task_bound : option N)
    (probabilistic : option (AcceptFunc * option N)) : option (out (list path)) :=
  fine_search bd debug (timed_moves (search_timer timeout) ms) (e_hash_order env)
    spacial_graph time_ordering nthreads
    (match probabilistic with
     | Some (func, seed) =>
         Some (get_accept_func (e_exp env) func, task_samples (e_generators env) nthreads seed)
     | None => None
     end)
    (match task_bound with Some b => Z.of_N b | None => 100000%Z end).

(** ** Vocabulary for the statements *)

(** What the clock and the timer thread do in an execution. *)
Definition clock_events {A} (xs : list (timer_event + A)) : list timer_event :=
  omap (λ x, match x with inl e => Some e | inr _ => None end) xs.

(** The environment with another multi threaded execution. *)
Definition with_events (env : Env) (es : list (timer_event + event)) : Env :=
  mkEnv (e_clock env) es (e_hash_order env) (e_generators env) (e_exp env).

(** Relaxed reads: what a read sees has been written; what has been seen once is
    seen by all later reads. *)
Definition relaxed_reads (written reads : nat → bool) : Prop :=
  (∀ k, reads k = true → written k = true) ∧
  (∀ k k', k ≤ k' → reads k = true → reads k' = true).
