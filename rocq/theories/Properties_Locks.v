(** * Properties: locks and moves of the multi threaded search

    The other statements about the multi threaded search are about lists of
    uninterrupted events, after the submission of all tasks.  The statements here
    are about the finer model in [Locks.v], where submitting, taking, acquiring,
    releasing, every access to an entry of a shared array and polling the timer are
    moves that interleave arbitrarily.  [fine_search] returns [None] if the moves
    are not possible or not a complete execution. *)
From Verif Require Import MainLocks.
From Verif Require Import Spec.

(** ** C64: interleavings at the level of the locks *)

(** The same results are possible. *)
Theorem C64_same_results :
  ∀ bd debug adj g nthreads prob bound timer ho samples o, 2 ≤ nthreads →
  let prob' := match prob with Some a => Some (a, samples) | None => None end in
  ((∃ ms, fine_search bd debug ms ho adj g nthreads prob' bound = Some o) ↔
   (∃ fuel es, search bd (mkWorld fuel timer es ho samples) adj g nthreads prob bound = Some o)) ∧
  (* also if the time is never over *)
  ((∃ ms, no_timeout_moves ms ∧ fine_search bd debug ms ho adj g nthreads prob' bound = Some o) ↔
   (∃ fuel es, no_timeout es ∧
      search bd (mkWorld fuel timer es ho samples) adj g nthreads prob bound = Some o)).
Proof. exact moves_same. Qed.
Print Assumptions C64_same_results.

(** There is no deadlock: an execution that is not complete can go on, whatever the
    timer says. *)
Theorem C64_no_deadlock :
  ∀ bd debug nthreads bound prob num_bits root ms f answer, 1 ≤ nthreads →
  fine_run bd debug nthreads bound prob (fine_init num_bits root) ms = Some f →
  fine_result f = None →
  is_Some (fine_move bd debug nthreads bound prob f MainMove) ∨
  ∃ i, is_Some (fine_move bd debug nthreads bound prob f (TaskMove i answer)).
Proof. exact moves_progress. Qed.
Print Assumptions C64_no_deadlock.

(** All executions are finite. *)
Theorem C64_terminates :
  ∀ bd debug nthreads bound prob num_bits root, ∃ k, ∀ ms f,
  fine_run bd debug nthreads bound prob (fine_init num_bits root) ms = Some f → length ms ≤ k.
Proof. exact moves_terminate. Qed.
Print Assumptions C64_terminates.

(** Mutual exclusion; a lock is never poisoned. *)
Theorem C64_locks :
  ∀ bd debug nthreads bound prob num_bits root ms f,
  fine_run bd debug nthreads bound prob (fine_init num_bits root) ms = Some f →
  (* a lock is held by exactly the task that is in a section for it *)
  (∀ i, f_best_lock f = Some i ↔ ∃ st, f_tasks f !! i = Some st ∧ holds_best st = true) ∧
  (∀ i, f_results_lock f = Some i ↔ ∃ st, f_tasks f !! i = Some st ∧ holds_results st = true) ∧
  (* a task that has panicked holds none *)
  (∀ i, f_tasks f !! i = Some FPanicked → f_best_lock f ≠ Some i ∧ f_results_lock f ≠ Some i) ∧
  (* the shared data is only written by the task that holds the lock *)
  (∀ m f', fine_move bd debug nthreads bound prob f m = Some f' →
     (f_best f' ≠ f_best f → ∃ i answer, m = TaskMove i answer ∧ f_best_lock f = Some i) ∧
     (f_results f' ≠ f_results f →
        ∃ i answer, m = TaskMove i answer ∧ f_best_lock f = Some i ∧ f_results_lock f = Some i)) ∧
  (* the pool never runs more tasks than it has workers *)
  length (List.filter occupied (f_tasks f)) ≤ nthreads.
Proof. exact moves_locks. Qed.
Print Assumptions C64_locks.

(** Hence C31 and C33 hold for all interleavings, and what is lost in C32 is really
    lost. *)
Theorem C64_valid :
  ∀ bd debug ms ho adj g nthreads prob samples bound o,
  wf_input adj g → 2 ≤ nthreads → (∀ l, ho l ≡ₚ l) →
  fine_search bd debug ms ho adj g nthreads
    (match prob with Some a => Some (a, samples) | None => None end) bound = Some o →
  (∃ ps, o = Val ps ∧ Forall (path_ok adj g) ps ∧ tradeoff ps) ∨ o = Panic ∧ ¬ calm_function prob.
Proof. exact moves_valid. Qed.
Print Assumptions C64_valid.

Theorem C64_first :
  ∀ bd debug ms ho adj g nthreads bound o,
  wf_input adj g → 2 ≤ nthreads → (∀ l, ho l ≡ₚ l) → (∃ b, listed g b) →
  no_timeout_moves ms →
  fine_search bd debug ms ho adj g nthreads None bound = Some o →
  ∃ p ps, o = Val (p :: ps) ∧ ∀ σ, valid_schedule g σ → time p ≤ time_cost σ.
Proof. exact moves_first. Qed.
Print Assumptions C64_first.

Theorem C64_not_optimal :
  ∃ adj g, wf_input adj g ∧ ∀ bd debug, ∃ ms ps,
  no_timeout_moves ms ∧ fine_search bd debug ms id adj g 2 None 100000 = Some (Val ps) ∧
  ¬ pareto_front adj g ps.
Proof. exact moves_not_optimal. Qed.
Print Assumptions C64_not_optimal.

(** Two workers, one task per first step of which one is submitted before the bound;
    messages are enabled.  Task 0 holds the lock for its message while the last
    task is submitted and taken; task 1 has to wait ([None]).  Then the moves of
    the tasks alternate as far as possible. *)
Definition held : list move := [MainMove; TaskMove 0 false; TaskMove 0 false; MainMove; TaskMove 1 false].
Definition alternate (l : list nat) : list move := map (λ i, TaskMove i false) l.

Example C64_example :
  match search_scheduler pairs pairs_order with
  | Val root =>
      match fine_run Debug true 2 1 None (fine_init 4 root) held with
      | Some f => f_best_lock f = Some 0 ∧ fine_result f = None ∧
          fine_move Debug true 2 1 None f (TaskMove 1 false) = None
      | None => False
      end
  | Panic => False
  end ∧
  fine_search Debug true
    (held ++ alternate ([0; 1; 1; 0; 0] ++ concat (repeat [1; 0] 15) ++ repeat 1 16))
    id pairs pairs_order 2 None 1
  = Some (Val [MkPath 2 4 [[0; 1]; [2; 3]]; MkPath 3 3 [[1]; [0; 3]; [2]];
               MkPath 4 2 [[1]; [3]; [0]; [2]]]).
Proof. by vm_compute. Qed.
