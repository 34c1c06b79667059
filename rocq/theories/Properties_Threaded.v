(** * Properties: the multi threaded search

    The vocabulary of the statements is in [Spec.v], [Histories.v] and
    [Executions.v].  An execution is a list of events, see [Threaded.v]; a world
    [w] fixes the execution, the iteration order of the hash map and the random
    samples.  [search] returns [None] if the events of [w] are not a complete
    execution (or the fuel does not suffice); [C36_threaded_completes] says that
    every execution can be completed. *)
From Verif Require Import ThreadedWitness LongerWitness.
From Verif Require Import Spec.

(** ** C30: inputs without nodes *)

Theorem C30_no_nodes :
  ∀ adj g bd, (∀ b, ¬ listed g b) →
  returns (λ fuel, get_time_optimal bd fuel adj g) [MkPath 0 0 []] ∧
  (∀ timer ho prob, (∀ l, ho l ≡ₚ l) → returns (λ fuel, search_single bd fuel timer ho adj g prob) []) ∧
  (∀ nthreads prob bound w o, (∀ l, w_hash_order w l ≡ₚ l) →
     search bd w adj g nthreads prob bound = Some o → o = Val []).
Proof. exact no_nodes_any. Qed.
Print Assumptions C30_no_nodes.

Example C30_example :
  (∀ b, ¬ listed [[]; []] b) ∧
  search Debug (mkWorld 10 (λ _, false) [EStart 0; EIter 0 false; EEnd 0] id (λ _ _, f64_one))
    [[1; 7]; []] [[]; []] 4 None 3 = Some (Val []).
Proof.
  split; [|by vm_compute]. intros b (layer & ds & H & Hb).
  apply elem_of_list_In in H. apply elem_of_list_In in Hb. simpl in H. destruct H as [<-|[<-|[]]]; done.
Qed.

(** ** C31: every returned path is valid, no thread panics *)

Theorem C31_threaded_valid :
  ∀ adj g nthreads prob bound bd w o,
  wf_input adj g → 2 ≤ nthreads → (∀ l, w_hash_order w l ≡ₚ l) →
  search bd w adj g nthreads prob bound = Some o →
  (∀ bd', search bd' w adj g nthreads prob bound = Some o) ∧
  ((∃ ps, o = Val ps ∧ Forall (path_ok adj g) ps ∧ tradeoff ps) ∨
   (* a call of the accept function panicked *)
   o = Panic ∧ ¬ calm_function prob).
Proof. exact threaded_valid. Qed.
Print Assumptions C31_threaded_valid.

Theorem C31_threaded_no_panic :
  ∀ adj g nthreads prob bound bd jobs es o,
  wf_input adj g → submitted bd adj g bound jobs → all_calm prob →
  run_events bd nthreads prob (system_init (length adj) jobs) es = Some o →
  ∃ sys, o = Val sys.
Proof. exact threaded_no_panic. Qed.
Print Assumptions C31_threaded_no_panic.

(** An execution that is interrupted by the timeout: three workers, task bound
    2; task 1 finds the timer finished after 1001 iterations. *)
Example C31_example :
  wf_input lossy lossy_order ∧
  search Debug
    (mkWorld 100 (λ _, false)
       (EStart 0 :: EStart 1 :: EIter 0 false :: EStart 2 ::
        repeat (EIter 2 true) 622 ++ EEnd 2 :: repeat (EIter 1 true) 1001 ++
        EEnd 1 :: repeat (EIter 0 true) 145 ++ [EEnd 0])
       (@rev _) (λ _ _, f64_one))
    lossy lossy_order 3 None 2
  = Some (Val [MkPath 2 7 [[0; 1]; [2; 3; 5; 8; 4; 6; 7]];
               MkPath 3 4 [[0; 1]; [2; 8; 6; 7]; [3; 5; 4]];
               MkPath 5 3 [[1]; [6; 7]; [0]; [2; 5; 8]; [4; 3]]]).
Proof. split; [apply lossy_wf|]. by vm_compute. Qed.

(** ** C32: optimality of the multi threaded search *)

(** The claim is false: *)

Theorem C32_threaded_optimal_refuted :
  ¬ (∀ adj g nthreads bound bd w o,
     wf_input adj g → 2 ≤ nthreads → (∀ l, w_hash_order w l ≡ₚ l) → (∃ b, listed g b) →
     no_timeout (w_events w) →
     search bd w adj g nthreads None bound = Some o →
     ∃ ps, o = Val ps ∧ pareto_front adj g ps).
Proof. exact threaded_not_optimal. Qed.
Print Assumptions C32_threaded_optimal_refuted.

(** The witness, with the default task bound and two workers; the single
    threaded search finds a fourth path. *)
Example C32_witness :
  search Release lossy_world lossy lossy_order 2 None 100000
  = Some (Val [MkPath 2 7 [[0; 1]; [2; 3; 5; 8; 4; 6; 7]];
               MkPath 3 4 [[0; 1]; [2; 8; 6; 7]; [3; 5; 4]];
               MkPath 4 3 [[0]; [3; 5; 8]; [1; 2]; [4; 6; 7]]]) ∧
  search_single Release 4000 (λ _, false) id lossy lossy_order None
  = Some (Val [MkPath 2 7 [[0; 1]; [2; 3; 5; 8; 4; 6; 7]];
               MkPath 3 4 [[0; 1]; [2; 8; 6; 7]; [3; 5; 4]];
               MkPath 4 3 [[0]; [3; 5; 8]; [1; 2]; [4; 6; 7]];
               MkPath 5 2 [[0]; [5; 8]; [1; 2]; [6; 7]; [3; 4]]]).
Proof. by split; vm_compute. Qed.

(** It holds as long as no task reaches an exchange: *)

Theorem C32_threaded_optimal :
  ∀ adj g nthreads bound bd w o,
  wf_input adj g → 2 ≤ nthreads → (∀ l, w_hash_order w l ≡ₚ l) → (∃ b, listed g b) →
  no_timeout (w_events w) →
  (* no task reaches an exchange *)
  (∀ i, iterations i (w_events w) ≤ 1000) →
  search bd w adj g nthreads None bound = Some o →
  ∃ ps, o = Val ps ∧ pareto_front adj g ps.
Proof. exact threaded_optimal. Qed.
Print Assumptions C32_threaded_optimal.

(** Two workers whose iterations alternate. *)
Definition alternating : list event :=
  EStart 0 :: EStart 1 :: concat (repeat [EIter 0 false; EIter 1 false] 5) ++
  EEnd 0 :: EStart 2 :: concat (repeat [EIter 1 false; EIter 2 false] 7) ++
  EEnd 1 :: EStart 3 :: repeat (EIter 2 false) 5 ++ [EEnd 2; EIter 3 false; EEnd 3].

Example C32_example :
  no_timeout alternating ∧ map (λ i, iterations i alternating) [0; 1; 2; 3] = [5; 12; 12; 1] ∧
  search Debug (mkWorld 100 (λ _, false) alternating id (λ _ _, f64_one)) pairs pairs_order 2 None 0
  = Some (Val [MkPath 2 4 [[0; 1]; [2; 3]]; MkPath 3 3 [[0]; [1; 2]; [3]];
               MkPath 4 2 [[0]; [2]; [1]; [3]]]).
Proof. split; [by apply no_timeout_checked|]. by split; vm_compute. Qed.

(** ** C33: the optimal time is always found *)

Theorem C33_threaded_first :
  ∀ adj g nthreads bound bd w o,
  wf_input adj g → 2 ≤ nthreads → (∀ l, w_hash_order w l ≡ₚ l) → (∃ b, listed g b) →
  no_timeout (w_events w) →
  search bd w adj g nthreads None bound = Some o →
  ∃ p ps, o = Val (p :: ps) ∧ (∀ σ, valid_schedule g σ → time p ≤ time_cost σ) ∧
    ∀ bd' p0, returns (λ fuel, get_time_optimal bd' fuel adj g) [p0] → time p = time p0.
Proof. exact threaded_first. Qed.
Print Assumptions C33_threaded_first.

(** The execution of [C32_witness] performs an exchange and still finds the
    optimal time. *)
Example C33_example :
  get_time_optimal Debug 100 lossy lossy_order
  = Some (Val [MkPath 2 7 [[0; 1]; [2; 3; 5; 8; 4; 6; 7]]]).
Proof. by vm_compute. Qed.

(** ** C34: the tasks split the search tree *)

Theorem C34_tasks_split :
  ∀ adj g bound, wf_input adj g →
  ∃ root jobs pss, search_scheduler adj g = Val root ∧
    (∀ bd, returns (λ fuel, spawn bd fuel bound root) jobs) ∧
    (* what the tasks sweep *)
    (∀ bd, Forall2 (λ j ps, returns (λ fuel, job_paths bd fuel j) ps) jobs pss) ∧
    (* together and in order this is what a single sweep visits *)
    (∀ bd, returns (λ fuel, get_all_paths (H := scheduler_focus_iterator bd) fuel [] root) (concat pss)) ∧
    (* every schedule in exactly one place *)
    (∀ q m, (q, m) ∈ concat pss → valid_schedule g q ∧ m = cost adj q) ∧
    ((∃ b, listed g b) → ∀ σ, valid_schedule g σ →
       ∃ i q m, concat pss !! i = Some (q, m) ∧ same_schedule q σ ∧
         ∀ j q' m', concat pss !! j = Some (q', m') → same_schedule q' σ → j = i).
Proof. exact tasks_split. Qed.
Print Assumptions C34_tasks_split.

Theorem C34_tasks_count :
  ∀ adj g bound bd jobs, wf_input adj g → submitted bd adj g bound jobs →
  (* every nonempty subset of the first layer is a possible first step *)
  let first_steps := 2 ^ length (default [] (head g)) - 1 in
  length jobs = S (if (0 <? bound)%Z then min (Z.to_nat bound) first_steps else first_steps).
Proof. exact tasks_count. Qed.
Print Assumptions C34_tasks_count.

(** One task more than the task bound; no bound at all for 0 and for negative
    numbers. *)
Example C34_example :
  map (λ bound, match search_scheduler lossy lossy_order with
                | Val root => match spawn Debug 100 bound root with
                              | Some (Val jobs) => length jobs | _ => 0 end
                | Panic => 0 end) [(-1)%Z; 0%Z; 1%Z; 2%Z; 3%Z; 4%Z; 100000%Z]
  = [4; 4; 2; 3; 4; 4; 4].
Proof. by vm_compute. Qed.

(** ** C35: the reaction to the timeout *)

Theorem C35_threaded_late :
  ∀ bd nthreads prob n jobs es es' sys i,
  run_events bd nthreads prob (system_init n jobs) (es ++ es') = Some (Val sys) →
  timed_out es' → iterations i es' ≤ 1001.
Proof. exact threaded_late. Qed.
Print Assumptions C35_threaded_late.

(** The bound is sharp. *)
Example C35_late_sharp :
  running_tasks (run_events Debug 2 None (system_init 9 lossy_jobs)
    (EStart 0 :: EIter 0 true :: EStart 1 :: repeat (EIter 1 true) 1000))
  = [true; true; false; false] ∧
  running_tasks (run_events Debug 2 None (system_init 9 lossy_jobs)
    (EStart 0 :: EIter 0 true :: EStart 1 :: repeat (EIter 1 true) 1001))
  = [true; false; false; false].
Proof. exact late_bound_sharp. Qed.

(** Tasks are also started after the timeout. *)

Theorem C35_no_late_start_refuted :
  ¬ (∀ adj g nthreads bound bd jobs es es' i sys,
     wf_input adj g → submitted bd adj g bound jobs →
     run_events bd nthreads None (system_init (length adj) jobs) (es ++ es') = Some (Val sys) →
     (* the timer had finished when task [i] performed an iteration *)
     EIter i true ∈ es →
     ∀ k, EStart k ∉ es').
Proof. exact late_start. Qed.
Print Assumptions C35_no_late_start_refuted.

(** ** C36: termination and progress, for every input *)

Theorem C36_spawn_finishes :
  ∀ bd bound s, ∃ o, finishes (λ fuel, spawn bd fuel bound s) o.
Proof. exact spawn_finishes. Qed.
Print Assumptions C36_spawn_finishes.

Theorem C36_pool_terminates :
  ∀ bd nthreads prob sys, ∃ k, ∀ es sys',
  run_events bd nthreads prob sys es = Some (Val sys') → length es ≤ k.
Proof. exact pool_terminates. Qed.
Print Assumptions C36_pool_terminates.

Theorem C36_pool_progress :
  ∀ bd nthreads prob sys, 1 ≤ nthreads → all_finished sys = false →
  ∃ i, ∀ fin, is_Some (exec bd nthreads prob sys (EStart i)) ∨
    is_Some (exec bd nthreads prob sys (EIter i fin)) ∨
    is_Some (exec bd nthreads prob sys (EEnd i)).
Proof. exact pool_progress. Qed.
Print Assumptions C36_pool_progress.

Theorem C36_threaded_completes :
  ∀ adj g nthreads prob bound bd w, 2 ≤ nthreads →
  ∀ jobs sys, submitted bd adj g bound jobs →
  run_events bd nthreads (match prob with Some a => Some (a, w_samples w) | None => None end)
    (system_init (length adj) jobs) (w_events w) = Some (Val sys) →
  ∃ fuel es o, no_timeout es ∧
    search bd (mkWorld fuel (w_timer w) (w_events w ++ es) (w_hash_order w) (w_samples w))
      adj g nthreads prob bound = Some o.
Proof. exact threaded_completes. Qed.
Print Assumptions C36_threaded_completes.

(** ** C24, continued: with several threads more time can make the result worse *)

Theorem C24_threaded_refuted :
  ¬ (∀ adj g nthreads bound bd w w' pre i post post' ps ps',
     wf_input adj g → 2 ≤ nthreads → (∀ l, w_hash_order w l ≡ₚ l) → (∀ l, w_hash_order w' l ≡ₚ l) →
     (* two executions that do the same until a task finds the timer finished in the first one only *)
     w_events w = pre ++ EIter i true :: post → w_events w' = pre ++ EIter i false :: post' →
     no_timeout pre → no_timeout post' →
     search bd w adj g nthreads None bound = Some (Val ps) →
     search bd w' adj g nthreads None bound = Some (Val ps') →
     ∀ p, p ∈ ps → ∃ p', p' ∈ ps' ∧ time p' ≤ time p ∧ (space p' <= space p)%N).
Proof. exact threaded_longer_worse. Qed.
Print Assumptions C24_threaded_refuted.

(** The execution without timeout has lost the last path of the interrupted one. *)
Example C24_threaded_witness :
  search Release (longer_world (longer_pre ++ EIter 1 true :: short_post)) longer longer_order 2 None 100000
  = Some (Val (long_paths ++ [MkPath 6 2 [[0]; [5; 8]; [1; 2]; [7; 9]; [3; 6]; [4]]])) ∧
  search Release (longer_world (longer_pre ++ EIter 1 false :: long_post)) longer longer_order 2 None 100000
  = Some (Val long_paths).
Proof. split; [exact short_result|exact long_result]. Qed.
