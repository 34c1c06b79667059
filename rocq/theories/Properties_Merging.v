(** * Properties: what the threaded search loses and where

    Continues C32 of [Properties_Threaded.v] for executions with exchanges.  The
    vocabulary of the statements is in [Spec.v], [Executions.v] and
    [Contributions.v]. *)
From Verif Require Import ThreadedWitness MainUnion.
From Verif Require Import Spec.

(** ** C32: optimality of the multi threaded search, continued *)

(** The claim holds if the tasks that reach an exchange are undisturbed; this
    contains [C32_threaded_optimal], where no task reaches one. *)

Theorem C32_undisturbed :
  ∀ adj g nthreads bound bd w o,
  wf_input adj g → 2 ≤ nthreads → (∀ l, w_hash_order w l ≡ₚ l) → (∃ b, listed g b) →
  no_timeout (w_events w) → undisturbed (w_events w) →
  search bd w adj g nthreads None bound = Some o →
  ∃ ps, o = Val ps ∧ pareto_front adj g ps.
Proof. exact threaded_undisturbed. Qed.
Print Assumptions C32_undisturbed.

Theorem C32_undisturbed_sequential :
  ∀ es, one_at_a_time None es = true → undisturbed es.
Proof. intros es. apply one_at_a_time_undisturbed. Qed.
Print Assumptions C32_undisturbed_sequential.

(** The tasks of [C32_witness] one after the other: task 1 makes an exchange, and
    all four paths are found. *)
Definition in_turn : list event :=
  EStart 0 :: repeat (EIter 0 false) 146 ++ EEnd 0 ::
  EStart 1 :: repeat (EIter 1 false) 1410 ++ EEnd 1 ::
  EStart 2 :: repeat (EIter 2 false) 594 ++ EEnd 2 ::
  EStart 3 :: EIter 3 false :: [EEnd 3].

Example C32_undisturbed_example :
  no_timeout in_turn ∧ one_at_a_time None in_turn = true ∧ (1000 <? iterations 1 in_turn) = true ∧
  search Release (mkWorld 100 (λ _, false) in_turn id (λ _ _, f64_one)) lossy lossy_order 2 None 100000
  = Some (Val [MkPath 2 7 [[0; 1]; [2; 3; 5; 8; 4; 6; 7]];
               MkPath 3 4 [[0; 1]; [2; 8; 6; 7]; [3; 5; 4]];
               MkPath 4 3 [[0]; [3; 5; 8]; [1; 2]; [4; 6; 7]];
               MkPath 5 2 [[0]; [5; 8]; [1; 2]; [6; 7]; [3; 4]]]).
Proof. split; [by apply no_timeout_checked|]. repeat split; by vm_compute. Qed.

(** In every execution the tasks have found everything when they end; what is
    lost is lost when their results are merged. *)

Theorem C32_collected :
  ∀ adj g nthreads bound bd jobs es sys,
  wf_input adj g → (∃ b, listed g b) → no_timeout es → submitted bd adj g bound jobs →
  run_events bd nthreads None (system_init (length adj) jobs) es = Some (Val sys) →
  all_finished sys = true →
  let fs := collected bd nthreads None (system_init (length adj) jobs) es in
  (* the results of the tasks are schedules ... *)
  (∀ r t m q, r ∈ fs → r !! t = Some (m, q) →
     valid_schedule g q ∧ time_cost q = t ∧ cost adj q = m) ∧
  (* ... and for every schedule some task has one that is at least as good *)
  (∀ σ, valid_schedule g σ →
     ∃ r t m q, r ∈ fs ∧ r !! t = Some (m, q) ∧ t ≤ time_cost σ ∧ (m <= cost adj σ)%N).
Proof. exact threaded_collected. Qed.
Print Assumptions C32_collected.

(** If the results were merged by comparing them, nothing would be lost in any
    execution. *)

Theorem C32_keep_better :
  ∀ adj g nthreads bound bd jobs es sys hash_order,
  wf_input adj g → (∃ b, listed g b) → no_timeout es → submitted bd adj g bound jobs →
  run_events bd nthreads None (system_init (length adj) jobs) es = Some (Val sys) →
  all_finished sys = true → (∀ l, hash_order l ≡ₚ l) →
  ∃ ps, finish hash_order (length adj)
          (foldl keep_better ∅ (collected bd nthreads None (system_init (length adj) jobs) es)) = Val ps ∧
    pareto_front adj g ps.
Proof. exact threaded_keep_better. Qed.
Print Assumptions C32_keep_better.

(** The execution of [C32_witness]: the second task that ends has the path with 5
    steps and memory 2, the last one replaces it by one with memory 3. *)
Example C32_collected_example :
  map (λ r, map (λ x, (x.1, x.2.1)) (map_to_list r))
    (collected Release 2 None (system_init 9 lossy_jobs) lossy_events)
  = [[(3, 4%N); (2, 7%N)]; [(5, 2%N); (4, 3%N)]; []; [(5, 3%N); (6, 3%N)]].
Proof. by vm_compute. Qed.
