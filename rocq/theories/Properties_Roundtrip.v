(** * Properties: the repository's own property test

    [roundtrip] models the body of the test in [tests/roundtrip.rs]; a failing
    assertion is a panic.  [wf_order] is defined in [Spec.v]. *)
From Verif Require Import MainRoundtrip Check.

(** ** C62: the test passes *)

Theorem C62_passes :
  ∀ edges n g, wf_order n g → (N.of_nat n < 2 ^ 64 - 1)%N →
  (∀ u v, (u, v) ∈ edges → u < n ∧ v < n) →
  ∀ bd, returns (λ fuel, roundtrip bd fuel g edges n) tt.
Proof. exact roundtrip_passes. Qed.
Print Assumptions C62_passes.

Theorem C62_split :
  ∀ edges n g num_tasks, wf_order n g → (N.of_nat n < 2 ^ 64 - 1)%N →
  (∀ u v, (u, v) ∈ edges → u < n ∧ v < n) → 0 < num_tasks →
  ∃ t adj all tasks,
    from_dependency_graph g (dependency_buffer_new n) None = Val t ∧
    graph_buffer_new edges n None true = Val adj ∧
    (∀ bd, returns (λ fuel, get_all_paths (H := scheduler_focus_iterator bd) fuel []
                              (mkScheduler t (graph_new adj))) all) ∧
    (∀ bd, returns (λ fuel, split_instructions bd fuel t num_tasks) tasks) ∧
    (* the tasks, carried out one after the other on a graph, give all paths
       with their memory in the same order *)
    (∀ bd, replay_all bd (graph_new adj) tasks = Val all) ∧
    (* and there are as many tasks as asked for, of almost the same size, unless
       there are fewer paths *)
    (if length all <? num_tasks then length tasks = 1
     else length tasks = num_tasks ∧
       ∀ task, task ∈ tasks → num_leaves task = length all / num_tasks ∨
                              num_leaves task = length all / num_tasks + 1).
Proof. exact split_covers. Qed.
Print Assumptions C62_split.

(** The square meets the hypotheses. *)
Example C62_example :
  ∀ bd, returns (λ fuel, roundtrip bd fuel square_order [(0, 1); (1, 3); (2, 3); (2, 0); (1, 0)] 4) tt.
Proof.
  apply C62_passes.
  - apply (proj2 square_wf).
  - by vm_compute.
  - intros u v H. rewrite elem_of_list_In in H. simpl in H. naive_solver lia.
Qed.

(** The steps of its sweep (five schedules), and how they are split into three
    tasks with one path and one task with two. *)
Example C62_tasks :
  loop (split_body 3) 25
    (mkSplitting [] [] 0 [] 0 1,
     [Forward [0]; Forward [3; 1]; Forward [2]; Backward (Some tt); Backward None; Forward [1];
      Forward [3]; Forward [2]; Backward (Some tt); Backward None; Backward None; Forward [3];
      Forward [1; 2]; Backward (Some tt); Forward [2]; Forward [1]; Backward (Some tt); Backward None;
      Forward [1]; Forward [2]; Backward (Some tt); Backward None; Backward None; Backward None])
  = Some (Val
      [[Forward [0]; Forward [3; 1]; Forward [2]; Backward (Some tt)];
       [Forward [0]; Forward [1]; Forward [3]; Forward [2]; Backward (Some tt)];
       [Forward [0]; Forward [3]; Forward [1; 2]; Backward (Some tt)];
       [Forward [0]; Forward [3]; Forward [2]; Forward [1]; Backward (Some tt); Backward None;
        Forward [1]; Forward [2]; Backward (Some tt)]]).
Proof. by vm_compute. Qed.

(** A path that occurs twice is noticed; the first filter keeps the best path for
    every length, the second one drops the longer of two paths with the same memory. *)
Example C62_notices :
  as_set [([[0]], 1%N); ([[0]], 1%N)] = Panic ∧
  map_to_list (filtered_all [([[0]; [1]], 3%N); ([[1]; [0]], 2%N); ([[0; 1]], 2%N)])
  = [(1, (2%N, [[0; 1]])); (2, (2%N, [[1]; [0]]))] ∧
  (let* f := final_filter 2 (filtered_all [([[0]; [1]], 3%N); ([[1]; [0]], 2%N); ([[0; 1]], 2%N)]) in
   Val (map_to_list f)) = Val [(1, (2%N, [[0; 1]]))].
Proof. by split_and!; vm_compute. Qed.
