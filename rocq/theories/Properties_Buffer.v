(** * Properties: buffers

    [joined], [simple_edges], [rename_edges] and [rename_order] are defined in
    [Spec.v], the observations of a generator in [Histories.v]. *)
From Verif Require Import MainBuffer Check.

(** ** C09: graph buffers from edge lists *)

Theorem C09_checked :
  ∀ edges n m, let E := rename_edges (mapping_fun m) edges in
  (∀ u v, (u, v) ∈ E → u ≠ v → u < n ∧ v < n) →
  ∃ buf, graph_buffer_new edges n m true = Val buf ∧ length buf = n ∧
    (∀ u, NoDup (neighbours buf u)) ∧
    (∀ u v, v ∈ neighbours buf u ↔ u ≠ v ∧ joined E u v).
Proof. exact buffer_checked. Qed.
Print Assumptions C09_checked.

Theorem C09_checked_panics :
  ∀ edges n m u v, (u, v) ∈ rename_edges (mapping_fun m) edges → u ≠ v → n ≤ u ∨ n ≤ v →
  graph_buffer_new edges n m true = Panic.
Proof. exact buffer_checked_panics. Qed.
Print Assumptions C09_checked_panics.

(** The neighbour lists of the unchecked construction, with multiplicity and in
    order. *)
Theorem C09_unchecked :
  ∀ edges n m, let E := rename_edges (mapping_fun m) edges in
  (∀ u v, (u, v) ∈ E → u < n ∧ v < n) →
  ∃ buf, graph_buffer_new edges n m false = Val buf ∧ length buf = n ∧
    ∀ u, neighbours buf u
      = concat (map (λ e, (if e.1 =? u then [e.2] else []) ++ (if e.2 =? u then [e.1] else [])) E).
Proof. exact buffer_unchecked. Qed.
Print Assumptions C09_unchecked.

Theorem C09_unchecked_panics :
  ∀ edges n m u v, (u, v) ∈ rename_edges (mapping_fun m) edges → n ≤ u ∨ n ≤ v →
  graph_buffer_new edges n m false = Panic.
Proof. exact buffer_unchecked_panics. Qed.
Print Assumptions C09_unchecked_panics.

Theorem C09_same :
  ∀ edges n m, simple_edges (rename_edges (mapping_fun m) edges) →
  graph_buffer_new edges n m true = graph_buffer_new edges n m false.
Proof. exact buffer_same. Qed.
Print Assumptions C09_same.

(** A loop, an edge in both directions and a relabelled node. *)
Example C09_example :
  graph_buffer_new [(0, 1); (2, 2); (1, 0); (7, 1)] 3 (Some {[ 7 := 2 ]}) true
  = Val [[1]; [0; 2]; [1]] ∧
  graph_buffer_new [(0, 1); (2, 2); (1, 0); (7, 1)] 3 (Some {[ 7 := 2 ]}) false
  = Val [[1; 1]; [0; 0; 2]; [2; 2; 1]] ∧
  graph_buffer_new [(0, 1); (7, 1)] 3 None true = Panic ∧
  (* a loop outside the buffer is skipped before the bounds are checked *)
  graph_buffer_new [(0, 1); (7, 7)] 3 None true = Val [[1]; [0]; []] ∧
  graph_buffer_new [(0, 1); (7, 7)] 3 None false = Panic.
Proof. by split_and!; vm_compute. Qed.

Example C09_simple : simple_edges [(0, 1); (2, 1)].
Proof.
  split.
  - apply (bool_decide_eq_true_1 _). by vm_compute.
  - intros u v H. rewrite !elem_of_cons, elem_of_nil in *. naive_solver lia.
Qed.

(** ** C13: dependency buffers *)

Theorem C13_construction_panics :
  ∀ g buf,
  (from_dependency_graph (T := list nat) g buf None = Panic ↔ ∃ b, listed g b ∧ length buf ≤ b) ∧
  (from_dependency_graph (T := Partition nat) g buf None = Panic ↔ ∃ b, listed g b ∧ length buf ≤ b).
Proof. exact generator_construction_panics. Qed.
Print Assumptions C13_construction_panics.

Theorem C13_mapping :
  ∀ (T : Type) (MS : MeasurableSet T) g buf m,
  from_dependency_graph (T := T) g buf (Some m)
  = from_dependency_graph (rename_order (λ b, m !! b) g) buf None.
Proof. exact mapping_relabels. Qed.
Print Assumptions C13_mapping.

(** Whatever was in the buffers before: the same calls give the same answers. *)
Theorem C13_reuse_manual :
  ∀ g buf1 buf2 t1 t2 bd calls,
  from_dependency_graph (T := list nat) g buf1 None = Val t1 →
  from_dependency_graph (T := list nat) g buf2 None = Val t2 →
  (measurable t1, num_remaining_nodes t1, has_unmeasureable t1)
  = (measurable t2, num_remaining_nodes t2, has_unmeasureable t2) ∧
  observe (call_focus bd) t1 calls = observe (call_focus bd) t2 calls.
Proof. exact buffer_reuse_manual. Qed.
Print Assumptions C13_reuse_manual.

Theorem C13_reuse :
  ∀ g buf1 buf2 t1 t2 bd calls,
  from_dependency_graph (T := Partition nat) g buf1 None = Val t1 →
  from_dependency_graph (T := Partition nat) g buf2 None = Val t2 →
  (measurable t1, num_remaining_nodes t1, has_unmeasureable t1)
  = (measurable t2, num_remaining_nodes t2, has_unmeasureable t2) ∧
  observe (call_next bd) t1 calls = observe (call_next bd) t2 calls.
Proof. exact buffer_reuse. Qed.
Print Assumptions C13_reuse.

Example C13_example :
  ∃ t1 t2,
    from_dependency_graph (T := Partition nat) square_order [[3]; [7; 7]; []; [0]; [2]; [1]] None = Val t1 ∧
    from_dependency_graph (T := Partition nat) square_order (dependency_buffer_new 4) None = Val t2 ∧
    t1 ≠ t2 ∧
    observe (call_next Debug) t1 [inr true; inr false; inl (true, [1]); inl (false, [5])]
    = [Some (inr (Some [0]), (partition_new [3; 1] 2, 1, true));
       Some (inr (Some [3; 1]), (mkPartition [3; 1] [[0]; [1]; [0; 1]], 1, true));
       Some (inl (Ok tt), (partition_new [3] 1, 1, true));
       Some (inl (Err (mkNotMeasurable [5])), (partition_new [3] 1, 1, true))] ∧
    from_dependency_graph (T := list nat) square_order (dependency_buffer_new 3) None = Panic.
Proof. do 2 eexists. split_and!; [vm_compute; reflexivity..|done|by vm_compute|by vm_compute]. Qed.
