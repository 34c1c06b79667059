(** * Properties: sweeping through the tree of schedules

    [sweep_run], [sweep_history] and [get_all_paths] are defined in
    [Sweeping.v], [valid_schedule], [same_schedule], [cost] and [ordered_bell] in
    [Spec.v]. *)
From Verif Require Import MainSweep Check.

(** ** C02: every schedule exactly once *)

(** Over the path generator. *)
Theorem C02_generator_paths :
  ∀ n g buf, wf_order n g → n ≤ length buf → (N.of_nat n < 2 ^ 64 - 1)%N →
  ∃ t ps, from_dependency_graph (T := Partition nat) g buf None = Val t ∧
    (∀ bd, returns (λ fuel, get_all_paths (H := time_focus_iterator bd) fuel [] t) ps) ∧
    (∀ q l, (q, l) ∈ ps → valid_schedule g q) ∧
    ((∃ b, listed g b) → ∀ σ, valid_schedule g σ →
       ∃ i q, ps !! i = Some (q, tt) ∧ same_schedule q σ ∧
         ∀ j q', ps !! j = Some (q', tt) → same_schedule q' σ → j = i) ∧
    ((∀ b, ¬ listed g b) → ps = []).
Proof. exact generator_paths. Qed.
Print Assumptions C02_generator_paths.

(** Over the scheduler: the item at each leaf is the space cost of the path. *)
Theorem C02_scheduler_paths :
  ∀ adj g buf, wf_input adj g → length adj ≤ length buf →
  ∃ t ps, from_dependency_graph (T := Partition nat) g buf None = Val t ∧
    (∀ bd, returns (λ fuel, get_all_paths (H := scheduler_focus_iterator bd) fuel []
                              (mkScheduler t (graph_new adj))) ps) ∧
    (∀ q m, (q, m) ∈ ps → valid_schedule g q ∧ m = cost adj q) ∧
    ((∃ b, listed g b) → ∀ σ, valid_schedule g σ →
       ∃ i q m, ps !! i = Some (q, m) ∧ same_schedule q σ ∧
         ∀ j q' m', ps !! j = Some (q', m') → same_schedule q' σ → j = i) ∧
    ((∀ b, ¬ listed g b) → ps = []).
Proof. exact scheduler_paths. Qed.
Print Assumptions C02_scheduler_paths.

(** The graph of the test [simple_paths]. *)
Example C02_example :
  (let* t := from_dependency_graph square_order (dependency_buffer_new 4) None in
   default Panic (get_all_paths (H := time_focus_iterator Debug) 100 [] t))
  = Val (map (λ p, (p, tt))
      [[[0]; [3; 1]; [2]]; [[0]; [1]; [3]; [2]]; [[0]; [3]; [1; 2]]; [[0]; [3]; [2]; [1]]; [[0]; [3]; [1]; [2]]])
  ∧ wf_order 4 square_order ∧ valid_schedule square_order [[0]; [3]; [2; 1]].
Proof.
  split; [by vm_compute|]. split; [apply square_wf|]. apply valid_checked. by vm_compute.
Qed.

Example C02_scheduler_example :
  (let* t := from_dependency_graph pairs_order (dependency_buffer_new 4) None in
   let* ps := default Panic (get_all_paths (H := scheduler_focus_iterator Release) 100 []
     (mkScheduler t (graph_new pairs))) in Val (length ps, last ps))
  = Val (13, Some ([[0]; [1]; [2]; [3]], 3%N)).
Proof. by vm_compute. Qed.

(** ** C03: the number of schedules *)

Theorem C03_number_of_paths :
  ∀ n g buf, wf_order n g → n ≤ length buf → (N.of_nat n < 2 ^ 64 - 1)%N →
  ∃ t ps, from_dependency_graph (T := Partition nat) g buf None = Val t ∧
    (∀ bd, returns (λ fuel, get_all_paths (H := time_focus_iterator bd) fuel [] t) ps) ∧
    length ps ≤ ordered_bell (length (qubits g)) ∧
    ((∃ b, listed g b) → (∀ b d, ¬ depends g b d) → length ps = ordered_bell (length (qubits g))).
Proof. exact number_of_paths. Qed.
Print Assumptions C03_number_of_paths.

Example C03_example :
  map ordered_bell (seq 0 6) = [1; 1; 3; 13; 75; 541] ∧
  (let* t := from_dependency_graph [[(0, []); (1, []); (2, []); (3, [])]] (dependency_buffer_new 4) None in
   let* ps := default Panic (get_all_paths (H := time_focus_iterator Debug) 1000 [] t) in
   Val (length ps)) = Val 75 ∧
  (let* t := from_dependency_graph square_order (dependency_buffer_new 4) None in
   let* ps := default Panic (get_all_paths (H := time_focus_iterator Debug) 1000 [] t) in
   Val (length ps)) = Val 5.
Proof. by split_and!; vm_compute. Qed.

(** ** C04: the protocol of a sweep *)

(** The depth of the stack is the number of forward steps minus the number of
    backward steps and skips. *)
Theorem C04_balanced :
  ∀ (T Item Leaf : Type) (FI : FocusIterator T Item Leaf) (t : T) d s,
  sweep_history (sweep_new t) d s → d = Z.of_nat (length (stack s)).
Proof. exact sweep_balanced. Qed.
Print Assumptions C04_balanced.

(** Skipping drops the subtree of the child and nothing else: the sweep ends up
    exactly where it would be after visiting all of it. *)
Theorem C04_skip :
  ∀ (T Item Leaf : Type) (FI : FocusIterator T Item Leaf) s s1 i,
  sweep_next s = Val (s1, Some (Forward i)) →
  ∃ s', skip_current s1 = (s', Ok tt) ∧
    (* the child is dropped, the parent is what the iterator left behind *)
    (∃ child, next_and_focus (current s) = Val (current s', Some (child, i)) ∧ current s1 = child) ∧
    stack s' = stack s ∧
    (* visiting the child completely leads to the same state *)
    ∀ tr s2 s3, sweep_run (sweep_new (current s1)) tr s2 → sweep_next s2 = Val (s3, None) →
      sweep_run s1 (tr ++ [Backward (at_leaf (current s3))]) s'.
Proof. exact sweep_skip. Qed.
Print Assumptions C04_skip.

Theorem C04_skip_empty :
  ∀ (T : Type) (s : Sweep T),
  (stack s = [] → skip_current s = (s, Err tt)) ∧
  (stack s ≠ [] → ∃ s', skip_current s = (s', Ok tt)).
Proof. exact sweep_skip_empty. Qed.
Print Assumptions C04_skip_empty.

(** Once [None] was returned, it is returned again. *)
Theorem C04_fused :
  ∀ bd g buf mapping (t : PathGenerator (Partition nat)) d s s',
  from_dependency_graph g buf mapping = Val t →
  sweep_history (H := time_focus_iterator bd) (sweep_new t) d s →
  sweep_next (H := time_focus_iterator bd) s = Val (s', None) →
  ∃ s'', sweep_next (H := time_focus_iterator bd) s' = Val (s'', None).
Proof. exact generator_sweep_fused. Qed.
Print Assumptions C04_fused.

Theorem C04_fused_scheduler :
  ∀ bd g buf mapping (t : PathGenerator (Partition nat)) graph d s s',
  from_dependency_graph g buf mapping = Val t →
  sweep_history (H := scheduler_focus_iterator bd) (sweep_new (mkScheduler t graph)) d s →
  sweep_next (H := scheduler_focus_iterator bd) s = Val (s', None) →
  ∃ s'', sweep_next (H := scheduler_focus_iterator bd) s' = Val (s'', None).
Proof. exact scheduler_sweep_fused. Qed.
Print Assumptions C04_fused_scheduler.

(** In the tree of the square: two steps forward, skipping the second child
    leads to the same state as visiting all of it. *)
Example C04_example :
  let FI := time_focus_iterator Debug in
  ∃ t s1 s2 s3 s',
    from_dependency_graph square_order (dependency_buffer_new 4) None = Val t ∧
    sweep_next (sweep_new t) = Val (s1, Some (Forward [0])) ∧
    sweep_next s1 = Val (s2, Some (Forward [3; 1])) ∧
    skip_current s2 = (s', Ok tt) ∧ length (stack s2) = 2 ∧ length (stack s') = 1 ∧
    sweep_run s2 [Forward [2]; Backward (Some tt); Backward None] s' ∧
    sweep_next s' = Val (s3, Some (Forward [1])).
Proof.
  intros FI. do 5 eexists. split; [vm_compute; reflexivity|].
  split; [vm_compute; reflexivity|]. split; [vm_compute; reflexivity|].
  split; [vm_compute; reflexivity|]. split; [done|]. split; [done|]. split.
  - do 3 (eapply run_next; [vm_compute; reflexivity|]). constructor.
  - vm_compute; reflexivity.
Qed.
