(** * Properties: partitions, memory and manual scheduling

    The vocabulary of the statements is in [Spec.v] and [Histories.v]; the
    functions that are called are the model of the code. *)
From Verif Require Import MainManual Check.

(** ** C01: the partition iterator is exhaustive and duplicate-free *)

Theorem C01_partition_exhaustive :
  ∀ (A : Type) (set : list A),
  ∃ positions : list (list nat),
    (* the k-th call of [next] *)
    (∀ k, (partition_next
             (Nat.iter k (λ p, (partition_next p).1) (partition_new set (length set)))).2
          = (λ s : list nat, (pick (λ i, bool_decide (i ∈ s)) set,
                              pick (λ i, bool_decide (i ∉ s)) set)) <$> positions !! k) ∧
    (* every selection of positions is visited exactly once *)
    NoDup positions ∧
    (∀ s, s ∈ positions ↔ s `sublist_of` seq 0 (length set)) ∧
    length positions = 2 ^ length set ∧
    (* order of the visits *)
    positions !! 0 = Some [] ∧
    last positions = Some (seq 0 (length set)) ∧
    (∀ i j s t, i < j → positions !! i = Some s → positions !! j = Some t → length s ≤ length t).
Proof. exact partition_exhaustive. Qed.
Print Assumptions C01_partition_exhaustive.

Theorem C01_partition_first_last :
  ∀ (A : Type) (set : list A) (call : nat → option (list A * list A)),
  (∀ k, call k = (partition_next
             (Nat.iter k (λ p, (partition_next p).1) (partition_new set (length set)))).2) →
  call 0 = Some ([], set) ∧ call (2 ^ length set - 1) = Some (set, []) ∧
  ∀ k, 2 ^ length set ≤ k → call k = None.
Proof. exact partition_first_last. Qed.
Print Assumptions C01_partition_first_last.

Example C01_example :
  (partition_next (Nat.iter 5 (λ p, (partition_next p).1) (partition_new [7; 8; 9] 3))).2
  = Some ([7; 9], [8]).
Proof. by vm_compute. Qed.

(** ** C05: memory counters describe the node states *)

Theorem C05_memory_counters :
  ∀ adj σ gr, wf_spacial adj → graph_reached adj σ gr →
  current_memory gr = N.of_nat (nodes_in_memory gr) ∧
  (current_memory gr <= max_memory gr)%N ∧
  ∀ bd M gr', graph_focus_inplace bd gr M = Val (gr', Ok tt) →
    (max_memory gr <= max_memory gr')%N.
Proof. exact memory_counters. Qed.
Print Assumptions C05_memory_counters.

(** A history that meets the hypotheses of C05-C08. *)
Example C05_example :
  wf_spacial square ∧
  ∃ gr, graph_reached square [[0]; [3; 1]] gr ∧ current_memory gr = 1%N ∧ max_memory gr = 3%N.
Proof.
  split; [by apply wf_spacial_checked; vm_compute|].
  destruct (graph_run Debug (graph_new square) [[0]; [3; 1]]) as [gr|] eqn:E; [|by vm_compute in E].
  exists gr. split; [by apply (graph_run_reached Debug square [] _ _ _ (reached_new square)) in E|].
  vm_compute in E. by injection E as <-.
Qed.

(** ** C06: reported memory is the memory cost of the schedule *)

Theorem C06_reported_memory :
  ∀ adj σ gr, wf_spacial adj → graph_reached adj σ gr →
  max_memory gr = N.of_nat (space_cost adj σ).
Proof. exact reported_memory. Qed.
Print Assumptions C06_reported_memory.

Theorem C06_reported_memory_invariant :
  ∀ adj adj' σ τ gr gr', wf_spacial adj → wf_spacial adj' →
  length adj' = length adj →
  (* same neighbours up to order, repetition and self loops *)
  (∀ u v, u ≠ v → v ∈ neighbours adj u ↔ v ∈ neighbours adj' u) →
  (* same sets in the same order *)
  same_schedule σ τ →
  graph_reached adj σ gr → graph_reached adj' τ gr' →
  max_memory gr = max_memory gr'.
Proof. exact reported_memory_invariant. Qed.
Print Assumptions C06_reported_memory_invariant.

Example C06_example :
  space_cost fourier [[8; 5; 7; 4; 6; 3]; [12; 10; 2; 11; 9]; [13; 1; 14]; [0; 15]] = 7.
Proof. by vm_compute. Qed.

(** ** C07: reported memory is the least memory with which the schedule can be executed *)

Theorem C07_memory_is_minimal :
  ∀ adj σ gr, wf_spacial adj → graph_reached adj σ gr →
  (∀ ops, obeys adj [] [] ops → steps_of ops = σ → (max_memory gr <= N.of_nat (peak [] ops))%N) ∧
  (∃ ops, obeys adj [] [] ops ∧ steps_of ops = σ ∧ max_memory gr = N.of_nat (peak [] ops)).
Proof. exact memory_is_minimal. Qed.
Print Assumptions C07_memory_is_minimal.

Example C07_example :
  let ops := [Init 0; Init 1; Init 2; MeasureStep [0]; Init 3; MeasureStep [3; 1]; MeasureStep [2]] in
  obeys square [] [] ops ∧ steps_of ops = [[0]; [3; 1]; [2]] ∧ peak [] ops = 3.
Proof.
  split; [by apply obeys_checked; vm_compute|by vm_compute].
Qed.

(** ** C08: measuring a node twice is rejected; focus never changes its receiver *)

Theorem C08_focus_graph :
  ∀ adj σ gr bd M, wf_spacial adj → graph_reached adj σ gr →
  (∀ v, v ∈ M → v < length adj) →
  (* distinct unmeasured nodes are accepted *)
  (NoDup M ∧ (∀ v, v ∈ M → v ∉ concat σ) ∧
   ∃ gr', graph_focus bd gr M = Val (gr, Ok gr') ∧
          graph_focus_inplace bd gr M = Val (gr', Ok tt)) ∨
  (* otherwise the first node that is measured or repeated is reported *)
  (∃ M1 b M2 gr', M = M1 ++ b :: M2 ∧ NoDup M1 ∧ (∀ v, v ∈ M1 → v ∉ concat σ) ∧
     b ∈ concat σ ++ M1 ∧
     graph_focus bd gr M = Val (gr, Err (mkAlreadyMeasured b)) ∧
     graph_focus_inplace bd gr M = Val (gr', Err (mkAlreadyMeasured b))).
Proof. exact focus_graph. Qed.
Print Assumptions C08_focus_graph.

(** The stronger reading "a failing [focus_inplace] leaves a consistent graph" is false. *)
Theorem C08_focus_inplace_atomic_refuted :
  ¬ (∀ adj σ gr M gr' e, wf_spacial adj → graph_reached adj σ gr →
       graph_focus_inplace Debug gr M = Val (gr', Err e) →
       current_memory gr' = N.of_nat (nodes_in_memory gr')).
Proof. exact focus_inplace_not_atomic. Qed.
Print Assumptions C08_focus_inplace_atomic_refuted.

(** ** C10: manual scheduling accepts exactly the measurable sets *)

Theorem C10_manual_accepts :
  ∀ T (mT : MeasurableSet T) (lT : LawfulMeasurableSet T) n g σ (t : PathGenerator T) M,
  wf_order n g → generator_reached n g σ t →
  length M ≤ length (ms_set (measurable t)) →
  ((NoDup M ∧ ∀ b, b ∈ M → b ∈ ms_set (measurable t)) →
   ∃ t', ∀ bd, time_focus_inplace bd t M = Val (t', Ok tt) ∧ time_focus bd t M = Val (Ok t')) ∧
  (¬ (NoDup M ∧ ∀ b, b ∈ M → b ∈ ms_set (measurable t)) →
   ∃ left, left ≠ [] ∧
     (* [M] is the measurable part followed by what is reported *)
     M ≡ₚ filter (λ b, b ∈ M) (ms_set (measurable t)) ++ left ∧
     ∀ bd, time_focus_inplace bd t M = Val (t, Err (mkNotMeasurable left)) ∧
           time_focus bd t M = Val (Err (mkNotMeasurable left))).
Proof. exact manual_accepts. Qed.
Print Assumptions C10_manual_accepts.

(** A history that meets the hypotheses of C10, C12 and C14, with a measurable
    set of two elements. *)
Example C10_example :
  wf_order 4 square_order ∧
  ∃ t : PathGenerator (list nat),
    generator_reached 4 square_order [[0]] t ∧ measurable t = [3; 1] ∧
    num_remaining_nodes t = 1 ∧ has_unmeasureable t = true.
Proof.
  split; [by apply wf_order_checked; vm_compute|].
  destruct (generator_from (T := list nat) Release 4 square_order [[0]]) as [t|] eqn:E; [|by vm_compute in E].
  exists t. split; [by eapply generator_from_reached|].
  vm_compute in E. by injection E as <-.
Qed.

(** ** C11: instructions longer than the measurable set

    The documented outcome is an error; the code panics. *)

Theorem C11_manual_too_long :
  ∀ T (mT : MeasurableSet T) (t : PathGenerator T) M,
  length (ms_set (measurable t)) < length M →
  ∀ bd, time_focus_inplace bd t M = Panic ∧ time_focus bd t M = Panic.
Proof. exact manual_too_long. Qed.
Print Assumptions C11_manual_too_long.

(** ** C12: the measurable set is always the set of enabled nodes *)

Theorem C12_measurable_is_enabled :
  ∀ T (mT : MeasurableSet T) (lT : LawfulMeasurableSet T) n g σ (t : PathGenerator T),
  wf_order n g → generator_reached n g σ t →
  NoDup (ms_set (measurable t)) ∧
  (∀ b, b ∈ ms_set (measurable t) ↔
        listed g b ∧ b ∉ concat σ ∧ ∀ d, depends g b d → d ∈ concat σ) ∧
  (has_unmeasureable t = true ↔
     ∃ b, listed g b ∧ b ∉ concat σ ∧ ∃ d, depends g b d ∧ d ∉ concat σ).
Proof. exact measurable_is_enabled. Qed.
Print Assumptions C12_measurable_is_enabled.

(** ** C14: num_remaining_nodes counts the not yet measurable nodes only *)

Theorem C14_remaining_nodes :
  ∀ T (mT : MeasurableSet T) (lT : LawfulMeasurableSet T) n g σ (t : PathGenerator T),
  wf_order n g → generator_reached n g σ t →
  num_remaining_nodes t
  = length (filter (λ b, b ∉ concat σ ∧ b ∉ ms_set (measurable t)) (qubits g)) ∧
  length (filter (λ b, b ∉ concat σ) (qubits g))
  = num_remaining_nodes t + length (ms_set (measurable t)).
Proof. exact remaining_nodes. Qed.
Print Assumptions C14_remaining_nodes.

(** ** C15: the scheduler keeps time and space consistent *)

Theorem C15_scheduler_consistent :
  ∀ T (mT : MeasurableSet T) (lT : LawfulMeasurableSet T) adj g σ (s : Scheduler T),
  wf_input adj g → scheduler_reached adj g σ s →
  (∀ v st, v < length adj → nodes (s_space s) !! v = Some st →
     (st.1 = Measured ↔ v ∈ concat σ)) ∧
  length (nodes (s_space s)) = length adj ∧
  max_memory (s_space s) = N.of_nat (space_cost adj σ) ∧
  current_memory (s_space s) = N.of_nat (nodes_in_memory (s_space s)) ∧
  (* accepted exactly if the path generator accepts it *)
  (∀ bd M, (∃ s', scheduler_focus_inplace bd s M = Val (s', Ok tt)) ↔
           (∃ t', time_focus_inplace bd (s_time s) M = Val (t', Ok tt))) ∧
  (∀ bd M s', scheduler_focus_inplace bd s M = Val (s', Ok tt) ↔
              scheduler_focus bd s M = Val (Ok s')) ∧
  (* a rejected instruction changes nothing and is never [AlreadyMeasured] *)
  (∀ bd M s' e, scheduler_focus_inplace bd s M = Val (s', Err e) →
     s' = s ∧ (∃ left, e = ENotMeasurable left ∧
       time_focus_inplace bd (s_time s) M = Val (s_time s, Err left))).
Proof. exact scheduler_consistent. Qed.
Print Assumptions C15_scheduler_consistent.

(** [[3]] is rejected first. *)
Example C15_example :
  ∃ s : Scheduler (list nat),
    scheduler_reached square square_order [[0]; [3]] s ∧
    measurable (s_time s) = [1; 2] ∧ max_memory (s_space s) = 3%N.
Proof.
  destruct (scheduler_from (T := list nat) Debug square square_order [[3]; [0]; [3]])
    as [[σ s]|] eqn:E; [|by vm_compute in E].
  exists s. pose proof (scheduler_from_reached _ _ _ _ _ _ E) as Hr.
  vm_compute in E. injection E as <- <-. by split.
Qed.
