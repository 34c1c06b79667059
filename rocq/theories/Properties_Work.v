(** * Properties: the amount of work and of memory of sweeps and searches

    [beginnings g k] says that there are [k] ways to start a schedule of [g]: sequences
    of at least one step that respect the dependencies, not distinguishing the order
    within a step ([WorkSpec.v]).  The fuel of the model counts iterations. *)
From Verif Require Import WorkAny MainSweep Check.

(** ** C76: iterations *)

(** How many beginnings there are. *)
Theorem C76_beginnings :
  ∀ n g, wf_order n g → (N.of_nat n < 2 ^ 64 - 1)%N →
  ∃ k, beginnings g k ∧ (∀ k', beginnings g k' → k' = k) ∧
    k ≤ 2 * ordered_bell (length (qubits g)) - 1 ∧
    ((∃ b, listed g b) → (∀ b d, ¬ depends g b d) → k = 2 * ordered_bell (length (qubits g)) - 1).
Proof. exact number_of_beginnings. Qed.
Print Assumptions C76_beginnings.

(** A full sweep, over the scheduler or over the path generator, calls [next] exactly
    [2 * k + 1] times: once forward and once backward for each beginning, once to see
    that there is nothing left. *)
Theorem C76_sweep :
  ∀ adj g buf k bd fuel, wf_input adj g → length adj ≤ length buf → beginnings g k →
  ∃ t, from_dependency_graph (T := Partition nat) g buf None = Val t ∧
    (get_all_paths (H := scheduler_focus_iterator bd) fuel [] (mkScheduler t (graph_new adj)) = None
     ↔ fuel ≤ 2 * k) ∧
    (get_all_paths (H := time_focus_iterator bd) fuel [] t = None ↔ fuel ≤ 2 * k).
Proof. exact sweep_work. Qed.
Print Assumptions C76_sweep.

(** A single threaded search, probabilistic or not, never makes more iterations. *)
Theorem C76_search :
  ∀ adj g k bd fuel env timeout prob, wf_input adj g → beginnings g k → 2 * k + 1 ≤ fuel →
  ∀ nthreads bound, nthreads < 2 → ∃ o, run bd fuel env adj g true timeout nthreads bound prob = Some o.
Proof. exact single_work. Qed.
Print Assumptions C76_search.

(** Neither do all tasks of a multi threaded search together. *)
Theorem C76_threaded :
  ∀ adj g k bd fuel env timeout prob nthreads bound ps,
  wf_input adj g → beginnings g k → 2 ≤ nthreads →
  run bd fuel env adj g true timeout nthreads bound prob = Some (Val ps) →
  observed_iterations (e_events env) ≤ 2 * k + 1.
Proof. exact threaded_work. Qed.
Print Assumptions C76_threaded.

(** A sweep, whatever is skipped in it, never has more states on its stack than there
    are qubits. *)
Theorem C76_memory :
  ∀ bd g buf t, from_dependency_graph (T := Partition nat) g buf None = Val t →
  (∀ d s, sweep_history (H := time_focus_iterator bd) (sweep_new t) d s → length (stack s) ≤ length (qubits g)) ∧
  (∀ graph d s, sweep_history (H := scheduler_focus_iterator bd) (sweep_new (mkScheduler t graph)) d s →
     length (stack s) ≤ length (qubits g)).
Proof. exact sweep_memory. Qed.
Print Assumptions C76_memory.

(** "The scaling is between factorial and double-exponentially". *)
Theorem C76_growth :
  ∀ n g k, wf_order n g → (N.of_nat n < 2 ^ 64 - 1)%N → beginnings g k →
  (2 * k + 1 < 4 * length (qubits g) ^ length (qubits g)) ∧
  ((∃ b, listed g b) → 4 * length (qubits g) ^ length (qubits g) ≤ 2 ^ (2 ^ length (qubits g))) ∧
  ((∃ b, listed g b) → (∀ b d, ¬ depends g b d) → fact (length (qubits g)) ≤ k).
Proof. exact growth. Qed.
Print Assumptions C76_growth.

(** Arbitrary inputs, well-formed or not: the numbers for independent qubits are never
    exceeded, and a run without search makes at most one round more than there are
    qubits. *)
Theorem C76_any_single :
  ∀ adj g bd fuel env timeout nthreads bound prob,
  nthreads < 2 → 4 * ordered_bell (length (qubits g)) - 1 ≤ fuel →
  ∃ o, run bd fuel env adj g true timeout nthreads bound prob = Some o.
Proof. exact any_single. Qed.
Print Assumptions C76_any_single.

Theorem C76_any_threaded :
  ∀ adj g bd fuel env timeout nthreads bound prob ps,
  2 ≤ nthreads → run bd fuel env adj g true timeout nthreads bound prob = Some (Val ps) →
  observed_iterations (e_events env) ≤ 4 * ordered_bell (length (qubits g)) - 1.
Proof. exact any_threaded. Qed.
Print Assumptions C76_any_threaded.

Theorem C76_any_time_optimal :
  ∀ adj g bd fuel env timeout nthreads bound prob,
  length (qubits g) < fuel → ∃ o, run bd fuel env adj g false timeout nthreads bound prob = Some o.
Proof. exact any_time_optimal. Qed.
Print Assumptions C76_any_time_optimal.

Theorem C76_estimates :
  ∀ n, fact n ≤ ordered_bell n ≤ n ^ n ∧ (n ≠ 0 → 4 * n ^ n ≤ 2 ^ (2 ^ n)).
Proof. exact estimates. Qed.
Print Assumptions C76_estimates.

(** Three independent qubits: 25 beginnings, 51 iterations. *)
Definition triple : order := [[(0, []); (1, []); (2, [])]].

Lemma triple_wf : wf_input [[]; []; []] triple.
Proof. apply wf_input_checked. by vm_compute. Qed.

Lemma beginnings_from_sweep adj g k :
  wf_input adj g →
  (let* t := from_dependency_graph g (dependency_buffer_new (length adj)) None in
   Val (match get_all_paths (H := time_focus_iterator Debug) (2 * k) [] t,
              get_all_paths (H := time_focus_iterator Debug) (S (2 * k)) [] t with
        | None, Some _ => true | _, _ => false end)) = Val true →
  beginnings g k.
Proof.
  intros Hin E.
  assert (N.of_nat (length adj) < 2 ^ 64 - 1)%N as Hn by apply Hin.
  destruct (number_of_beginnings (length adj) g (proj2 Hin) Hn) as (j & Hj & _).
  assert (length adj ≤ length (dependency_buffer_new (length adj))) as Hb
    by (unfold dependency_buffer_new; by rewrite replicate_length).
  destruct (sweep_work adj g _ j Debug (2 * k) Hin Hb Hj) as (t & Et & _ & H1).
  destruct (sweep_work adj g _ j Debug (S (2 * k)) Hin Hb Hj) as (t' & Et' & _ & H2).
  rewrite Et in Et'. injection Et' as <-. rewrite Et in E. cbn [obind] in E.
  destruct (get_all_paths (2 * k) [] t); [done|].
  destruct (get_all_paths (S (2 * k)) [] t) eqn:E2; [|done].
  assert (2 * k ≤ 2 * j) by (by apply H1).
  assert (¬ S (2 * k) ≤ 2 * j) by (intros Hle; by apply H2 in Hle).
  by replace k with j by lia.
Qed.

Example C76_example :
  wf_input [[]; []; []] triple ∧ beginnings triple 25 ∧
  (let* t := from_dependency_graph triple (dependency_buffer_new 3) None in
   Val (match get_all_paths (H := time_focus_iterator Release) 50 [] t,
              get_all_paths (H := time_focus_iterator Release) 51 [] t with
        | None, Some ps => Some (length (default [] (match ps with Val l => Some l | Panic => None end)))
        | _, _ => None end)) = Val (Some 13) ∧
  beginning triple [[1]; [2; 0]] ∧ beginning triple [[1]].
Proof.
  split; [apply triple_wf|]. split; [apply (beginnings_from_sweep [[]; []; []]); [apply triple_wf|by vm_compute]|].
  split; [by vm_compute|].
  assert (valid_schedule triple [[1]; [2; 0]]) as [Hv _] by (apply valid_checked; by vm_compute).
  split; [by split|]. split; [|done]. by apply (legal_prefix_app triple [[1]] [[2; 0]]).
Qed.

(** The square: 12 beginnings. *)
Example C76_square_example : beginnings square_order 12.
Proof. apply (beginnings_from_sweep square); [apply square_wf|by vm_compute]. Qed.

(** A chain: three beginnings.  The search needs all of the seven iterations, and three
    states are on the stack at the end of the chain. *)
Definition three : spacial := [[1]; [0; 2]; [1]].
Definition three_order : order := [[(0, [])]; [(1, [0])]; [(2, [1])]].

Lemma three_wf : wf_input three three_order.
Proof. apply wf_input_checked. by vm_compute. Qed.

Definition work_env (es : list event) : Env :=
  mkEnv (λ _, []) (map inr es) id (mkGenerators (λ _ _, f64_one) (λ _ _, 0%N) (λ _, f64_one) (λ _, 0%N)) (λ x, x).

Example C76_search_example :
  beginnings three_order 3 ∧
  run Release 6 (work_env []) three three_order true None 1 None None = None ∧
  run Release 7 (work_env []) three three_order true None 1 None None
  = Some (Val [MkPath 3 2 [[0]; [1]; [2]]]) ∧
  (let* t := from_dependency_graph three_order (dependency_buffer_new 3) None in
   let* '(s1, _) := sweep_next (H := time_focus_iterator Debug) (sweep_new t) in
   let* '(s2, _) := sweep_next (H := time_focus_iterator Debug) s1 in
   let* '(s3, _) := sweep_next (H := time_focus_iterator Debug) s2 in
   Val (length (stack s1), length (stack s2), length (stack s3))) = Val (1, 2, 3).
Proof.
  split; [apply (beginnings_from_sweep three); [apply three_wf|by vm_compute]|]. by split_and!; vm_compute.
Qed.

(** Two threads on the square: the tasks together could make 25 iterations, bounds found in
    between save most of them. *)
Definition in_turn (a b : nat) : list event :=
  EStart 0 :: EStart 1 :: replicate a (EIter 0 false) ++ EEnd 0 :: replicate b (EIter 1 false) ++ [EEnd 1].

Example C76_threaded_example :
  run Debug 100 (work_env (in_turn 7 1)) square square_order true None 2 (Some 1%N) None
  = Some (Val [MkPath 3 3 [[0]; [3; 1]; [2]]]) ∧
  observed_iterations (e_events (work_env (in_turn 7 1))) = 8.
Proof. by split; vm_compute. Qed.

(** A dependency graph that lists qubit 0 twice, and a qubit that depends on itself: at most
    4 * 75 - 1 iterations, three are made. *)
Definition twice : order := [[(0, [])]; [(0, [0]); (1, [0])]; [(2, [2])]].

Example C76_any_example :
  ¬ wf_order 3 twice ∧ length (qubits twice) = 4 ∧ ordered_bell 4 = 75 ∧
  run Debug 2 (work_env []) three twice true None 1 None None = None ∧
  run Debug 3 (work_env []) three twice true None 1 None None = Some (Val [MkPath 1 2 [[0]]]) ∧
  run Debug 5 (work_env []) three twice false None 1 None None = Some (Val [MkPath 1 2 [[0]]]).
Proof.
  split; [|by split_and!; vm_compute]. intros Hw. pose proof (wf_nodup _ _ Hw) as Hnd.
  apply (NoDup_lookup _ 0 1 0) in Hnd; done.
Qed.

(** The numbers of beginnings of up to four independent qubits against the estimates. *)
Example C76_growth_example :
  map (λ n, (fact n, 2 * ordered_bell n - 1, n ^ n)) [1; 2; 3; 4]
  = [(1, 1, 1); (2, 5, 4); (6, 25, 27); (24, 149, 256)].
Proof. by vm_compute. Qed.
