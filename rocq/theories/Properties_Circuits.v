(** * Properties: the circuits of the repository's own property test

    The test [roundtrip] draws a random circuit, tracks the corrections through it, takes
    the dependency graph from them and searches with all variants of the scheduler.  The
    second half is the subject of C62; here the
    circuits are included.  [induced_order::get_order], from the crate [pauli_tracker], is
    an arbitrary function that meets [orders_corrections]. *)
From Verif Require Import MainCircuits Check.

(** ** C82: the circuits of the property test *)

(** Whatever circuit is drawn: stacks for exactly the qubits of the test, no qubit is
    measured twice, no measured qubit is corrected for later results. *)
Theorem C82_causal :
  ∀ bd ops n, 0 < n → Forall op_fits ops →
  ∃ st measured, test_circuit bd ops n = Val (st, measured) ∧ causal n st measured.
Proof. exact test_circuit_causal. Qed.
Print Assumptions C82_causal.

(** The whole test passes. *)
Theorem C82_whole_test :
  ∀ get_order ops edges n,
  orders_corrections get_order → 0 < n → (N.of_nat n < 2 ^ 64 - 1)%N → Forall op_fits ops →
  (∀ u v, (u, v) ∈ edges → u < n ∧ v < n) →
  ∀ bd, returns (λ fuel, whole_test bd fuel get_order ops edges n) tt.
Proof. exact whole_test_passes. Qed.
Print Assumptions C82_whole_test.

(** The contract can be met, so that this is not void. *)
Theorem C82_contract : orders_corrections one_by_one.
Proof. exact contract_satisfiable. Qed.
Print Assumptions C82_contract.

(** The order of the circuit itself is always one of the valid schedules. *)
Theorem C82_circuit_order :
  ∀ get_order n st measured, orders_corrections get_order → causal n st measured →
  valid_schedule (get_order st measured)
    (map (λ b, [b]) (measured ++ filter (λ b, b ∉ measured) (seq 0 n))).
Proof. exact circuit_order_valid. Qed.
Print Assumptions C82_circuit_order.

(** Circuits with rotations, measurements and new qubits, which the test removes. *)
Theorem C82_all_circuits :
  ∀ bd ops n, Forall second_fits ops →
  ∃ s, instructor_apply frames_circuit bd ops (instructor_new n (frames_init n)) = Val s ∧
    let st := frames_measure_and_store_all (i_circuit s) in
    let measured := map fst (i_measurements s) in
    NoDup measured ∧
    (∀ i b, corrects st i b → i < length measured) ∧
    (∀ i j b, corrects st i b → measured !! j = Some b → i < j).
Proof. exact circuit_runs. Qed.
Print Assumptions C82_all_circuits.

(** The strategy draws the numbers of the operations from all of [usize].  Numbers at the
    upper end make the test itself panic, in both builds: [double_mem_idx] adds one, which
    overflows or wraps around to the same qubit. *)
Theorem C82_all_numbers_refuted :
  ¬ ∃ bd, ∀ ops n, 0 < n → ∃ r, test_circuit bd ops n = Val r.
Proof.
  intros [bd H]. destruct (H [OpCz 0 (2 ^ 64 - 1)] 3) as [r Hr]; [lia|].
  by rewrite (proj1 large_numbers_panic bd) in Hr.
Qed.
Print Assumptions C82_all_numbers_refuted.

(** So does the number 73 that is added for a rotation, if overflows are checked. *)
Theorem C82_rotation_numbers_refuted :
  ¬ ∀ a, (a < 2 ^ 64)%N → ∃ r, test_circuit Debug [OpRz a] 1 = Val r.
Proof.
  intros H. destruct (H (2 ^ 64 - 72)%N) as [r Hr]; [done|]. by rewrite (proj2 large_numbers_panic) in Hr.
Qed.
Print Assumptions C82_rotation_numbers_refuted.

(** A circuit on four qubits: a teleportation from 0 to 1, gates that spread the
    correction to qubit 2, a rotation that the test replaces by a teleportation from 1,
    and operations that it drops. *)
Definition small_circuit : list Operation :=
  [OpTeleportedX 0 1; OpNewQubit 0; OpCz 1 2; OpRz 1; OpMeasure 5; OpH 1].

Example small_circuit_fits : Forall op_fits small_circuit.
Proof. repeat constructor; done. Qed.

Example small_circuit_result :
  match test_circuit Debug small_circuit 4 with
  | Val (st, measured) => Some (map_to_list st, measured)
  | Panic => None
  end = Some ([(0, [(false, false)]); (1, [(false, true); (false, false)]); (3, [(false, false); (false, false)]); (2, [(false, true); (true, true)])], [0; 1]).
Proof. by vm_compute. Qed.

Example small_circuit_order :
  match test_circuit Debug small_circuit 4 with
  | Val (st, measured) => Some (one_by_one st measured)
  | Panic => None
  end = Some [[(0, []); (3, [])]; []; [(1, [0])]; [(2, [0; 1])]].
Proof. by vm_compute. Qed.

Example small_circuit_passes :
  ∀ bd, returns (λ fuel, whole_test bd fuel one_by_one small_circuit [(0, 1); (1, 2); (2, 3)] 4) tt.
Proof.
  apply C82_whole_test; [apply C82_contract|lia|done|apply small_circuit_fits|].
  intros u v H. repeat (apply elem_of_cons in H as [[= -> ->]|H]; [lia|]). by apply elem_of_nil in H.
Qed.

(** ** C83: tracking with known results *)

(** The same circuit with the results of the measurements at hand: the operator that is
    tracked for a qubit is the product of those operators of its stack whose measurements
    had the result 1. *)
Theorem C83_known_results :
  ∀ bd ops n results, Forall second_fits ops →
  ∃ s l, instructor_apply frames_circuit bd ops (instructor_new n (frames_init n)) = Val s ∧
    instructor_apply live_circuit bd ops (instructor_new n (live_init n results)) = Val l ∧
    map fst (i_measurements l) = map fst (i_measurements s) ∧
    ∀ q stk, frames_measure_and_store_all (i_circuit s) !! q = Some stk →
      lc_tracker (i_circuit l) !! q = Some (total_correction stk (map snd (i_measurements l))).
Proof. exact live_agrees. Qed.
Print Assumptions C83_known_results.

(** The small circuit, with the operations that the test removes. *)
Example small_circuit_live :
  match instructor_apply live_circuit Debug small_circuit (instructor_new 4 (live_init 4 (λ _, true))),
        instructor_apply frames_circuit Debug small_circuit (instructor_new 4 (frames_init 4)) with
  | Val l, Val s =>
      Some (i_measurements l,
            map (λ x : nat * list Pauli, (x.1, lc_tracker (i_circuit l) !! x.1, total_correction x.2 (map snd (i_measurements l))))
              (map_to_list (frames_measure_and_store_all (i_circuit s))))
  | _, _ => None
  end = Some ([(0, true); (1, true)], [(0, Some (false, false), (false, false)); (1, Some (false, true), (false, true)); (3, Some (false, false), (false, false)); (2, Some (true, false), (true, false)); (4, Some (false, false), (false, false))]).
Proof. by vm_compute. Qed.
