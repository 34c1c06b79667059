(** * Properties: the deviations in the output of the benchmark programs

    Everything on the right is exact rational arithmetic: [variance col] is the mean
    square distance of the entries from their mean [exact_mean col], [f64_value x] the
    number that the floating point number [x] stands for.  [close_to_root j v d]: [d]
    is off the square root of [v] by at most the part [2^-j] of it, said without
    irrational numbers.  [spread_ok col r]: the deviation [r.2] is finite and not
    negative, is within the part [2^-40] of the standard deviation of the column, and is
    zero exactly if all entries are the same. *)
From stdpp Require Import strings.
From Coq Require Import QArith Qabs Lqa.
From Verif Require Import MainDeviation BenchmarkRuns Properties_Probabilistic.
From Verif Require Import Spec.
Local Open Scope nat_scope.

(** ** C71: the deviations are the standard deviations, up to rounding *)

Theorem C71_node_run :
  ∀ bd fuel induced rng args shots results times,
  induces_orders induced → (∀ k n, (0 < n → r_range rng k n < n)%nat) →
  (∀ size i, shot_ok (shots size i) ∧ shot_exp (shots size i)) →
  node_run bd fuel induced rng args shots = Some (Val (results, times)) →
  ∃ ed cd ks rs, results = sweep_arrays 16 (seq 2 44) (λ size, size <=? 20)%nat rs ∧
    ∀ size, (2 ≤ size ≤ 45)%nat →
      Forall2 spread_ok (columns (size <=? 20)%nat (rs size)) (summary (size <=? 20)%nat (rs size)) ∧
      (* the recorded data, as in C47 *)
      ∃ timeout tm, times !! (size - 2)%nat = Some tm ∧
        measured bd fuel induced rng size ed cd timeout (size <=? 20)%nat (shots size) (ks size) (rs size) tm (ks (S size)).
Proof. exact node_run_deviations. Qed.
Print Assumptions C71_node_run.

Theorem C71_density_run :
  ∀ bd fuel induced rng args shots results times,
  induces_orders induced → (∀ k n, (0 < n → r_range rng k n < n)%nat) →
  (∀ m i, shot_ok (shots m i) ∧ shot_exp (shots m i)) →
  (1 ≤ d_num_nodes args ≤ 1000)%nat →
  density_run bd fuel induced rng args shots = Some (Val (results, times)) →
  ∃ ks rs, results = sweep_arrays 8 (seq 1 21) (λ _, false) rs ∧
    ∀ m, (1 ≤ m ≤ 21)%nat →
      Forall2 spread_ok (columns false (rs m)) (summary false (rs m)) ∧
      (* the recorded data, as in C47 *)
      ∃ timeout tm, times !! (m - 1)%nat = Some tm ∧
        measured bd fuel induced rng (d_num_nodes args)
          (Constant (f64_div (d_edge_density_multiplier args) (f64_of_usize 22)))
          (Constant (f64_div (f64_of_usize (N.of_nat m)) (f64_of_usize 22)))
          timeout false (shots m) (ks m) (rs m) tm (ks (S m)).
Proof. exact density_run_deviations. Qed.
Print Assumptions C71_density_run.

(** The error grows with the number of entries: half a unit in the last place per
    addition. *)
Theorem C71_accuracy :
  ∀ col, (1 ≤ length col ≤ 4096)%nat → Forall (λ e, e <= 1024)%N col →
  let d := f64_value (deviation_of col) in
  (inject_Z (2 ^ 52) * Qabs (d * d - variance col) <= inject_Z (Z.of_nat (length col) + 8) * variance col)%Q.
Proof. exact deviation_accurate. Qed.
Print Assumptions C71_accuracy.

Theorem C71_root :
  ∀ col, (1 ≤ length col ≤ 4000)%nat → Forall (λ e, e <= 1024)%N col →
  finite_unsigned (deviation_of col) ∧ close_to_root 40 (variance col) (f64_value (deviation_of col)).
Proof. exact deviation_close. Qed.
Print Assumptions C71_root.

Theorem C71_zero :
  ∀ col, (1 ≤ length col ≤ 4096)%nat → Forall (λ e, e <= 1024)%N col →
  deviation_of col = f64_zero ↔ ∀ x y, x ∈ col → y ∈ col → x = y.
Proof. exact deviation_zero. Qed.
Print Assumptions C71_zero.

(** The runs exist: C68_possible.  The mean square distance has the divisor [n]; the
    deviation with the divisor [n - 1] is not close. *)
Example C71_example :
  deviation_of [1; 3; 6]%N = S754_finite false 4627008767788092 (-51) ∧
  (variance [1; 3; 6]%N == 38 # 9)%Q ∧
  close_to_root 40 (variance [1; 3; 6]%N) (f64_value (deviation_of [1; 3; 6]%N)) ∧
  ¬ close_to_root 40 (variance [1; 3; 6]%N) (f64_value (f64_sqrt (f64_div (f64_of_usize 19) (f64_of_usize 3)))) ∧
  deviation_of [7; 7; 7]%N = f64_zero.
Proof.
  split; [by vm_compute|]. split; [by vm_compute|]. split.
  { apply deviation_close; [simpl; lia|]. repeat (constructor; [lia|]). constructor. }
  split; [|by vm_compute]. intros H. destruct (H (21 # 10)%Q) as [_ H2]; [done|].
  assert (variance [1; 3; 6]%N <= (21 # 10) * (21 # 10))%Q as Hv by (by vm_compute).
  specialize (H2 Hv). revert H2. by vm_compute.
Qed.

(** Where the rounding is visible: the entries 0, 1, 1 have the variance 2/9. *)
Example C71_rounding :
  let d := f64_value (deviation_of [0; 1; 1]%N) in
  (variance [0; 1; 1]%N == 2 # 9)%Q ∧ (¬ d * d == 2 # 9)%Q ∧
  (Qabs (d * d - (2 # 9)) <= 11 # 4503599627370496)%Q.
Proof. cbv zeta. split; [by vm_compute|]. split; by vm_compute. Qed.
