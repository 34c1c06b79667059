(** * Properties: the numbers in the output of the benchmark programs

    [numbers_ok size get_full rs]: each of the four or eight columns of recorded data
    has 3000 entries, none above [size]; its mean is, among the numbers with 53
    binary digits, a nearest one to the quotient; mean and deviation are finite and not
    negative; if all entries are the same number, the mean is this number and the
    deviation is zero.  [nearest_quotient x S n]: [x = m * 2^e] with 53 digits in
    [m], off [S / n] by at most half of [2^e].  [shot_exp] is the condition of C45
    on [f64::exp]. *)
From stdpp Require Import strings.
From Verif Require Import MainBenchmarkNumbers BenchmarkRuns Properties_Probabilistic.
From Verif Require Import Spec.

(** ** C68: every number is finite, every mean is over all shots and nearest to the truth *)

Theorem C68_node_run :
  ∀ bd fuel induced rng args shots results times,
  induces_orders induced → (∀ k n, (0 < n → r_range rng k n < n)%nat) →
  (∀ size i, shot_ok (shots size i) ∧ shot_exp (shots size i)) →
  node_run bd fuel induced rng args shots = Some (Val (results, times)) →
  ∃ ed cd ks rs, results = sweep_arrays 16 (seq 2 44) (λ size, size <=? 20)%nat rs ∧
    (∀ size, (2 ≤ size ≤ 45)%nat → numbers_ok size (size <=? 20)%nat (rs size) ∧
      (* the recorded data, as in C47 *)
      ∃ timeout tm, times !! (size - 2)%nat = Some tm ∧
        measured bd fuel induced rng size ed cd timeout (size <=? 20)%nat (shots size) (ks size) (rs size) tm (ks (S size))) ∧
    Forall (Forall finite_unsigned) results.
Proof. exact node_run_numbers. Qed.
Print Assumptions C68_node_run.

Theorem C68_density_run :
  ∀ bd fuel induced rng args shots results times,
  induces_orders induced → (∀ k n, (0 < n → r_range rng k n < n)%nat) →
  (∀ m i, shot_ok (shots m i) ∧ shot_exp (shots m i)) →
  (1 ≤ d_num_nodes args ≤ 1000)%nat →
  density_run bd fuel induced rng args shots = Some (Val (results, times)) →
  ∃ ks rs, results = sweep_arrays 8 (seq 1 21) (λ _, false) rs ∧
    (∀ m, (1 ≤ m ≤ 21)%nat → numbers_ok (d_num_nodes args) false (rs m) ∧
      (* the recorded data, as in C47 *)
      ∃ timeout tm, times !! (m - 1)%nat = Some tm ∧
        measured bd fuel induced rng (d_num_nodes args)
          (Constant (f64_div (d_edge_density_multiplier args) (f64_of_usize 22)))
          (Constant (f64_div (f64_of_usize (N.of_nat m)) (f64_of_usize 22)))
          timeout false (shots m) (ks m) (rs m) tm (ks (S m))) ∧
    Forall (Forall finite_unsigned) results.
Proof. exact density_run_numbers. Qed.
Print Assumptions C68_density_run.

(** Sums of recorded values are exact, quotients are nearest. *)
Theorem C68_mean :
  ∀ col, col ≠ [] → (N.of_nat (length col) < 2 ^ 53)%N → (column_total col < 2 ^ 53)%N →
  nearest_quotient (mean_of col) (Z.of_N (column_total col)) (Z.of_nat (length col)).
Proof. exact mean_nearest_quotient. Qed.
Print Assumptions C68_mean.

(** There are such runs, for the function [crude_exp] that satisfies the conditions. *)
Theorem C68_possible :
  ∀ bd induced rng args (gens : Generators),
  induces_orders induced → (∀ k n, 0 < n → r_range rng k n < n) →
  ∃ shots fuel o,
    (∀ size i, shot_ok (shots size i) ∧ shot_exp (shots size i) ∧ e_generators (sh_approx (shots size i)) = gens) ∧
    node_run bd fuel induced rng args shots = Some o.
Proof.
  intros bd induced rng args gens Hind Hrng.
  destruct (node_run_possible bd induced rng args gens crude_exp Hind Hrng) as (shots & fuel & o & Hs & Ho).
  exists shots, fuel, o. split; [|done]. intros size i. destruct (Hs size i) as (H1 & H3 & H2). split; [done|]. split; [|done].
  unfold shot_exp. rewrite H2. split; [exact crude_exp_function|exact crude_exp_near_zero].
Qed.
Print Assumptions C68_possible.

Example C68_example :
  mean_of [1; 3; 6]%N = S754_finite false 7505999378950827 (-51) ∧
  nearest_quotient (mean_of [1; 3; 6]%N) 10 3 ∧
  ¬ nearest_quotient (S754_finite false 7505999378950828 (-51)) 10 3 ∧
  mean_of [] = S754_nan.
Proof.
  split; [by vm_compute|]. split; [|split; [|by vm_compute]].
  - right. exists 7505999378950827%positive, (-51)%Z. split; [by vm_compute|]. split; [by vm_compute|].
    split; [lia|]. by vm_compute.
  - intros [[? _]|(m & e & [= <- <-] & _ & _ & H)]; [done|]. by apply H.
Qed.
