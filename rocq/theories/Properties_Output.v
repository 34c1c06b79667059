(** * Properties C69: the output files of the benchmark programs

    The shortest digits of a number are found by the crate [ryu] and by the
    formatting of [std], whose algorithms are not modelled: [shortest] stands for
    what they find, with the contract [shows]. *)
From stdpp Require Import strings gmap.
From Verif Require Import FormatSpec Codec JsonSpec OutputSpec FloatValid Decimal64 DecimalFacts Output Plotting
  ShortestWitness BenchmarkFacts MainBenchmark MainBenchmarkNumbers MainOutput.

Local Open Scope nat_scope.

(** ** C69: the files contain the computed numbers, bit for bit *)

Theorem C69_node_file :
  ∀ shortest bd fuel induced rng seed args shots creatable fs o,
  shows shortest → valid (n_edge_density args) → valid (n_correction_density args) →
  induces_orders induced → (∀ k n, 0 < n → r_range rng k n < n) →
  (∀ size i, shot_ok (shots size i) ∧ shot_exp (shots size i)) →
  node_main shortest bd fuel induced rng seed args shots creatable fs = Some o →
  (* either it writes the file *)
  (∃ ed cd results times file b v,
    type_name ed = n_edge_density_type args ∧ factor_of ed = n_edge_density args ∧
    type_name cd = n_correction_density_type args ∧ factor_of cd = n_correction_density args ∧
    node_run bd fuel induced rng args shots = Some (Val (results, times)) ∧
    node_name ed cd file ∧ json_document v b ∧ holds_node v ed cd seed results times ∧
    if creatable (name file) then o = Val (<[name file := b]> fs) else o = Panic) ∨
  (* or the arguments are wrong *)
  o = Panic ∧ (density_new (n_edge_density_type args) (n_edge_density args) = Panic ∨
               density_new (n_correction_density_type args) (n_correction_density args) = Panic).
Proof. exact node_output. Qed.
Print Assumptions C69_node_file.

Theorem C69_density_file :
  ∀ shortest bd fuel induced rng seed args shots creatable fs o,
  shows shortest → valid (d_edge_density_multiplier args) →
  induces_orders induced → (∀ k n, 0 < n → r_range rng k n < n) →
  (∀ m i, shot_ok (shots m i) ∧ shot_exp (shots m i)) → 1 ≤ d_num_nodes args ≤ 1000 →
  density_main shortest bd fuel induced rng seed args shots creatable fs = Some o →
  (∃ results times file b v,
    density_run bd fuel induced rng args shots = Some (Val (results, times)) ∧
    sweep_name (d_num_nodes args) (d_edge_density_multiplier args) file ∧ json_document v b ∧
    holds_sweep v (d_num_nodes args) (d_edge_density_multiplier args) seed results times ∧
    if creatable (name file) then o = Val (<[name file := b]> fs) else o = Panic) ∨
  o = Panic ∧ let x := f64_div (d_edge_density_multiplier args) (f64_of_usize 22) in
    ¬ (SFleb f64_zero x = true ∧ SFleb x f64_one = true).
Proof. exact density_output. Qed.
Print Assumptions C69_density_file.

(** The text determines the document, and the reader of the plotting scripts finds it. *)
Theorem C69_readable :
  ∀ v b, json_document v b → json_load b = Some v ∧ ∀ v', json_document v' b → v' = v.
Proof. exact document_reader. Qed.
Print Assumptions C69_readable.

(** What [f64_of_decimal], which says what a decimal text stands for, computes: a
    double whose distance to [n * 10 ^ k] is at most half a unit in the last place. *)
Theorem C69_nearest :
  ∀ (n : N) k m e, f64_of_decimal n k = S754_finite false m e →
  let a := Z.max 0 (- k) in let d := Z.max 0 (- e) in
  (2 * Z.abs (Zpos m * 2 ^ (e + d) * 10 ^ a - Z.of_N n * 10 ^ (k + a) * 2 ^ d) <= 2 ^ (e + d) * 10 ^ a)%Z.
Proof. exact decimal_nearest. Qed.
Print Assumptions C69_nearest.

(** Different arguments lead to different files. *)
Theorem C69_node_names :
  ∀ ed cd ed' cd' file, node_name ed cd file → node_name ed' cd' file → ed = ed' ∧ cd = cd'.
Proof. exact node_name_unique. Qed.
Print Assumptions C69_node_names.
Theorem C69_density_names :
  ∀ size mu size' mu' file, sweep_name size mu file → sweep_name size' mu' file → size = size' ∧ mu = mu'.
Proof. exact sweep_name_unique. Qed.
Print Assumptions C69_density_names.
Theorem C69_names_apart : ∀ ed cd size mu file, node_name ed cd file → ¬ sweep_name size mu file.
Proof. exact names_apart. Qed.
Print Assumptions C69_names_apart.

(** The contract can be met. *)
Theorem C69_contract : ∃ shortest, shows shortest.
Proof. exists exact_digits. exact exact_digits_shows. Qed.
Print Assumptions C69_contract.

Definition half := f64_div f64_one (f64_of_usize 2).

Example C69_example_names :
  node_file exact_digits (ReziprocalSquareRoot half) (Constant f64_one) =
    text "output/node-reziprocal_square_root:0.5_constant:1.0.json" ∧
  density_file exact_digits 20 (f64_of_usize 21) =
    text "output/density-numnodes:20_numdensities:21_density:21.json".
Proof. by vm_compute. Qed.

Example C69_example :
  let b := json_print (density_json exact_digits 20 (f64_of_usize 7) 12
    [[half; f64_of_usize 3]; [f64_zero]] [mkTimes 5 1500000000 None; mkTimes 0 1 (Some 2000000001%N)]) in
  b = text
    "{""size"":20,""num_average"":3000,""walltime"":10,""ncpus"":30,""edge_density_multiplier"":7.0,""num_density"":21,""seed"":12,""results"":[[0.5,3.0],[0.0]],""time_results"":[{""time_optimal"":{""secs"":0,""nanos"":5},""space_optimal_approximated"":{""secs"":1,""nanos"":500000000},""full"":null},{""time_optimal"":{""secs"":0,""nanos"":0},""space_optimal_approximated"":{""secs"":0,""nanos"":1},""full"":{""secs"":2,""nanos"":1}}]}"
  ∧ json_load b = Some (density_json exact_digits 20 (f64_of_usize 7) 12
    [[half; f64_of_usize 3]; [f64_zero]] [mkTimes 5 1500000000 None; mkTimes 0 1 (Some 2000000001%N)]).
Proof. by vm_compute. Qed.
