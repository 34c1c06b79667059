(** * Properties C70: from the parameter files to the figures

    The runs go from [results/parameters] through the scripts, the program and its
    output files to the numbers that [results/plotting] draws. *)
From stdpp Require Import strings gmap.
From Verif Require Import FormatSpec Codec JsonSpec OutputSpec FloatValid Decimal64 Output ShortestWitness
  ProbabilisticSearch ThreadedWitness Check Properties_Probabilistic Properties_Results
  MainBenchmark MainBenchmarkNumbers MainBenchmarkFull Plotting Pipeline PlotSpec PlotNames MainPlot.

Local Open Scope nat_scope.

(** ** C70: the figures show the computed means *)

Theorem C70_nodes :
  ∀ shortest bd induced w fs fs1 fs2,
  shows shortest → induces_orders induced → machine_ok w →
  fs !! "parameters/node.dat" = Some node_dat →
  exe_node_hpc shortest bd induced w fs = Some fs1 →
  fs2 !! "parameters/node.dat" = Some node_dat → copied fs1 fs2 →
  ∃ rs tm, node_recorded bd induced w rs tm ∧
    nodes_main shortest fs2 =
      Some (mkAxes (map (time_curve rs) [0; 1; 2; 3]) (2, 44), mkAxes (map (space_curve rs) [0; 1; 2; 3]) (2, 44)) ∧
    nodes_appendix shortest fs2 = Some (map (time_bars rs) [0; 1; 2; 3], map (space_bars rs) [0; 1; 2; 3], (2, 44)) ∧
    runtimes_node shortest fs2 =
      Some (map (λ size, (size, Z.of_N (space_optimal_approximated (tm size)))) (seq 2 44),
            map (λ size, (size, Z.of_N (default 0%N (full (tm size))))) (seq 2 19)).
Proof. exact nodes_figure. Qed.
Print Assumptions C70_nodes.

Theorem C70_densities_local :
  ∀ shortest bd induced ws fs fs1 fs2,
  shows shortest → induces_orders induced → (∀ i, machine_ok (ws i)) →
  fs !! "parameters/density.dat" = Some density_dat →
  exe_density_local shortest bd induced ws fs = Some fs1 →
  fs2 !! "parameters/density.dat" = Some density_dat → copied fs1 fs2 →
  ∃ rs tm, (∀ k, 1 ≤ k ≤ 21 → density_recorded bd induced (ws (pred k)) k (rs k) (tm k)) ∧
    (∃ lo hi, draw_images fs2 = Some (map (panel_image rs) [0; 1; 2; 3], (lo, hi)) ∧
      (∀ p k m, p < 4 → 1 ≤ k ≤ 21 → 1 ≤ m ≤ 21 →
        SFltb (panel_value rs p k m) lo = false ∧ SFltb hi (panel_value rs p k m) = false) ∧
      (lo = f64_of_usize 20 ∨ ∃ p k m, (p < 4 ∧ 1 ≤ k ≤ 21 ∧ 1 ≤ m ≤ 21) ∧ lo = panel_value rs p k m) ∧
      (hi = f64_zero ∨ ∃ p k m, (p < 4 ∧ 1 ≤ k ≤ 21 ∧ 1 ≤ m ≤ 21) ∧ hi = panel_value rs p k m)) ∧
    (∃ lo hi, runtimes_density fs2 =
        Some (map (λ k, map (λ m, Z.of_N (space_optimal_approximated (tm k m))) (seq 1 21)) (seq 1 21), (lo, hi)) ∧
      (∀ k m, 1 ≤ k ≤ 21 → 1 ≤ m ≤ 21 → (lo <= Z.of_N (space_optimal_approximated (tm k m)) <= hi)%Z) ∧
      (lo = 999 * 60 * 1000000000 ∨ ∃ k m, (1 ≤ k ≤ 21 ∧ 1 ≤ m ≤ 21)%nat ∧ lo = Z.of_N (space_optimal_approximated (tm k m)))%Z ∧
      (hi = 0 ∨ ∃ k m, (1 ≤ k ≤ 21 ∧ 1 ≤ m ≤ 21)%nat ∧ hi = Z.of_N (space_optimal_approximated (tm k m)))%Z).
Proof. exact density_figure_local. Qed.
Print Assumptions C70_densities_local.

Theorem C70_densities_cluster :
  ∀ shortest bd induced ws order fs fs1 fs2,
  shows shortest → induces_orders induced → (∀ i, machine_ok (ws i)) →
  order ≡ₚ seq 1 21 →
  fs !! "parameters/density.dat" = Some density_dat →
  density_jobs shortest bd induced ws order fs = Some fs1 →
  fs2 !! "parameters/density.dat" = Some density_dat → copied fs1 fs2 →
  ∃ rs tm, (∀ k, 1 ≤ k ≤ 21 → density_recorded bd induced (ws k) k (rs k) (tm k)) ∧
    (∃ lo hi, draw_images fs2 = Some (map (panel_image rs) [0; 1; 2; 3], (lo, hi)) ∧
      (∀ p k m, p < 4 → 1 ≤ k ≤ 21 → 1 ≤ m ≤ 21 →
        SFltb (panel_value rs p k m) lo = false ∧ SFltb hi (panel_value rs p k m) = false) ∧
      (lo = f64_of_usize 20 ∨ ∃ p k m, (p < 4 ∧ 1 ≤ k ≤ 21 ∧ 1 ≤ m ≤ 21) ∧ lo = panel_value rs p k m) ∧
      (hi = f64_zero ∨ ∃ p k m, (p < 4 ∧ 1 ≤ k ≤ 21 ∧ 1 ≤ m ≤ 21) ∧ hi = panel_value rs p k m)) ∧
    (∃ lo hi, runtimes_density fs2 =
        Some (map (λ k, map (λ m, Z.of_N (space_optimal_approximated (tm k m))) (seq 1 21)) (seq 1 21), (lo, hi)) ∧
      (∀ k m, 1 ≤ k ≤ 21 → 1 ≤ m ≤ 21 → (lo <= Z.of_N (space_optimal_approximated (tm k m)) <= hi)%Z) ∧
      (lo = 999 * 60 * 1000000000 ∨ ∃ k m, (1 ≤ k ≤ 21 ∧ 1 ≤ m ≤ 21)%nat ∧ lo = Z.of_N (space_optimal_approximated (tm k m)))%Z ∧
      (hi = 0 ∨ ∃ k m, (1 ≤ k ≤ 21 ∧ 1 ≤ m ≤ 21)%nat ∧ hi = Z.of_N (space_optimal_approximated (tm k m)))%Z).
Proof. exact density_figure_hpc. Qed.
Print Assumptions C70_densities_cluster.

(** Such runs exist. *)
Theorem C70_nodes_possible :
  ∀ shortest bd induced rng seed (gens : Generators) (exp : f64 → f64) fs,
  induces_orders induced → (∀ k n, 0 < n → r_range rng k n < n) → exp_function exp → exp_near_zero exp →
  fs !! "parameters/node.dat" = Some node_dat →
  ∃ w, machine_ok w ∧ m_rng w = rng ∧ m_seed w = seed ∧ is_Some (exe_node_hpc shortest bd induced w fs).
Proof. exact node_possible. Qed.
Print Assumptions C70_nodes_possible.

Theorem C70_densities_possible :
  ∀ shortest bd induced rng (gens : Generators) (exp : f64 → f64) fs order,
  induces_orders induced → (∀ k n, 0 < n → r_range rng k n < n) → exp_function exp → exp_near_zero exp →
  order ≡ₚ seq 1 21 →
  fs !! "parameters/density.dat" = Some density_dat →
  ∃ ws, (∀ i, machine_ok (ws i) ∧ m_rng (ws i) = rng) ∧ is_Some (density_jobs shortest bd induced ws order fs) ∧
    is_Some (exe_density_local shortest bd induced (λ i, ws (S i)) fs).
Proof. exact density_possible. Qed.
Print Assumptions C70_densities_possible.

(** ** The largest size is computed, but cut off *)

Theorem C70_all_sizes_visible_refuted :
  ∀ shortest bd induced w fs fs1 fs2 a b i,
  shows shortest → induces_orders induced → machine_ok w →
  fs !! "parameters/node.dat" = Some node_dat →
  exe_node_hpc shortest bd induced w fs = Some fs1 →
  fs2 !! "parameters/node.dat" = Some node_dat → copied fs1 fs2 →
  nodes_main shortest fs2 = Some (a, b) → i < 2 →
  ∃ c d, a_curves a !! i = Some c ∧ a_curves b !! i = Some d ∧
    map fst (c_points c) = seq 2 44 ∧ map fst (visible a c) = seq 2 43 ∧
    map fst (c_points d) = seq 2 44 ∧ map fst (visible b d) = seq 2 43.
Proof. exact last_size_hidden. Qed.
Print Assumptions C70_all_sizes_visible_refuted.

(** ** Other parameters than the ones in the repository *)

(** The text of a factor in the name of the file and in the name that Python builds. *)
Theorem C70_names :
  ∀ shortest x, shows shortest → valid x →
  SFleb f64_zero x = true → SFleb x f64_one = true →
  (SFltb (tenth_power 4) x = true ∨ SFltb x (tenth_power 9) = true →
    ryu shortest x = Some (py_repr shortest x)) ∧
  (SFltb (tenth_power 9) x = true → SFltb x (tenth_power 4) = true →
    ryu shortest x ≠ Some (py_repr shortest x)).
Proof. exact factor_texts. Qed.
Print Assumptions C70_names.

Theorem C70_nodes_found :
  ∀ shortest x y fs, shows shortest → valid x → valid y →
  SFleb f64_zero x = true → SFleb x f64_one = true → SFleb f64_zero y = true → SFleb y f64_one = true →
  (SFltb (tenth_power 4) x = true ∨ SFltb x (tenth_power 9) = true) →
  (SFltb (tenth_power 4) y = true ∨ SFltb y (tenth_power 9) = true) →
  nodes_get_data shortest fs (x, y) =
    load_file fs (text "data" ++ drop 6 (node_file shortest (ReziprocalSquareRoot x) (ReziprocalSquareRoot y))).
Proof. exact nodes_name_found. Qed.
Print Assumptions C70_nodes_found.

(** The claim that the script finds the file for every factor is false. *)
Theorem C70_nodes_found_refuted :
  ∀ shortest x y contents, shows shortest → valid x → valid y →
  SFleb f64_zero x = true → SFleb x f64_one = true → SFleb f64_zero y = true → SFleb y f64_one = true →
  SFltb (tenth_power 9) x = true → SFltb x (tenth_power 4) = true →
  (SFltb (tenth_power 4) y = true ∨ SFltb y (tenth_power 9) = true) →
  nodes_get_data shortest
    {[name (text "data" ++ drop 6 (node_file shortest (ReziprocalSquareRoot x) (ReziprocalSquareRoot y))) := contents]}
    (x, y) = None.
Proof. exact nodes_name_missed. Qed.
Print Assumptions C70_nodes_found_refuted.

(** The claim that the script finds the file for every number of nodes is false. *)
Theorem C70_densities_found_refuted :
  ∀ shortest n k contents, shows shortest → k < 1000 → n ≠ 20 →
  densities_get_data {[name (text "data" ++ drop 6 (density_file shortest n (multiplier k))) := contents]}
    (multiplier n, multiplier k) = None.
Proof. exact densities_other_size. Qed.
Print Assumptions C70_densities_found_refuted.

(** ** The time that the jobs get on the cluster *)

Theorem C70_node_walltime :
  ∃ ts, node_timeouts = Val ts ∧
  (N.of_nat NUM_AVERAGE * (foldr N.add 0 ts + TIMEOUT_PER_SINGLE_SHOT_EXACT_SWEEP) ≤ node_job_walltime)%N.
Proof. exact node_job_budget. Qed.
Print Assumptions C70_node_walltime.

Theorem C70_density_walltime_refuted :
  ¬ (N.of_nat NUM_AVERAGE * foldr N.add 0 density_timeouts ≤ density_job_walltime)%N.
Proof. exact density_job_budget_refuted. Qed.
Print Assumptions C70_density_walltime_refuted.

(** ** Examples *)

Example C70_example_possible :
  ∃ w fs1, machine_ok w ∧
    exe_node_hpc exact_digits Release (λ _ map, Properties_Results.chain map) w {["parameters/node.dat" := node_dat]} = Some fs1.
Proof.
  destruct (C70_nodes_possible exact_digits Release (λ _ map, Properties_Results.chain map) (mkRng (λ _, f64_zero) (λ _ _, 0) (λ _, 0%N)) 0%N
    (mkGenerators (λ _ _, f64_zero) (λ _ _, 0%N) (λ _, f64_zero) (λ _, 0%N)) crude_exp {["parameters/node.dat" := node_dat]}) as (w & Hw & _ & _ & fs1 & H).
  - exact chain_induces.
  - intros k n Hn. exact Hn.
  - exact crude_exp_function.
  - exact crude_exp_near_zero.
  - done.
  - by exists w, fs1.
Qed.

Example C70_example_parameters :
  get_parameters {["parameters/density.dat" := text "20 1" ++ [Byte.x0a] ++ text "20 2.5" ++ [Byte.x0a]]} (text "density") =
    Some [(f64_of_usize 20, f64_one); (f64_of_usize 20, f64_of_decimal 25 (-1))].
Proof. by vm_compute. Qed.

(** Python and Rust write 2^-14 differently. *)
Example C70_example_names :
  let x := f64_of_decimal 6103515625 (-14) in
  ryu exact_digits x = Some (text "0.00006103515625") ∧ py_repr exact_digits x = text "6.103515625e-05".
Proof. by vm_compute. Qed.
