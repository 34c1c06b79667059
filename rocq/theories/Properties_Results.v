(** * Properties: the benchmark crate

    Random instances, recorded data and output arrays of the crate [results], see
    [Results.v].  [node_pairs] lists the pairs [(u, v)] with [u < v < size] in
    lexicographic order.  [corrected frames c p]: the frame of qubit [c] depends on
    measurement number [p].  [simple_graph], [density_value], [sample_ok], [columns],
    [mean_of], [deviation_of], [measured], [summary], [sweep_arrays] are defined in [MainResults.v], [BenchmarkFacts.v] and
    [MainBenchmark.v].  [induces_orders] is what is assumed of the function
    [induced_order::get_order] of the crate [pauli_tracker]. *)
From stdpp Require Import strings.
From Verif Require Import BenchmarkRuns.
From Verif Require Import Spec.

(** ** C42: random instances *)

Theorem C42_graph :
  ∀ rng d x size k, size = 0 ∨ density_value d size x →
  ∃ adj, get_graph rng d size k = Val (adj, k + length (node_pairs size)) ∧ simple_graph size adj ∧
    ∀ i u v, node_pairs size !! i = Some (u, v) →
      v ∈ neighbours adj u ↔ SFltb (r_uniform rng (k + i)) x = true.
Proof. exact random_graph. Qed.
Print Assumptions C42_graph.

Theorem C42_graph_panics :
  ∀ rng d size k,
  get_graph rng d size k = Panic ↔ size = 1 ∧ ∀ f, d ≠ Constant f.
Proof. exact random_graph_panics. Qed.
Print Assumptions C42_graph_panics.

Theorem C42_graph_extremes :
  ∀ rng size k, unit_samples rng →
  (∃ adj k', get_graph rng (Constant f64_zero) size k = Val (adj, k') ∧ ∀ u, neighbours adj u = []) ∧
  (∃ adj k', get_graph rng (Constant f64_one) size k = Val (adj, k') ∧
     ∀ u v, v ∈ neighbours adj u ↔ u < size ∧ v < size ∧ u ≠ v).
Proof. exact random_graph_extremes. Qed.
Print Assumptions C42_graph_extremes.

Theorem C42_corrections :
  ∀ rng x size k, (∀ k n, 0 < n → r_range rng k n < n) →
  ∃ frames map k',
    (∀ fuel, size < fuel → get_frames fuel rng x size k = Some (Val (frames, map, k'))) ∧
    rectangular size frames ∧ map ≡ₚ seq 0 size ∧
    (∀ c p, corrected frames c p → ∃ q, p < q ∧ map !! q = Some c) ∧
    ((∀ k, SFltb (r_uniform rng k) x = true) → ∀ c p,
       corrected frames c p ↔ ∃ q, p < q ∧ map !! q = Some c) ∧
    ((∀ k, SFltb (r_uniform rng k) x = false) → ∀ c p, ¬ corrected frames c p).
Proof. exact random_corrections. Qed.
Print Assumptions C42_corrections.

Theorem C42_order :
  ∀ induced rng d x size k, (∀ k n, 0 < n → r_range rng k n < n) → density_value d size x → 1 ≤ size →
  ∃ frames map k', rectangular size frames ∧ map ≡ₚ seq 0 size ∧
    (∀ c p, corrected frames c p → ∃ q, p < q ∧ map !! q = Some c) ∧
    ∀ fuel, size < fuel → get_order fuel induced rng d size k = Some (Val (induced frames map, k')).
Proof. exact random_order. Qed.
Print Assumptions C42_order.

(** A small generator: the samples are 0, 1/2, 0, 1/2, ..; the largest index is
    chosen. *)
Definition half : f64 := f64_div f64_one (f64_of_usize 2).
Definition example_rng : Rng :=
  mkRng (λ k, if Nat.even k then f64_zero else half) (λ _ n, n - 1) (λ k, N.of_nat k).

Example C42_example :
  unit_samples example_rng ∧ (∀ k n, 0 < n → r_range example_rng k n < n) ∧
  get_graph example_rng (Constant half) 4 0 = Val ([[1; 3]; [0; 3]; []; [0; 1]], 6) ∧
  get_graph example_rng (ReziprocalLinear f64_one) 4 0 = Val ([[1; 3]; [0; 3]; []; [0; 1]], 6) ∧
  get_graph example_rng (ReziprocalLinear f64_one) 1 0 = Panic ∧
  get_frames 4 example_rng half 3 0
  = Some (Val ([[false; true; false]; [true; false; false]; [false; false; false]], [2; 1; 0], 6)).
Proof.
  split; [|split; [|by vm_compute]].
  - intros k. unfold example_rng. simpl. destruct (Nat.even k); by vm_compute.
  - intros k n H. simpl. lia.
Qed.

(** ** C46: recorded data *)

Theorem C46_do_it :
  ∀ bd fuel induced rng size ed cd timeout get_full shots k o,
  induces_orders induced → (∀ k n, 0 < n → r_range rng k n < n) → (N.of_nat size < 2 ^ 64 - 1)%N →
  density_ok ed size → density_ok cd size → (∀ i, shot_ok (shots i)) →
  do_it bd fuel induced rng size ed cd timeout get_full shots k = Some o →
  ∃ rs times k', o = Val (map (λ col, (mean_of col, deviation_of col)) (columns get_full rs), times, k') ∧
    measured bd fuel induced rng size ed cd timeout get_full shots k rs times k'.
Proof. exact do_it_spec. Qed.
Print Assumptions C46_do_it.

(** Such executions exist. *)
Theorem C46_possible :
  ∀ bd induced rng size ed cd timeout get_full k gens exp,
  induces_orders induced → (∀ k n, 0 < n → r_range rng k n < n) → (N.of_nat size < 2 ^ 64 - 1)%N →
  density_ok ed size → density_ok cd size →
  ∃ shots fuel o, (∀ i, shot_with gens exp (shots i)) ∧
    do_it bd fuel induced rng size ed cd timeout get_full shots k = Some o.
Proof. exact do_it_possible. Qed.
Print Assumptions C46_possible.

(** A function that satisfies [induces_orders]: measure in the order in which the
    qubits were chosen, one after the other. *)
Fixpoint chain_from (d : nat) (l : list nat) : order :=
  match l with [] => [] | b :: l => [(b, [d])] :: chain_from b l end.
Definition chain (l : list nat) : order :=
  match l with [] => [] | b :: l => [(b, [])] :: chain_from b l end.

Lemma chain_from_qubits d l n : qubits (take n (chain_from d l)) = take n l.
Proof.
  revert d n. induction l as [|b l IH]; intros d [|n]; try done. simpl. unfold qubits. simpl. f_equal. apply IH.
Qed.
Lemma chain_qubits l n : qubits (take n (chain l)) = take n l.
Proof. destruct l as [|b l], n as [|n]; try done. simpl. unfold qubits. simpl. f_equal. apply chain_from_qubits. Qed.
Lemma chain_from_lookup d l k layer :
  chain_from d l !! k = Some layer → ∃ b c, layer = [(b, [c])] ∧ (d :: l) !! k = Some c.
Proof.
  revert d k. induction l as [|b l IH]; intros d [|k]; simpl; [done..| |].
  - intros [= <-]. by exists b, d.
  - intros H. apply IH in H as (b' & c & -> & Hc). by exists b', c.
Qed.

Lemma chain_induces : induces_orders (λ _ map, chain map).
Proof.
  intros size frames map _ Hp _.
  assert (qubits (chain map) = map) as Hq.
  { rewrite <- (take_ge (chain map) (length (chain map) + length map)) by lia. rewrite chain_qubits. apply take_ge. lia. }
  assert (∀ b, b ∈ map ↔ b < size) as Hm by (intros b; rewrite Hp, elem_of_seq; lia).
  split; [split|].
  - intros b Hb. rewrite Hq in Hb. by apply Hm.
  - rewrite Hq, Hp. apply NoDup_seq.
  - intros b ds Hb. destruct map as [|a l]; simpl in Hb; [by apply elem_of_nil in Hb|].
    by apply elem_of_list_singleton in Hb as [= -> ->].
  - intros k layer b ds Hk Hb. rewrite chain_qubits. destruct map as [|a l]; [done|]. simpl in Hk.
    apply chain_from_lookup in Hk as (b' & c & -> & Hc). apply elem_of_list_singleton in Hb as [= -> ->].
    split; [done|]. split; [apply NoDup_singleton|]. intros d Hd. apply elem_of_list_singleton in Hd as ->.
    apply (elem_of_list_lookup_2 _ k). rewrite lookup_take by lia. done.
  - intros b. rewrite <- Hm. rewrite <- Hq at 2. unfold qubits, listed. rewrite elem_of_list_fmap. split.
    + intros (layer & ds & Hl & Hb). exists (b, ds). split; [done|]. apply elem_of_list_In, in_concat.
      exists layer. split; by apply elem_of_list_In.
    + intros ([b' ds] & -> & Hb). apply elem_of_list_In, in_concat in Hb as (layer & Hl & Hb).
      exists layer, ds. split; by apply elem_of_list_In.
Qed.

(** One round with two nodes: one edge, the second qubit waits for the first. *)
Example C46_example :
  let gens := mkGenerators (λ _ _, f64_zero) (λ _ _, 0%N) (λ _, f64_zero) (λ _, 0%N) in
  let env := mkEnv (λ _, [])
    (map inr [EStart 0; EIter 0 false; EIter 0 false; EIter 0 false; EEnd 0; EStart 1; EIter 1 false; EEnd 1])
    id gens (λ _, f64_one) in
  let shot := mkShot env env env (1, 2, 3)%N in
  let rng := mkRng (λ _, f64_zero) (λ _ n, n - 1) (λ k, N.of_nat k) in
  shot_ok shot ∧ density_ok (ReziprocalLinear half) 2 ∧
  do_it_body Debug 30 (λ _ map, chain map) rng 2 (ReziprocalLinear half) (Constant half) 10 true
    (replicate 8 [], replicate 8 f64_zero, (5, 5, 5)%N, 0) shot
  = Some (Val (repeat [2%N] 8, repeat (f64_of_usize 2) 8, (6, 7, 8)%N, 5)) ∧
  mean_of [1; 3]%N = f64_of_usize 2 ∧ deviation_of [1; 3]%N = f64_one.
Proof.
  split; [|split; [by left|vm_compute; done]].
  split; [done|]. split; [done|]. by vm_compute.
Qed.

(** ** C47: output arrays, arguments, time limits *)

Theorem C47_node_run :
  ∀ bd fuel induced rng args shots o,
  induces_orders induced → (∀ k n, 0 < n → r_range rng k n < n) → (∀ size i, shot_ok (shots size i)) →
  node_run bd fuel induced rng args shots = Some o →
  (o = Panic ∧ (density_new (n_edge_density_type args) (n_edge_density args) = Panic ∨
                density_new (n_correction_density_type args) (n_correction_density args) = Panic)) ∨
  ∃ ed cd ts rs times ks,
    density_new (n_edge_density_type args) (n_edge_density args) = Val ed ∧
    density_new (n_correction_density_type args) (n_correction_density args) = Val cd ∧ node_timeouts = Val ts ∧
    o = Val (sweep_arrays 16 (seq 2 44) (λ size, size <=? 20) rs, times) ∧ length times = 44 ∧
    (* the samples are drawn one after the other *)
    ks 2 = 0 ∧
    ∀ size, 2 ≤ size ≤ 45 → ∃ timeout tm, ts !! size = Some timeout ∧ times !! (size - 2) = Some tm ∧
      measured bd fuel induced rng size ed cd timeout (size <=? 20) (shots size) (ks size) (rs size) tm (ks (S size)).
Proof. exact node_run_result. Qed.
Print Assumptions C47_node_run.

Theorem C47_node_run_possible :
  ∀ bd induced rng args gens exp,
  induces_orders induced → (∀ k n, 0 < n → r_range rng k n < n) →
  ∃ shots fuel o, (∀ size i, shot_with gens exp (shots size i)) ∧
    node_run bd fuel induced rng args shots = Some o.
Proof. exact node_run_possible. Qed.
Print Assumptions C47_node_run_possible.

Theorem C47_node_arrays :
  ∀ rs i l, sweep_arrays 16 (seq 2 44) (λ size, size <=? 20) rs !! i = Some l →
  length l = if i <? 8 then 44 else 19.
Proof. exact node_arrays_shape. Qed.
Print Assumptions C47_node_arrays.

Theorem C47_density_run :
  ∀ bd fuel induced rng args shots o,
  induces_orders induced → (∀ k n, 0 < n → r_range rng k n < n) → (∀ m i, shot_ok (shots m i)) →
  (N.of_nat (d_num_nodes args) < 2 ^ 64 - 1)%N →
  density_run bd fuel induced rng args shots = Some o →
  (o = Panic ∧ let x := f64_div (d_edge_density_multiplier args) (f64_of_usize 22) in
     ¬ (SFleb f64_zero x = true ∧ SFleb x f64_one = true)) ∨
  ∃ rs times ks,
    o = Val (sweep_arrays 8 (seq 1 21) (λ _, false) rs, times) ∧ length times = 21 ∧ ks 1 = 0 ∧
    ∀ m, 1 ≤ m ≤ 21 → ∃ timeout tm, density_timeouts !! m = Some timeout ∧ times !! (m - 1) = Some tm ∧
      measured bd fuel induced rng (d_num_nodes args)
        (Constant (f64_div (d_edge_density_multiplier args) (f64_of_usize 22)))
        (Constant (f64_div (f64_of_usize (N.of_nat m)) (f64_of_usize 22)))
        timeout false (shots m) (ks m) (rs m) tm (ks (S m)).
Proof. exact density_run_result. Qed.
Print Assumptions C47_density_run.

Theorem C47_density_run_possible :
  ∀ bd induced rng args gens exp,
  induces_orders induced → (∀ k n, 0 < n → r_range rng k n < n) → (N.of_nat (d_num_nodes args) < 2 ^ 64 - 1)%N →
  ∃ shots fuel o, (∀ m i, shot_with gens exp (shots m i)) ∧
    density_run bd fuel induced rng args shots = Some o.
Proof. exact density_run_possible. Qed.
Print Assumptions C47_density_run_possible.

Theorem C47_density_arrays :
  ∀ rs i l, sweep_arrays 8 (seq 1 21) (λ _, false) rs !! i = Some l → length l = 21.
Proof. exact density_arrays_shape. Qed.
Print Assumptions C47_density_arrays.

Theorem C47_arguments :
  ∀ ty f, density_new ty f = Panic ↔
  ty ∉ ["constant"; "reziprocal_linear"; "reziprocal_square_root"]%string ∨
  ¬ (SFleb f64_zero f = true ∧ SFleb f f64_one = true).
Proof. exact density_new_panics. Qed.
Print Assumptions C47_arguments.

Theorem C47_densities :
  ∀ ty f d, density_new ty f = Val d ↔
  SFleb f64_zero f = true ∧ SFleb f f64_one = true ∧
  (ty = "constant"%string ∧ d = Constant f ∨
   ty = "reziprocal_linear"%string ∧ d = ReziprocalLinear f ∨
   ty = "reziprocal_square_root"%string ∧ d = ReziprocalSquareRoot f).
Proof. exact density_new_value. Qed.
Print Assumptions C47_densities.

Theorem C47_node_timeouts :
  ∃ ts, node_timeouts = Val ts ∧
  (N.of_nat NUM_AVERAGE * (foldr N.add 0 ts + TIMEOUT_PER_SINGLE_SHOT_EXACT_SWEEP)
   ≤ (192 * 3600 - 120 * 60) * 1000000000)%N ∧
  (* increasing with the size *)
  ∀ i j a b, 2 ≤ i → i < j → ts !! i = Some a → ts !! j = Some b → (a < b)%N.
Proof. exact node_timeouts_budget. Qed.
Print Assumptions C47_node_timeouts.

Theorem C47_density_timeouts :
  (N.of_nat NUM_AVERAGE * foldr N.add 0 density_timeouts ≤ (10 * 3600 - 30 * 60) * 1000000000)%N.
Proof. exact density_timeouts_budget. Qed.
Print Assumptions C47_density_timeouts.


Example C47_example :
  density_new "constant" half = Val (Constant half) ∧ density_new "reziprocal_linear" f64_one = Val (ReziprocalLinear f64_one) ∧
  density_new "linear" half = Panic ∧ density_new "constant" (f64_of_usize 2) = Panic ∧
  density_new "constant" S754_nan = Panic ∧
  sweep_arrays 4 [2; 3] (λ n, n =? 2)
    (λ n, [mkSample [] [] (MkPath n 5 []) (Some (MkPath (n + 2) 3 [])) None None]) =
    [[f64_of_usize 2; f64_of_usize 3]; [f64_zero; f64_zero]; [f64_of_usize 5; f64_of_usize 5]; [f64_zero; f64_zero]].
Proof. by vm_compute. Qed.
