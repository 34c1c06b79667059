(** * Properties: the distribution of the random instances

    Probabilities are counts.  [exactly n P]: exactly [n] objects satisfy [P].  [values]
    is the list of the samples that [Uniform::new(0.0, 1.0)] can yield, all equally
    likely; [below x values] of them are below the density [x].  [graph_samples]: the
    lists of samples, one per pair of nodes, that make [get_graph] return the graph with
    the edges [R].  A [Round] of the loop of [get_order] draws an index and one sample per
    qubit left in the pool; [possible values size] are all sequences of rounds,
    [order_draws] those that make the loop return the order [l] with the corrections [R]. *)
From stdpp Require Import strings.
From Coq Require Import QArith Qabs Lqa Factorial.
From Verif Require Import UniformFacts FloatValid.
Local Open Scope nat_scope.

(** ** C72: distribution of the random instances *)

(** Every set of edges has the probability of independent edges. *)
Theorem C72_graph :
  ∀ d x size k values R, NoDup values → size = 0 ∨ density_value d size x →
  let edges := hits (λ e, R e.1 e.2) (node_pairs size) in
  exactly (below x values ^ edges * (length values - below x values) ^ (length (node_pairs size) - edges))
    (graph_samples d size k values R).
Proof. exact graph_count. Qed.
Print Assumptions C72_graph.

(** Every pair is an edge with the same probability. *)
Theorem C72_edge :
  ∀ d x size k values u v, NoDup values → density_value d size x → u < v → v < size →
  exactly (below x values * length values ^ (length (node_pairs size) - 1))
    (λ us, length us = length (node_pairs size) ∧ (∀ w, w ∈ us → w ∈ values) ∧
       ∀ rng, samples_from rng k us →
       ∃ adj k', get_graph rng d size k = Val (adj, k') ∧ v ∈ neighbours adj u).
Proof. exact edge_count. Qed.
Print Assumptions C72_edge.

(** Every order together with every set of corrections has the probability of independent
    corrections. *)
Theorem C72_order :
  ∀ x size k values l R, NoDup values → l ≡ₚ seq 0 size →
  let corrections := hits (λ e, R e.1 e.2) (node_pairs size) in
  exactly (below x values ^ corrections * (length values - below x values) ^ (length (node_pairs size) - corrections))
    (order_draws x size k values l R).
Proof. exact order_count. Qed.
Print Assumptions C72_order.

(** Every order has the same probability: [1 / size!]. *)
Theorem C72_every_order :
  ∀ x size k values l, NoDup values → l ≡ₚ seq 0 size →
  exactly (length values ^ length (node_pairs size)) (order_only x size k values l).
Proof. exact order_only_count. Qed.
Print Assumptions C72_every_order.

Theorem C72_rounds :
  ∀ size values, NoDup values →
  exactly (fact size * length values ^ length (node_pairs size)) (possible values size).
Proof. exact possible_count. Qed.
Print Assumptions C72_rounds.

(** Graph and order are drawn one after the other and are independent. *)
Theorem C72_instance :
  ∀ ed ex cx size k values Re l Rc, NoDup values → size = 0 ∨ density_value ed size ex → l ≡ₚ seq 0 size →
  let pairs := length (node_pairs size) in
  let edges := hits (λ e, Re e.1 e.2) (node_pairs size) in
  let corrections := hits (λ e, Rc e.1 e.2) (node_pairs size) in
  exactly (below ex values ^ edges * (length values - below ex values) ^ (pairs - edges) *
           (below cx values ^ corrections * (length values - below cx values) ^ (pairs - corrections)))
    (λ ds, graph_samples ed size k values Re ds.1 ∧ order_draws cx size (k + length ds.1) values l Rc ds.2).
Proof. exact instance_count. Qed.
Print Assumptions C72_instance.

(** ** The samples of the crate rand *)

(** A sample is below the density for the first [c] of the [2^64] random words, and [c] is
    what the density asks for up to one step of the samples. *)
Theorem C72_threshold :
  ∀ x, unit_density x →
  ∃ c : N, (∀ w, (w < 2 ^ 64)%N → SFltb (uniform_sample w) x = true ↔ (w < c)%N) ∧
    (0 <= inject_Z (Z.of_N c) / inject_Z (2 ^ 64) - f64_value x < 1 / inject_Z (2 ^ 52))%Q.
Proof. exact sample_threshold. Qed.
Print Assumptions C72_threshold.

(** All samples are equally likely: each belongs to [2^12] words. *)
Theorem C72_words :
  ∀ w w', (w < 2 ^ 64)%N → (w' < 2 ^ 64)%N →
  uniform_sample w = uniform_sample w' ↔ (w / 2 ^ 12 = w' / 2 ^ 12)%N.
Proof. exact sample_injective. Qed.
Print Assumptions C72_words.

Local Open Scope Z_scope.

(** The same in terms of the list of samples. *)
Theorem C72_fraction :
  ∀ values x, all_samples values → unit_density x →
  Z.of_nat (length values) = 2 ^ 52 ∧
  (0 <= inject_Z (Z.of_nat (below x values)) / inject_Z (2 ^ 52) - f64_value x < 1 / inject_Z (2 ^ 52))%Q.
Proof. exact sample_fraction. Qed.
Print Assumptions C72_fraction.

(** All indices are equally likely, and an accepted word gives a valid index. *)
Theorem C72_index :
  ∀ n, (0 < n < 2 ^ 64)%N →
  (∀ w i, range_sample n w = Some i → (w < 2 ^ 64)%N → (i < n)%N) ∧
  ∀ i, (i < n)%N → ∃ a, (a + 2 ^ leading_zeros n <= 2 ^ 64)%N ∧
    ∀ w, (w < 2 ^ 64)%N → range_sample n w = Some i ↔ (a <= w < a + 2 ^ leading_zeros n)%N.
Proof. exact range_uniform. Qed.
Print Assumptions C72_index.

(** The comment "so that the node degree is (n-1)*factor/(n-1) = factor" of plots.rs:186:
    the expected degree is the factor, up to rounding. *)
Theorem C72_degree :
  ∀ values f size x, all_samples values → unit_density f → not_signed f → above (-900) f →
  (3 <= size)%nat → (Z.of_nat size < 2 ^ 53)%Z → density_value (ReziprocalLinear f) size x →
  let degree := (inject_Z (Z.of_nat size - 1) * (inject_Z (Z.of_nat (below x values)) / inject_Z (2 ^ 52)))%Q in
  (Qabs (degree - f64_value f) <= inject_Z (Z.of_nat size - 1) / inject_Z (2 ^ 52) + f64_value f / inject_Z (2 ^ 53 - 1))%Q.
Proof. exact expected_degree. Qed.
Print Assumptions C72_degree.

(** ** Concrete cases *)
Local Open Scope nat_scope.

Example C72_values_exist : ∃ values, all_samples values.
Proof. exact samples_exist. Qed.

Definition coin : list f64 := [f64_zero; f64_div f64_one (f64_of_usize 2)].
Definition half_density : f64 := f64_div f64_one (f64_of_usize 2).

(** Two samples, density 1/2, three qubits: of the 48 possible sequences of rounds, 8 give the
    order 2, 0, 1, and exactly one of them the correction of the qubit measured last by the
    first measurement and no other. *)
Example C72_example :
  NoDup coin ∧ below half_density coin = 1 ∧ [2; 0; 1] ≡ₚ seq 0 3 ∧
  fact 3 * length coin ^ length (node_pairs 3) = 48 ∧ length coin ^ length (node_pairs 3) = 8 ∧
  order_draws half_density 3 0 coin [2; 0; 1] (λ p q, (p =? 0) && (q =? 2))
    [(2, [half_density; f64_zero]); (0, [half_density]); (0, [])] ∧
  exactly 1 (order_draws half_density 3 0 coin [2; 0; 1] (λ p q, (p =? 0) && (q =? 2))).
Proof.
  assert ([2; 0; 1] ≡ₚ seq 0 3) as Hp by (by apply (Permutation_cons_app [0; 1] [] 2)).
  assert (NoDup coin) as Hn.
  { apply NoDup_cons. split; [|apply NoDup_singleton]. intros H%elem_of_list_singleton. by vm_compute in H. }
  split_and!; [done|by vm_compute|done|by vm_compute|by vm_compute| |].
  - apply order_draws_iff; [done|]. apply elem_of_list_In. vm_compute. by left.
  - exact (order_count half_density 3 0 coin [2; 0; 1] (λ p q, (p =? 0) && (q =? 2)) Hn Hp).
Qed.

(** Density 1/2 and an expected degree of 1/2. *)
Example C72_example_density :
  unit_density half_density ∧ not_signed half_density ∧ above (-900)%Z half_density ∧
  density_value (ReziprocalLinear half_density) 5 (f64_div half_density (f64_of_usize 4)) ∧
  (f64_value half_density == 1 # 2)%Q ∧
  SFltb (uniform_sample (2 ^ 63 - 1)) half_density = true ∧ SFltb (uniform_sample (2 ^ 63)) half_density = false ∧
  range_sample 3 0 = Some 0%N ∧ range_sample 3 (2 ^ 64 - 1) = None.
Proof.
  split; [split_and!; by vm_compute|]. split; [by vm_compute|]. split; [by vm_compute|].
  split; [split; [lia|by vm_compute]|]. split_and!; by vm_compute.
Qed.
