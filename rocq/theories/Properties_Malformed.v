(** * Properties: dependency graphs that are not well-formed

    [repaired g] (in [Spec.v]) is what is left of the graph when, layer by
    layer, the entries are removed whose dependencies are not distinct qubits
    kept in an earlier layer. *)
From Verif Require Import MainMalformed Check.

(** ** C28: malformed dependency graphs are silently truncated *)

(** On a well-formed graph nothing is removed. *)
Theorem C28_repaired_well_formed :
  ∀ n g, wf_order n g → repaired g = g.
Proof. exact repaired_well_formed. Qed.
Print Assumptions C28_repaired_well_formed.

Theorem C28_malformed_time_optimal :
  ∀ adj g, wf_spacial adj → (∀ b, listed g b → b < length adj) → NoDup (qubits g) →
  wf_input adj (repaired g) ∧
  ∀ bd fuel, get_time_optimal bd fuel adj g = get_time_optimal bd fuel adj (repaired g).
Proof. exact malformed_time_optimal. Qed.
Print Assumptions C28_malformed_time_optimal.

Theorem C28_malformed_search :
  ∀ adj g timer ho prob, wf_spacial adj → (∀ b, listed g b → b < length adj) → NoDup (qubits g) →
  (∀ l, ho l ≡ₚ l) → calm prob →
  ∃ ps, (∀ bd, returns (λ fuel, search_single bd fuel timer ho adj g prob) ps) ∧
    Forall (path_ok adj (repaired g)) ps ∧ tradeoff ps.
Proof. exact malformed_search. Qed.
Print Assumptions C28_malformed_search.

Theorem C28_never_measured :
  ∀ adj g timer ho prob bd p ps b, wf_spacial adj → (∀ b, listed g b → b < length adj) → NoDup (qubits g) →
  (∀ l, ho l ≡ₚ l) →
  returns (λ fuel, get_time_optimal bd fuel adj g) [p] →
  returns (λ fuel, search_single bd fuel timer ho adj g prob) ps →
  listed g b →
  (listed (repaired g) b ↔ b ∈ concat (steps p)) ∧
  ∀ q, q ∈ ps → (listed (repaired g) b ↔ b ∈ concat (steps q)).
Proof. exact malformed_never_measured. Qed.
Print Assumptions C28_never_measured.

(** The returned paths are schedules of the remaining graph, but not always its
    best ones: optimality (C22) needs a well-formed graph. *)
Theorem C28_search_optimal_refuted :
  ¬ (∀ adj g, wf_spacial adj → (∀ b, listed g b → b < length adj) → NoDup (qubits g) →
     ∀ ps, (∀ bd, returns (λ fuel, search_single bd fuel (λ _, false) id adj g None) ps) →
     ∀ σ, valid_schedule (repaired g) σ → ∃ p, p ∈ ps ∧ time p ≤ time_cost σ ∧
       (space p <= N.of_nat (space_cost adj σ))%N).
Proof. exact malformed_suboptimal. Qed.
Print Assumptions C28_search_optimal_refuted.

(** A qubit after the first layer without dependencies, one with a repeated
    dependency, and one that depends on its own layer. *)
Example C28_example :
  repaired [[(0, [])]; [(1, []); (2, [0; 0]); (3, [0]); (4, [3])]]
  = [[(0, [])]; [(3, [0])]] ∧
  get_time_optimal Debug 100 [[]; []; []; []; []] [[(0, [])]; [(1, []); (2, [0; 0]); (3, [0]); (4, [3])]]
  = Some (Val [MkPath 2 1 [[0]; [3]]]).
Proof. by split; vm_compute. Qed.
