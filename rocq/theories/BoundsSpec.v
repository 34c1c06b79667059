(** * Lower bounds of the costs: vocabulary

    Like [Spec.v], this file mentions nothing of the model. *)
From Verif Require Export WidthSpec.

(** Nodes that are all connected with each other. *)
Definition clique (adj : spacial) (K : list nat) : Prop :=
  NoDup K ∧ (∀ v, v ∈ K → v < length adj) ∧ ∀ u v, u ∈ K → v ∈ K → u ≠ v → v ∈ neighbours adj u.

(** The node together with its neighbours. *)
Definition closed_neighbourhood (adj : spacial) (v : nat) : list nat := remove_dups (v :: neighbours adj v).

(** The complete graph with [n] nodes and a dependency graph without dependencies. *)
Definition complete (n : nat) : spacial := map (λ i, filter (λ j, j ≠ i) (seq 0 n)) (seq 0 n).
Definition no_dependencies (n : nat) : order := [map (λ i, (i, [])) (seq 0 n)].
