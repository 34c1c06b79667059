(** * Inputs that differ in a few edges or dependencies: vocabulary

    Like [Spec.v], this file mentions nothing of the model. *)
From Verif Require Export Spec.

(** The second graph has the nodes and edges of the first one and the edges [es]. *)
Definition more_edges (es : list (nat * nat)) (adj adj' : spacial) : Prop :=
  length adj' = length adj ∧
  ∀ u v, v ∈ neighbours adj' u ↔ v ∈ neighbours adj u ∨ (u, v) ∈ es ∨ (v, u) ∈ es.

(** The second dependency graph has the qubits of the first one, and no other
    dependencies than those of the first one and [ds]. *)
Definition more_depends (ds : list (nat * nat)) (g g' : order) : Prop :=
  (∀ b, listed g b ↔ listed g' b) ∧ ∀ b d, depends g' b d → depends g b d ∨ (b, d) ∈ ds.
