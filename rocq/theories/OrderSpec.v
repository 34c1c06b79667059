(** * Dependency graphs as partial orders: vocabulary

    Like [Spec.v], this file mentions nothing of the model. *)
From Verif Require Export SeriesSpec.

(** [g'] has the qubits of [g] and at least its order. *)
Definition stronger (g g' : order) : Prop :=
  (∀ b, listed g b ↔ listed g' b) ∧ ∀ b d, later g b d → later g' b d.

(** The same qubits with the same order, however it is written down. *)
Definition same_order (g g' : order) : Prop :=
  (∀ b, listed g b ↔ listed g' b) ∧ ∀ b d, later g b d ↔ later g' b d.

(** The same qubits in the opposite order. *)
Definition opposite_order (g g' : order) : Prop :=
  (∀ b, listed g b ↔ listed g' b) ∧ ∀ b d, later g b d ↔ later g' d b.
