(** * Neighbours that are not nodes

    Specification vocabulary (independent of the model, like [Spec]). *)
From Verif Require Export Spec.

(** [b] has a neighbour that is not a node. *)
Definition dangling (adj : spacial) (b : nat) : Prop :=
  ∃ v, v ∈ neighbours adj b ∧ length adj ≤ v.

(** The graph without these neighbours. *)
Definition without_dangling (adj : spacial) : spacial :=
  map (filter (λ v, v < length adj)) adj.
