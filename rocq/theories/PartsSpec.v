(** * Inputs that consist of two independent parts: vocabulary

    Like [Spec.v], this file mentions nothing of the model. *)
From Verif Require Export Spec.

(** The qubits have two colours, and neither an edge of a qubit that is measured nor a
    dependency connects different colours. *)
Record separated (c : nat → bool) (adj : spacial) (g : order) : Prop := {
  sp_edges : ∀ u v, listed g u → v ∈ neighbours adj u → c v = c u;
  sp_deps : ∀ b d, depends g b d → c d = c b
}.

(** The dependency graph of the qubits of one colour. *)
Definition part (c : nat → bool) (x : bool) (g : order) : order :=
  map (filter (λ e : nat * list nat, c e.1 = x)) g.

(** All neighbours of qubits that are measured are measured, too. *)
Definition exhausting (adj : spacial) (g : order) : Prop :=
  ∀ u v, listed g u → v ∈ neighbours adj u → listed g v.
