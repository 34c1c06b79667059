(** * Inputs without some of the qubits: vocabulary

    Like [Spec.v], this file mentions nothing of the model. *)
From Verif Require Export Spec.

(** Nothing outside of [S] has to wait for a qubit of [S]. *)
Definition closed_upwards (g : order) (S : list nat) : Prop :=
  ∀ b d, depends g b d → d ∈ S → b ∈ S.

(** Everything that is measured outside of [S], with all edges and dependencies there, is
    in the input [adj'], [g'], too, and nothing else is measured. *)
Record keeps_rest (S : list nat) (adj : spacial) (g : order) (adj' : spacial) (g' : order) : Prop := {
  kr_length : length adj' = length adj;
  kr_listed : ∀ b, listed g' b ↔ listed g b ∧ b ∉ S;
  kr_edges : ∀ u v, u ∉ S → v ∉ S → v ≠ u → v ∈ neighbours adj u → v ∈ neighbours adj' u;
  kr_depends : ∀ b d, b ∉ S → d ∉ S → depends g b d → depends g' b d
}.

(** Only measured qubits are neighbours of measured ones. *)
Definition all_measured (adj : spacial) (g : order) : Prop :=
  ∀ u v, listed g u → v ∈ neighbours adj u → listed g v.

(** [S] has an end of every edge at a measured qubit. *)
Definition covers_edges (adj : spacial) (g : order) (S : list nat) : Prop :=
  ∀ u v, listed g u → v ∈ neighbours adj u → v = u ∨ u ∈ S ∨ v ∈ S.
