(** * Inputs one part of which has to wait for the other: vocabulary

    Like [Spec.v], this file mentions nothing of the model. *)
From Verif Require Export Spec.

(** [b] has to be measured after [d], directly or indirectly. *)
Definition later (g : order) (b d : nat) : Prop := tc (depends g) b d.

(** The qubits of [g] are those of [g1] and those of [g2], with the dependencies of [g1]
    and [g2], and every qubit of [g2] has to wait for all qubits of [g1]. *)
Record series (g1 g2 g : order) : Prop := {
  se_listed : ∀ b, listed g b ↔ listed g1 b ∨ listed g2 b;
  se_apart : ∀ b, listed g1 b → ¬ listed g2 b;
  se_first : ∀ b d, listed g1 b → depends g b d ↔ depends g1 b d;
  se_second : ∀ b d, listed g2 b → listed g2 d → depends g b d ↔ depends g2 b d;
  se_later : ∀ b d, listed g2 b → listed g1 d → later g b d
}.

(** No edge connects the two parts, and the neighbours of the qubits of the first part
    are measured with it. *)
Definition disconnected (adj : spacial) (g1 g2 : order) : Prop :=
  (∀ u v, listed g1 u → v ∈ neighbours adj u → listed g1 v) ∧
  (∀ u v, listed g2 u → v ∈ neighbours adj u → ¬ listed g1 v).

(** Every qubit has to wait for the one before it in the list, which are all. *)
Definition total_order (g : order) (l : list nat) : Prop :=
  NoDup l ∧ (∀ b, listed g b ↔ b ∈ l) ∧
  ∀ k b d, l !! k = Some d → l !! S k = Some b → later g b d.
