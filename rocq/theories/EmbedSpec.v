(** * Inputs that are contained in other inputs: vocabulary

    Like [Spec.v], this file mentions nothing of the model. *)
From Verif Require Export OrderSpec.

(** The renaming [f] finds the input [adj'], [g'] inside the input [adj], [g]: with
    another name, every qubit, edge and dependency of the small input is one of the large
    input.  The large input may have more of each.  A neighbour that the large input
    measures must be measured in the small one, too: otherwise it would stay in memory
    there for ever. *)
Record embeds (f : nat → nat) (adj' : spacial) (g' : order) (adj : spacial) (g : order) : Prop := {
  em_range : ∀ v, v < length adj' → f v < length adj;
  em_inj : ∀ u v, u < length adj' → v < length adj' → f u = f v → u = v;
  em_edges : ∀ u v, listed g' u → v ∈ neighbours adj' u → f v ∈ neighbours adj (f u);
  em_listed : ∀ b, listed g' b → listed g (f b);
  em_later : ∀ b d, later g' b d → later g (f b) (f d);
  em_kept : ∀ u v, listed g' u → v ∈ neighbours adj' u → listed g (f v) → listed g' v
}.
