(** * Measured once

    Specification vocabulary for dependency graphs of any shape (independent of
    the model, like [Spec]). *)
From Verif Require Export Spec.

(** The path measures nodes of the spacial graph only, none of them twice, no
    step is empty, and the reported costs are the costs of its schedule. *)
Record measured_once (adj : spacial) (p : path) : Prop := {
  mo_once : NoDup (concat (steps p));
  mo_range : ∀ b, b ∈ concat (steps p) → b < length adj;
  mo_nonempty : [] ∉ steps p;
  mo_time : time p = time_cost (steps p);
  mo_space : space p = N.of_nat (space_cost adj (steps p))
}.
