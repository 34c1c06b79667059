(** * Trees: vocabulary

    Like [Spec.v], this file mentions nothing of the model. *)
From Verif Require Export Spec.

(** A rooted tree: the root and the trees below it. *)
Inductive rooted := Rooted (v : nat) (below : list rooted).

Definition summit (t : rooted) : nat := match t with Rooted v _ => v end.

Fixpoint members (t : rooted) : list nat :=
  match t with Rooted v ts => v :: concat (map members ts) end.

(** The edges, in both directions. *)
Inductive tree_edge : rooted → nat → nat → Prop :=
| te_down v ts t : t ∈ ts → tree_edge (Rooted v ts) v (summit t)
| te_up v ts t : t ∈ ts → tree_edge (Rooted v ts) (summit t) v
| te_inside v ts t x y : t ∈ ts → tree_edge t x y → tree_edge (Rooted v ts) x y.

(** [y] is below [x]. *)
Inductive beneath : rooted → nat → nat → Prop :=
| bn_top v ts t y : t ∈ ts → y ∈ members t → beneath (Rooted v ts) v y
| bn_inside v ts t x y : t ∈ ts → beneath t x y → beneath (Rooted v ts) x y.

(** The graph consists of the trees [ts], all their qubits are measured, and qubits wait
    only for qubits below them. *)
Record forest_input (ts : list rooted) (adj : spacial) (g : order) : Prop := {
  fi_once : NoDup (concat (map members ts));
  fi_listed : ∀ b, listed g b ↔ b ∈ concat (map members ts);
  fi_edges : ∀ u v, listed g u → v ∈ neighbours adj u → v = u ∨ ∃ t, t ∈ ts ∧ tree_edge t u v;
  fi_depends : ∀ b d, depends g b d → ∃ t, t ∈ ts ∧ beneath t b d
}.
