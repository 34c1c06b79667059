(** * Numberings, brambles and cluster states: vocabulary

    Like [Spec.v], this file mentions nothing of the model. *)
From Verif Require Export Spec.

(** The numbers [f] are a permutation of [0], ..., [n] - 1. *)
Definition numbering (n : nat) (f : nat → nat) : Prop :=
  (∀ v, v < n → f v < n) ∧ ∀ u v, u < n → v < n → f u = f v → u = v.

(** No edge leads from a number to one that is more than [w] larger. *)
Definition bandwidth (w : nat) (f : nat → nat) (adj : spacial) : Prop :=
  ∀ u v, v ∈ neighbours adj u → f v ≤ f u + w.

(** The nodes of [B] are connected by edges between them. *)
Definition connected (adj : spacial) (B : list nat) : Prop :=
  ∀ u v, u ∈ B → v ∈ B → rtc (λ x y, y ∈ neighbours adj x ∧ y ∈ B) u v.

(** [B] and [C] have a common node or there is an edge from [B] to [C]. *)
Definition touching (adj : spacial) (B C : list nat) : Prop :=
  ∃ u v, u ∈ B ∧ v ∈ C ∧ (v = u ∨ v ∈ neighbours adj u).

(** A bramble: connected sets of nodes that touch each other. *)
Definition bramble (adj : spacial) (Bs : list (list nat)) : Prop :=
  (∀ B, B ∈ Bs → connected adj B ∧ B ≠ []) ∧ ∀ B C, B ∈ Bs → C ∈ Bs → touching adj B C.

(** It takes at least [m] nodes to have one of each set. *)
Definition bramble_order (m : nat) (Bs : list (list nat)) : Prop :=
  ∀ H, NoDup H → (∀ B, B ∈ Bs → ∃ v, v ∈ B ∧ v ∈ H) → m ≤ length H.

(** The node in row [r] < [a] and column [j] of a rectangular grid with [a] rows has the
    number [j * a + r]. *)
Definition grid_edge (a u v : nat) : Prop :=
  (u mod a = v mod a ∧ (v / a = S (u / a) ∨ u / a = S (v / a))) ∨
  (u / a = v / a ∧ (v mod a = S (u mod a) ∨ u mod a = S (v mod a))).
Global Instance grid_edge_dec a u v : Decision (grid_edge a u v).
Proof. unfold grid_edge. apply _. Defined.

(** The grid with [a] rows and [b] columns. *)
Definition grid (a b : nat) : spacial :=
  map (λ u, filter (grid_edge a u) (seq 0 (a * b))) (seq 0 (a * b)).

(** Column by column; every qubit depends on its neighbour in the column before. *)
Definition grid_order (a b : nat) : order :=
  map (λ j, map (λ r, (j * a + r, match j with 0 => [] | S i => [i * a + r] end)) (seq 0 a)) (seq 0 b).
