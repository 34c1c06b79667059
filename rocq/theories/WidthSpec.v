(** * Path decompositions: vocabulary

    Like [Spec.v], this file mentions nothing of the model.  A path decomposition of a
    graph is a sequence of sets of nodes ("bags") such that every node is in a bag, the
    ends of every edge are together in some bag, and the bags that contain a node follow
    each other without gaps.  The pathwidth of a graph is the least possible size of the
    largest bag, minus one. *)
From Verif Require Export Spec.

Notation bag := (list nat).

(** The edges have no direction. *)
Definition undirected (adj : spacial) : Prop :=
  ∀ u v, v ∈ neighbours adj u → u ∈ neighbours adj v.

(** A path decomposition of the spacial graph. *)
Record path_decomposition (adj : spacial) (bags : list bag) : Prop := {
  pd_nodup : ∀ B, B ∈ bags → NoDup B;
  pd_range : ∀ B v, B ∈ bags → v ∈ B → v < length adj;
  pd_nodes : ∀ v, v < length adj → ∃ B, B ∈ bags ∧ v ∈ B;
  pd_edges : ∀ u v, v ∈ neighbours adj u → ∃ B, B ∈ bags ∧ u ∈ B ∧ v ∈ B;
  pd_connected : ∀ i j k A B C v, i ≤ j → j ≤ k →
    bags !! i = Some A → bags !! j = Some B → bags !! k = Some C → v ∈ A → v ∈ C → v ∈ B
}.

(** The bags have at most [w] nodes. *)
Definition bags_within (w : nat) (bags : list bag) : Prop := ∀ B, B ∈ bags → length B ≤ w.

(** The decomposition respects the dependencies: what depends on [d] is still in a bag
    after the last bag with [d]. *)
Definition respects (g : order) (bags : list bag) : Prop :=
  ∀ b d, depends g b d →
    ∃ k B, bags !! k = Some B ∧ b ∈ B ∧ ∀ j C, k ≤ j → bags !! j = Some C → d ∉ C.

(** The general case, in which not all nodes are measured: a decomposition of the
    measured qubits and their neighbours, in which a node that is never measured stays
    until the end. *)
Record decomposition (adj : spacial) (g : order) (bags : list bag) : Prop := {
  dc_nodup : ∀ B, B ∈ bags → NoDup B;
  dc_range : ∀ B v, B ∈ bags → v ∈ B → v < length adj;
  dc_nodes : ∀ b, listed g b → ∃ B, B ∈ bags ∧ b ∈ B;
  dc_edges : ∀ u v, listed g u → v ∈ neighbours adj u → ∃ B, B ∈ bags ∧ u ∈ B ∧ v ∈ B;
  dc_connected : ∀ i j k A B C v, i ≤ j → j ≤ k →
    bags !! i = Some A → bags !! j = Some B → bags !! k = Some C → v ∈ A → v ∈ C → v ∈ B;
  dc_kept : ∀ i j A B v, i ≤ j → bags !! i = Some A → bags !! j = Some B → ¬ listed g v → v ∈ A → v ∈ B;
  dc_respects : respects g bags
}.
