(** * Minors: vocabulary

    Like [Spec.v], this file mentions nothing of the model. *)
From Verif Require Export ClusterSpec OrderSpec.

(** The small input [adj'], [g'] is a minor of the input [adj], [g]: every qubit [w] of
    the small one stands for a connected set [B w] of qubits of the large one, which may
    have additional qubits, edges and dependencies.  A qubit that stands for measured
    qubits only is measured itself.  If [b] depends on [d], then everything that [d]
    stands for has to be measured before something that [b] stands for. *)
Record minor_of (B : nat → list nat) (adj' : spacial) (g' : order) (adj : spacial) (g : order) : Prop := {
  mn_range : ∀ w x, w < length adj' → x ∈ B w → x < length adj;
  mn_nonempty : ∀ w, w < length adj' → B w ≠ [];
  mn_disjoint : ∀ w w' x, w < length adj' → w' < length adj' → x ∈ B w → x ∈ B w' → w = w';
  mn_connected : ∀ w, w < length adj' → connected adj (B w);
  mn_edges : ∀ u v, listed g' u → v ∈ neighbours adj' u → touching adj (B u) (B v);
  mn_listed : ∀ w, listed g' w → ∀ x, x ∈ B w → listed g x;
  mn_kept : ∀ u v, listed g' u → v ∈ neighbours adj' u → (∀ x, x ∈ B v → listed g x) → listed g' v;
  mn_later : ∀ b d, depends g' b d → ∀ x, x ∈ B d → ∃ y, y ∈ B b ∧ later g y x
}.

(** All qubits below [n], without dependencies. *)
Definition unordered (n : nat) : order := [map (λ v, (v, [])) (seq 0 n)].

(** The sets [B 0], ..., [B (n - 1)] of measured qubits are disjoint, connected and not
    empty, and for every edge of the graph [adj'] with these nodes there is one between
    the sets. *)
Record graph_minor (B : nat → list nat) (adj' adj : spacial) (g : order) : Prop := {
  gm_listed : ∀ w x, w < length adj' → x ∈ B w → listed g x;
  gm_nonempty : ∀ w, w < length adj' → B w ≠ [];
  gm_disjoint : ∀ w w' x, w < length adj' → w' < length adj' → x ∈ B w → x ∈ B w' → w = w';
  gm_connected : ∀ w, w < length adj' → connected adj (B w);
  gm_edges : ∀ u v, v ∈ neighbours adj' u → touching adj (B u) (B v)
}.
