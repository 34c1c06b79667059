(** * Vocabulary for the circuits of the property test

    Independent of the model.  A qubit carries a stack of Pauli operators, one for each
    measurement that may require a correction (a pair of bits, Z and X). *)
From stdpp Require Export gmap.
From Verif Require Export Spec.

Notation stacks := (gmap nat (list (bool * bool))).

(** The [i]-th measurement may require a correction of qubit [b]. *)
Definition corrects (st : stacks) (i b : nat) : Prop :=
  ∃ s p, st !! b = Some s ∧ s !! i = Some p ∧ p ≠ (false, false).

(** The corrections of [b] depend on the result of the measurement of [d]; [measured]
    are the measured qubits in the order of the circuit. *)
Definition relies (st : stacks) (measured : list nat) (b d : nat) : Prop :=
  ∃ i, measured !! i = Some d ∧ corrects st i b.

(** Stacks for the qubits below [n]; every qubit is measured at most once, and no qubit
    that has been measured is corrected afterwards. *)
Record causal (n : nat) (st : stacks) (measured : list nat) : Prop := {
  ca_qubits : ∀ b, is_Some (st !! b) ↔ b < n;
  ca_once : NoDup measured;
  ca_measured : ∀ d, d ∈ measured → d < n;
  ca_frames : ∀ i b, corrects st i b → i < length measured;
  ca_before : ∀ i j b, corrects st i b → measured !! j = Some b → i < j
}.

(** What is used of [induced_order::get_order] of the crate [pauli_tracker]: an order of
    all qubits which puts a qubit after those on which its corrections depend, directly
    or not, and after no others. *)
Definition orders_corrections (get_order : stacks → list nat → order) : Prop :=
  ∀ n st measured, causal n st measured →
  wf_order n (get_order st measured) ∧
  (∀ b, listed (get_order st measured) b ↔ b < n) ∧
  (∀ b d, tc (depends (get_order st measured)) b d ↔ tc (relies st measured) b d).

(** The product of the operators whose measurements have the result 1. *)
Fixpoint total_correction (s : list (bool * bool)) (results : list bool) : bool * bool :=
  match s, results with
  | p :: s, r :: results =>
      let q := total_correction s results in
      if r then (xorb p.1 q.1, xorb p.2 q.2) else q
  | _, _ => (false, false)
  end.
