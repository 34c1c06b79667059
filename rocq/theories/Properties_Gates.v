(** * Properties: gates as matrices

    The crate [pauli_tracker] is not part of the repository, so that the models of the
    circuits and of the example program state themselves what its gates do.  Here these
    statements are compared with the matrices of the gates ([GateSpec.v]). *)
From Verif Require Import MainGates Check.

(** ** C84: the operations conjugate *)

(** Operations on one qubit. *)
Theorem C84_one_qubit :
  ∀ bd (s : Instructor FramesCircuit unit) op b u q stk, matrix1 op = Some (b, u) →
  i_memory s !! N.to_nat (b mod N.of_nat (length (i_memory s))) = Some q →
  fc_tracker (i_circuit s) !! q = Some stk →
  unitary 2 u ∧
  ∃ s' stk', apply_operation frames_circuit bd s op = Val s' ∧
    fc_tracker (i_circuit s') = <[q := stk']> (fc_tracker (i_circuit s)) ∧
    Forall2 (conjugates1 u) stk stk'.
Proof. exact operation_conjugates1. Qed.
Print Assumptions C84_one_qubit.

(** Operations on two qubits. *)
Theorem C84_two_qubits :
  ∀ bd (s : Instructor FramesCircuit unit) op a b u x y sx sy, matrix2 op = Some (a, b, u) →
  double_mem_idx bd (i_memory s) a b = Val (Some (x, y)) → i_memory s ≠ [] → x ≠ y →
  fc_tracker (i_circuit s) !! x = Some sx → fc_tracker (i_circuit s) !! y = Some sy →
  length sx = length sy →
  unitary 4 u ∧
  ∃ s' sx' sy', apply_operation frames_circuit bd s op = Val s' ∧
    fc_tracker (i_circuit s') = <[y := sy']> (<[x := sx']> (fc_tracker (i_circuit s))) ∧
    length sx' = length sx ∧ length sy' = length sy ∧
    ∀ i p q p' q', sx !! i = Some p → sy !! i = Some q → sx' !! i = Some p' → sy' !! i = Some q' →
      conjugates2 u p q p' q'.
Proof. exact operation_conjugates2. Qed.
Print Assumptions C84_two_qubits.

(** The corrections of teleportations. *)
Theorem C84_teleportations :
  ∀ bd (s : Instructor FramesCircuit unit) op a b u x y sx sy, teleported op = Some (a, b, u) →
  double_mem_idx bd (i_memory s) a b = Val (Some (x, y)) → i_memory s ≠ [] → x ≠ y →
  fc_tracker (i_circuit s) !! x = Some sx → fc_tracker (i_circuit s) !! y = Some sy →
  ∃ s' p, apply_operation frames_circuit bd s op = Val s' ∧
    i_measurements s' = i_measurements s ++ [(x, tt)] ∧
    fc_tracker (i_circuit s') !! y = Some (sy ++ [p]) ∧ up_to_phase (pauli_matrix p) u ∧
    fc_tracker (i_circuit s') !! x = None ∧
    ∀ z stk, z ≠ x → z ≠ y → fc_tracker (i_circuit s) !! z = Some stk →
      fc_tracker (i_circuit s') !! z = Some (stk ++ [(false, false)]).
Proof. exact operation_teleports. Qed.
Print Assumptions C84_teleportations.

(** A rotation. *)
Theorem C84_rotation :
  ∀ bd (s : Instructor FramesCircuit unit) b q stk,
  i_memory s !! N.to_nat (b mod N.of_nat (length (i_memory s))) = Some q →
  fc_tracker (i_circuit s) !! q = Some stk → length stk = fc_frames (i_circuit s) → q ≠ i_used s →
  ∃ s' p, apply_operation frames_circuit bd s (OpRz b) = Val s' ∧
    i_measurements s' = i_measurements s ++ [(q, tt)] ∧
    i_memory s' !! N.to_nat (b mod N.of_nat (length (i_memory s))) = Some (i_used s) ∧
    fc_tracker (i_circuit s') !! i_used s = Some (stk ++ [p]) ∧ up_to_phase (pauli_matrix p) mat_z ∧
    fc_tracker (i_circuit s') !! q = None ∧
    fc_storage (i_circuit s') !! q = Some (map (λ p, (false, p.2)) stk) ∧
    ∀ z stk', z ≠ q → z ≠ i_used s → fc_tracker (i_circuit s) !! z = Some stk' →
      fc_tracker (i_circuit s') !! z = Some (stk' ++ [(false, false)]).
Proof. exact operation_rotates. Qed.
Print Assumptions C84_rotation.

(** The gates of [python_lib/examples/compile_flow.py]. *)
Theorem C84_example_program :
  ∀ f a b, a ≠ b → a < length f → b < length f →
  conjugates1 mat_h (at_qubit f a) (at_qubit (conjugate (GH a) f) a) ∧
  conjugates2 (controlled mat_z) (at_qubit f a) (at_qubit f b)
    (at_qubit (conjugate (GCz a b) f) a) (at_qubit (conjugate (GCz a b) f) b) ∧
  conjugates2 (controlled mat_y) (at_qubit f a) (at_qubit f b)
    (at_qubit (conjugate (GCy a b) f) a) (at_qubit (conjugate (GCy a b) f) b) ∧
  conjugates2 mat_iswap (at_qubit f a) (at_qubit f b)
    (at_qubit (conjugate (GISwap a b) f) a) (at_qubit (conjugate (GISwap a b) f) b) ∧
  (∀ c, c ≠ a → c ≠ b → at_qubit (conjugate (GH a) f) c = at_qubit f c ∧
    at_qubit (conjugate (GCz a b) f) c = at_qubit f c ∧
    at_qubit (conjugate (GCy a b) f) c = at_qubit f c ∧
    at_qubit (conjugate (GISwap a b) f) c = at_qubit f c).
Proof. exact example_conjugates. Qed.
Print Assumptions C84_example_program.

(** The bits of an operator are determined by its matrix, even up to a phase. *)
Theorem C84_determined :
  ∀ p q, up_to_phase (pauli_matrix p) (pauli_matrix q) → p = q.
Proof. exact pauli_matrices_differ. Qed.
Print Assumptions C84_determined.

(** For example S maps X to Y, and not to X. *)
Example s_of_x : conjugates1 mat_s (false, true) (true, true).
Proof. apply up_to_phase_check. by vm_compute. Qed.
Example s_of_x_only : ¬ conjugates1 mat_s (false, true) (false, true).
Proof.
  intros (c & Hc & He). unfold phases in Hc.
  repeat (apply elem_of_cons in Hc as [->|Hc]; [by vm_compute in He|]). by apply elem_of_nil in Hc.
Qed.

(** A state that meets the hypotheses: three qubits after a teleportation. *)
Definition some_state : out (Instructor FramesCircuit unit) :=
  instructor_apply frames_circuit Debug [OpTeleportedX 0 1] (instructor_new 3 (frames_init 3)).

Example some_state_conjugated :
  match some_state with
  | Val s =>
      match apply_operation frames_circuit Debug s (OpCz 1 0) with
      | Val s' => Some (double_mem_idx Debug (i_memory s) 1 0, map_to_list (fc_tracker (i_circuit s)), map_to_list (fc_tracker (i_circuit s')))
      | Panic => None
      end
  | Panic => None
  end = Some (Val (Some (1, 2)), [(1, [(false, true)]); (2, [(false, false)])],
              [(1, [(false, true)]); (2, [(true, false)])]).
Proof. by vm_compute. Qed.
