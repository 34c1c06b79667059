(** * Vocabulary for gates: matrices

    Independent of the model.  Matrices of Gaussian integers, which suffice for the gates
    up to a factor: a common factor (for example 1/sqrt 2) does not change what a
    conjugation does. *)
From stdpp Require Export prelude list.
From Coq Require Export ZArith.

(** a + b i *)
Notation gauss := (Z * Z)%type.
Definition gadd (a b : gauss) : gauss := (a.1 + b.1, a.2 + b.2)%Z.
Definition gmul (a b : gauss) : gauss := (a.1 * b.1 - a.2 * b.2, a.1 * b.2 + a.2 * b.1)%Z.
Definition gconj (a : gauss) : gauss := (a.1, - a.2)%Z.
Definition g0 : gauss := (0, 0)%Z.
Definition g1 : gauss := (1, 0)%Z.
Definition gi : gauss := (0, 1)%Z.
Definition gneg (a : gauss) : gauss := (- a.1, - a.2)%Z.

(** Lists of rows. *)
Notation matrix := (list (list (Z * Z))).
Definition dot (a b : list gauss) : gauss := foldr gadd g0 (zip_with gmul a b).
Definition column (m : matrix) (j : nat) : list gauss := map (λ r, default g0 (r !! j)) m.
Definition columns (m : matrix) : matrix := map (column m) (seq 0 (length (default [] (head m)))).
Definition mmul (a b : matrix) : matrix := map (λ r, map (dot r) (columns b)) a.
Definition scaled (c : gauss) (m : matrix) : matrix := map (map (gmul c)) m.
Definition adjoint (m : matrix) : matrix := map (map gconj) (columns m).
Definition kron (a b : matrix) : matrix :=
  concat (map (λ ra, map (λ rb, concat (map (λ x, map (gmul x) rb) ra)) b) a).
Definition mone (n : nat) : matrix :=
  map (λ i, map (λ j, if i =? j then g1 else g0) (seq 0 n)) (seq 0 n).

(** The Pauli operators Z^z X^x. *)
Definition mat_x : matrix := [[g0; g1]; [g1; g0]].
Definition mat_y : matrix := [[g0; gneg gi]; [gi; g0]].
Definition mat_z : matrix := [[g1; g0]; [g0; gneg g1]].
Definition pauli_matrix (p : bool * bool) : matrix :=
  mmul (if p.1 then mat_z else mone 2) (if p.2 then mat_x else mone 2).

Definition phases : list gauss := [g1; gi; gneg g1; gneg gi].

(** Equal up to a phase. *)
Definition up_to_phase (a b : matrix) : Prop := ∃ c, c ∈ phases ∧ a = scaled c b.

(** A positive multiple of a unitary matrix. *)
Definition unitary (n : nat) (u : matrix) : Prop :=
  ∃ c, (0 < c)%Z ∧ mmul u (adjoint u) = scaled (c, 0%Z) (mone n).

(** Applying [p] and then the gate is, up to a phase, applying the gate and then [p']. *)
Definition conjugates1 (u : matrix) (p p' : bool * bool) : Prop :=
  up_to_phase (mmul u (pauli_matrix p)) (mmul (pauli_matrix p') u).
Definition conjugates2 (u : matrix) (p q p' q' : bool * bool) : Prop :=
  up_to_phase (mmul u (kron (pauli_matrix p) (pauli_matrix q)))
    (mmul (kron (pauli_matrix p') (pauli_matrix q')) u).

(** The gates, up to positive factors and phases. *)
Definition mat_s : matrix := [[g1; g0]; [g0; gi]].
Definition mat_sdg : matrix := [[g1; g0]; [g0; gneg gi]].
Definition mat_h : matrix := [[g1; g1]; [g1; gneg g1]].
(** The square roots of X and Y, 1 + i X, 1 + i Y up to a phase, and their inverses. *)
Definition mat_sx : matrix := [[g1; gneg gi]; [gneg gi; g1]].
Definition mat_sxdg : matrix := [[g1; gi]; [gi; g1]].
Definition mat_sy : matrix := [[g1; gneg g1]; [g1; g1]].
Definition mat_sydg : matrix := [[g1; g1]; [gneg g1; g1]].
(** (X + Y) and (Y + Z). *)
Definition mat_hxy : matrix := [[g0; (1, -1)%Z]; [(1, 1)%Z; g0]].
Definition mat_hyz : matrix := [[g1; gneg gi]; [gi; gneg g1]].
(** The first qubit is the control. *)
Definition controlled (u : matrix) : matrix :=
  map (λ r, r ++ [g0; g0]) (mone 2) ++ map (λ r, [g0; g0] ++ r) u.
Definition mat_swap : matrix :=
  [[g1; g0; g0; g0]; [g0; g0; g1; g0]; [g0; g1; g0; g0]; [g0; g0; g0; g1]].
Definition mat_iswap : matrix :=
  [[g1; g0; g0; g0]; [g0; g0; gi; g0]; [g0; gi; g0; g0]; [g0; g0; g0; g1]].
Definition mat_iswapdg : matrix :=
  [[g1; g0; g0; g0]; [g0; g0; gneg gi; g0]; [g0; gneg gi; g0; g0]; [g0; g0; g0; g1]].
