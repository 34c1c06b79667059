(** * Properties: lower bounds of the costs *)
From Verif Require Import BoundsFacts Check.
From Verif Require Import BoundsSpec.

(** ** C80: what every returned path needs at least *)

Theorem C80_lower :
  ∀ adj g env do_search timeout nthreads bound prob bd fuel ps p,
  wf_input adj g → (∀ l, e_hash_order env l ≡ₚ l) → (∃ b, listed g b) →
  run bd fuel env adj g do_search timeout nthreads bound prob = Some (Val ps) → p ∈ ps →
  (* no step measures more qubits than fit into the memory *)
  (N.of_nat (length (qubits g)) <= N.of_nat (time p) * space p)%N ∧
  (* before the first member of a clique is measured all of them are in memory *)
  (∀ K, clique adj K → (∃ b, b ∈ K ∧ listed g b) → (N.of_nat (length K) <= space p)%N) ∧
  (* for the first measurement a qubit without dependencies needs its neighbours *)
  (∃ b, listed g b ∧ (∀ d, ¬ depends g b d) ∧ (N.of_nat (length (closed_neighbourhood adj b)) <= space p)%N).
Proof. exact run_lower. Qed.
Print Assumptions C80_lower.

(** The first bound cannot be improved: without edges and dependencies all shapes of the
    area are found. *)
Theorem C80_area_sharp :
  ∀ n ps, 1 ≤ n → (N.of_nat n < 2 ^ 64 - 1)%N → searched (replicate n []) (no_dependencies n) ps →
  ∀ t w, (∃ p, p ∈ ps ∧ time p ≤ t ∧ (space p <= N.of_nat w)%N) ↔ n ≤ t * w.
Proof. exact run_edgeless. Qed.
Print Assumptions C80_area_sharp.

(** Nor can the other two: for complete graphs there is nothing to trade. *)
Theorem C80_complete :
  ∀ n ps, 1 ≤ n → (N.of_nat n < 2 ^ 64 - 1)%N → searched (complete n) (no_dependencies n) ps →
  ∃ p, ps = [p] ∧ time p = 1 ∧ space p = N.of_nat n.
Proof. exact run_complete. Qed.
Print Assumptions C80_complete.

Definition bounds_env : Env := mkEnv (λ _, []) [] id idle_gen (λ x, x).

(** Five nodes without edges: 5 = 1 * 5, 5 <= 2 * 3, 5 <= 3 * 2, 5 = 5 * 1. *)
Example C80_example :
  run Release 1000 bounds_env (replicate 5 []) (no_dependencies 5) true None 1 None None
  = Some (Val [MkPath 1 5 [[0; 1; 2; 3; 4]]; MkPath 2 3 [[2; 3; 4]; [0; 1]];
               MkPath 3 2 [[3; 4]; [1; 2]; [0]]; MkPath 5 1 [[4]; [3]; [2]; [1]; [0]]]) ∧
  complete 3 = [[1; 2]; [0; 2]; [0; 1]] ∧
  run Release 1000 bounds_env (complete 3) (no_dependencies 3) true None 1 None None
  = Some (Val [MkPath 1 3 [[0; 1; 2]]]) ∧
  clique (complete 3) [0; 2] ∧ closed_neighbourhood (complete 3) 1 = [1; 0; 2].
Proof.
  repeat split; try by vm_compute.
  - by apply (bool_decide_unpack _).
  - intros v. rewrite !elem_of_cons, elem_of_nil. simpl. lia.
  - intros u v. rewrite !elem_of_cons, !elem_of_nil, complete_neighbours. lia.
Qed.
