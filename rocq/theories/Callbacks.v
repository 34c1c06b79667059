(** * Accept functions that do not panic

    Vocabulary for statements about searches with an accept function.  Contains
    no proofs. *)
From Verif Require Export Search.

(** No call panics, whatever the arguments are. *)
Definition never_panics (acc : Accept) : Prop :=
  ∀ k a b c d e r n, acc k a b c d e r n ≠ Panic.

(** The same for the optional argument of [search_single], of one task, and of a
    search with several tasks. *)
Definition calm {S} (prob : option (Accept * S)) : Prop :=
  match prob with Some (acc, _) => never_panics acc | None => True end.
Definition all_calm {S} (prob : option ((nat → Accept) * S)) : Prop :=
  match prob with Some (acc, _) => ∀ i, never_panics (acc i) | None => True end.
Definition calm_function (prob : option (nat → Accept)) : Prop :=
  match prob with Some acc => ∀ i, never_panics (acc i) | None => True end.

(** Where [acc] answers, [acc'] gives the same answer. *)
Definition extends (acc acc' : Accept) : Prop :=
  ∀ k a b c d e r n x, acc k a b c d e r n = Val x → acc' k a b c d e r n = Val x.

(** The accept function that answers [acc]'s panics with [0.]. *)
Definition calmed (acc : Accept) : Accept :=
  λ k a b c d e r n,
    match acc k a b c d e r n with Val x => Val x | Panic => Val (S754_zero false) end.

(** ** The question put to an accept function

    Independent of the data structures of the search: everything is expressed in
    terms of the two graphs, the schedule so far, and the paths known so far. *)

(** The lowest space of the known paths with at most [k] steps; [usize::MAX] if
    there is none. *)
Definition lowest_space (ps : list path) (k : nat) : N :=
  foldr (λ p m, if time p <=? k then N.min (space p) m else m) usize_max ps.

(** The number of qubits in memory after the steps [σ]: they are needed by the
    measured ones and not measured themselves. *)
Definition kept (adj : spacial) (σ : schedule) : nat :=
  length (filter (λ v, v ∉ concat σ ∧ needed adj (concat σ) v) (seq 0 (length adj))).

(** [b] cannot be measured in the step after [σ]. *)
Definition blocked (g : order) (σ : schedule) (b : nat) : Prop :=
  listed g b ∧ b ∉ concat σ ∧ ∃ d, depends g b d ∧ d ∉ concat σ.

(** [L] is the simplest lower bound on the number of steps of a complete schedule
    that starts with [σ]: as long as [σ] if nothing is left to be measured, one more
    step if everything left can be measured at once, and two more otherwise. *)
Definition steps_at_least (g : order) (σ : schedule) (L : nat) : Prop :=
  (∀ b, listed g b → b ∈ concat σ) ∧ L = length σ ∨
  (∃ b, listed g b ∧ b ∉ concat σ) ∧ (∀ b, ¬ blocked g σ b) ∧ L = length σ + 1 ∨
  (∃ b, blocked g σ b) ∧ L = length σ + 2.

(** The arguments with which an accept function is asked whether the step [M]
    should be taken after [σ], search.rs:297-308; the documentation of [Accept] is
    in probabilistic.rs:4-22.  [limit k m]: [m] is the memory to be beaten with [k]
    steps. *)
Record question (adj : spacial) (g : order) (limit : nat → N → Prop) (σ : schedule) (M : step)
    (bound_best_mem minimal_mem last_max_mem last_cur_mem cur_mem
     num_remaining_nodes num_total_nodes : f64) : Prop := {
  qn_legal : legal_prefix g (σ ++ [M]);
  qn_bound : ∃ k m, steps_at_least g (σ ++ [M]) k ∧ limit k m ∧
               bound_best_mem = f64_of_usize m ∧
               (N.of_nat (space_cost adj (σ ++ [M])) < m)%N;
  qn_minimal : ∃ m, limit (length adj) m ∧ minimal_mem = f64_of_usize m;
  qn_last_max : last_max_mem = f64_of_usize (N.of_nat (space_cost adj σ));
  qn_last_cur : last_cur_mem = f64_of_usize (N.of_nat (kept adj σ));
  qn_cur : cur_mem = f64_of_usize (N.of_nat (kept adj (σ ++ [M])));
  qn_remaining : ∃ l, NoDup l ∧ (∀ b, b ∈ l ↔ blocked g (σ ++ [M]) b) ∧
                   num_remaining_nodes = f64_of_usize (N.of_nat (length l));
  qn_total : num_total_nodes = f64_of_usize (N.of_nat (length adj))
}.

(** A single threaded search compares with the paths that it knows; for several
    threads only this is said: it is the space of some schedule with at most that
    many steps, or [usize::MAX]. *)
Definition known_limit (ps : list path) (k : nat) (m : N) : Prop := m = lowest_space ps k.
Definition possible_limit (adj : spacial) (g : order) (k : nat) (m : N) : Prop :=
  m = usize_max ∨
  ∃ τ, valid_schedule g τ ∧ time_cost τ ≤ k ∧ m = N.of_nat (space_cost adj τ).
