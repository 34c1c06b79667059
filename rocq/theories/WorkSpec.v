(** * Specification of the amount of work of sweeps and searches *)
From Verif Require Export Spec Interface.

(** The first steps of schedules, without the empty one. *)
Definition beginning (g : order) (σ : schedule) : Prop := legal_prefix g σ ∧ σ ≠ [].

(** There are [k] of them, not distinguishing the order within a step. *)
Definition beginnings (g : order) (k : nat) : Prop :=
  ∃ qs : list schedule, length qs = k ∧ (∀ q, q ∈ qs → beginning g q) ∧
    ∀ σ, beginning g σ →
      ∃ i q, qs !! i = Some q ∧ same_schedule q σ ∧
        ∀ j q', qs !! j = Some q' → same_schedule q' σ → j = i.

(** The iterations of the tasks in a multi threaded execution. *)
Definition is_iteration (e : event) : bool := match e with EIter _ _ => true | _ => false end.
Definition iterations (es : list event) : nat := length (List.filter is_iteration es).
Definition observed_iterations (es : list (timer_event + event)) : nat :=
  length (List.filter (λ e, match e with inl _ => false | inr e => is_iteration e end) es).
