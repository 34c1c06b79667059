(** * The number of schedules: vocabulary

    Like [Spec.v], this file mentions nothing of the model. *)
From Verif Require Export Spec.

(** There are exactly [k] valid schedules, not counting the order inside the steps: a
    list of [k] valid schedules contains each of them at one position. *)
Definition amount (g : order) (k : nat) : Prop :=
  ∃ L : list schedule, length L = k ∧ (∀ σ, σ ∈ L → valid_schedule g σ) ∧
    ∀ σ, valid_schedule g σ →
      ∃ i τ, L !! i = Some τ ∧ same_schedule τ σ ∧ ∀ j υ, L !! j = Some υ → same_schedule υ σ → j = i.
