(** * Vocabulary for executions of the multi threaded search

    Used in the statements only, see [Properties_Threaded.v]. *)
From Verif Require Export Threaded Sweeping Histories.
From Verif Require Export Spec.

(** The timer has not finished whenever a task could look at it. *)
Definition no_timeout (es : list event) : Prop := ∀ i fin, EIter i fin ∈ es → fin = false.

(** The timer has finished whenever a task could look at it. *)
Definition timed_out (es : list event) : Prop := ∀ i fin, EIter i fin ∈ es → fin = true.

Definition is_iteration (i : nat) (e : event) : bool :=
  match e with EIter k _ => k =? i | _ => false end.

(** The number of iterations of task [i]. *)
Definition iterations (i : nat) (es : list event) : nat :=
  length (filter (λ e, is_iteration i e = true) es).

(** The schedules below a submitted task, in the order in which an exhaustive
    sweep meets them: a task that starts at a leaf consists of that leaf
    (threaded.rs:230-239), the others are swept as by [get_all_paths]. *)
Definition job_paths (bd : build) (fuel : nat) (j : Job) : option (out (list (list (list nat) * N))) :=
  let prefix := match job_measure j with Some M => [M] | None => [] end in
  match job_measure j, scheduler_at_leaf (job_scheduler j) with
  | Some M, Some m => Some (Val [(prefix, m)])
  | _, _ => get_all_paths (H := scheduler_focus_iterator bd) fuel prefix (job_scheduler j)
  end.

(** The tasks submitted by [search] for the given arguments. *)
Definition submitted (bd : build) (adj : spacial) (g : order) (task_bound : Z) (jobs : list Job) : Prop :=
  ∃ s, search_scheduler adj g = Val s ∧ returns (λ fuel, spawn bd fuel task_bound s) jobs.
