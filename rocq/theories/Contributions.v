(** * Vocabulary for the merging of the results of the tasks

    Used in the statements only, see [Properties_Threaded.v]. *)
From Verif Require Export Executions.
From Verif Require Export Spec.

(** The results that the tasks have when they end ([new_results],
    threaded.rs:123-133), in the order in which they are merged
    (threaded.rs:141-157). *)
Fixpoint collected (bd : build) (nthreads : nat)
    (probabilistic : option ((nat → Accept) * (nat → nat → f64)))
    (sys : System) (es : list event) : list MappedPaths :=
  match es with
  | [] => []
  | e :: es =>
      match exec bd nthreads probabilistic sys e with
      | Some (Val sys') =>
          match e with
          | EEnd i =>
              match sys_tasks sys !! i with
              | Some (Ending t) =>
                  match task_end t with Val (new_results, _) => [new_results] | Panic => [] end
              | _ => []
              end
          | _ => []
          end ++ collected bd nthreads probabilistic sys' es
      | _ => []
      end
  end.

(** Of every time the better one of the two results (not in the code, which
    compares the bounds instead of the results). *)
Definition keep_better (results new : MappedPaths) : MappedPaths :=
  union_with (λ old r, Some (if (r.1 <? old.1)%N then r else old)) results new.

Definition task_of (e : event) : nat :=
  match e with EStart i | EIter i _ | EEnd i => i end.

(** No task ends between the start and the end of a task that reaches an
    exchange (that performs more than 1000 iterations), and no other task that
    reaches an exchange does anything. *)
Definition undisturbed (es : list event) : Prop :=
  ∀ before i between e after,
  es = before ++ EStart i :: between ++ e :: after →
  1000 < iterations i es → EEnd i ∉ between →
  task_of e = i ∨ (iterations (task_of e) es ≤ 1000 ∧ ∀ k, e ≠ EEnd k).
