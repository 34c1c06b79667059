(** * Histories

    What a caller can do with a graph, a path generator and a scheduler: the
    vocabulary in which properties about every sequence of calls are stated.
    Contains no proofs. *)
From Verif Require Export Base Combinatoric Space Time Scheduler Spec.

Global Instance State_eq_dec : EqDecision State.
Proof. solve_decision. Defined.

(** [graph_reached adj σ gr]: [gr] is reached from a fresh graph by the
    successful measurements [σ], through [focus_inplace] or [focus], in any
    build profile. *)
Inductive graph_reached (adj : spacial) : schedule → Graph → Prop :=
| reached_new : graph_reached adj [] (graph_new adj)
| reached_inplace bd σ gr M gr' :
    graph_reached adj σ gr →
    graph_focus_inplace bd gr M = Val (gr', Ok tt) →
    graph_reached adj (σ ++ [M]) gr'
| reached_focus bd σ gr M gr0 gr' :
    graph_reached adj σ gr →
    graph_focus bd gr M = Val (gr0, Ok gr') →
    graph_reached adj (σ ++ [M]) gr'.

(** Nodes in memory. *)
Definition nodes_in_memory (gr : Graph) : nat :=
  length (filter (λ nd : State * list nat, nd.1 = InMemory) (nodes gr)).

(** [generator_reached n g σ t]: the generator [t] is reached from a newly built
    one (with a buffer of length [n] and any content) by the accepted
    instructions [σ], through [focus_inplace] or [focus], in any build profile. *)
Inductive generator_reached {T} `{MeasurableSet T} (n : nat) (g : order)
    : schedule → PathGenerator T → Prop :=
| generator_new buf t :
    length buf = n → from_dependency_graph g buf None = Val t →
    generator_reached n g [] t
| generator_inplace bd σ t M t' :
    generator_reached n g σ t →
    time_focus_inplace bd t M = Val (t', Ok tt) →
    generator_reached n g (σ ++ [M]) t'
| generator_focus bd σ t M t' :
    generator_reached n g σ t →
    time_focus bd t M = Val (Ok t') →
    generator_reached n g (σ ++ [M]) t'.

(** [scheduler_reached adj g σ s]: the scheduler [s] is reached from a newly built
    one by instructions of which exactly [σ] have been accepted. *)
Inductive scheduler_reached {T} `{MeasurableSet T} (adj : spacial) (g : order)
    : schedule → Scheduler T → Prop :=
| scheduler_new buf t :
    length buf = length adj → from_dependency_graph g buf None = Val t →
    scheduler_reached adj g [] (mkScheduler t (graph_new adj))
| scheduler_accept bd σ s M s' :
    scheduler_reached adj g σ s →
    scheduler_focus_inplace bd s M = Val (s', Ok tt) →
    scheduler_reached adj g (σ ++ [M]) s'
| scheduler_reject bd σ s M s' e :
    scheduler_reached adj g σ s →
    scheduler_focus_inplace bd s M = Val (s', Err e) →
    scheduler_reached adj g σ s'
| scheduler_clone bd σ s M s' :
    scheduler_reached adj g σ s →
    scheduler_focus bd s M = Val (Ok s') →
    scheduler_reached adj g (σ ++ [M]) s'.

(** Functions with loops take fuel in the model.  Running to completion means
    that the outcome is the same for all sufficiently large amounts of fuel. *)
Definition finishes {A} (f : nat → option (out A)) (o : out A) : Prop :=
  ∃ fuel0, ∀ fuel, fuel0 ≤ fuel → f fuel = Some o.
Definition returns {A} (f : nat → option (out A)) (a : A) : Prop := finishes f (Val a).

(** What a caller observes while making a sequence of calls: the answer and,
    after each call, the measurable set, [num_remaining_nodes] and
    [has_unmeasureable].  A panic is observed as [None] and ends the
    observation. *)
Fixpoint observe {T C A} (call : PathGenerator T → C → out (PathGenerator T * A))
    (t : PathGenerator T) (cs : list C) : list (option (A * (T * nat * bool))) :=
  match cs with
  | [] => []
  | c :: cs =>
      match call t c with
      | Panic => [None]
      | Val (t', a) =>
          Some (a, (measurable t', num_remaining_nodes t', has_unmeasureable t')) :: observe call t' cs
      end
  end.

(** Calls of [focus] ([inplace = false]; a successful one continues with the
    returned generator) and [focus_inplace]. *)
Definition call_focus {T} `{MeasurableSet T} (bd : build) (t : PathGenerator T)
    (c : bool * list nat) : out (PathGenerator T * result unit NotMeasurable) :=
  let '(inplace, M) := c in
  if inplace then time_focus_inplace bd t M
  else
    let* r := time_focus bd t M in
    match r with Ok t' => Val (t', Ok tt) | Err e => Val (t, Err e) end.

(** Moreover calls of [next_and_focus], continuing with the child
    ([descend = true]) or with the receiver. *)
Definition call_next (bd : build) (t : PathGenerator (Partition nat))
    (c : bool * list nat + bool)
    : out (PathGenerator (Partition nat) * (result unit NotMeasurable + option (list nat))) :=
  match c with
  | inl c => let* '(t', r) := call_focus bd t c in Val (t', inl r)
  | inr descend =>
      let* '(t', r) := time_next_and_focus bd t in
      match r with
      | Some (child, M) => Val (if descend then child else t', inr (Some M))
      | None => Val (t', inr None)
      end
  end.

(** An optional bit mapping as a partial map. *)
Definition mapping_fun (m : option (gmap nat nat)) (b : nat) : option nat :=
  match m with Some m => m !! b | None => None end.
