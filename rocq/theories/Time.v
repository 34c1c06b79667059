(** * Model of [mbqc_scheduling/src/scheduler/time.rs] *)
From Verif Require Export Base Combinatoric Tree Space.

(** [type RefPartialOrderGraph], time.rs:25. *)
Notation PartialOrderGraph := (list (list (nat * list nat))).

(** [type DepsCounters], time.rs:27 (an unordered map; its iteration order is
    never observed). *)
Notation DepsCounters := (gmap nat N).

(** [type Dependents], time.rs:28, and [struct DependencyBuffer], time.rs:34-36. *)
Notation Dependents := (list (list nat)).

(** [DependencyBuffer::new], time.rs:41-45. *)
Definition dependency_buffer_new (len : nat) : Dependents := replicate len [].

(** [trait MeasurableSet], time.rs:340-346 (with its supertrait [Default]). *)
Class MeasurableSet (T : Type) := {
  ms_init : list nat → T;
  ms_set : T → list nat;
  ms_default : T
}.

(** [impl MeasurableSet for Vec<usize>], time.rs:348-356. *)
Global Instance measurable_vec : MeasurableSet (list nat) := {
  ms_init set := set;
  ms_set set := set;
  ms_default := []
}.

(** [impl MeasurableSet for Partition<Vec<usize>>], time.rs:358-367. *)
Global Instance measurable_partition : MeasurableSet (Partition nat) := {
  ms_init set := partition_new set (length set);
  ms_set p := pset p;
  ms_default := partition_default
}.

(** [struct PathGenerator<'l, T>], time.rs:64-82. *)
Record PathGenerator (T : Type) := mkPathGenerator {
  measurable : T;
  deps_counter : DepsCounters;
  dependents : Dependents
}.
Arguments mkPathGenerator {T}.
Arguments measurable {T}.
Arguments deps_counter {T}.
Arguments dependents {T}.

(** [num_remaining_nodes], time.rs:109-111. *)
Definition num_remaining_nodes {T} (p : PathGenerator T) : nat := size (deps_counter p).

(** [has_unmeasureable], time.rs:114-116. *)
Definition has_unmeasureable {T} (p : PathGenerator T) : bool :=
  negb (size (deps_counter p) =? 0).

(** Relabelling loop of [from_dependency_graph], time.rs:145-158. *)
Definition map_graph (mapping : gmap nat nat) (graph : PartialOrderGraph)
    : PartialOrderGraph :=
  map (map (λ e, (update_bit mapping e.1, map (update_bit mapping) e.2))) graph.

(** The inner function [resolve], time.rs:160-170. *)
Definition resolve (bit : nat) (rest : PartialOrderGraph) (look : Dependents)
    : out Dependents :=
  let deps := map fst (filter (λ e, bit ∈ e.2) (concat rest)) in
  index_set look bit deps.

(** The loop over the first layer, time.rs:179-182. *)
Definition first_loop (rest : PartialOrderGraph) (first : list (nat * list nat))
    (look : Dependents) : out (Dependents * list nat) :=
  ofold (λ s e,
    let* look := resolve e.1 rest s.1 in
    Val (look, s.2 ++ [e.1])) first (look, []).

(** The body of the [while let] loop, time.rs:185-189. *)
Definition layer_loop (rest : PartialOrderGraph) (layer : list (nat * list nat))
    (s : Dependents * DepsCounters) : out (Dependents * DepsCounters) :=
  ofold (λ s e,
    let* look := resolve e.1 rest s.1 in
    Val (look, <[e.1 := N.of_nat (length e.2)]> s.2)) layer s.

(** The [while let] loop, time.rs:184-190. *)
Fixpoint rest_loop (graph : PartialOrderGraph) (s : Dependents * DepsCounters)
    : out (Dependents * DepsCounters) :=
  match graph with
  | [] => Val s
  | layer :: rest => let* s' := layer_loop rest layer s in rest_loop rest s'
  end.

(** [PathGenerator::from_dependency_graph], time.rs:127-198.  The buffer is
    borrowed by the generator, so its new content is the field [dependents]. *)
Definition from_dependency_graph {T} `{MeasurableSet T} (graph : PartialOrderGraph)
    (dependency_buffer : Dependents) (bit_mapping : option (gmap nat nat))
    : out (PathGenerator T) :=
  match graph with
  | [] => Val (mkPathGenerator ms_default ∅ dependency_buffer)
  | _ =>
      let graph := match bit_mapping with Some m => map_graph m graph | None => graph end in
      match graph with
      | [] => Panic (* unwrap of graph_iter.next(); not reachable *)
      | first :: rest =>
          let* '(look, measureable) := first_loop rest first dependency_buffer in
          let* '(look, deps) := rest_loop rest (look, ∅) in
          Val (mkPathGenerator (ms_init measureable) deps look)
      end
  end.

(** [Vec::swap_remove] on a valid position. *)
Definition swap_remove {A} (l : list A) (p : nat) : list A :=
  match last l with
  | Some x => take (length l - 1) (<[p := x]> l)
  | None => []
  end.

(** [iter().position(|m| m == e)], time.rs:207. *)
Definition position (e : nat) (l : list nat) : option nat :=
  fst <$> list_find (λ m, m = e) l.

(** [NotMeasurable(..)], time.rs:373. *)
Inductive NotMeasurable := mkNotMeasurable (bits : list nat).

(** [PathGenerator::partition], time.rs:202-217.  The capacity
    [self.measurable.set().len() - measure_set.len()] underflows if the
    instruction is longer than the measurable set: a debug build panics with an
    arithmetic overflow, a release build with a capacity overflow. *)
Definition time_partition (set measure_set : list nat)
    : out (result (list nat) NotMeasurable) :=
  if length set <? length measure_set then Panic
  else
    let '(copy, new) :=
      foldl (λ s e,
        match position e s.1 with
        | Some p => (swap_remove s.1 p, s.2)
        | None => (s.1, s.2 ++ [e])
        end) (measure_set, []) set in
    match copy with
    | [] => Val (Ok new)
    | _ => Val (Err (mkNotMeasurable copy))
    end.

(** The body of the inner loop of [update_unchecked], time.rs:233-246. *)
Definition update_dependent (bd : build) (s : DepsCounters * list nat) (bit : nat)
    : out (DepsCounters * list nat) :=
  match s.1 !! bit with
  | None => Panic (* "the {bit} is already resolved" *)
  | Some dependency_count =>
      let* c := sub_usize bd dependency_count 1 in
      if (c =? 0)%N then Val (delete bit s.1, s.2 ++ [bit])
      else Val (<[bit := c]> s.1, s.2)
  end.

(** [PathGenerator::update_unchecked], time.rs:224-248. *)
Definition update_unchecked (bd : build) (look : Dependents) (deps : DepsCounters)
    (measure_set new_measurable_set : list nat) : out (DepsCounters * list nat) :=
  ofold (λ s measure,
    let* ds := index look measure in
    ofold (update_dependent bd) ds s) measure_set (deps, new_measurable_set).

Section time.
  Context {T : Type} `{MeasurableSet T}.

  (** [PathGenerator::focus_unchecked], time.rs:252-265. *)
  Definition time_focus_unchecked (bd : build) (p : PathGenerator T)
      (measure_set new_measureable_set : list nat) : out (PathGenerator T) :=
    let* '(deps, new) :=
      update_unchecked bd (dependents p) (deps_counter p) measure_set new_measureable_set in
    Val (mkPathGenerator (ms_init new) deps (dependents p)).

  (** [Focus::focus for PathGenerator], time.rs:271-277 (the receiver is not
      modified). *)
  Definition time_focus (bd : build) (p : PathGenerator T) (measure_set : list nat)
      : out (result (PathGenerator T) NotMeasurable) :=
    let* r := time_partition (ms_set (measurable p)) measure_set in
    match r with
    | Ok new => let* p' := time_focus_unchecked bd p measure_set new in Val (Ok p')
    | Err e => Val (Err e)
    end.

  (** [Focus::focus_inplace for PathGenerator], time.rs:279-290. *)
  Definition time_focus_inplace (bd : build) (p : PathGenerator T) (measure_set : list nat)
      : out (PathGenerator T * result unit NotMeasurable) :=
    let* r := time_partition (ms_set (measurable p)) measure_set in
    match r with
    | Ok new =>
        let* '(deps, new) :=
          update_unchecked bd (dependents p) (deps_counter p) measure_set new in
        Val (mkPathGenerator (ms_init new) deps (dependents p), Ok tt)
    | Err e => Val (p, Err e)
    end.
End time.

(** [FocusIterator::next_and_focus for PathGenerator], time.rs:297-312. *)
Definition time_next_and_focus (bd : build) (p : PathGenerator (Partition nat))
    : out (PathGenerator (Partition nat)
           * option (PathGenerator (Partition nat) * list nat)) :=
  let '(m, r) := partition_next (measurable p) in
  let p := mkPathGenerator m (deps_counter p) (dependents p) in
  match r with
  | None => Val (p, None)
  | Some (new_measurable_set, measuring) =>
      match measuring with
      | [] => Val (p, None)
      | _ =>
          let* new := time_focus_unchecked bd p measuring new_measurable_set in
          Val (p, Some (new, measuring))
      end
  end.

(** [FocusIterator::at_leaf for PathGenerator], time.rs:314-316. *)
Definition time_at_leaf (p : PathGenerator (Partition nat)) : option unit :=
  match pset (measurable p) with [] => Some tt | _ => None end.

(** [impl FocusIterator for PathGenerator<Partitioner>], time.rs:293-317. *)
Definition time_focus_iterator (bd : build)
    : FocusIterator (PathGenerator (Partition nat)) (list nat) unit := {|
  next_and_focus := time_next_and_focus bd;
  at_leaf := time_at_leaf
|}.
