(** * Model of [mbqc_scheduling/src/scheduler.rs] *)
From Verif Require Export Base Combinatoric Tree Space Time.

(** [struct Scheduler<'l, T>], scheduler.rs:36-39. *)
Record Scheduler (T : Type) := mkScheduler {
  s_time : PathGenerator T;
  s_space : Graph
}.
Arguments mkScheduler {T}.
Arguments s_time {T}.
Arguments s_space {T}.

(** [enum InstructionError], scheduler.rs:121-128. *)
Inductive InstructionError :=
| ENotMeasurable (e : NotMeasurable)
| EAlreadyMeasured (e : AlreadyMeasured).

(** The [space] half of focusing, scheduler.rs:63-66, 75-78 and 97-100: debug
    builds use the checked, release builds the unchecked variant. *)
Definition space_focus_inplace (bd : build) (g : Graph) (measure_set : list nat)
    : out (Graph * result unit AlreadyMeasured) :=
  match bd with
  | Debug => graph_focus_inplace Debug g measure_set
  | Release =>
      let* g' := graph_focus_inplace_unchecked Release g measure_set in Val (g', Ok tt)
  end.

Section focus.
  Context {T : Type} `{MeasurableSet T}.

  (** [Focus::focus_inplace for Scheduler], scheduler.rs:61-68. *)
  Definition scheduler_focus_inplace (bd : build) (s : Scheduler T) (measure_set : list nat)
      : out (Scheduler T * result unit InstructionError) :=
    let* '(t, r) := time_focus_inplace bd (s_time s) measure_set in
    match r with
    | Err e => Val (mkScheduler t (s_space s), Err (ENotMeasurable e))
    | Ok _ =>
        let* '(g, r) := space_focus_inplace bd (s_space s) measure_set in
        match r with
        | Ok _ => Val (mkScheduler t g, Ok tt)
        | Err e => Val (mkScheduler t g, Err (EAlreadyMeasured e))
        end
    end.

  (** [Focus::focus for Scheduler], scheduler.rs:70-83 (the receiver is not
      modified; [Graph::focus] works on a clone). *)
  Definition scheduler_focus (bd : build) (s : Scheduler T) (measure_set : list nat)
      : out (result (Scheduler T) InstructionError) :=
    let* r := time_focus bd (s_time s) measure_set in
    match r with
    | Err e => Val (Err (ENotMeasurable e))
    | Ok new_time =>
        let* '(g, r) := space_focus_inplace bd (s_space s) measure_set in
        match r with
        | Ok _ => Val (Ok (mkScheduler new_time g))
        | Err e => Val (Err (EAlreadyMeasured e))
        end
    end.
End focus.

Notation Partitioner := (Partition nat).

(** [FocusIterator::next_and_focus for Scheduler], scheduler.rs:90-108; the
    [unwrap] of the debug build is a panic. *)
Definition scheduler_next_and_focus (bd : build) (s : Scheduler Partitioner)
    : out (Scheduler Partitioner * option (Scheduler Partitioner * list nat)) :=
  let* '(t, r) := time_next_and_focus bd (s_time s) in
  let s := mkScheduler t (s_space s) in
  match r with
  | None => Val (s, None)
  | Some (new_time, mess) =>
      let* '(g, r) := space_focus_inplace bd (s_space s) mess in
      match r with
      | Ok _ => Val (s, Some (mkScheduler new_time g, mess))
      | Err _ => Panic
      end
  end.

(** [FocusIterator::at_leaf for Scheduler], scheduler.rs:110-116. *)
Definition scheduler_at_leaf (s : Scheduler Partitioner) : option N :=
  match pset (measurable (s_time s)) with
  | [] => Some (max_memory (s_space s))
  | _ => None
  end.

(** [impl FocusIterator for Scheduler<'_, Partitioner>], scheduler.rs:86-117. *)
Definition scheduler_focus_iterator (bd : build)
    : FocusIterator (Scheduler Partitioner) (list nat) N := {|
  next_and_focus := scheduler_next_and_focus bd;
  at_leaf := scheduler_at_leaf
|}.
