(** * Model of [mbqc_scheduling/src/scheduler/tree.rs] *)
From Verif Require Export Base.

(** [enum Step<F, B>], tree.rs:50-55. *)
Inductive Step (F B : Type) := Forward (f : F) | Backward (b : B).
Arguments Forward {F B} f.
Arguments Backward {F B} b.

(** [trait FocusIterator], tree.rs:31-45.  [next_and_focus(&mut self)] returns
    the advanced receiver together with the optional pair; it may panic. *)
Class FocusIterator (T Item Leaf : Type) := {
  next_and_focus : T → out (T * option (T * Item));
  at_leaf : T → option Leaf
}.

(** [struct Sweep<T>], tree.rs:68-71.  The top of the stack is the head of the
    list (in Rust the last element of the [Vec]). *)
Record Sweep (T : Type) := mkSweep { current : T; stack : list T }.
Arguments mkSweep {T}.
Arguments current {T}.
Arguments stack {T}.

(** [Sweep::new], tree.rs:82-84. *)
Definition sweep_new {T} (t : T) : Sweep T := mkSweep t [].

(** [Sweep::skip_current], tree.rs:98-101; [EmptyStack] is the error. *)
Definition skip_current {T} (s : Sweep T) : Sweep T * result unit unit :=
  match stack s with
  | t :: st => (mkSweep t st, Ok tt)
  | [] => (s, Err tt)
  end.

(** [Iterator::next for Sweep], tree.rs:107-119.  Note that in the [None] case
    [self.stack.pop()?] leaves [self.current] (already advanced by
    [next_and_focus]) in place when the stack is empty. *)
Definition sweep_next {T Item Leaf} `{FocusIterator T Item Leaf} (s : Sweep T)
    : out (Sweep T * option (Step Item (option Leaf))) :=
  let* '(cur, r) := next_and_focus (current s) in
  match r with
  | Some (new, mess) => Val (mkSweep new (cur :: stack s), Some (Forward mess))
  | None =>
      let at_end := at_leaf cur in
      match stack s with
      | t :: st => Val (mkSweep t st, Some (Backward at_end))
      | [] => Val (mkSweep cur [], None)
      end
  end.
