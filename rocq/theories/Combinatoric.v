(** * Model of [mbqc_scheduling/src/scheduler/combinatoric.rs] *)
From Verif Require Export Base.

(** [itertools::Itertools::combinations]: the [k]-element sub-lists of [l], in
    lexicographic order of positions.  (External crate itertools 0.12; modelled
    by its documented order.) *)
Fixpoint combinations (k : nat) (l : list nat) : list (list nat) :=
  match k, l with
  | 0, _ => [[]]
  | S _, [] => []
  | S k', x :: l' => map (cons x) (combinations k' l') ++ combinations k l'
  end.

(** [(0..len).powerset()] (itertools 0.12): all sub-lists of [0..len], by
    increasing size, each size in lexicographic order.  combinatoric.rs:24.
    Simplification: the lazy iterator is represented by the list of the items it
    will still yield. *)
Definition powerset (len : nat) : list (list nat) :=
  concat (map (λ k, combinations k (seq 0 len)) (seq 0 (S len))).

(** [struct Partition<T>], combinatoric.rs:7-10, for [T = Vec<A>]. *)
Record Partition (A : Type) := mkPartition {
  pset : list A;
  piter : list (list nat)
}.
Arguments mkPartition {A}.
Arguments pset {A}.
Arguments piter {A}.

(** [Partition::default], combinatoric.rs:12-19: [(0..0).powerset()]. *)
Definition partition_default {A} : Partition A := mkPartition [] (powerset 0).

(** [Partition::new(set, len)], combinatoric.rs:23-25. *)
Definition partition_new {A} (set : list A) (len : nat) : Partition A :=
  mkPartition set (powerset len).

(** The [partition_map] closure, combinatoric.rs:37-45: [subset] is the peekable
    iterator, [i] the enumeration index of the first element of [l]. *)
Fixpoint partition_map {A} (i : nat) (subset : list nat) (l : list A)
    : list A * list A :=
  match l with
  | [] => ([], [])
  | e :: l' =>
      match subset with
      | p :: subset' =>
          if p =? i
          then let r := partition_map (S i) subset' l' in (e :: r.1, r.2)
          else let r := partition_map (S i) subset l' in (r.1, e :: r.2)
      | [] => let r := partition_map (S i) [] l' in (r.1, e :: r.2)
      end
  end.

(** [Iterator::next for Partition], combinatoric.rs:33-49. *)
Definition partition_next {A} (p : Partition A)
    : Partition A * option (list A * list A) :=
  match piter p with
  | subset :: rest => (mkPartition (pset p) rest, Some (partition_map 0 subset (pset p)))
  | [] => (p, None)
  end.
