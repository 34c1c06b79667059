(** * Which random numbers decide what *)
From Verif Require Export Callbacks Interface.

(** What an accept function is asked: its seven arguments. *)
Definition Question := (f64 * f64 * f64 * f64 * f64 * f64 * f64)%type.

Definition answer (acc : Accept) (k : nat) (q : Question) : out f64 :=
  let '(a, b, c, d, e, r, n) := q in acc k a b c d e r n.

(** No random number is needed: the answer is at least 1 (or there is none). *)
Definition certain (x : out f64) : bool :=
  match x with Val x => SFleb f64_one x | Panic => true end.

(** If call number [k] is asked [q k], then [used acc q k] random numbers have been
    needed before it. *)
Fixpoint used (acc : Accept) (q : nat → Question) (k : nat) : nat :=
  match k with
  | 0 => 0
  | S k => if certain (answer acc k (q k)) then used acc q k else S (used acc q k)
  end.

(** Whether the step in question is taken. *)
Definition verdict (acc : Accept) (numbers : nat → f64) (q : nat → Question) (k : nat) : out bool :=
  let* x := answer acc k (q k) in
  Val (SFleb f64_one x || SFltb (numbers (used acc q k)) x).

(** The random numbers of task [i].  One thread: the numbers of the generator with
    the given seed.  Several threads: those of the generator whose seed is number
    [i] of the generator with the given seed. *)
Definition numbers (gen : Generators) (nthreads : nat) (seed : option N) (i : nat) : nat → f64 :=
  match nthreads, seed with
  | (0 | 1), Some s => seeded_samples gen s
  | (0 | 1), None => entropy_samples gen
  | _, Some s => seeded_samples gen (seeded_u64 gen s i)
  | _, None => seeded_samples gen (entropy_u64 gen i)
  end.
