(** * Base: panics, results and machine integers

    Shared vocabulary of the model.  Nothing here is specific to the modelled
    crate; it fixes how Rust's panics, [Result]s and [usize] arithmetic are
    represented. *)
From stdpp Require Export prelude list gmap.
From Coq Require Export NArith Lia.

(** The outcome of running a Rust function: it returns a value or panics. *)
Inductive out (A : Type) : Type :=
| Val (a : A)
| Panic.
Arguments Val {A} a.
Arguments Panic {A}.

Definition obind {A B} (m : out A) (f : A → out B) : out B :=
  match m with Val a => f a | Panic => Panic end.

Notation "'let*' x := m 'in' k" := (obind m (λ x, k))
  (at level 200, x name, m at level 100, k at level 200, right associativity).
Notation "'let*' ' p := m 'in' k" := (obind m (λ x, let p := x in k))
  (at level 200, p pattern, m at level 100, k at level 200, right associativity).

(** Rust's [Result]. *)
Inductive result (A E : Type) : Type :=
| Ok (a : A)
| Err (e : E).
Arguments Ok {A E} a.
Arguments Err {A E} e.

(** Build profile, i.e. [cfg(debug_assertions)] and overflow checks. *)
Inductive build := Debug | Release.

(** [usize::MAX] and the modulus of [usize] on a 64 bit target. *)
Definition usize_mod : N := (2 ^ 64)%N.
Definition usize_max : N := (usize_mod - 1)%N.

(** [a + b] on [usize]: a debug build panics on overflow, a release build wraps. *)
Definition add_usize (bd : build) (a b : N) : out N :=
  if (a + b <=? usize_max)%N then Val (a + b)%N
  else match bd with Debug => Panic | Release => Val ((a + b) mod usize_mod)%N end.

(** [a - b] on [usize]: a debug build panics on underflow, a release build wraps. *)
Definition sub_usize (bd : build) (a b : N) : out N :=
  if (b <=? a)%N then Val (a - b)%N
  else match bd with Debug => Panic | Release => Val ((a + usize_mod - b) mod usize_mod)%N end.

(** [v[i]] on a [Vec]/slice: panics if out of bounds. *)
Definition index {A} (v : list A) (i : nat) : out A :=
  match v !! i with Some a => Val a | None => Panic end.

(** [v[i] = a]: panics if out of bounds. *)
Definition index_set {A} (v : list A) (i : nat) (a : A) : out (list A) :=
  match v !! i with Some _ => Val (<[i := a]> v) | None => Panic end.

(** A [for] loop whose body may panic. *)
Fixpoint ofold {A S} (f : S → A → out S) (l : list A) (s : S) : out S :=
  match l with
  | [] => Val s
  | a :: l => let* s' := f s a in ofold f l s'
  end.
