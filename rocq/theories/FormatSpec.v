(** * Specification of the two file formats

    Independent of the model of the crates in [Codec.v]: which texts stand for
    which value. *)
From stdpp Require Import strings.
From Verif Require Export Spec.

Notation bytes := (list Init.Byte.byte).

(** A [usize] with 64 bits. *)
Definition fits (n : N) : Prop := (n < 2 ^ 64)%N.

(** All numbers fit into a [usize]. *)
Definition spacial_fits (adj : spacial) : Prop := ∀ l v, l ∈ adj → v ∈ l → fits (N.of_nat v).
Definition order_fits (g : order) : Prop :=
  ∀ l v ds, l ∈ g → (v, ds) ∈ l → fits (N.of_nat v) ∧ ∀ d, d ∈ ds → fits (N.of_nat d).

Definition path_fits (p : path) : Prop :=
  fits (N.of_nat (time p)) ∧ fits (space p) ∧ spacial_fits (steps p).

(** The lengths of the vectors fit as well, which holds for every vector in memory. *)
Definition spacial_lengths (adj : spacial) : Prop :=
  fits (N.of_nat (length adj)) ∧ ∀ l, l ∈ adj → fits (N.of_nat (length l)).
Definition order_lengths (g : order) : Prop :=
  fits (N.of_nat (length g)) ∧ ∀ l, l ∈ g → fits (N.of_nat (length l)) ∧
    ∀ v ds, (v, ds) ∈ l → fits (N.of_nat (length ds)).

(** ** JSON (RFC 8259), for arrays of numbers *)

(** Space, tab, line feed, carriage return. *)
Definition blank (w : bytes) : Prop :=
  Forall (λ c, Byte.to_N c = 32 ∨ Byte.to_N c = 9 ∨ Byte.to_N c = 10 ∨ Byte.to_N c = 13)%N w.

Definition char (s : string) : bytes := String.list_byte_of_string s.

(** The digits, the highest first, with the codes from 48 to 57. *)
Definition digits_value (ds : list N) : N := foldl (λ n d, 10 * n + d)%N 0%N ds.

Definition json_number (n : N) (t : bytes) : Prop :=
  ∃ w ds, blank w ∧ t = w ++ List.concat (map (λ d, option_list (Byte.of_N (48 + d))) ds) ∧
    Forall (λ d, (d < 10)%N) ds ∧ ds ≠ [] ∧ (head ds = Some 0%N → ds = [0%N]) ∧
    n = digits_value ds ∧ fits n.

Definition json_nat (n : nat) (t : bytes) : Prop := json_number (N.of_nat n) t.

(** Values separated by commas, each followed by blanks. *)
Inductive json_items {A} (R : A → bytes → Prop) : list A → bytes → Prop :=
| items_one a t w : R a t → blank w → json_items R [a] (t ++ w)
| items_more a l t w t' : R a t → blank w → json_items R l t' →
    json_items R (a :: l) (t ++ w ++ char "," ++ t').

Inductive json_array {A} (R : A → bytes → Prop) : list A → bytes → Prop :=
| array_empty w w' : blank w → blank w' → json_array R [] (w ++ char "[" ++ w' ++ char "]")
| array_items l w t : blank w → json_items R l t → json_array R l (w ++ char "[" ++ t ++ char "]").

Definition json_pair {A B} (R : A → bytes → Prop) (Q : B → bytes → Prop) (p : A * B) (t : bytes) : Prop :=
  ∃ w tx wx ty wy, blank w ∧ blank wx ∧ blank wy ∧ R p.1 tx ∧ Q p.2 ty ∧
    t = w ++ char "[" ++ tx ++ wx ++ char "," ++ ty ++ wy ++ char "]".

Definition json_spacial_text : spacial → bytes → Prop := json_array (json_array json_nat).
Definition json_order_text : order → bytes → Prop :=
  json_array (json_array (json_pair json_nat (json_array json_nat))).

(** A whole file may end with blanks. *)
Definition json_file {A} (R : A → bytes → Prop) (a : A) (b : bytes) : Prop :=
  ∃ t w, b = t ++ w ∧ R a t ∧ blank w.

(** ** bincode *)

Definition bin_u64 (n : N) (t : bytes) : Prop :=
  length t = 8 ∧ n = foldr (λ c n, Byte.to_N c + 256 * n)%N 0%N t.
Definition bin_nat (n : nat) (t : bytes) : Prop := bin_u64 (N.of_nat n) t.

Definition bin_vec {A} (R : A → bytes → Prop) (l : list A) (t : bytes) : Prop :=
  ∃ t0 ts, t = t0 ++ List.concat ts ∧ bin_nat (length l) t0 ∧ Forall2 R l ts.

Definition bin_pair {A B} (R : A → bytes → Prop) (Q : B → bytes → Prop) (p : A * B) (t : bytes) : Prop :=
  ∃ tx ty, t = tx ++ ty ∧ R p.1 tx ∧ Q p.2 ty.

Definition bin_spacial_text : spacial → bytes → Prop := bin_vec (bin_vec bin_nat).
Definition bin_order_text : order → bytes → Prop := bin_vec (bin_vec (bin_pair bin_nat (bin_vec bin_nat))).

Definition bin_path_text (p : path) (t : bytes) : Prop :=
  ∃ t1 t2 t3, t = t1 ++ t2 ++ t3 ∧ bin_nat (time p) t1 ∧ bin_u64 (space p) t2 ∧
    bin_vec (bin_vec bin_nat) (steps p) t3.

(** The value comes first in the file; nothing is said about what follows. *)
Definition bin_file {A} (R : A → bytes → Prop) (a : A) (b : bytes) : Prop :=
  ∃ t r, b = t ++ r ∧ R a t.
