(** * Model of the two file formats

    [mbqc_scheduling/src/interface.rs] lines 155-156 and 167-168 write and read
    values with the crates [serde_json] (1.0) and [bincode] (1.3).  The values are
    [Vec<Path>] with the derived [Serialize]/[Deserialize] (interface.rs:15),
    [SpacialGraph] (scheduler/space.rs) and [PartialOrderGraph] (pauli_tracker),
    i.e., nested vectors and pairs of [usize].  This file models what these two
    crates do for these types; [usize] has 64 bits.

    Simplification: in a JSON object for a [Path], unknown fields (which are
    ignored) and keys that are written with escape sequences are not accepted
    here.  Errors are not distinguished. *)
From Coq Require Import Decimal DecimalN DecimalNat.
From stdpp Require Import strings.
From Verif Require Export Interface.

Definition text (s : string) : bytes := String.list_byte_of_string s.

Definition usize_limit : N := 2 ^ 64.

(** ** serde_json: reading *)

Notation parser A := (bytes → option (A * bytes)).

Definition is_blank (b : Byte.byte) : bool :=
  match b with Byte.x20 | Byte.x09 | Byte.x0a | Byte.x0d => true | _ => false end.

Fixpoint skip_blanks (b : bytes) : bytes :=
  match b with c :: r => if is_blank c then skip_blanks r else b | [] => [] end.

(** The next character after blanks. *)
Definition expect (c : Byte.byte) (b : bytes) : option bytes :=
  match skip_blanks b with
  | d :: r => if Byte.eqb c d then Some r else None
  | [] => None
  end.

Fixpoint take_digits (b : bytes) : uint * bytes :=
  match b with
  | [] => (Nil, [])
  | c :: r =>
      let more (f : uint → uint) := let (d, r) := take_digits r in (f d, r) in
      match c with
      | Byte.x30 => more D0 | Byte.x31 => more D1 | Byte.x32 => more D2
      | Byte.x33 => more D3 | Byte.x34 => more D4 | Byte.x35 => more D5
      | Byte.x36 => more D6 | Byte.x37 => more D7 | Byte.x38 => more D8
      | Byte.x39 => more D9
      | _ => (Nil, b)
      end
  end.

(** A number without sign, fraction and exponent (anything else is not a
    [usize]), without superfluous zeros. *)
Definition json_read_usize : parser N := λ b,
  let (d, r) := take_digits (skip_blanks b) in
  match d with
  | Nil => None
  | D0 Nil => Some (0%N, r)
  | D0 _ => None
  | _ => let n := N.of_uint d in if (n <? usize_limit)%N then Some (n, r) else None
  end.

Definition json_read_nat : parser nat := λ b,
  match json_read_usize b with Some (n, r) => Some (N.to_nat n, r) | None => None end.

(** The elements of an array up to its end; every element has at least one
    character, so that [fuel] can be the length of the text. *)
Fixpoint json_read_items {A} (p : parser A) (fuel : nat) (b : bytes) : option (list A * bytes) :=
  match fuel with
  | 0 => None
  | S fuel =>
      match p b with
      | None => None
      | Some (a, b) =>
          match skip_blanks b with
          | Byte.x2c (* , *) :: b =>
              match json_read_items p fuel b with
              | Some (l, b) => Some (a :: l, b)
              | None => None
              end
          | Byte.x5d (* ] *) :: b => Some ([a], b)
          | _ => None
          end
      end
  end.

Definition json_read_seq {A} (p : parser A) : parser (list A) := λ b,
  match skip_blanks b with
  | Byte.x5b (* [ *) :: b =>
      match skip_blanks b with
      | Byte.x5d (* ] *) :: b => Some ([], b)
      | _ => json_read_items p (length b) b
      end
  | _ => None
  end.

(** A pair is an array with two elements. *)
Definition json_read_pair {A B} (p : parser A) (q : parser B) : parser (A * B) := λ b,
  b ← expect Byte.x5b b; '(x, b) ← p b; b ← expect Byte.x2c b; '(y, b) ← q b;
  b ← expect Byte.x5d b; Some ((x, y), b).

(** The fields of a [Path], interface.rs:19-30. *)
Inductive field := FTime (n : nat) | FSpace (n : N) | FSteps (s : Steps).

Fixpoint strip (prefix b : bytes) : option bytes :=
  match prefix, b with
  | [], _ => Some b
  | c :: prefix, d :: b => if Byte.eqb c d then strip prefix b else None
  | _ :: _, [] => None
  end.

Definition json_read_field : parser field := λ b,
  let b := skip_blanks b in
  match strip (text """time""") b with
  | Some b => b ← expect Byte.x3a b; '(n, b) ← json_read_nat b; Some (FTime n, b)
  | None =>
      match strip (text """space""") b with
      | Some b => b ← expect Byte.x3a b; '(n, b) ← json_read_usize b; Some (FSpace n, b)
      | None =>
          match strip (text """steps""") b with
          | Some b =>
              b ← expect Byte.x3a b; '(s, b) ← json_read_seq (json_read_seq json_read_nat) b;
              Some (FSteps s, b)
          | None => None
          end
      end
  end.

(** Every field once, in any order. *)
Definition path_of_fields (f1 f2 f3 : field) : option path :=
  match f1, f2, f3 with
  | FTime t, FSpace m, FSteps s | FTime t, FSteps s, FSpace m
  | FSpace m, FTime t, FSteps s | FSpace m, FSteps s, FTime t
  | FSteps s, FTime t, FSpace m | FSteps s, FSpace m, FTime t => Some (MkPath t m s)
  | _, _, _ => None
  end.

(** An object, or an array with the values of the fields. *)
Definition json_read_path : parser path := λ b,
  match skip_blanks b with
  | Byte.x7b (* { *) :: b =>
      '(f1, b) ← json_read_field b; b ← expect Byte.x2c b;
      '(f2, b) ← json_read_field b; b ← expect Byte.x2c b;
      '(f3, b) ← json_read_field b; b ← expect Byte.x7d b;
      p ← path_of_fields f1 f2 f3; Some (p, b)
  | Byte.x5b (* [ *) :: b =>
      '(t, b) ← json_read_nat b; b ← expect Byte.x2c b;
      '(m, b) ← json_read_usize b; b ← expect Byte.x2c b;
      '(s, b) ← json_read_seq (json_read_seq json_read_nat) b; b ← expect Byte.x5d b;
      Some (MkPath t m s, b)
  | _ => None
  end.

(** [serde_json::from_reader]: only blanks may follow. *)
Definition json_from_reader {A} (p : parser A) (b : bytes) : option A :=
  match p b with
  | Some (a, r) => match skip_blanks r with [] => Some a | _ => None end
  | None => None
  end.

Definition json_spacial_reader : parser SpacialGraph :=
  json_read_seq (json_read_seq json_read_nat).
Definition json_order_reader : parser PartialOrderGraph :=
  json_read_seq (json_read_seq (json_read_pair json_read_nat (json_read_seq json_read_nat))).

(** ** serde_json: writing, without blanks *)

Fixpoint write_digits (d : uint) : bytes :=
  match d with
  | Nil => []
  | D0 d => Byte.x30 :: write_digits d | D1 d => Byte.x31 :: write_digits d
  | D2 d => Byte.x32 :: write_digits d | D3 d => Byte.x33 :: write_digits d
  | D4 d => Byte.x34 :: write_digits d | D5 d => Byte.x35 :: write_digits d
  | D6 d => Byte.x36 :: write_digits d | D7 d => Byte.x37 :: write_digits d
  | D8 d => Byte.x38 :: write_digits d | D9 d => Byte.x39 :: write_digits d
  end.

Definition json_write_usize (n : N) : bytes := write_digits (N.to_uint n).
Definition json_write_nat (n : nat) : bytes := json_write_usize (N.of_nat n).

Fixpoint json_write_items {A} (f : A → bytes) (l : list A) : bytes :=
  match l with
  | [] => []
  | [a] => f a
  | a :: l => f a ++ Byte.x2c :: json_write_items f l
  end.

Definition json_write_seq {A} (f : A → bytes) (l : list A) : bytes :=
  Byte.x5b :: json_write_items f l ++ [Byte.x5d].

Definition json_write_pair {A B} (f : A → bytes) (g : B → bytes) (p : A * B) : bytes :=
  Byte.x5b :: f p.1 ++ Byte.x2c :: g p.2 ++ [Byte.x5d].

Definition json_write_path (p : path) : bytes :=
  text "{""time"":" ++ json_write_nat (time p) ++ text ",""space"":" ++ json_write_usize (space p) ++
  text ",""steps"":" ++ json_write_seq (json_write_seq json_write_nat) (steps p) ++ [Byte.x7d].

Definition json_spacial_writer : SpacialGraph → bytes := json_write_seq (json_write_seq json_write_nat).
Definition json_order_writer : PartialOrderGraph → bytes :=
  json_write_seq (json_write_seq (json_write_pair json_write_nat (json_write_seq json_write_nat))).

(** ** bincode: numbers as eight bytes, the lowest first; vectors after their length *)

Fixpoint little_endian (k : nat) (n : N) : bytes :=
  match k with
  | 0 => []
  | S k => default Byte.x00 (Byte.of_N (n mod 256)) :: little_endian k (n / 256)
  end.

Definition bin_write_u64 (n : N) : bytes := little_endian 8 n.
Definition bin_write_nat (n : nat) : bytes := bin_write_u64 (N.of_nat n).

Definition bin_write_seq {A} (f : A → bytes) (l : list A) : bytes :=
  bin_write_nat (length l) ++ concat (map f l).

Definition bin_write_pair {A B} (f : A → bytes) (g : B → bytes) (p : A * B) : bytes :=
  f p.1 ++ g p.2.

Definition bin_write_path (p : path) : bytes :=
  bin_write_nat (time p) ++ bin_write_u64 (space p) ++ bin_write_seq (bin_write_seq bin_write_nat) (steps p).

Definition bin_spacial_writer : SpacialGraph → bytes := bin_write_seq (bin_write_seq bin_write_nat).
Definition bin_order_writer : PartialOrderGraph → bytes :=
  bin_write_seq (bin_write_seq (bin_write_pair bin_write_nat (bin_write_seq bin_write_nat))).

Fixpoint bin_read_bytes (k : nat) (b : bytes) : option (N * bytes) :=
  match k with
  | 0 => Some (0%N, b)
  | S k =>
      match b with
      | [] => None
      | c :: b => '(n, b) ← bin_read_bytes k b; Some ((Byte.to_N c + 256 * n)%N, b)
      end
  end.

Definition bin_read_u64 : parser N := bin_read_bytes 8.
Definition bin_read_nat : parser nat := λ b, '(n, b) ← bin_read_u64 b; Some (N.to_nat n, b).

Fixpoint bin_read_items {A} (p : parser A) (n : nat) (b : bytes) : option (list A * bytes) :=
  match n with
  | 0 => Some ([], b)
  | S n => '(a, b) ← p b; '(l, b) ← bin_read_items p n b; Some (a :: l, b)
  end.

(** Every element has at least one byte: a length greater than the number of
    bytes left leads to an error at the end of the file. *)
Definition bin_read_seq {A} (p : parser A) : parser (list A) := λ b,
  '(n, b) ← bin_read_u64 b;
  if (N.of_nat (length b) <? n)%N then None else bin_read_items p (N.to_nat n) b.

Definition bin_read_pair {A B} (p : parser A) (q : parser B) : parser (A * B) := λ b,
  '(x, b) ← p b; '(y, b) ← q b; Some ((x, y), b).

Definition bin_read_path : parser path := λ b,
  '(t, b) ← bin_read_nat b; '(m, b) ← bin_read_u64 b;
  '(s, b) ← bin_read_seq (bin_read_seq bin_read_nat) b; Some (MkPath t m s, b).

(** [bincode::deserialize_from]: what follows is not read. *)
Definition bin_from_reader {A} (p : parser A) (b : bytes) : option A :=
  match p b with Some (a, _) => Some a | None => None end.

Definition bin_spacial_reader : parser SpacialGraph := bin_read_seq (bin_read_seq bin_read_nat).
Definition bin_order_reader : parser PartialOrderGraph :=
  bin_read_seq (bin_read_seq (bin_read_pair bin_read_nat (bin_read_seq bin_read_nat))).

(** ** Reading and writing files with these crates *)

Definition with_codecs (os : System_) : System_ :=
  mkSystem_ (os_open_fails os) (os_mkdir_fails os) (os_create_fails os) (os_write_limit os) (os_parent os)
    (json_from_reader json_spacial_reader) (json_from_reader json_order_reader)
    (json_write_seq json_write_path)
    (bin_from_reader bin_spacial_reader) (bin_from_reader bin_order_reader)
    (bin_write_seq bin_write_path).

(** What reads back the paths (not part of the repository besides the derived
    [Deserialize], interface.rs:15). *)
Definition json_read_paths : bytes → option (list path) := json_from_reader (json_read_seq json_read_path).
Definition bin_read_paths : bytes → option (list path) := bin_from_reader (bin_read_seq bin_read_path).
