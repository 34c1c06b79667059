(** * Model of the texts of binary64 numbers

    The output files of the benchmark programs contain numbers that are written by
    Rust ([serde_json] in node.rs:138 and density.rs:109, [format!] in
    node.rs:72-76 and density.rs:48-51) and that are read and written by Python
    (results/plotting).  All of them start from the shortest decimal digits that
    identify the number; they differ in where they put the decimal point and when
    they use an exponent.

    The choice of the digits is a parameter ([Digits]); reading is modelled
    completely. *)
From stdpp Require Import strings.
From Verif Require Export Results FormatSpec.
From Verif Require Import Codec.

(** The number [0.d1 d2 d3 … * 10 ^ point]. *)
Record decimal := mkDecimal { dec_digits : list N; dec_point : Z }.

(** The digits for a positive number. *)
Notation Digits := (f64 → decimal).

(** ** Reading *)

(** The binary64 number nearest to [m * 10 ^ k], ties to even; overflow gives the
    infinity.  Rust's [f64::from_str] and Python's [float] both do this. *)
Definition f64_of_decimal (m : N) (k : Z) : f64 :=
  match m with
  | N0 => S754_zero false
  | Npos p =>
      if (0 <=? k)%Z then binary_normalize f64_prec f64_emax (Zpos p * 10 ^ k) 0 false
      else
        let '(q, e, l) := SFdiv_core_binary f64_prec f64_emax (Zpos p) 0 (10 ^ (- k)) 0 in
        binary_round_aux f64_prec f64_emax false q e l
  end.

(** Number texts: [-]digits[.digits][e[+|-]digits]. *)
Record literal := mkLiteral {
  lit_negative : bool;
  lit_int : list N;
  lit_frac : list N;
  lit_exp : option Z
}.

Definition digit_of (c : Byte.byte) : option N :=
  let n := Byte.to_N c in if ((48 <=? n) && (n <=? 57))%N then Some (n - 48)%N else None.
Fixpoint span_digits (b : bytes) : list N * bytes :=
  match b with
  | [] => ([], [])
  | c :: r =>
      match digit_of c with
      | Some d => let '(ds, r) := span_digits r in (d :: ds, r)
      | None => ([], b)
      end
  end.

(** At least one digit. *)
Definition read_digits (b : bytes) : option (list N * bytes) :=
  match span_digits b with ([], _) => None | r => Some r end.
Definition read_sign (b : bytes) : bool * bytes :=
  match b with Byte.x2d :: b => (true, b) | _ => (false, b) end.
Definition read_fraction (b : bytes) : option (list N * bytes) :=
  match b with Byte.x2e :: b => read_digits b | _ => Some ([], b) end.
Definition read_exponent (b : bytes) : option (option Z * bytes) :=
  match b with
  | Byte.x65 :: b | Byte.x45 :: b =>
      let '(neg, b) := match b with Byte.x2b :: b => (false, b) | _ => read_sign b end in
      '(ds, b) ← read_digits b;
      let n := Z.of_N (digits_value ds) in Some (Some (if neg then - n else n)%Z, b)
  | _ => Some (None, b)
  end.
Definition read_literal (b : bytes) : option literal :=
  let '(neg, b) := read_sign b in
  '(ip, b) ← read_digits b;
  '(fp, b) ← read_fraction b;
  '(ex, b) ← read_exponent b;
  match b with [] => Some (mkLiteral neg ip fp ex) | _ => None end.

(** The number of a literal.  Simplification: Rust's [f64::from_str] and Python's
    [float] also accept a few other texts ([.5], [5.], [inf], [nan]; a sign [+];
    Python also [_] between digits). *)
Definition literal_f64 (l : literal) : f64 :=
  let x := f64_of_decimal (digits_value (lit_int l ++ lit_frac l))
    (default 0%Z (lit_exp l) - Z.of_nat (length (lit_frac l)))%Z in
  if lit_negative l then SFopp x else x.
Definition read_f64 (b : bytes) : option f64 := literal_f64 <$> read_literal b.

(** ** Writing *)

Definition digits_text (ds : list N) : bytes :=
  List.concat (map (λ d, option_list (Byte.of_N (48 + d))) ds).
Definition zeros (n : Z) : list N := replicate (Z.to_nat n) 0%N.

(** The crate [ryu] (1.0), [pretty::format64], which [serde_json] uses, for a
    positive number. *)
Definition ryu_pretty (d : decimal) : bytes :=
  let ds := dec_digits d in
  let kk := dec_point d in
  let k := (kk - Z.of_nat (length ds))%Z in
  if ((0 <=? k) && (kk <=? 16))%Z then digits_text (ds ++ zeros k) ++ text ".0"
  else if ((0 <? kk) && (kk <=? 16))%Z then
    digits_text (take (Z.to_nat kk) ds) ++ text "." ++ digits_text (drop (Z.to_nat kk) ds)
  else if ((-5 <? kk) && (kk <=? 0))%Z then text "0." ++ digits_text (zeros (- kk) ++ ds)
  else
    digits_text (take 1 ds) ++
    (if decide (length ds = 1) then [] else text "." ++ digits_text (drop 1 ds)) ++
    text "e" ++ (if (kk - 1 <? 0)%Z then text "-" else []) ++ json_write_usize (Z.abs_N (kk - 1)).

(** [impl Display for f64]: never an exponent, no decimal point for integers. *)
Definition rust_display_positive (d : decimal) : bytes :=
  let ds := dec_digits d in
  let kk := dec_point d in
  let k := (kk - Z.of_nat (length ds))%Z in
  if (0 <=? k)%Z then digits_text (ds ++ zeros k)
  else if (0 <? kk)%Z then
    digits_text (take (Z.to_nat kk) ds) ++ text "." ++ digits_text (drop (Z.to_nat kk) ds)
  else text "0." ++ digits_text (zeros (- kk) ++ ds).

(** Python, [repr] of a float and hence the formatting in f-strings: an exponent,
    with a sign and at least two digits, below [1e-4] and from [1e16] on. *)
Definition py_repr_positive (d : decimal) : bytes :=
  let ds := dec_digits d in
  let kk := dec_point d in
  let k := (kk - Z.of_nat (length ds))%Z in
  if ((-4 <? kk) && (kk <=? 16))%Z then
    if (0 <=? k)%Z then digits_text (ds ++ zeros k) ++ text ".0"
    else if (0 <? kk)%Z then
      digits_text (take (Z.to_nat kk) ds) ++ text "." ++ digits_text (drop (Z.to_nat kk) ds)
    else text "0." ++ digits_text (zeros (- kk) ++ ds)
  else
    digits_text (take 1 ds) ++
    (if decide (length ds = 1) then [] else text "." ++ digits_text (drop 1 ds)) ++
    text "e" ++ (if (kk - 1 <? 0)%Z then text "-" else text "+") ++
    (if (Z.abs (kk - 1) <? 10)%Z then text "0" else []) ++ json_write_usize (Z.abs_N (kk - 1)).

(** What the crates and Python guarantee for the shortest digits: they stand for
    exactly the number (a correctly rounded reader gets it back), without
    superfluous zeros; an integer below [2 ^ 53] is shown as that integer.  The
    algorithms that find the shortest ones are not modelled. *)
Record shows (shortest : Digits) : Prop := {
  shows_digits : ∀ m e, valid_binary f64_prec f64_emax (S754_finite false m e) = true →
    let d := shortest (S754_finite false m e) in
    Forall (λ c, (c < 10)%N) (dec_digits d) ∧ dec_digits d ≠ [] ∧
    head (dec_digits d) ≠ Some 0%N ∧ last (dec_digits d) ≠ Some 0%N ∧
    f64_of_decimal (digits_value (dec_digits d)) (dec_point d - Z.of_nat (length (dec_digits d)))
      = S754_finite false m e;
  shows_integer : ∀ n m e, (n < 2 ^ 53)%N → f64_of_usize n = S754_finite false m e →
    let d := shortest (S754_finite false m e) in
    (Z.of_nat (length (dec_digits d)) ≤ dec_point d)%Z ∧
    Z.of_N n = (Z.of_N (digits_value (dec_digits d)) *
      10 ^ (dec_point d - Z.of_nat (length (dec_digits d))))%Z
}.

(** Sign and special values: a finite number, [None] for infinities and NaN. *)
Definition show_finite (zero : bytes) (show : decimal → bytes) (shortest : Digits) (x : f64) : option bytes :=
  match x with
  | S754_zero s => Some ((if s then text "-" else []) ++ zero)
  | S754_finite s m e => Some ((if s then text "-" else []) ++ show (shortest (S754_finite false m e)))
  | _ => None
  end.
Definition ryu (shortest : Digits) : f64 → option bytes := show_finite (text "0.0") ryu_pretty shortest.
Definition rust_display (shortest : Digits) (x : f64) : bytes :=
  match x with
  | S754_nan => text "NaN"
  | S754_infinity s => (if s then text "-" else []) ++ text "inf"
  | _ => default [] (show_finite (text "0") rust_display_positive shortest x)
  end.
Definition py_repr (shortest : Digits) (x : f64) : bytes :=
  match x with
  | S754_nan => text "nan"
  | S754_infinity s => (if s then text "-" else []) ++ text "inf"
  | _ => default [] (show_finite (text "0.0") py_repr_positive shortest x)
  end.
