(** * The random numbers behind the samples of the benchmark programs *)
From stdpp Require Import prelude.
From Verif Require Export Results.
Local Open Scope Z_scope.

(** [Uniform::new(0.0, 1.0).sample(rng)], results/src/plots.rs:238, 243, 262 and 275, for
    the 64 random bits [w].  This is the code of the crate rand, version 0.8.5 according to
    results/Cargo.lock:315, transcribed: the highest 52 bits become the fraction of a number
    between 1 and 2; then [value - 1.0] and [value * scale + low] with [scale = 1.0] and
    [low = 0.0]. *)
Definition uniform_sample (w : N) : f64 :=
  let value1_2 := S754_finite false (Z.to_pos (2 ^ 52 + Z.of_N (N.shiftr w 12))) (-52) in
  let value0_1 := f64_sub value1_2 f64_one in
  f64_add (f64_mul value0_1 f64_one) f64_zero.

(** [rng.gen_range(0..n)], results/src/plots.rs:269, for the 64 random bits [w]; [None]
    means that the next 64 bits are tried.  Again the code of rand 0.8.5: [zone] is
    [(range << range.leading_zeros()).wrapping_sub(1)], the result is the high half of the
    product, and the low half must not exceed [zone]. *)
Definition leading_zeros (n : N) : N := (64 - N.size n)%N.
Definition range_sample (n w : N) : option N :=
  let zone := (N.shiftl n (leading_zeros n) - 1)%N in
  let hi := (w * n / 2 ^ 64)%N in
  let lo := (w * n mod 2 ^ 64)%N in
  if (lo <=? zone)%N then Some hi else None.
