(** * The builtin accept function *)
From Verif Require Export FloatFacts.
Local Open Scope Z_scope.

(** ** Exponential functions *)

(** What is used about [f64::exp]: special values and sign. *)
Record exp_function (exp : f64 → f64) : Prop := mk_exp_function {
  exp_nan : ∀ x, exp x = S754_nan ↔ x = S754_nan;
  exp_zero : ∀ s, exp (S754_zero s) = f64_one;
  exp_minus_infinity : exp (S754_infinity true) = f64_zero;
  exp_not_negative : ∀ x, SFltb (exp x) f64_zero = false
}.

(** [exp] of a number between [-1/2] and [0] is a number between [1/2] and [1]. *)
Definition f64_half : f64 := f64_div f64_one (f64_of_usize 2).
Definition exp_near_zero (exp : f64 → f64) : Prop :=
  ∀ x, SFleb (f64_neg f64_half) x = true → SFleb x f64_zero = true →
    SFleb f64_half (exp x) = true ∧ SFleb (exp x) f64_one = true ∧
    valid_binary f64_prec f64_emax (exp x) = true.

(** ** The builtin function is a parametrized one *)

Lemma builtin_parametrized :
  ∀ exp, builtin_heavyside exp
         = create_parametrized_heavyside exp (mkHeavysideParameters f64_zero 2 1 1 3 1).
Proof. reflexivity. Qed.

(** ** Signs *)

(** Whether the sign bit is unset (NaN has no sign). *)
Definition unsigned (x : f64) : Prop :=
  match x with
  | S754_zero s | S754_infinity s | S754_finite s _ _ => s = false
  | S754_nan => True
  end.

Lemma round_unsigned s m e l :
  s = false → unsigned (binary_round_aux f64_prec f64_emax s m e l).
Proof.
  intros ->. unfold binary_round_aux. destruct (shr_fexp _ _ _ _ _) as [mrs1 e1].
  destruct (shr_fexp _ _ _ _ _) as [mrs2 e2]. destruct (shr_m mrs2) as [|m'|m']; [done| |done].
  by destruct (e2 <=? f64_emax - f64_prec).
Qed.

Lemma square_unsigned x : unsigned (f64_mul x x).
Proof.
  destruct x as [s|s| |s m e]; cbn; try apply xorb_nilpotent; [done|].
  apply round_unsigned, xorb_nilpotent.
Qed.

Lemma mul_not_negative x y :
  unsigned x → SFltb y f64_zero = false → SFltb (f64_mul x y) f64_zero = false.
Proof.
  assert (∀ z, unsigned z → SFltb z f64_zero = false) as Hu.
  { intros [s|s| |s m e] H; cbn in *; [done|by subst|done|by subst]. }
  intros Hx Hy. destruct y as [s|s| |s m e].
  - destruct x as [t|t| |t m' e']; done.
  - cbn in Hy. destruct s; [done|]. destruct x as [t|t| |t m' e']; cbn in *; subst; done.
  - by destruct x.
  - cbn in Hy. destruct s; [done|]. apply Hu. destruct x as [t|t| |t m' e']; cbn in *; subst; try done.
    by apply round_unsigned.
Qed.

Lemma builtin_not_negative :
  ∀ exp a b c d e f g,
    (∀ x, SFltb (exp x) f64_zero = false) →
    SFltb (builtin_heavyside exp a b c d e f g) f64_zero = false.
Proof.
  intros exp a b c d e f g Hexp. unfold builtin_heavyside.
  destruct (SFltb (f64_sub b (f64_max e c)) f64_zero); [done|].
  apply mul_not_negative; [|apply Hexp]. apply square_unsigned.
Qed.

(** ** Arguments of the search *)

(** The builtin function applied to what the search passes to it: memories and
    numbers of nodes, as unsigned integers. *)
Definition builtin_at (exp : f64 → f64) (bound minimal last_max last_cur cur remaining total : N) : f64 :=
  builtin_heavyside exp (f64_of_usize bound) (f64_of_usize minimal) (f64_of_usize last_max)
    (f64_of_usize last_cur) (f64_of_usize cur) (f64_of_usize remaining) (f64_of_usize total).

Lemma shr_not_negative m e l : 0 <= m → 0 <= shr_m (fst (shr_fexp f64_prec f64_emax m e l)).
Proof.
  intros Hm. unfold shr_fexp, shr.
  assert (shr_m (shr_record_of_loc m l) = m) as Hl by (by destruct l as [|[]]).
  destruct (fexp64 (Zdigits2 m + e) - e) as [|n|n]; cbn [fst]; [by rewrite Hl| |by rewrite Hl].
  rewrite iter_pos_nat, shr_iter_m by (by rewrite Hl). rewrite Hl. apply Z.div_pos; [done|].
  apply Z.pow_pos_nonneg; lia.
Qed.

Lemma round_not_nan s m e l : 0 <= m → binary_round_aux f64_prec f64_emax s m e l ≠ S754_nan.
Proof.
  intros Hm. unfold binary_round_aux. pose proof (shr_not_negative m e l Hm) as H1.
  destruct (shr_fexp f64_prec f64_emax m e l) as [mrs1 e1]. cbn [fst] in H1.
  pose proof (round_near (shr_m mrs1) (loc_of_shr_record mrs1)) as Hr.
  pose proof (shr_not_negative (round_nearest_even (shr_m mrs1) (loc_of_shr_record mrs1)) e1 loc_Exact ltac:(lia)) as H2.
  destruct (shr_fexp f64_prec f64_emax (round_nearest_even _ _) e1 loc_Exact) as [mrs2 e2]. cbn [fst] in H2.
  destruct (shr_m mrs2) as [|p|p]; [done| |lia]. by destruct (e2 <=? f64_emax - f64_prec).
Qed.

Section builtin.
  Variable exp : f64 → f64.
  Variables bound minimal last_max last_cur cur remaining total : N.
  Hypothesis Hexp : exp_function exp.
  Hypothesis Hminimal : (minimal < 2 ^ 53)%N ∨ minimal = usize_max.
  Hypothesis Hmax : (last_max < 2 ^ 53)%N.
  Hypothesis Hcur : (cur < 2 ^ 53)%N.
  Hypothesis Htotal : (1 <= total < 2 ^ 53)%N.
  Hypothesis Hremaining : (remaining <= total)%N.

  Let result := builtin_at exp bound minimal last_max last_cur cur remaining total.
  Let mem := N.max cur last_max.
  Let diff := f64_sub (f64_of_usize minimal) (f64_max (f64_of_usize cur) (f64_of_usize last_max)).
  Let T := f64_of_usize total.
  Let R := f64_of_usize remaining.

  Lemma mem_int : int_value (f64_max (f64_of_usize cur) (f64_of_usize last_max)) (Z.of_N mem).
  Proof.
    unfold mem. rewrite N2Z.inj_max. apply max_int; try (by apply of_usize_int); lia.
  Qed.

  Lemma minimal_int :
    ∃ a, int_value (f64_of_usize minimal) a ∧ 0 <= a <= 2 ^ 64 ∧
      ((minimal < mem)%N ↔ a < Z.of_N mem) ∧ (minimal = mem ↔ a = Z.of_N mem) ∧
      (minimal = usize_max → a = 2 ^ 64).
  Proof.
    assert (mem < 2 ^ 53)%N as Hm by (unfold mem; lia).
    destruct Hminimal as [H| ->].
    - exists (Z.of_N minimal). split; [by apply of_usize_int|]. split; [lia|].
      split; [lia|]. split; [lia|]. intros ->. exfalso. by vm_compute in H.
    - exists (2 ^ 64). split; [apply of_usize_max|]. split; [lia|].
      assert (usize_max = 18446744073709551615)%N as -> by done.
      change (2 ^ 64) with 18446744073709551616. change (2 ^ 53)%N with 9007199254740992%N in Hm.
      split; [lia|]. split; [lia|]. done.
  Qed.

  Lemma diff_cases :
    ((minimal < mem)%N → SFltb diff f64_zero = true) ∧
    (minimal = mem → diff = S754_zero false) ∧
    ((mem < minimal)%N → ∃ c, normal diff c ∧ 1 <= c <= 66 ∧ (minimal = usize_max → 64 <= c)).
  Proof.
    destruct minimal_int as (a & Ha & Hb & H1 & H2 & H3).
    assert (mem < 2 ^ 53)%N as Hm by (unfold mem; lia).
    destruct (sub_int _ _ _ _ Ha mem_int ltac:(lia) ltac:(lia)) as (C1 & C2 & C3). fold diff in C1, C2, C3.
    split; [|split].
    - intros H. apply C2. by apply H1.
    - intros H. apply C1. by apply H2.
    - intros H. assert (Z.of_N mem < a) as Hlt.
      { destruct (Z.lt_trichotomy a (Z.of_N mem)) as [Hl|[He|Hg]]; [|by apply H2 in He; lia|done].
        apply H1 in Hl. lia. }
      destruct (C3 Hlt) as (c & Hn & Hc). exists c. split; [done|].
      pose proof (digits_pos (a - Z.of_N mem)).
      assert (digits (a - Z.of_N mem) <= 65).
      { apply digits_upper; [lia|]. change (2 ^ 65) with (2 * 2 ^ 64). lia. }
      split; [lia|]. intros E. rewrite (H3 E) in *.
      assert (64 <= digits (2 ^ 64 - Z.of_N mem)); [|lia]. apply digits_lower; [lia|].
      change (2 ^ 64) with 18446744073709551616. change (2 ^ (64 - 1)) with 9223372036854775808.
      change (2 ^ 53)%N with 9007199254740992%N in Hm. lia.
  Qed.

  Lemma total_normal : ∃ c, normal T c ∧ 1 <= c <= 53 ∧ ((2 <= total)%N → 2 <= c).
  Proof.
    exists (digits (Z.of_N total)). split.
    { apply int_normal; [|lia]. apply of_usize_int. lia. }
    split.
    - split; [apply digits_pos|]. apply digits_upper; lia.
    - intros H. apply digits_lower; [lia|]. simpl. lia.
  Qed.

  Lemma remaining_normal : (0 < remaining)%N → ∃ c, normal R c ∧ 1 <= c <= 53.
  Proof.
    intros H. exists (digits (Z.of_N remaining)). split.
    - apply int_normal; [|lia]. apply of_usize_int. lia.
    - split; [apply digits_pos|]. apply digits_upper; lia.
  Qed.

  Lemma remaining_zero : remaining = 0%N → R = S754_zero false.
  Proof. unfold R. by intros ->. Qed.

  Lemma measured_normal : (remaining < total)%N → ∃ c, normal (f64_sub T R) c ∧ 1 <= c <= 54.
  Proof.
    intros H.
    destruct (sub_int T R (Z.of_N total) (Z.of_N remaining)) as (_ & _ & C).
    { apply of_usize_int. lia. }
    { apply of_usize_int. lia. }
    { lia. }
    { lia. }
    destruct (C ltac:(lia)) as (c & Hc & Hb). exists c. split; [done|].
    pose proof (digits_pos (Z.of_N total - Z.of_N remaining)).
    assert (digits (Z.of_N total - Z.of_N remaining) <= 53) by (apply digits_upper; lia). lia.
  Qed.

  Lemma measured_zero : remaining = total → f64_sub T R = S754_zero false.
  Proof.
    intros H.
    destruct (sub_int T R (Z.of_N total) (Z.of_N remaining)) as (C & _ & _).
    { apply of_usize_int. lia. }
    { apply of_usize_int. lia. }
    { lia. }
    { lia. }
    apply C. lia.
  Qed.

  Lemma square_normal : ∃ c, normal (f64_mul T T) c ∧ 1 <= c <= 107 ∧ ((2 <= total)%N → 3 <= c).
  Proof.
    destruct total_normal as (c & Hc & Hb & H2). destruct (mul_normal _ _ _ _ Hc Hc ltac:(lia)) as (c' & Hc' & Hb').
    exists c'. split; [done|]. split; [lia|]. intros H. specialize (H2 H). lia.
  Qed.

  Lemma result_unfold :
    result = (if SFltb diff f64_zero then f64_zero
              else f64_mul (f64_mul T T)
                     (exp (f64_neg (f64_div (f64_div (f64_mul T R) (f64_mul diff (f64_mul diff diff))) (f64_sub T R))))).
  Proof. reflexivity. Qed.

  Lemma builtin_below : (minimal < mem)%N → result = f64_zero.
  Proof. intros H. rewrite result_unfold. by rewrite (proj1 diff_cases H). Qed.

  Lemma square_zero x c : normal x c → f64_mul x f64_zero = f64_zero.
  Proof. by intros (m & e & -> & _). Qed.

  Lemma builtin_equal_done : minimal = mem → remaining = 0%N → result = S754_nan.
  Proof.
    intros H H0. rewrite result_unfold. rewrite (proj1 (proj2 diff_cases) H).
    replace (SFltb (S754_zero false) f64_zero) with false by done.
    rewrite (remaining_zero H0). destruct total_normal as (c & (m & e & -> & _) & _).
    replace (f64_div (f64_mul (S754_finite false m e) (S754_zero false))
       (f64_mul (S754_zero false) (f64_mul (S754_zero false) (S754_zero false)))) with S754_nan by done.
    cbn [f64_div SFdiv f64_neg SFopp]. unfold f64_div, SFdiv. cbn [f64_neg SFopp].
    replace (exp S754_nan) with S754_nan by (symmetry; by apply (exp_nan _ Hexp)).
    by destruct (f64_mul (S754_finite false m e) (S754_finite false m e)).
  Qed.

  Lemma builtin_equal : minimal = mem → (0 < remaining)%N → result = f64_zero.
  Proof.
    intros H H0. rewrite result_unfold. rewrite (proj1 (proj2 diff_cases) H).
    replace (SFltb (S754_zero false) f64_zero) with false by done.
    destruct total_normal as (c & Hc & Hb & _). destruct (remaining_normal H0) as (c' & Hc' & Hb').
    destruct (mul_normal _ _ _ _ Hc Hc' ltac:(lia)) as (c'' & (m & e & -> & _) & _).
    assert (f64_div (f64_div (S754_finite false m e)
      (f64_mul (S754_zero false) (f64_mul (S754_zero false) (S754_zero false)))) (f64_sub T R) = S754_infinity false) as ->.
    { replace (f64_div (S754_finite false m e)
        (f64_mul (S754_zero false) (f64_mul (S754_zero false) (S754_zero false)))) with (S754_infinity false) by done.
      destruct (N.eq_dec remaining total) as [E|E].
      - by rewrite (measured_zero E).
      - destruct (measured_normal ltac:(lia)) as (c4 & (m4 & e4 & -> & _) & _). done. }
    cbn [f64_neg SFopp negb]. rewrite (exp_minus_infinity _ Hexp).
    destruct square_normal as (c3 & H3 & _). by apply (square_zero _ c3).
  Qed.

  Lemma normal_positive x c : normal x c → SFltb x f64_zero = false.
  Proof. by intros (m & e & -> & _). Qed.

  Lemma cube_normal c :
    normal diff c → 1 <= c <= 66 → ∃ c', normal (f64_mul diff (f64_mul diff diff)) c' ∧ 3 * c - 2 <= c' <= 3 * c + 2.
  Proof.
    intros Hc Hb. destruct (mul_normal _ _ _ _ Hc Hc ltac:(lia)) as (c2 & H2 & Hb2).
    destruct (mul_normal _ _ _ _ Hc H2 ltac:(lia)) as (c3 & H3 & Hb3). exists c3. split; [done|]. lia.
  Qed.

  Lemma builtin_above_done : (mem < minimal)%N → remaining = 0%N → SFleb f64_one result = true.
  Proof.
    intros H H0. rewrite result_unfold. destruct (proj2 (proj2 diff_cases) H) as (c & Hc & Hb & _).
    rewrite (normal_positive _ _ Hc). destruct (cube_normal c Hc Hb) as (c3 & (m3 & e3 & -> & _) & _).
    rewrite (remaining_zero H0). destruct total_normal as (ct & Ht & Hbt & _).
    assert (f64_sub T (S754_zero false) = T) as ->.
    { destruct Ht as (m & e & -> & _). done. }
    assert (f64_div (f64_div (f64_mul T (S754_zero false)) (S754_finite false m3 e3)) T = S754_zero false) as ->.
    { destruct Ht as (m & e & -> & _). done. }
    cbn [f64_neg SFopp]. rewrite (exp_zero _ Hexp). destruct square_normal as (cs & Hs & Hbs & _).
    destruct (mul_normal _ _ _ _ Hs one_normal ltac:(lia)) as (cr & Hr & Hbr).
    apply (normal_ge_one _ cr); [done|]. lia.
  Qed.

  Lemma builtin_above_nothing : (mem < minimal)%N → remaining = total → result = f64_zero.
  Proof.
    intros H H0. rewrite result_unfold. destruct (proj2 (proj2 diff_cases) H) as (c & Hc & Hb & _).
    rewrite (normal_positive _ _ Hc). destruct (cube_normal c Hc Hb) as (c3 & H3 & Hb3).
    rewrite (measured_zero H0). destruct total_normal as (ct & Ht & Hbt & _).
    destruct (remaining_normal ltac:(lia)) as (cr & Hr & Hbr).
    destruct (mul_normal _ _ _ _ Ht Hr ltac:(lia)) as (cm & Hm & Hbm).
    destruct (div_normal _ _ _ _ Hm H3 ltac:(lia)) as (cd & (m & e & -> & _) & Hbd).
    replace (f64_div (S754_finite false m e) (S754_zero false)) with (S754_infinity false) by done.
    cbn [f64_neg SFopp negb]. rewrite (exp_minus_infinity _ Hexp).
    destruct square_normal as (cs & Hs & _). by apply (square_zero _ cs).
  Qed.

  (** The argument of [exp] in the remaining case. *)
  Lemma builtin_above :
    (mem < minimal)%N → (0 < remaining < total)%N →
    ∃ x c, normal x c ∧ c <= 113 ∧ (minimal = usize_max → c <= -78) ∧
      result = f64_mul (f64_mul T T) (exp (f64_neg x)).
  Proof.
    intros H H0. rewrite result_unfold. destruct (proj2 (proj2 diff_cases) H) as (c & Hc & Hb & Hmx).
    rewrite (normal_positive _ _ Hc). destruct (cube_normal c Hc Hb) as (c3 & H3 & Hb3).
    destruct total_normal as (ct & Ht & Hbt & _).
    destruct (remaining_normal ltac:(lia)) as (cr & Hr & Hbr).
    destruct (mul_normal _ _ _ _ Ht Hr ltac:(lia)) as (cm & Hm & Hbm).
    destruct (div_normal _ _ _ _ Hm H3 ltac:(lia)) as (cd & Hd & Hbd).
    destruct (measured_normal ltac:(lia)) as (ce & He & Hbe).
    destruct (div_normal _ _ _ _ Hd He ltac:(lia)) as (cx & Hx & Hbx).
    exists (f64_div (f64_div (f64_mul T R) (f64_mul diff (f64_mul diff diff))) (f64_sub T R)), cx.
    split; [done|]. split; [lia|]. split; [|done]. intros E. specialize (Hmx E). lia.
  Qed.

  Lemma builtin_nan : result = S754_nan ↔ minimal = mem ∧ remaining = 0%N.
  Proof.
    split; [|by intros [??]; apply builtin_equal_done].
    intros Hr. destruct (N.lt_trichotomy minimal mem) as [H|[H|H]].
    - by rewrite builtin_below in Hr.
    - split; [done|]. destruct (N.eq_dec remaining 0) as [?|?]; [done|]. rewrite builtin_equal in Hr by (done || lia). done.
    - destruct (N.eq_dec remaining 0) as [E|E].
      { pose proof (builtin_above_done H E) as C. by rewrite Hr in C. }
      destruct (N.eq_dec remaining total) as [E'|E'].
      { by rewrite builtin_above_nothing in Hr. }
      destruct (builtin_above H ltac:(lia)) as (x & c & Hx & _ & _ & E2). rewrite E2 in Hr.
      assert (exp (f64_neg x) ≠ S754_nan) as Hne.
      { intros Hn. apply (proj1 (exp_nan _ Hexp _)) in Hn. destruct Hx as (m & e & Ex & _). by rewrite Ex in Hn. }
      destruct square_normal as (cs & (m & e & Es & _) & _). rewrite Es in Hr.
      pose proof (exp_not_negative _ Hexp (f64_neg x)) as Hneg.
      destruct (exp (f64_neg x)) as [s|s| |s m' e']; try done.
      cbn in Hneg. destruct s; [done|]. exfalso. revert Hr. unfold f64_mul, SFmul. apply round_not_nan. lia.
  Qed.
End builtin.

(** [exp] of a tiny negative number is a normal number near 1. *)
Lemma exp_near_zero_normal exp x c :
  exp_near_zero exp → normal x c → c <= -1 → ∃ c', normal (exp (f64_neg x)) c' ∧ 0 <= c' <= 1.
Proof.
  intros Hexp (m & e & -> & Hm & ->) Hc. cbn [f64_neg SFopp negb].
  assert (f64_neg f64_half = S754_finite true 4503599627370496 (-53)) as Ehalf by done.
  destruct (Hexp (S754_finite true m e)) as (H1 & H2 & H3).
  { rewrite Ehalf. unfold SFleb. cbn [SFcompare]. destruct (Z.compare_spec (-53) e); [lia|lia|done]. }
  { done. }
  assert (f64_half = S754_finite false 4503599627370496 (-53)) as Eh by done. rewrite Eh in H1.
  assert (f64_one = S754_finite false 4503599627370496 (-52)) as E1 by done. rewrite E1 in H2.
  destruct (exp (S754_finite true m e)) as [s|s| |s m' e'];
    [discriminate H1|destruct s; [discriminate H1|discriminate H2]|discriminate H1|].
  destruct s; [discriminate H1|]. unfold SFleb in H1, H2. cbn [SFcompare] in H1, H2.
  assert (-53 <= e') as He1.
  { destruct (Z.compare_spec (-53) e') as [E|E|E]; [lia|lia|discriminate H1]. }
  assert (e' <= -52) as He2.
  { destruct (Z.compare_spec e' (-52)) as [E|E|E]; [lia|lia|discriminate H2]. }
  clear H1 H2 Ehalf Eh E1.
  assert (Zpos (digits2_pos m') = 53) as Hd.
  { unfold valid_binary, bounded, canonical_mantissa in H3. apply andb_true_iff in H3 as [H3 _].
    apply Zeq_bool_eq in H3. unfold fexp, emin, f64_prec, f64_emax in H3. lia. }
  exists (53 + e'). split; [by exists m', e'|]. lia.
Qed.

(** ** The cases *)

Lemma builtin_cases :
  ∀ exp bound minimal last_max last_cur cur remaining total,
    exp_function exp →
    (minimal < 2 ^ 53)%N ∨ minimal = usize_max →
    (last_max < 2 ^ 53)%N → (cur < 2 ^ 53)%N →
    (1 <= total < 2 ^ 53)%N → (remaining <= total)%N →
    let result := builtin_at exp bound minimal last_max last_cur cur remaining total in
    let mem := N.max cur last_max in
    ((minimal < mem)%N → result = f64_zero) ∧
    (minimal = mem → (0 < remaining)%N → result = f64_zero) ∧
    ((mem < minimal)%N → remaining = total → result = f64_zero) ∧
    ((mem < minimal)%N → remaining = 0%N → SFleb f64_one result = true) ∧
    (result = S754_nan ↔ minimal = mem ∧ remaining = 0%N).
Proof.
  intros exp bound minimal last_max last_cur cur remaining total Hexp H1 H2 H3 H4 H5 result mem.
  split; [by apply builtin_below|]. split; [by apply builtin_equal|].
  split; [by apply builtin_above_nothing|]. split; [by apply builtin_above_done|].
  by apply builtin_nan.
Qed.

(** As long as nothing has been found, everything that measures a node is accepted. *)
Lemma builtin_accepts_first :
  ∀ exp bound last_max last_cur cur remaining total,
    exp_function exp → exp_near_zero exp →
    (last_max < 2 ^ 53)%N → (cur < 2 ^ 53)%N →
    (total < 2 ^ 53)%N → (remaining < total)%N →
    SFleb f64_one (builtin_at exp bound usize_max last_max last_cur cur remaining total) = true.
Proof.
  intros exp bound last_max last_cur cur remaining total Hexp Hnear H1 H2 H3 H4.
  assert (N.max cur last_max < usize_max)%N as Hlt.
  { apply (N.lt_trans _ (2 ^ 53)); [lia|]. done. }
  destruct (N.eq_dec remaining 0) as [E|E].
  { apply builtin_above_done; [done|by right|done|done|lia|lia|done|done]. }
  destruct (builtin_above exp bound usize_max last_max last_cur cur remaining total)
    as (x & c & Hx & _ & Hc & ->); [by right|done|done|lia|lia|done|lia|].
  specialize (Hc eq_refl). destruct (exp_near_zero_normal exp x c Hnear Hx ltac:(lia)) as (c' & Hc' & Hb').
  destruct (square_normal usize_max last_max cur remaining total) as (cs & Hs & Hbs & H2s);
    [by right|done|done|lia|lia|].
  assert (3 <= cs) as H3s by (apply H2s; clear - E H4; lia).
  destruct (mul_normal _ _ _ _ Hs Hc' ltac:(lia)) as (cr & Hr & Hbr).
  apply (normal_ge_one _ cr); [done|]. lia.
Qed.

(** What the search makes of it: a step that does not stay below the best memory
    found so far is never taken. *)
Lemma builtin_rejects :
  ∀ exp bound minimal last_max last_cur cur remaining total sample,
    exp_function exp →
    (minimal < 2 ^ 53)%N → (last_max < 2 ^ 53)%N → (cur < 2 ^ 53)%N →
    (1 <= total < 2 ^ 53)%N → (remaining <= total)%N →
    SFleb f64_zero sample = true → (minimal <= N.max cur last_max)%N →
    let result := builtin_at exp bound minimal last_max last_cur cur remaining total in
    SFleb f64_one result = false ∧ SFltb sample result = false.
Proof.
  intros exp bound minimal last_max last_cur cur remaining total sample Hexp H1 H2 H3 H4 H5 Hs Hle result.
  assert (result = f64_zero ∨ result = S754_nan) as [-> | ->].
  { destruct (builtin_cases exp bound minimal last_max last_cur cur remaining total Hexp (or_introl H1) H2 H3 H4 H5)
      as (C1 & C2 & _ & _ & C5). fold result in C1, C2, C5.
    destruct (N.eq_dec minimal (N.max cur last_max)) as [E|E]; [|left; apply C1; lia].
    destruct (N.eq_dec remaining 0) as [E'|E']; [right; by apply C5|left; apply C2; [done|lia]]. }
  - split; [done|]. by destruct sample as [s|[]| |[] m e].
  - split; [done|]. by destruct sample as [s|[]| |[] m e].
Qed.
