(** * A function [shortest] as the contract [shows] demands exists

    The exact decimal expansion of a double, without zeros at the end. *)
From Coq Require Import Decimal DecimalN DecimalPos.
From stdpp Require Import strings.
From Verif Require Import FormatSpec Codec CodecFacts JsonSpec FloatFacts FloatValid Decimal64 DecimalFacts NumberFacts.

Local Open Scope Z_scope.

Fixpoint rstrip (l : list N) : list N :=
  match l with
  | [] => []
  | d :: l => match rstrip l with [] => if (d =? 0)%N then [] else [d] | r => d :: r end
  end.

Lemma rstrip_split l : ∃ z, l = rstrip l ++ replicate z 0%N.
Proof.
  induction l as [|d l [z IH]]; [by exists 0%nat|]. cbn [rstrip]. destruct (rstrip l) as [|a r].
  - destruct (d =? 0)%N eqn:E.
    + apply N.eqb_eq in E as ->. exists (S z). simpl. by f_equal.
    + exists z. simpl. by f_equal.
  - exists z. simpl. f_equal. exact IH.
Qed.
Lemma rstrip_last l : last (rstrip l) ≠ Some 0%N.
Proof.
  induction l as [|d l IH]; [done|]. cbn [rstrip]. destruct (rstrip l) as [|a r].
  - destruct (d =? 0)%N eqn:E; [done|]. apply N.eqb_neq in E. simpl. congruence.
  - rewrite last_cons_cons. exact IH.
Qed.
Lemma rstrip_bound l : Forall (λ d, (d < 10)%N) l → Forall (λ d, (d < 10)%N) (rstrip l).
Proof. intros H. destruct (rstrip_split l) as (z & E). rewrite E in H. by apply Forall_app in H as [H _]. Qed.

(** The decimal of [n * 10 ^ k]. *)
Definition decimal_of (n : N) (k : Z) : decimal :=
  let l := digit_list (N.to_uint n) in mkDecimal (rstrip l) (Z.of_nat (length l) + k).

Definition exact_digits : Digits := λ x,
  match x with
  | S754_finite _ m e =>
      if 0 <=? e then decimal_of (Npos m * 2 ^ Z.to_N e) 0
      else decimal_of (Npos m * 5 ^ Z.to_N (- e)) e
  | _ => mkDecimal [0%N] 1
  end.

Lemma decimal_of_spec n k : (n ≠ 0)%N →
  let d := decimal_of n k in
  Forall (λ c, (c < 10)%N) (dec_digits d) ∧ dec_digits d ≠ [] ∧ head (dec_digits d) ≠ Some 0%N ∧
  last (dec_digits d) ≠ Some 0%N ∧
  ∃ z, n = (digits_value (dec_digits d) * 10 ^ N.of_nat z)%N ∧
    dec_point d - Z.of_nat (length (dec_digits d)) = Z.of_nat z + k.
Proof.
  intros Hn. cbv zeta. unfold decimal_of. cbn [dec_digits dec_point].
  set (l := digit_list (N.to_uint n)).
  destruct (rstrip_split l) as (z & El). destruct (digits_head n Hn) as (d & ds & E & Hd). fold l in E.
  assert (Hv : n = (digits_value (rstrip l) * 10 ^ N.of_nat z)%N).
  { rewrite <- value_zeros_after, <- El. symmetry. apply to_uint_value. }
  split_and!.
  - apply rstrip_bound, digit_list_bound.
  - intros Er. rewrite Er in Hv. change (digits_value []) with 0%N in Hv. lia.
  - destruct (rstrip l) as [|a r] eqn:Er; [done|]. rewrite E in El. injection El as <- _. simpl. congruence.
  - apply rstrip_last.
  - exists z. split; [done|]. rewrite El at 1. rewrite app_length, replicate_length. lia.
Qed.

Lemma decimal_of_number n k : (n ≠ 0)%N → decimal_number (decimal_of n k) = f64_of_decimal n k.
Proof.
  intros Hn. destruct (decimal_of_spec n k Hn) as (_ & _ & _ & _ & z & Hv & Hp). unfold decimal_number.
  rewrite Hp. apply (decimal_value_N _ _ _ _ k); [lia|lia|].
  rewrite Hv at 2. rewrite N2Z.inj_mul, pow10_N, Z.sub_diag. replace (Z.of_nat z + k - k) with (Z.of_nat z) by lia. ring.
Qed.

Lemma exact_number m e : valid (S754_finite false m e) →
  decimal_number (exact_digits (S754_finite false m e)) = S754_finite false m e.
Proof.
  intros Hv. unfold exact_digits. destruct (0 <=? e) eqn:E.
  - rewrite decimal_of_number by lia.
    assert (∃ p, (Npos m * 2 ^ Z.to_N e)%N = Npos p ∧ Zpos p = Zpos m * 2 ^ e) as (p & -> & Hp).
    { destruct (Npos m * 2 ^ Z.to_N e)%N as [|p] eqn:Ep; [lia|]. exists p. split; [done|].
      change (Zpos p) with (Z.of_N (Npos p)). rewrite <- Ep, N2Z.inj_mul, N2Z.inj_pow, Z2N.id by lia. done. }
    apply decimal_exact; [done|]. rewrite Hp. rewrite (Z.max_l 0 (- e)), (Z.max_r 0 e) by lia.
    change (Z.max 0 0) with 0. change (Z.max 0 (- 0)) with 0. ring.
  - rewrite decimal_of_number by lia.
    assert (∃ p, (Npos m * 5 ^ Z.to_N (- e))%N = Npos p ∧ Zpos p = Zpos m * 5 ^ (- e)) as (p & -> & Hp).
    { destruct (Npos m * 5 ^ Z.to_N (- e))%N as [|p] eqn:Ep; [lia|]. exists p. split; [done|].
      change (Zpos p) with (Z.of_N (Npos p)). rewrite <- Ep, N2Z.inj_mul, N2Z.inj_pow, Z2N.id by lia. done. }
    apply decimal_exact; [done|]. rewrite Hp. rewrite (Z.max_r 0 (- e)), (Z.max_l 0 e) by lia.
    change 10 with (5 * 2). rewrite Z.pow_mul_l. change ((5 * 2) ^ 0) with 1. rewrite Z.pow_mul_l.
    change (2 ^ 0) with 1. change (5 ^ 0) with 1. ring.
Qed.

(** Zeros at the end of a number that is divisible by a power of ten. *)
Lemma last_value ds a : last ds = Some a → ∃ q, digits_value ds = (10 * q + a)%N.
Proof.
  intros H. apply last_Some in H as (l & ->). exists (digits_value l). rewrite value_app. cbn [length]. change (10 ^ N.of_nat 1)%N with 10%N. change (digits_value [a]) with (10 * 0 + a)%N. lia.
Qed.

Lemma zeros_enough (v n : Z) (z j : nat) : v mod 10 ≠ 0 → v * 10 ^ Z.of_nat z = n * 10 ^ Z.of_nat j → (j <= z)%nat.
Proof.
  intros Hv H. destruct (decide (j <= z)%nat) as [|Hlt]; [done|]. exfalso. apply Hv.
  replace (Z.of_nat j) with (Z.of_nat (j - z - 1) + 1 + Z.of_nat z) in H by lia.
  rewrite !Z.pow_add_r in H by lia. change (10 ^ 1) with 10 in H.
  assert (0 < 10 ^ Z.of_nat z) by (apply Z.pow_pos_nonneg; lia).
  assert (v = n * 10 ^ Z.of_nat (j - z - 1) * 10) as ->.
  { apply (Z.mul_cancel_r _ _ (10 ^ Z.of_nat z)); [lia|]. rewrite H. ring. }
  apply Z.mod_mul. lia.
Qed.

Lemma pos_pow m a b : (a ≠ 0 → Npos m * a ^ b ≠ 0)%N.
Proof. intros Ha. apply N.neq_mul_0. split; [done|]. by apply N.pow_nonzero. Qed.

Lemma exact_digits_shows : shows exact_digits.
Proof.
  split.
  - intros m e Hv. cbv zeta. pose proof (exact_number m e Hv) as Hx.
    assert (∃ n k, (n ≠ 0)%N ∧ exact_digits (S754_finite false m e) = decimal_of n k) as (n & k & Hn & E).
    { unfold exact_digits. destruct (0 <=? e); eexists _, _; (split; [|reflexivity]); by apply pos_pow. }
    destruct (decimal_of_spec n k Hn) as (H1 & H2 & H3 & H4 & _). rewrite E in *.
    by split_and!.
  - intros n m e Hn Hx. cbv zeta.
    destruct (of_usize_int n Hn) as [[H0 H1]|(Hpos & m' & e' & H1 & _ & H2)].
    { rewrite H1 in Hx. discriminate Hx. }
    rewrite H1 in Hx. injection Hx as -> ->.
    assert (∃ n' k, (n' ≠ 0)%N ∧ exact_digits (S754_finite false m e) = decimal_of n' k ∧
      ∃ j : nat, k = - Z.of_nat j ∧ Z.of_N n' = Z.of_N n * 10 ^ Z.of_nat j) as (n' & k & Hn' & E & j & -> & Ej).
    { unfold exact_digits. destruct (0 <=? e) eqn:Ee.
      - eexists _, _. split; [|split; [reflexivity|]]; [by apply pos_pow|]. exists 0%nat. split; [done|].
        rewrite N2Z.inj_mul, N2Z.inj_pow, Z2N.id by lia. change (10 ^ Z.of_nat 0) with 1. rewrite Z.mul_1_r.
        change (Z.of_N (Npos m)) with (Zpos m). change (Z.of_N 2) with 2.
        destruct H2 as [[H2 H3]|[H2 H3]]; [|done]. assert (e = 0) as -> by lia. rewrite H3. change (2 ^ (- 0)) with 1. change (2 ^ 0) with 1. ring.
      - eexists _, _. split; [|split; [reflexivity|]]; [by apply pos_pow|]. exists (Z.to_nat (- e)). split; [lia|].
        rewrite N2Z.inj_mul, N2Z.inj_pow, Z2N.id, Z2Nat.id by lia.
        change (Z.of_N (Npos m)) with (Zpos m). change (Z.of_N 5) with 5.
        destruct H2 as [[H2 H3]|[H2 H3]]; [|lia]. rewrite H3. change 10 with (2 * 5). rewrite Z.pow_mul_l. ring. }
    rewrite E. destruct (decimal_of_spec n' (- Z.of_nat j) Hn') as (H3 & H4 & H5 & H6 & z & Hv & Hp).
    set (d := decimal_of n' (- Z.of_nat j)) in *.
    assert (Z.of_N (digits_value (dec_digits d)) * 10 ^ Z.of_nat z = Z.of_N n * 10 ^ Z.of_nat j) as Eq.
    { rewrite <- Ej, Hv, N2Z.inj_mul, pow10_N. done. }
    assert (j <= z)%nat as Hz.
    { apply (zeros_enough (Z.of_N (digits_value (dec_digits d))) (Z.of_N n)); [|done].
      destruct (last (dec_digits d)) as [a|] eqn:El; [|by apply last_None in El].
      destruct (last_value _ _ El) as (q & ->).
      assert (a < 10)%N as Ha.
      { rewrite Forall_forall in H3. apply H3. apply last_Some in El as (l & ->). set_solver. }
      rewrite N2Z.inj_add, N2Z.inj_mul. change (Z.of_N 10) with 10. rewrite Z.add_comm, Z.mul_comm, Z_mod_plus_full.
      rewrite Z.mod_small by lia. intros E0. apply H6. f_equal. lia. }
    split; [lia|]. rewrite Hp.
    replace (Z.of_nat z) with (Z.of_nat z - Z.of_nat j + Z.of_nat j) in Eq by lia.
    rewrite Z.pow_add_r in Eq by lia. rewrite Z.mul_assoc in Eq.
    assert (0 < 10 ^ Z.of_nat j) by (apply Z.pow_pos_nonneg; lia).
    apply Z.mul_cancel_r in Eq; [|lia]. rewrite <- Eq. by rewrite Z.add_opp_r.
Qed.
