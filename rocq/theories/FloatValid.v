(** * Every computed number is a binary64 number: mantissa and exponent are canonical *)
From Verif Require Export FloatRound.
From Verif Require Import Results ProbabilisticFacts.
From Coq Require Import ZArith Lia.
Local Open Scope Z_scope.

Definition valid (x : f64) : Prop := valid_binary f64_prec f64_emax x = true.

Lemma fexp64_max d : fexp64 d = Z.max (d - 53) (-1074).
Proof. done. Qed.

Lemma valid_finite s m e :
  valid (S754_finite s m e) ↔ fexp64 (Zpos (digits2_pos m) + e) = e ∧ e <= 971.
Proof.
  unfold valid, valid_binary, bounded, canonical_mantissa. rewrite andb_true_iff, <- Zle_is_le_bool.
  rewrite <- Zeq_is_eq_bool. done.
Qed.

Lemma Zdigits2_ge m d : 0 < m → 2 ^ (d - 1) <= m → d <= Zdigits2 m.
Proof.
  intros Hm H. destruct (Zdigits2_bounds m Hm) as [_ U].
  destruct (Z_le_gt_dec d (Zdigits2 m)) as [?|Hg]; [done|].
  pose proof (Z.pow_le_mono_r 2 (Zdigits2 m) (d - 1) ltac:(lia) ltac:(lia)). lia.
Qed.

Lemma nearest_ge m l : m <= round_nearest_even m l.
Proof. destruct l as [|[]]; cbn [round_nearest_even]; [| |lia|lia]; [|destruct (Z.even m)]; lia. Qed.

(** Rounding gives a valid number if no digit is missing. *)
Lemma round_valid s m e l :
  0 <= m → e <= fexp64 (Zdigits2 m + e) → valid (binary_round_aux f64_prec f64_emax s m e l).
Proof.
  intros Hm He. unfold binary_round_aux.
  destruct (located_some m l Hm) as (N & HN & Hloc).
  destruct (shr_fexp_describes N 4 m e l Hloc) as (k & Hk & Hk' & Hle & E2 & Hd).
  assert (e + k = fexp64 (Zdigits2 m + e)) as Ek by (destruct Hk' as [->|?]; lia).
  destruct (shr_fexp f64_prec f64_emax m e l) as [mrs e1]. cbn [fst snd] in *. subst e1.
  destruct (nearest_describes _ _ _ Hd) as (Hm0 & _ & Hup & _).
  set (m1 := round_nearest_even (shr_m mrs) (loc_of_shr_record mrs)) in *.
  destruct Hd as (HD & Hs0 & [Hs1 Hs2] & _).
  assert (0 < 2 ^ k) as Hpk by (apply Z.pow_pos_nonneg; lia).
  assert (shr_m mrs * 2 ^ k <= m) as Hs3 by nia.
  assert (shr_m mrs < 2 ^ 53) as Hs53.
  { destruct (Z.eq_dec m 0) as [->|Hn]; [nia|].
    destruct (Zdigits2_bounds m) as [_ U]; [lia|].
    rewrite fexp64_max in Ek.
    assert (2 ^ Zdigits2 m <= 2 ^ 53 * 2 ^ k).
    { rewrite <- Z.pow_add_r by lia. apply Z.pow_le_mono_r; lia. }
    nia. }
  destruct (shr_fexp_describes m1 1 m1 (e + k) loc_Exact (located_exact m1 Hm0)) as (k2 & Hk2 & Hk2' & Hle2 & E3 & Hd2).
  destruct (shr_fexp f64_prec f64_emax m1 (e + k) loc_Exact) as [mrs2 e2]. cbn [fst snd] in *. subst e2.
  destruct Hd2 as (HD2 & Ht0 & [Ht1 Ht2] & _). rewrite Z.mul_1_l in Ht1, Ht2, HD2.
  destruct (shr_m mrs2) as [|m'|m'] eqn:Em; [done| |lia].
  destruct (Zle_bool (e + k + k2) (f64_emax - f64_prec)) eqn:Eb; [|done]. apply Zle_is_le_bool in Eb.
  apply valid_finite. split; [|exact Eb].
  change (Zpos (digits2_pos m')) with (Zdigits2 (Zpos m')).
  assert (0 < m1) as Hm1 by nia.
  assert (m1 <= 2 ^ 53) as H53 by lia.
  assert (m1 = 2 ^ 53 ∨ m1 < 2 ^ 53) as [E|Hlt] by lia.
  - (* carry *)
    rewrite E in *. change (Zdigits2 (2 ^ 53)) with 54 in *. rewrite fexp64_max in *.
    assert (k2 = 1) as -> by lia.
    assert (Zpos m' = 2 ^ 52) as -> by lia. change (Zdigits2 (2 ^ 52)) with 53. lia.
  - assert (Zdigits2 m1 <= 53) as Hd53 by (apply Zdigits2_le; lia).
    assert (k2 = 0) as ->.
    { destruct Hk2' as [?|Hk2']; [done|]. rewrite !fexp64_max in *. lia. }
    assert (Zpos m' = m1) as -> by lia. rewrite Z.add_0_r.
    rewrite !fexp64_max in *.
    destruct (Z_le_gt_dec (Zdigits2 m + e - 53) (-1074)) as [Hs|Hs]; [lia|].
    (* normal numbers: all 53 digits are there *)
    assert (e + k = Zdigits2 m + e - 53) as Ek2 by lia.
    assert (0 < m) as Hmp.
    { destruct (Z.eq_dec m 0) as [->|?]; [|lia]. cbn [Zdigits2] in *. lia. }
    destruct (Zdigits2_bounds m Hmp) as [L _].
    assert (2 ^ (Zdigits2 m - 1) = 2 ^ 52 * 2 ^ k) as E52.
    { rewrite <- Z.pow_add_r by lia. f_equal. lia. }
    assert (2 ^ 52 <= shr_m mrs) as H52 by nia.
    assert (53 <= Zdigits2 m1); [|lia]. apply Zdigits2_ge; [done|]. change (53 - 1) with 52.
    pose proof (nearest_ge (shr_m mrs) (loc_of_shr_record mrs)) as Hge. fold m1 in Hge. lia.
Qed.

Lemma binary_round_valid s p e : valid (binary_round f64_prec f64_emax s p e).
Proof.
  unfold binary_round, shl_align.
  destruct (fexp64 (Zpos (digits2_pos p) + e) - e) as [|n|n] eqn:E.
  - apply round_valid; [done|]. cbn [Zdigits2]. lia.
  - apply round_valid; [done|]. cbn [Zdigits2]. lia.
  - apply round_valid; [done|]. rewrite shift_pos_Z.
    set (e1 := fexp64 (Zpos (digits2_pos p) + e)) in *.
    assert (Zpos (digits2_pos p) + Zpos n <= Zdigits2 (Zpos p * 2 ^ Zpos n)) as Hd.
    { apply Zdigits2_ge; [nia|]. destruct (Zdigits2_bounds (Zpos p)) as [L _]; [done|]. cbn [Zdigits2] in L.
      replace (Zpos (digits2_pos p) + Zpos n - 1) with (Zpos (digits2_pos p) - 1 + Zpos n) by lia.
      rewrite Z.pow_add_r by lia. assert (0 < 2 ^ Zpos n) by (by apply Z.pow_pos_nonneg). nia. }
    assert (fexp64 (Zpos (digits2_pos p) + e) <= fexp64 (Zdigits2 (Zpos p * 2 ^ Zpos n) + e1)); [|lia].
    rewrite !fexp64_max. lia.
Qed.

Lemma normalize_valid m e sz : valid (binary_normalize f64_prec f64_emax m e sz).
Proof. destruct m; cbn [binary_normalize]; [done| |]; apply binary_round_valid. Qed.

Lemma of_usize_valid k : valid (f64_of_usize k).
Proof. apply normalize_valid. Qed.

Lemma add_valid x y : valid x → valid y → valid (f64_add x y).
Proof.
  intros Hx Hy. unfold f64_add. destruct x as [sx|sx| |sx mx ex], y as [sy|sy| |sy my ey]; try done.
  - cbn. by destruct (Bool.eqb sx sy).
  - cbn. by destruct (Bool.eqb sx sy).
  - apply normalize_valid.
Qed.

Lemma sub_valid x y : valid x → valid y → valid (f64_sub x y).
Proof.
  intros Hx Hy. unfold f64_sub. destruct x as [sx|sx| |sx mx ex], y as [sy|sy| |sy my ey]; try done.
  - cbn. by destruct (Bool.eqb sx (negb sy)).
  - cbn. by destruct (Bool.eqb sx (negb sy)).
  - apply normalize_valid.
Qed.

Lemma mul_valid x y : valid x → valid y → valid (f64_mul x y).
Proof.
  intros Hx Hy. unfold f64_mul. destruct x as [sx|sx| |sx mx ex], y as [sy|sy| |sy my ey]; try done.
  apply valid_finite in Hx as [Hx _], Hy as [Hy _]. cbn [SFmul].
  apply round_valid; [done|].
  assert (Zpos (digits2_pos mx) + Zpos (digits2_pos my) - 1 <= Zdigits2 (Zpos (mx * my))) as Hd.
  { destruct (Zdigits2_bounds (Zpos mx)) as [L1 _]; [done|]. destruct (Zdigits2_bounds (Zpos my)) as [L2 _]; [done|].
    cbn [Zdigits2] in L1, L2. apply Zdigits2_ge; [done|].
    replace (Zpos (digits2_pos mx) + Zpos (digits2_pos my) - 1 - 1)
      with ((Zpos (digits2_pos mx) - 1) + (Zpos (digits2_pos my) - 1)) by lia.
    rewrite Z.pow_add_r by lia. rewrite Pos2Z.inj_mul.
    apply Z.mul_le_mono_nonneg; try done; apply Z.pow_nonneg; lia. }
  rewrite !fexp64_max in *. lia.
Qed.

Lemma div_valid x y : valid x → valid y → valid (f64_div x y).
Proof.
  intros Hx Hy. unfold f64_div. destruct x as [sx|sx| |sx mx ex], y as [sy|sy| |sy my ey]; try done.
  cbn [SFdiv]. unfold SFdiv_core_binary. cbn [Zdigits2].
  set (d1 := Zpos (digits2_pos mx)). set (d2 := Zpos (digits2_pos my)).
  change (SpecFloat.fexp f64_prec f64_emax) with fexp64.
  set (e' := Z.min (fexp64 (d1 + ex - (d2 + ey))) (ex - ey)).
  set (s := ex - ey - e'). assert (0 <= s) as Hs by lia.
  assert (match s with Z0 => Zpos mx | Zpos _ => Z.shiftl (Zpos mx) s | Zneg _ => 0 end = Zpos mx * 2 ^ s) as ->.
  { destruct s; [lia|by rewrite Z.shiftl_mul_pow2|lia]. }
  pose proof (Z_div_mod (Zpos mx * 2 ^ s) (Zpos my) ltac:(lia)) as Hqr.
  destruct (Z.div_eucl (Zpos mx * 2 ^ s) (Zpos my)) as [q r]. destruct Hqr as [Eq Hr].
  assert (0 < 2 ^ s) by (apply Z.pow_pos_nonneg; lia).
  assert (0 <= q) as Hq by nia.
  apply round_valid; [done|].
  assert (d1 + s - d2 <= Zdigits2 q) as Hd.
  { destruct (Zdigits2_bounds (Zpos mx)) as [L1 _]; [done|]. destruct (Zdigits2_bounds (Zpos my)) as [_ L2]; [done|].
    cbn [Zdigits2] in L1, L2. fold d1 in L1. fold d2 in L2.
    destruct (Z_le_gt_dec (d1 + s - d2) 0) as [?|Hpos].
    { assert (0 <= Zdigits2 q) by (by destruct q). lia. }
    assert (2 ^ (d1 - 1 + s) <= Zpos mx * 2 ^ s) as HL.
    { rewrite Z.pow_add_r by lia. nia. }
    assert (2 ^ (d1 - 1 + s) = 2 ^ (d1 + s - d2 - 1) * 2 ^ d2) as E2.
    { rewrite <- Z.pow_add_r by lia. f_equal. lia. }
    assert (0 < 2 ^ (d1 + s - d2 - 1)) by (apply Z.pow_pos_nonneg; lia).
    assert (2 ^ (d1 + s - d2 - 1) <= q) as Hq2.
    { destruct (Z_le_gt_dec (2 ^ (d1 + s - d2 - 1)) q) as [?|Hg]; [done|]. nia. }
    apply Zdigits2_ge; [lia|done]. }
  assert (fexp64 (d1 + ex - (d2 + ey)) <= fexp64 (Zdigits2 q + e')); [|lia].
  rewrite !fexp64_max. lia.
Qed.

Lemma sqrt_valid x : valid x → valid (f64_sqrt x).
Proof.
  intros Hx. unfold f64_sqrt. destruct x as [sx|[]| |[] m e]; try done.
  cbn [SFsqrt]. unfold SFsqrt_core_binary. cbn [Zdigits2].
  set (d := Zpos (digits2_pos m)).
  change (SpecFloat.fexp f64_prec f64_emax) with fexp64.
  set (e' := Z.min (fexp64 (Z.div2 (d + e + 1))) (Z.div2 e)).
  set (s := e - 2 * e').
  assert (2 * Z.div2 e <= e) as Hd2 by (rewrite Z.div2_div; apply Z.mul_div_le; lia).
  assert (0 <= s) as Hs by lia.
  assert (match s with Z0 => Zpos m | Zpos _ => Z.shiftl (Zpos m) s | Zneg _ => 0 end = Zpos m * 2 ^ s) as ->.
  { destruct s; [lia|by rewrite Z.shiftl_mul_pow2|lia]. }
  assert (0 < 2 ^ s) by (apply Z.pow_pos_nonneg; lia).
  pose proof (Z.sqrtrem_spec (Zpos m * 2 ^ s) ltac:(lia)) as Hqr.
  destruct (Z.sqrtrem (Zpos m * 2 ^ s)) as [q r]. destruct Hqr as [Eq Hr].
  assert (0 < q) as Hq by nia.
  apply round_valid; [lia|].
  assert (Z.div2 (d + s + 1) <= Zdigits2 q) as Hd.
  { destruct (Zdigits2_bounds (Zpos m)) as [L1 _]; [done|]. cbn [Zdigits2] in L1. fold d in L1.
    destruct (Zdigits2_bounds q Hq) as [_ U].
    destruct (Z_le_gt_dec (Z.div2 (d + s + 1)) (Zdigits2 q)) as [?|Hg]; [done|].
    assert (2 * Z.div2 (d + s + 1) <= d + s + 1) as Hh by (rewrite Z.div2_div; apply Z.mul_div_le; lia).
    assert (2 ^ (d - 1 + s) <= Zpos m * 2 ^ s) as HL.
    { rewrite Z.pow_add_r by lia. nia. }
    assert (2 ^ (2 * Zdigits2 q) <= 2 ^ (d - 1 + s)) as Hp by (apply Z.pow_le_mono_r; lia).
    assert (0 <= Zdigits2 q) by (by destruct q).
    replace (2 * Zdigits2 q) with (Zdigits2 q + Zdigits2 q) in Hp by lia. rewrite Z.pow_add_r in Hp by lia. nia. }
  assert (fexp64 (Z.div2 (d + e + 1)) <= fexp64 (Zdigits2 q + e')) as Hf; [|lia].
  assert (Z.div2 (d + s + 1) + e' = Z.div2 (d + e + 1)) as Ed.
  { rewrite !Z.div2_div. replace (d + e + 1) with (d + s + 1 + e' * 2) by lia. by rewrite Z.div_add. }
  rewrite !fexp64_max. lia.
Qed.
