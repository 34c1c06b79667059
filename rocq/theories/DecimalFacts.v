(** * Reading decimal texts of binary64 numbers *)
From stdpp Require Import strings.
From Verif Require Export Decimal64 FloatValid.
From Verif Require Import ProbabilisticFacts.
From Coq Require Import ZArith Lia.
Local Open Scope Z_scope.

(** ** Rounding only depends on the value *)

Lemma describes_unique N D r N' D' r' :
  describes N D r → describes N' D' r' → N * D' = N' * D → r = r'.
Proof.
  destruct r as [m a b], r' as [m' a' b']. unfold describes. cbn [shr_m shr_r shr_s].
  intros (HD & Hm & Hb & Ha & Hs) (HD' & Hm' & Hb' & Ha' & Hs') E.
  assert (m = m') as <-.
  { assert (m * (D * D') < (m' + 1) * (D * D')) by nia. assert (m' * (D * D') < (m + 1) * (D * D')) by nia. nia. }
  assert (D <= 2 * (N - m * D) ↔ D' <= 2 * (N' - m * D')) as H1.
  { split; intros H; nia. }
  assert ((N ≠ m * D ∧ 2 * (N - m * D) ≠ D) ↔ (N' ≠ m * D' ∧ 2 * (N' - m * D') ≠ D')) as H2.
  { split; intros [? ?]; split; nia. }
  f_equal.
  - destruct a, a'; try done; exfalso; [assert (false = true) by tauto|assert (false = true) by tauto]; done.
  - destruct b, b'; try done; exfalso; [assert (false = true) by tauto|assert (false = true) by tauto]; done.
Qed.

(** The value [N / D * 2 ^ e], given by its integer part and location. *)
Record represents (N D m e : Z) (l : location) : Prop := {
  rp_located : located N D m l;
  rp_digits : e <= fexp64 (Zdigits2 m + e)
}.

Lemma represents_bounds N D m e l : represents N D m e l → 0 <= m ∧ 0 < D ∧ m * D <= N < (m + 1) * D.
Proof. intros [(HD & Hm & Hb & _) _]. destruct l as [|[]]; cbn in *; lia. Qed.

(** The exponent after the first shift. *)
Lemma represents_exponent N1 D1 m1 e1 l1 N2 D2 m2 e2 l2 b :
  represents N1 D1 m1 e1 l1 → represents N2 D2 m2 e2 l2 → b <= e1 → b <= e2 →
  N1 * 2 ^ (e1 - b) * D2 = N2 * 2 ^ (e2 - b) * D1 →
  0 < m1 → fexp64 (Zdigits2 m1 + e1) <= fexp64 (Zdigits2 m2 + e2).
Proof.
  intros H1 H2 Hb1 Hb2 E Hm1.
  destruct (represents_bounds _ _ _ _ _ H1) as (_ & HD1 & HN1). destruct (represents_bounds _ _ _ _ _ H2) as (Hm2 & HD2 & HN2).
  destruct H1 as [_ Hd1], H2 as [_ Hd2].
  destruct (Zdigits2_bounds m1 Hm1) as [L1 _].
  set (d1 := Zdigits2 m1) in *. set (d2 := Zdigits2 m2) in *.
  assert (1 <= d1) as Hd1p by (unfold d1; destruct m1; cbn; lia).
  assert (0 <= d2 ∧ m2 + 1 <= 2 ^ d2) as [Hd20 U2].
  { unfold d2. destruct (Z.eq_dec m2 0) as [->|?]; [cbn; lia|]. destruct (Zdigits2_bounds m2) as [_ U]; [lia|].
    split; [|lia]. by destruct m2. }
  assert (2 ^ (d1 - 1) * 2 ^ (e1 - b) * (D1 * D2) < 2 ^ d2 * 2 ^ (e2 - b) * (D1 * D2)) as Hlt.
  { assert (0 < 2 ^ (e1 - b)) by (apply Z.pow_pos_nonneg; lia). assert (0 < 2 ^ (e2 - b)) by (apply Z.pow_pos_nonneg; lia).
    assert (2 ^ (d1 - 1) * D1 <= N1) by nia.
    assert (N2 < 2 ^ d2 * D2) by nia.
    assert (2 ^ (d1 - 1) * 2 ^ (e1 - b) * (D1 * D2) <= N1 * 2 ^ (e1 - b) * D2).
    { replace (2 ^ (d1 - 1) * 2 ^ (e1 - b) * (D1 * D2)) with ((2 ^ (d1 - 1) * D1) * (2 ^ (e1 - b) * D2)) by lia.
      replace (N1 * 2 ^ (e1 - b) * D2) with (N1 * (2 ^ (e1 - b) * D2)) by lia.
      apply Z.mul_le_mono_nonneg_r; [nia|done]. }
    assert (N2 * 2 ^ (e2 - b) * D1 < 2 ^ d2 * 2 ^ (e2 - b) * (D1 * D2)).
    { replace (2 ^ d2 * 2 ^ (e2 - b) * (D1 * D2)) with ((2 ^ d2 * D2) * (2 ^ (e2 - b) * D1)) by lia.
      replace (N2 * 2 ^ (e2 - b) * D1) with (N2 * (2 ^ (e2 - b) * D1)) by lia.
      apply Z.mul_lt_mono_pos_r; [nia|done]. }
    lia. }
  assert (2 ^ (d1 - 1 + (e1 - b)) < 2 ^ (d2 + (e2 - b))) as Hp.
  { rewrite !Z.pow_add_r by lia. apply (Z.mul_lt_mono_pos_r (D1 * D2)); [nia|lia]. }
  assert (d1 - 1 + (e1 - b) < d2 + (e2 - b)) as Hx by (apply (Z.pow_lt_mono_r_iff 2); lia).
  rewrite !fexp64_max. lia.
Qed.

Lemma round_unique s N1 D1 m1 e1 l1 N2 D2 m2 e2 l2 b :
  represents N1 D1 m1 e1 l1 → represents N2 D2 m2 e2 l2 → b <= e1 → b <= e2 →
  N1 * 2 ^ (e1 - b) * D2 = N2 * 2 ^ (e2 - b) * D1 →
  binary_round_aux f64_prec f64_emax s m1 e1 l1 = binary_round_aux f64_prec f64_emax s m2 e2 l2.
Proof.
  intros H1 H2 Hb1 Hb2 E.
  assert (fexp64 (Zdigits2 m1 + e1) = fexp64 (Zdigits2 m2 + e2)) as Ef.
  { destruct (represents_bounds _ _ _ _ _ H1) as (Hm1 & _). destruct (represents_bounds _ _ _ _ _ H2) as (Hm2 & _).
    assert (m1 = 0 ∨ 0 < m1) as [->|Hm1'] by lia; assert (m2 = 0 ∨ 0 < m2) as [->|Hm2'] by lia.
    - destruct H1 as [_ H1], H2 as [_ H2]. cbn [Zdigits2] in *. rewrite !fexp64_max in *. lia.
    - pose proof (represents_exponent _ _ _ _ _ _ _ _ _ _ b H2 H1 Hb2 Hb1 (eq_sym E) Hm2').
      destruct H1 as [_ H1]. cbn [Zdigits2] in *. rewrite !fexp64_max in *. lia.
    - pose proof (represents_exponent _ _ _ _ _ _ _ _ _ _ b H1 H2 Hb1 Hb2 E Hm1').
      destruct H2 as [_ H2]. cbn [Zdigits2] in *. rewrite !fexp64_max in *. lia.
    - pose proof (represents_exponent _ _ _ _ _ _ _ _ _ _ b H1 H2 Hb1 Hb2 E Hm1').
      pose proof (represents_exponent _ _ _ _ _ _ _ _ _ _ b H2 H1 Hb2 Hb1 (eq_sym E) Hm2'). lia. }
  destruct H1 as [H1 Hd1], H2 as [H2 Hd2].
  destruct (shr_fexp_describes _ _ _ e1 _ H1) as (k1 & Hk1 & Hk1' & Hl1 & E1 & R1).
  destruct (shr_fexp_describes _ _ _ e2 _ H2) as (k2 & Hk2 & Hk2' & Hl2 & E2 & R2).
  unfold binary_round_aux.
  destruct (shr_fexp f64_prec f64_emax m1 e1 l1) as [r1 x1]. destruct (shr_fexp f64_prec f64_emax m2 e2 l2) as [r2 x2].
  cbn [fst snd] in *. subst x1 x2.
  assert (e1 + k1 = e2 + k2) as Ek by lia. rewrite Ek.
  assert (r1 = r2) as ->; [|done].
  eapply describes_unique; [exact R1|exact R2|].
  assert (0 < 2 ^ b ∨ True) as _ by auto.
  (* N1 / (D1 2^k1) = N2 / (D2 2^k2) *)
  assert (2 ^ (e1 - b) * 2 ^ k1 = 2 ^ (e2 - b) * 2 ^ k2) as Ep.
  { rewrite <- !Z.pow_add_r by lia. f_equal. lia. }
  assert (0 < 2 ^ k1) by (apply Z.pow_pos_nonneg; lia). assert (0 < 2 ^ k2) by (apply Z.pow_pos_nonneg; lia).
  assert (0 < 2 ^ (e1 - b)) by (apply Z.pow_pos_nonneg; lia). assert (0 < 2 ^ (e2 - b)) by (apply Z.pow_pos_nonneg; lia).
  apply (Z.mul_reg_r _ _ (2 ^ (e1 - b))); [lia|].
  transitivity (N1 * 2 ^ (e1 - b) * D2 * 2 ^ k2); [lia|]. rewrite E.
  transitivity (N2 * D1 * (2 ^ (e2 - b) * 2 ^ k2)); [lia|]. rewrite <- Ep. lia.
Qed.

(** ** The decimal [m * 10 ^ k] *)

(** What [f64_of_decimal] rounds: [N / D]. *)
Lemma decimal_represents p k :
  ∃ m e l N D, f64_of_decimal (Npos p) k = binary_round_aux f64_prec f64_emax false m e l ∧
    represents N D m e l ∧ e <= 0 ∧
    N * 10 ^ Z.max 0 (- k) = Zpos p * 10 ^ Z.max 0 k * 2 ^ (- e) * D.
Proof.
  unfold f64_of_decimal. destruct (Z.leb_spec 0 k) as [Hk|Hk].
  - assert (0 < 10 ^ k) by (apply Z.pow_pos_nonneg; lia).
    destruct (Zpos p * 10 ^ k) as [|P|P] eqn:EP; [lia| |lia]. cbn [binary_normalize]. unfold binary_round, shl_align.
    replace (Z.max 0 (- k)) with 0 by lia. replace (Z.max 0 k) with k by lia. rewrite EP, Z.pow_0_r.
    rewrite Z.add_0_r, Z.sub_0_r. destruct (fexp64 (Zpos (digits2_pos P))) as [|n|n] eqn:Ef.
    + exists (Zpos P), 0, loc_Exact, (Zpos P), 1. split; [done|]. split; [|split; [lia|change (2 ^ (- 0)) with 1; lia]].
      split; [by apply located_exact|]. cbn [Zdigits2]. rewrite Z.add_0_r. lia.
    + exists (Zpos P), 0, loc_Exact, (Zpos P), 1. split; [done|]. split; [|split; [lia|change (2 ^ (- 0)) with 1; lia]].
      split; [by apply located_exact|]. cbn [Zdigits2]. rewrite Z.add_0_r. lia.
    + exists (Zpos (shift_pos n P)), (Zneg n), loc_Exact, (Zpos (shift_pos n P)), 1. split; [done|]. split; [|split; [lia|]].
      * split; [by apply located_exact|]. rewrite shift_pos_Z.
        assert (Zpos (digits2_pos P) + Zpos n <= Zdigits2 (Zpos P * 2 ^ Zpos n)) as Hd.
        { apply Zdigits2_ge; [nia|]. destruct (Zdigits2_bounds (Zpos P)) as [L _]; [done|]. cbn [Zdigits2] in L.
          replace (Zpos (digits2_pos P) + Zpos n - 1) with (Zpos (digits2_pos P) - 1 + Zpos n) by lia.
          rewrite Z.pow_add_r by lia. assert (0 < 2 ^ Zpos n) by (by apply Z.pow_pos_nonneg). nia. }
        rewrite fexp64_max in *. lia.
      * rewrite shift_pos_Z. change (- Zneg n) with (Zpos n). ring.
  - unfold SFdiv_core_binary. rewrite Z.sub_0_r, !Z.add_0_r. change (SpecFloat.fexp f64_prec f64_emax) with fexp64.
    replace (Z.max 0 (- k)) with (- k) by lia. replace (Z.max 0 k) with 0 by lia.
    assert (0 < 10 ^ (- k)) as HD by (apply Z.pow_pos_nonneg; lia).
    set (D := 10 ^ (- k)) in *. cbn [Zdigits2]. set (d1 := Zpos (digits2_pos p)). set (d2 := Zdigits2 D).
    set (e' := Z.min (fexp64 (d1 - d2)) 0). set (s := 0 - e'). assert (0 <= s) as Hs by lia.
    assert (match s with Z0 => Zpos p | Zpos _ => Z.shiftl (Zpos p) s | Zneg _ => 0 end = Zpos p * 2 ^ s) as ->.
    { destruct s; [lia|by rewrite Z.shiftl_mul_pow2|lia]. }
    pose proof (Z_div_mod (Zpos p * 2 ^ s) D ltac:(lia)) as Hqr.
    destruct (Z.div_eucl (Zpos p * 2 ^ s) D) as [q r]. destruct Hqr as [Eq Hr].
    assert (0 < 2 ^ s) by (apply Z.pow_pos_nonneg; lia).
    assert (0 <= q) as Hq by nia.
    exists q, e', (new_location D r), (Zpos p * 2 ^ s), D. split; [done|]. split; [|split; [lia|]].
    + split; [by apply located_division|].
      assert (d1 + s - d2 <= Zdigits2 q) as Hd.
      { destruct (Zdigits2_bounds (Zpos p)) as [L1 _]; [done|]. destruct (Zdigits2_bounds D) as [_ L2]; [done|].
        cbn [Zdigits2] in L1. fold d1 in L1. fold d2 in L2.
        assert (0 <= d2) by (unfold d2; by destruct D).
        destruct (Z_le_gt_dec (d1 + s - d2) 0) as [?|Hpos].
        { assert (0 <= Zdigits2 q) by (by destruct q). lia. }
        assert (2 ^ (d1 - 1 + s) <= Zpos p * 2 ^ s) as HL.
        { rewrite Z.pow_add_r by lia. nia. }
        assert (2 ^ (d1 - 1 + s) = 2 ^ (d1 + s - d2 - 1) * 2 ^ d2) as E2.
        { rewrite <- Z.pow_add_r by lia. f_equal. lia. }
        assert (0 < 2 ^ (d1 + s - d2 - 1)) by (apply Z.pow_pos_nonneg; lia).
        assert (2 ^ (d1 + s - d2 - 1) <= q) as Hq2.
        { destruct (Z_le_gt_dec (2 ^ (d1 + s - d2 - 1)) q) as [?|Hg]; [done|]. nia. }
        apply Zdigits2_ge; [lia|done]. }
      assert (fexp64 (d1 - d2) <= fexp64 (Zdigits2 q + e')); [|lia].
      rewrite !fexp64_max. lia.
    + replace (- e') with s by lia. fold D. lia.
Qed.

(** Reading depends on the value only. *)
Lemma decimal_value p k p' k' b :
  b <= k → b <= k' → Zpos p * 10 ^ (k - b) = Zpos p' * 10 ^ (k' - b) →
  f64_of_decimal (Npos p) k = f64_of_decimal (Npos p') k'.
Proof.
  intros Hb Hb' E.
  destruct (decimal_represents p k) as (m1 & e1 & l1 & N1 & D1 & -> & R1 & He1 & V1).
  destruct (decimal_represents p' k') as (m2 & e2 & l2 & N2 & D2 & -> & R2 & He2 & V2).
  apply (round_unique _ N1 D1 _ _ _ N2 D2 _ _ _ (Z.min e1 e2)); [done|done|lia|lia|].
  destruct (represents_bounds _ _ _ _ _ R1) as (_ & HD1 & _). destruct (represents_bounds _ _ _ _ _ R2) as (_ & HD2 & _).
  set (c := Z.min e1 e2).
  assert (2 ^ (- e1) * 2 ^ (e1 - c) = 2 ^ (- e2) * 2 ^ (e2 - c)) as Ep.
  { rewrite <- !Z.pow_add_r by lia. f_equal. lia. }
  (* p 10^max(0,k) / 10^max(0,-k) is the same for both *)
  assert (Zpos p * 10 ^ Z.max 0 k * 10 ^ Z.max 0 (- k') = Zpos p' * 10 ^ Z.max 0 k' * 10 ^ Z.max 0 (- k)) as Ev.
  { assert (Zpos p * 10 ^ (Z.max 0 k + Z.max 0 (- k')) = Zpos p' * 10 ^ (Z.max 0 k' + Z.max 0 (- k))) as Ev.
    { set (x := Z.max 0 k + Z.max 0 (- k')). set (y := Z.max 0 k' + Z.max 0 (- k)).
      assert (x - y = k - k') as Exy by lia.
      destruct (Z_le_gt_dec k k') as [Hle|Hg].
      - replace y with (x + (k' - k)) by lia. rewrite Z.pow_add_r by lia.
        replace (k' - b) with ((k - b) + (k' - k)) in E by lia. rewrite Z.pow_add_r in E by lia.
        assert (0 < 10 ^ (k - b)) by (apply Z.pow_pos_nonneg; lia).
        assert (Zpos p = Zpos p' * 10 ^ (k' - k)) as ->.
        { apply (Z.mul_reg_r _ _ (10 ^ (k - b))); [lia|]. rewrite E. ring. }
        ring.
      - replace x with (y + (k - k')) by lia. rewrite Z.pow_add_r by lia.
        replace (k - b) with ((k' - b) + (k - k')) in E by lia. rewrite Z.pow_add_r in E by lia.
        assert (0 < 10 ^ (k' - b)) by (apply Z.pow_pos_nonneg; lia).
        assert (Zpos p * 10 ^ (k - k') = Zpos p') as <-.
        { apply (Z.mul_reg_r _ _ (10 ^ (k' - b))); [lia|]. rewrite <- E. ring. }
        ring. }
    rewrite !Z.pow_add_r in Ev by apply Z.le_max_l. rewrite !Z.mul_assoc in Ev. exact Ev. }
  assert (0 < 10 ^ Z.max 0 (- k)) as Ht by (apply Z.pow_pos_nonneg; [done|apply Z.le_max_l]).
  assert (0 < 10 ^ Z.max 0 (- k')) as Ht' by (apply Z.pow_pos_nonneg; [done|apply Z.le_max_l]).
  set (T := 10 ^ Z.max 0 (- k)) in *. set (T' := 10 ^ Z.max 0 (- k')) in *.
  set (A := Zpos p * 10 ^ Z.max 0 k) in *. set (A' := Zpos p' * 10 ^ Z.max 0 k') in *.
  apply (Z.mul_reg_r _ _ (T * T')); [apply Z.neq_mul_0; split; apply Z.neq_sym, Z.lt_neq; assumption|].
  transitivity ((N1 * T) * 2 ^ (e1 - c) * D2 * T'); [lia|]. rewrite V1.
  transitivity ((A * T') * (2 ^ (- e1) * 2 ^ (e1 - c)) * D1 * D2); [lia|]. rewrite Ev, Ep.
  transitivity ((A' * 2 ^ (- e2) * D2) * 2 ^ (e2 - c) * D1 * T); [lia|]. rewrite <- V2. lia.
Qed.

Lemma decimal_value_N m k m' k' b :
  b <= k → b <= k' → Z.of_N m * 10 ^ (k - b) = Z.of_N m' * 10 ^ (k' - b) →
  f64_of_decimal m k = f64_of_decimal m' k'.
Proof.
  intros Hb Hb' E.
  assert (0 < 10 ^ (k - b)) by (apply Z.pow_pos_nonneg; lia). assert (0 < 10 ^ (k' - b)) by (apply Z.pow_pos_nonneg; lia).
  destruct m as [|p], m' as [|p']; [done|nia|nia|]. by apply (decimal_value p k p' k' b).
Qed.

(** A decimal that is exactly a binary64 number is read as this number. *)
Lemma round_valid_same s m e :
  valid (S754_finite s m e) → binary_round_aux f64_prec f64_emax s (Zpos m) e loc_Exact = S754_finite s m e.
Proof.
  intros [He Hmax]%valid_finite. unfold binary_round_aux, shr_fexp. cbn [Zdigits2].
  change (SpecFloat.fexp f64_prec f64_emax) with fexp64. rewrite He, Z.sub_diag. cbn [shr shr_record_of_loc loc_of_shr_record round_nearest_even shr_m].
  cbn [Zdigits2]. rewrite He, Z.sub_diag. cbn [shr shr_m]. change (f64_emax - f64_prec) with 971.
  apply Zle_imp_le_bool in Hmax. by rewrite Hmax.
Qed.

Lemma decimal_exact p k m e :
  valid (S754_finite false m e) →
  Zpos p * 10 ^ Z.max 0 k * 2 ^ Z.max 0 (- e) = Zpos m * 2 ^ Z.max 0 e * 10 ^ Z.max 0 (- k) →
  f64_of_decimal (Npos p) k = S754_finite false m e.
Proof.
  intros Hv E. rewrite <- (round_valid_same false m e Hv).
  destruct (decimal_represents p k) as (m1 & e1 & l1 & N1 & D1 & -> & R1 & He1 & V1).
  destruct (represents_bounds _ _ _ _ _ R1) as (_ & HD1 & _).
  apply valid_finite in Hv as [He _].
  apply (round_unique _ N1 D1 _ _ _ (Zpos m) 1 _ _ _ (Z.min e1 e)); [done| |lia|lia|].
  { split; [by apply located_exact|]. cbn [Zdigits2]. lia. }
  set (c := Z.min e1 e).
  assert (2 ^ (- e1) * 2 ^ (e1 - c) * 2 ^ Z.max 0 e = 2 ^ Z.max 0 (- e) * 2 ^ (e - c)) as Ep.
  { rewrite <- !Z.pow_add_r by lia. f_equal. lia. }
  assert (0 < 10 ^ Z.max 0 (- k)) as Ht by (apply Z.pow_pos_nonneg; [done|apply Z.le_max_l]).
  assert (0 < 2 ^ Z.max 0 e) as Hu by (apply Z.pow_pos_nonneg; [done|apply Z.le_max_l]).
  assert (0 < 2 ^ Z.max 0 (- e)) as Hu' by (apply Z.pow_pos_nonneg; [done|apply Z.le_max_l]).
  set (T := 10 ^ Z.max 0 (- k)) in *. set (A := Zpos p * 10 ^ Z.max 0 k) in *.
  set (U := 2 ^ Z.max 0 e) in *. set (U' := 2 ^ Z.max 0 (- e)) in *.
  apply (Z.mul_reg_r _ _ (T * U)); [apply Z.neq_mul_0; split; apply Z.neq_sym, Z.lt_neq; assumption|].
  transitivity ((N1 * T) * 2 ^ (e1 - c) * U); [ring|]. rewrite V1.
  transitivity (A * D1 * (2 ^ (- e1) * 2 ^ (e1 - c) * U)); [ring|]. rewrite Ep.
  transitivity ((A * U') * D1 * 2 ^ (e - c)); [ring|]. rewrite E. ring.
Qed.

Lemma decimal_valid m k : valid (f64_of_decimal m k).
Proof.
  destruct m as [|p]; [done|]. destruct (decimal_represents p k) as (m & e & l & N & D & -> & R & _).
  destruct (represents_bounds _ _ _ _ _ R) as (Hm & _). destruct R as [_ Hd]. by apply round_valid.
Qed.

(** Integers are read exactly. *)
Lemma decimal_int n : f64_of_decimal n 0 = f64_of_usize n.
Proof.
  destruct n as [|p]; [done|]. unfold f64_of_decimal. change (0 <=? 0) with true. cbv iota.
  change (10 ^ 0) with 1. by rewrite Z.mul_1_r.
Qed.

(** ** The result is nearest *)

Lemma round_nearest s N D m e l m' e' :
  represents N D m e l → binary_round_aux f64_prec f64_emax s m e l = S754_finite s m' e' →
  e <= e' ∧ 2 * Z.abs (Zpos m' * 2 ^ (e' - e) * D - N) <= 2 ^ (e' - e) * D.
Proof.
  intros R. destruct (represents_bounds _ _ _ _ _ R) as (Hm & HD0 & _). destruct R as [Hloc He].
  unfold binary_round_aux.
  destruct (shr_fexp_describes N D m e l Hloc) as (k & Hk & Hk' & Hle & E2 & Hd).
  assert (e + k = fexp64 (Zdigits2 m + e)) as Ek by (destruct Hk' as [->|?]; lia).
  destruct (shr_fexp f64_prec f64_emax m e l) as [mrs e1]. cbn [fst snd] in *. subst e1.
  destruct (nearest_describes _ _ _ Hd) as (Hm0 & Hhalf & Hup & _).
  set (m1 := round_nearest_even (shr_m mrs) (loc_of_shr_record mrs)) in *.
  destruct Hd as (HD & Hs0 & [Hs1 Hs2] & _).
  assert (0 < 2 ^ k) as Hpk by (apply Z.pow_pos_nonneg; lia).
  assert (N < (m + 1) * D) as HN.
  { destruct Hloc as (_ & _ & Hb & _). destruct l as [|[]]; cbn in *; lia. }
  assert (shr_m mrs * 2 ^ k <= m) as Hs3 by nia.
  assert (shr_m mrs < 2 ^ 53) as Hs53.
  { destruct (Z.eq_dec m 0) as [->|Hn]; [nia|].
    destruct (Zdigits2_bounds m) as [_ U]; [lia|].
    rewrite fexp64_max in Ek.
    assert (2 ^ Zdigits2 m <= 2 ^ 53 * 2 ^ k).
    { rewrite <- Z.pow_add_r by lia. apply Z.pow_le_mono_r; lia. }
    apply (Z.mul_lt_mono_pos_r (2 ^ k)); [exact Hpk|].
    eapply Z.le_lt_trans; [exact Hs3|]. eapply Z.lt_le_trans; eassumption. }
  destruct (shr_fexp_describes m1 1 m1 (e + k) loc_Exact (located_exact m1 Hm0)) as (k2 & Hk2 & Hk2' & Hle2 & E3 & Hd2).
  destruct (shr_fexp f64_prec f64_emax m1 (e + k) loc_Exact) as [mrs2 e2]. cbn [fst snd] in *. subst e2.
  destruct Hd2 as (HD2 & Ht0 & [Ht1 Ht2] & _). rewrite Z.mul_1_l in Ht1, Ht2, HD2.
  destruct (shr_m mrs2) as [|m2|m2] eqn:Em; [done| |lia].
  destruct (Zle_bool (e + k + k2) (f64_emax - f64_prec)) eqn:Eb; [|done]. intros [= -> <-].
  split; [lia|]. replace (e + k + k2 - e) with (k + k2) by lia. rewrite Z.pow_add_r by lia.
  assert (0 < 2 ^ k2) as Hpk2 by (apply Z.pow_pos_nonneg; lia).
  assert (Zpos m' * 2 ^ k2 = m1) as Em1.
  { assert (0 < m1) as Hm1 by nia.
    assert (m1 <= 2 ^ 53) as H53 by lia.
    assert (m1 = 2 ^ 53 ∨ m1 < 2 ^ 53) as [E|Hlt] by lia.
    - rewrite E in *. change (Zdigits2 (2 ^ 53)) with 54 in *. rewrite !fexp64_max in *.
      assert (k2 = 1) as -> by lia. lia.
    - assert (Zdigits2 m1 <= 53) as Hd53 by (apply Zdigits2_le; lia).
      assert (k2 = 0) as ->; [|lia].
      destruct Hk2' as [?|Hk2']; [done|]. rewrite !fexp64_max in *. lia. }
  replace (Zpos m' * (2 ^ k * 2 ^ k2) * D) with (Zpos m' * 2 ^ k2 * (D * 2 ^ k)) by ring. rewrite Em1.
  etransitivity; [exact Hhalf|]. nia.
Qed.

Lemma decimal_nearest :
  ∀ (n : N) k m e, f64_of_decimal n k = S754_finite false m e →
  let a := Z.max 0 (- k) in let d := Z.max 0 (- e) in
  (2 * Z.abs (Zpos m * 2 ^ (e + d) * 10 ^ a - Z.of_N n * 10 ^ (k + a) * 2 ^ d) <= 2 ^ (e + d) * 10 ^ a)%Z.
Proof.
  intros [|p] k m e H; [discriminate H|]. cbv zeta. destruct (decimal_represents p k) as (m0 & e0 & l & N & D & Er & R & He & Ev).
  rewrite Er in H. destruct (round_nearest _ _ _ _ _ _ _ _ R H) as [Hle Hn].
  destruct (represents_bounds _ _ _ _ _ R) as (_ & HD & _).
  set (a := Z.max 0 (- k)) in *. replace (k + a) with (Z.max 0 k) by lia. set (b := Z.max 0 k) in *.
  set (d := Z.max 0 (- e)). cbn [Z.of_N].
  assert (0 < 10 ^ a) as Ha by (apply Z.pow_pos_nonneg; lia).
  set (j := - e0 - d). assert (0 <= j) as Hj by lia.
  assert (0 < 2 ^ j) as Hpj by (apply Z.pow_pos_nonneg; lia).
  assert (2 ^ (e - e0) = 2 ^ (e + d) * 2 ^ j) as E1 by (rewrite <- Z.pow_add_r by lia; f_equal; lia).
  assert (2 ^ (- e0) = 2 ^ d * 2 ^ j) as E2 by (rewrite <- Z.pow_add_r by lia; f_equal; lia).
  rewrite E1 in Hn. rewrite E2 in Ev.
  set (X := 2 ^ (e + d)) in *. set (Y := 2 ^ d) in *. set (J := 2 ^ j) in *. set (T := 10 ^ a) in *. set (P := Zpos p * 10 ^ b) in *.
  apply (Z.mul_le_mono_pos_r _ _ (J * D)); [nia|].
  assert (Z.abs (Zpos m * X * T - P * Y) * (J * D) = Z.abs (Zpos m * (X * J) * D - N) * T) as E3.
  { rewrite <- (Z.abs_eq (J * D)) at 1 by nia. rewrite <- (Z.abs_eq T) at 2 by lia. rewrite <- !Z.abs_mul. f_equal.
    rewrite !Z.mul_sub_distr_r. rewrite Ev. ring. }
  replace (2 * Z.abs (Zpos m * X * T - P * Y) * (J * D)) with (2 * (Z.abs (Zpos m * X * T - P * Y) * (J * D))) by ring.
  rewrite E3. replace (X * T * (J * D)) with (X * J * D * T) by ring.
  replace (2 * (Z.abs (Zpos m * (X * J) * D - N) * T)) with (2 * Z.abs (Zpos m * (X * J) * D - N) * T) by ring.
  apply Z.mul_le_mono_nonneg_r; [lia|]. exact Hn.
Qed.
