(** * Facts about binary64 numbers *)
From Verif Require Export Probabilistic.
From Coq Require Import ZArith Lia.
Local Open Scope Z_scope.

(** ** Digits *)

Lemma digits_bounds p :
  2 ^ (Zpos (digits2_pos p) - 1) <= Zpos p < 2 ^ Zpos (digits2_pos p).
Proof.
  induction p as [p IH|p IH|]; cbn [digits2_pos]; [| |done].
  - rewrite Pos2Z.inj_succ, (Pos2Z.inj_xI p). replace (Z.succ (Zpos (digits2_pos p)) - 1) with (Zpos (digits2_pos p)) by lia.
    rewrite Z.pow_succ_r by lia.
    assert (2 ^ Zpos (digits2_pos p) = 2 * 2 ^ (Zpos (digits2_pos p) - 1)) as E
      by (rewrite <-Z.pow_succ_r by lia; f_equal; lia). lia.
  - rewrite Pos2Z.inj_succ, (Pos2Z.inj_xO p). replace (Z.succ (Zpos (digits2_pos p)) - 1) with (Zpos (digits2_pos p)) by lia.
    rewrite Z.pow_succ_r by lia.
    assert (2 ^ Zpos (digits2_pos p) = 2 * 2 ^ (Zpos (digits2_pos p) - 1)) as E
      by (rewrite <-Z.pow_succ_r by lia; f_equal; lia). lia.
Qed.

Lemma digits_unique p d : 0 < d → 2 ^ (d - 1) <= Zpos p < 2 ^ d → Zpos (digits2_pos p) = d.
Proof.
  intros Hd [H1 H2]. destruct (digits_bounds p) as [H3 H4].
  destruct (Z.lt_trichotomy (Zpos (digits2_pos p)) d) as [Hlt|[->|Hgt]]; [|done|].
  - pose proof (Z.pow_le_mono_r 2 (Zpos (digits2_pos p)) (d - 1)). lia.
  - pose proof (Z.pow_le_mono_r 2 d (Zpos (digits2_pos p) - 1)). lia.
Qed.

Lemma digits_le p q : Zpos p <= Zpos q → Zpos (digits2_pos p) <= Zpos (digits2_pos q).
Proof.
  intros H. destruct (digits_bounds p) as [H1 _], (digits_bounds q) as [_ H2].
  destruct (Z_le_gt_dec (Zpos (digits2_pos p)) (Zpos (digits2_pos q))) as [?|Hgt]; [done|].
  pose proof (Z.pow_le_mono_r 2 (Zpos (digits2_pos q)) (Zpos (digits2_pos p) - 1)). lia.
Qed.

Lemma digits_shift p n : 0 <= n → ∀ q, Zpos q = Zpos p * 2 ^ n → Zpos (digits2_pos q) = Zpos (digits2_pos p) + n.
Proof.
  intros Hn q Hq. destruct (digits_bounds p) as [H1 H2]. apply digits_unique; [lia|]. rewrite Hq.
  replace (Zpos (digits2_pos p) + n - 1) with (Zpos (digits2_pos p) - 1 + n) by lia.
  rewrite !Z.pow_add_r by lia. split.
  - by apply Z.mul_le_mono_nonneg_r; [apply Z.pow_nonneg|].
  - apply Z.mul_lt_mono_pos_r; [by apply Z.pow_pos_nonneg|done].
Qed.

(** ** Shifting right *)

Lemma iter_pos_nat {A} (f : A → A) n x : SpecFloat.iter_pos f n x = Nat.iter (Pos.to_nat n) f x.
Proof.
  revert x. induction n as [n IH|n IH|]; intros x; cbn [SpecFloat.iter_pos].
  - rewrite Pos2Nat.inj_xI, !IH. rewrite <-Nat.iter_add.
    replace (S (2 * Pos.to_nat n))%nat with ((Pos.to_nat n + Pos.to_nat n) + 1)%nat by lia.
    by rewrite (Nat.iter_add _ 1).
  - rewrite Pos2Nat.inj_xO, !IH. rewrite <-Nat.iter_add. f_equal. lia.
  - done.
Qed.

Lemma shr_1_m mrs : 0 <= shr_m mrs → shr_m (shr_1 mrs) = shr_m mrs / 2.
Proof.
  destruct mrs as [[|[p|p|]|p] r s]; simpl; intros H; try done; try lia.
  - rewrite Pos2Z.inj_xI. apply (Z.div_unique _ 2 _ 1); lia.
  - rewrite Pos2Z.inj_xO. apply (Z.div_unique _ 2 _ 0); lia.
Qed.

Lemma shr_iter_m n mrs : 0 <= shr_m mrs → shr_m (Nat.iter n shr_1 mrs) = shr_m mrs / 2 ^ Z.of_nat n.
Proof.
  intros H. induction n as [|n IH]; [by rewrite Z.div_1_r|].
  cbn [Nat.iter nat_rect]. fold (Nat.iter n shr_1 mrs).
  rewrite shr_1_m.
  - rewrite IH. rewrite Z.div_div by (lia || (apply Z.pow_nonzero; lia)).
    rewrite Nat2Z.inj_succ, Z.pow_succ_r by lia. f_equal. lia.
  - rewrite IH. apply Z.div_pos; [done|]. apply Z.pow_pos_nonneg; lia.
Qed.

Lemma shr_iter_exact n q :
  0 <= q → Nat.iter n shr_1 {| shr_m := q * 2 ^ Z.of_nat n; shr_r := false; shr_s := false |}
  = {| shr_m := q; shr_r := false; shr_s := false |}.
Proof.
  revert q. induction n as [|n IH]; intros q Hq; [by rewrite Z.mul_1_r|].
  replace (S n) with (1 + n)%nat by lia. rewrite Nat.iter_add.
  replace (q * 2 ^ Z.of_nat (1 + n)) with ((2 * q) * 2 ^ Z.of_nat n).
  2:{ replace (Z.of_nat (1 + n)) with (Z.succ (Z.of_nat n)) by lia. rewrite Z.pow_succ_r by lia. lia. }
  rewrite IH by lia. simpl. by destruct q.
Qed.

(** ** Rounding *)

Notation fexp64 := (fexp f64_prec f64_emax).
Lemma fexp_normal D : -1021 <= D → fexp64 D = D - 53.
Proof. unfold fexp, emin, f64_prec, f64_emax. lia. Qed.

Lemma round_near m l : m <= round_nearest_even m l <= m + 1.
Proof. destruct l as [|[]]; simpl; try lia. destruct (Z.even m); lia. Qed.

(** A number with enough digits in the normal range: the result is normal and
    has the same magnitude, or the next one. *)
Lemma round_normal s p e l :
  let d := Zpos (digits2_pos p) in
  53 <= d → -1021 <= d + e <= 1023 →
  ∃ m' e', binary_round_aux f64_prec f64_emax s (Zpos p) e l = S754_finite s m' e' ∧
    Zpos (digits2_pos m') = 53 ∧ d + e <= 53 + e' <= d + e + 1.
Proof.
  intros d Hd HD. unfold binary_round_aux, shr_fexp. cbn [Zdigits2]. fold d.
  rewrite (fexp_normal (d + e)) by lia.
  assert (∃ mrs1, shr (shr_record_of_loc (Zpos p) l) e (d + e - 53 - e) = (mrs1, d + e - 53) ∧
    shr_m mrs1 = Zpos p / 2 ^ (d - 53)) as (mrs1 & -> & Hm1).
  { assert (shr_m (shr_record_of_loc (Zpos p) l) = Zpos p) as Hl by (by destruct l as [|[]]).
    replace (d + e - 53 - e) with (d - 53) by lia. unfold shr.
    destruct (d - 53) as [|n|n] eqn:E; [| |lia].
    - eexists. split; [f_equal; lia|]. by rewrite Hl, Z.div_1_r.
    - eexists. split; [f_equal; lia|]. rewrite iter_pos_nat, shr_iter_m by (rewrite Hl; lia).
      rewrite Hl. do 2 f_equal. lia. }
  destruct (digits_bounds p) as [Hb1 Hb2]. fold d in Hb1, Hb2.
  assert (0 < 2 ^ (d - 53)) as Hpos by (apply Z.pow_pos_nonneg; lia).
  assert (2 ^ 52 <= shr_m mrs1 < 2 ^ 53) as Hm.
  { rewrite Hm1. split.
    - apply Z.div_le_lower_bound; [done|]. rewrite <-Z.pow_add_r by lia.
      replace (d - 53 + 52) with (d - 1) by lia. done.
    - apply Z.div_lt_upper_bound; [done|]. rewrite <-Z.pow_add_r by lia.
      replace (d - 53 + 53) with d by lia. done. }
  pose proof (round_near (shr_m mrs1) (loc_of_shr_record mrs1)) as Hr.
  set (m2 := round_nearest_even (shr_m mrs1) (loc_of_shr_record mrs1)) in *.
  assert (2 ^ 52 <= m2 <= 2 ^ 53) as Hm2 by lia. clearbody m2. clear Hr Hm Hm1.
  destruct m2 as [|p2|p2]; [exfalso; cbn in Hm2; lia| |exfalso; cbn in Hm2; lia].
  cbn [Zdigits2].
  destruct (Z.eq_dec (Zpos p2) (2 ^ 53)) as [E2|E2].
  - assert (Zpos (digits2_pos p2) = 54) as ->.
    { apply digits_unique; [lia|]. rewrite E2. split; [done|]. apply Z.pow_lt_mono_r; lia. }
    rewrite fexp_normal by lia. replace (54 + (d + e - 53) - 53 - (d + e - 53)) with 1 by lia.
    assert (p2 = 9007199254740992%positive) as -> by (by apply (inj Zpos)).
    unfold shr. cbn. change (f64_emax - f64_prec) with 971. destruct (Z.leb_spec (d + e - 53 + 1) 971); [|lia].
    eexists _, _. split; [reflexivity|]. split; [reflexivity|]. lia.
  - assert (Zpos (digits2_pos p2) = 53) as Ed2.
    { apply digits_unique; [lia|]. change (53 - 1) with 52. lia. }
    rewrite Ed2. rewrite fexp_normal by lia. replace (53 + (d + e - 53) - 53 - (d + e - 53)) with 0 by lia.
    unfold shr. cbn [shr_record_of_loc shr_m]. change (f64_emax - f64_prec) with 971.
    destruct (Z.leb_spec (d + e - 53) 971); [|lia].
    eexists _, _. split; [reflexivity|]. split; [done|]. lia.
Qed.

(** A number that is representable is not changed. *)
Lemma round_exact s p e q :
  let d := Zpos (digits2_pos p) in
  53 <= d → -1021 <= d + e <= 1024 → Zpos p = Zpos q * 2 ^ (d - 53) →
  binary_round_aux f64_prec f64_emax s (Zpos p) e loc_Exact = S754_finite s q (d + e - 53).
Proof.
  intros d Hd HD Hq. unfold binary_round_aux, shr_fexp. cbn [Zdigits2]. fold d.
  rewrite (fexp_normal (d + e)) by lia.
  assert (Zpos (digits2_pos q) = 53) as Hdq.
  { assert (Zpos (digits2_pos p) = Zpos (digits2_pos q) + (d - 53)) as H by (apply digits_shift; [lia|done]).
    fold d in H. lia. }
  assert (shr (shr_record_of_loc (Zpos p) loc_Exact) e (d + e - 53 - e)
    = ({| shr_m := Zpos q; shr_r := false; shr_s := false |}, d + e - 53)) as ->.
  { replace (d + e - 53 - e) with (d - 53) by lia. unfold shr, shr_record_of_loc.
    destruct (d - 53) as [|n|n] eqn:E; [| |lia].
    - f_equal; [|lia]. rewrite Hq. by rewrite Z.mul_1_r.
    - f_equal; [|lia]. rewrite iter_pos_nat, Hq.
      pose proof (shr_iter_exact (Pos.to_nat n) (Zpos q) ltac:(lia)) as H. by rewrite positive_nat_Z in H. }
  cbn [loc_of_shr_record round_nearest_even shr_m shr_record_of_loc Zdigits2]. rewrite Hdq, fexp_normal by lia.
  replace (53 + (d + e - 53) - 53 - (d + e - 53)) with 0 by lia. unfold shr. cbn [shr_m].
  change (f64_emax - f64_prec) with 971. destruct (Z.leb_spec (d + e - 53) 971); [done|lia].
Qed.

Lemma shift_pos_Z n p : Zpos (shift_pos n p) = Zpos p * 2 ^ Zpos n.
Proof. rewrite shift_pos_correct, Zpower_pos_nat, Zpower_nat_Z, positive_nat_Z. lia. Qed.

Lemma binary_round_normal s p e :
  let d := Zpos (digits2_pos p) in
  -1021 <= d + e <= 1023 →
  ∃ m' e', binary_round f64_prec f64_emax s p e = S754_finite s m' e' ∧
    Zpos (digits2_pos m') = 53 ∧ d + e <= 53 + e' <= d + e + 1 ∧
    (d <= 53 → Zpos m' = Zpos p * 2 ^ (53 - d) ∧ e' = d + e - 53).
Proof.
  intros d HD. unfold binary_round. fold d. rewrite fexp_normal by lia. unfold shl_align.
  replace (d + e - 53 - e) with (d - 53) by lia.
  destruct (Z_le_gt_dec d 53) as [Hle|Hgt].
  - assert (∃ p', match d - 53 with Zneg n => (shift_pos n p, d + e - 53) | _ => (p, e) end = (p', d + e - 53) ∧
      Zpos p' = Zpos p * 2 ^ (53 - d)) as (p' & -> & Hp').
    { destruct (d - 53) as [|n|n] eqn:E; [|lia|].
      - exists p. replace (53 - d) with 0 by lia. split; [f_equal; lia|]. by rewrite Z.mul_1_r.
      - exists (shift_pos n p). split; [done|]. rewrite shift_pos_Z. do 2 f_equal. lia. }
    assert (Zpos (digits2_pos p') = 53) as Hd'.
    { rewrite (digits_shift p (53 - d)) by (lia || done). fold d. lia. }
    rewrite (round_exact s p' (d + e - 53) p').
    + rewrite Hd'. eexists _, _. split; [reflexivity|]. split; [done|]. split; [lia|].
      intros _. split; [done|]. lia.
    + lia.
    + lia.
    + rewrite Hd'. by rewrite Z.mul_1_r.
  - assert (match d - 53 with Zneg n => (shift_pos n p, d + e - 53) | _ => (p, e) end = (p, e)) as ->.
    { destruct (d - 53) eqn:E; [done|done|lia]. }
    destruct (round_normal s p e loc_Exact) as (m' & e' & H1 & H2 & H3).
    + fold d. lia.
    + fold d. lia.
    + exists m', e'. split; [done|]. split; [done|]. split; [done|]. lia.
Qed.

(** ** Normal numbers *)

(** [x] is a positive normal number with [2^(D-1) <= x < 2^D]. *)
Definition normal (x : f64) (D : Z) : Prop :=
  ∃ m e, x = S754_finite false m e ∧ Zpos (digits2_pos m) = 53 ∧ D = 53 + e.

Lemma mul_normal x y a b :
  normal x a → normal y b → -1020 <= a + b <= 1022 →
  ∃ c, normal (f64_mul x y) c ∧ a + b - 1 <= c <= a + b + 1.
Proof.
  intros (m1 & e1 & -> & H1 & ->) (m2 & e2 & -> & H2 & ->) Hr. unfold f64_mul, SFmul. cbn [xorb].
  destruct (digits_bounds m1) as [L1 U1], (digits_bounds m2) as [L2 U2]. rewrite H1 in L1, U1. rewrite H2 in L2, U2.
  assert (105 <= Zpos (digits2_pos (m1 * m2)) <= 106) as Hd.
  { destruct (digits_bounds (m1 * m2)) as [L U]. rewrite Pos2Z.inj_mul in L, U.
    split.
    - destruct (Z_le_gt_dec 105 (Zpos (digits2_pos (m1 * m2)))) as [?|Hg]; [done|].
      pose proof (Z.pow_le_mono_r 2 (Zpos (digits2_pos (m1 * m2))) 104 ltac:(lia) ltac:(lia)) as Hp.
      assert (2 ^ 104 = 2 ^ (53 - 1) * 2 ^ (53 - 1)) as E by (by rewrite <-Z.pow_add_r by lia).
      pose proof (Z.mul_le_mono_nonneg (2 ^ (53 - 1)) (Zpos m1) (2 ^ (53 - 1)) (Zpos m2) ltac:(lia) L1 ltac:(lia) L2). lia.
    - destruct (Z_le_gt_dec (Zpos (digits2_pos (m1 * m2))) 106) as [?|Hg]; [done|].
      pose proof (Z.pow_le_mono_r 2 106 (Zpos (digits2_pos (m1 * m2)) - 1) ltac:(lia) ltac:(lia)) as Hp.
      assert (2 ^ 106 = 2 ^ 53 * 2 ^ 53) as E by (by rewrite <-Z.pow_add_r by lia).
      pose proof (Z.mul_lt_mono_nonneg (Zpos m1) (2 ^ 53) (Zpos m2) (2 ^ 53) ltac:(lia) U1 ltac:(lia) U2). lia. }
  destruct (round_normal false (m1 * m2) (e1 + e2) loc_Exact) as (m' & e' & E & Hm & He); [lia|lia|].
  exists (53 + e'). split; [|lia]. exists m', e'. done.
Qed.

Lemma div_normal x y a b :
  normal x a → normal y b → -1020 <= a - b <= 1020 →
  ∃ c, normal (f64_div x y) c ∧ a - b <= c <= a - b + 2.
Proof.
  intros (m1 & e1 & -> & H1 & ->) (m2 & e2 & -> & H2 & ->) Hr. unfold f64_div, SFdiv, SFdiv_core_binary.
  cbn [xorb Zdigits2]. rewrite H1, H2.
  rewrite fexp_normal by lia.
  replace (Z.min (53 + e1 - (53 + e2) - 53) (e1 - e2)) with (e1 - e2 - 53) by lia.
  replace (e1 - e2 - (e1 - e2 - 53)) with 53 by lia. cbv iota.
  rewrite Z.shiftl_mul_pow2 by lia.
  destruct (digits_bounds m1) as [L1 U1], (digits_bounds m2) as [L2 U2]. rewrite H1 in L1, U1. rewrite H2 in L2, U2.
  pose proof (Z_div_mod (Zpos m1 * 2 ^ 53) (Zpos m2) ltac:(lia)) as Hq.
  destruct (Z.div_eucl (Zpos m1 * 2 ^ 53) (Zpos m2)) as [q r]. destruct Hq as [Eq Hr'].
  assert (2 ^ 52 <= q) as Lq.
  { destruct (Z_le_gt_dec (2 ^ 52) q) as [?|Hg]; [done|]. exfalso.
    pose proof (Z.mul_le_mono_nonneg_l (q + 1) (2 ^ 52) (Zpos m2) ltac:(lia) ltac:(lia)).
    assert (2 ^ 53 = 2 * 2 ^ 52) as E by done. change (53 - 1) with 52 in *. nia. }
  assert (q < 2 ^ 54) as Uq.
  { destruct (Z_le_gt_dec (2 ^ 54) q) as [Hg|?]; [|lia]. exfalso.
    pose proof (Z.mul_le_mono_nonneg (2 ^ (53 - 1)) (Zpos m2) (2 ^ 54) q ltac:(lia) L2 ltac:(lia) Hg) as H3.
    pose proof (Z.mul_lt_mono_pos_r (2 ^ 53) (Zpos m1) (2 ^ 53) ltac:(lia)) as [H4 _]. specialize (H4 U1).
    rewrite <-!Z.pow_add_r in H3, H4 by lia. change (53 - 1 + 54) with 106 in H3. change (53 + 53) with 106 in H4. lia. }
  destruct q as [|q|q]; [lia| |lia].
  assert (53 <= Zpos (digits2_pos q) <= 54) as Hd.
  { destruct (digits_bounds q) as [L U]. split.
    - destruct (Z_le_gt_dec 53 (Zpos (digits2_pos q))) as [?|Hg]; [done|].
      pose proof (Z.pow_le_mono_r 2 (Zpos (digits2_pos q)) 52 ltac:(lia) ltac:(lia)). lia.
    - destruct (Z_le_gt_dec (Zpos (digits2_pos q)) 54) as [?|Hg]; [done|].
      pose proof (Z.pow_le_mono_r 2 54 (Zpos (digits2_pos q) - 1) ltac:(lia) ltac:(lia)). lia. }
  destruct (round_normal false q (e1 - e2 - 53) (new_location (Zpos m2) r)) as (m' & e' & E & Hm & He); [lia|lia|].
  exists (53 + e'). split; [|lia]. exists m', e'. done.
Qed.

Lemma one_normal : normal f64_one 1.
Proof. exists 4503599627370496%positive, (-52). by vm_compute. Qed.

(** A positive normal number of magnitude at least 1 is at least 1. *)
Lemma normal_ge_one x D : normal x D → 1 <= D → SFleb f64_one x = true.
Proof.
  intros (m & e & -> & Hd & ->) HD.
  change f64_one with (S754_finite false 4503599627370496 (-52)). unfold SFleb, SFcompare.
  destruct (Z.compare_spec (-52) e) as [He|He|He]; [|done|lia].
  destruct (digits_bounds m) as [L _]. rewrite Hd in L. change (2 ^ (53 - 1)) with 4503599627370496 in L.
  change (Pcompare 4503599627370496 m Eq) with (4503599627370496 ?= m)%positive.
  destruct (4503599627370496 ?= m)%positive eqn:E; [reflexivity|reflexivity|].
  apply Pos.compare_gt_iff in E. exfalso. apply (Z.lt_irrefl (Zpos m)).
  apply (Z.lt_le_trans _ (Zpos 4503599627370496)); [exact E|exact L].
Qed.

(** ** Numbers with an integer value *)

Definition int_value (x : f64) (k : Z) : Prop :=
  (k = 0 ∧ x = S754_zero false) ∨
  (0 < k ∧ ∃ m e, x = S754_finite false m e ∧ Zpos (digits2_pos m) = 53 ∧
     ((e <= 0 ∧ Zpos m = k * 2 ^ (- e)) ∨ (0 < e ∧ k = Zpos m * 2 ^ e))).

Definition digits (k : Z) : Z := Zpos (digits2_pos (Z.to_pos k)).

Lemma digits_lower k d : 0 < d → 2 ^ (d - 1) <= k → d <= digits k.
Proof.
  intros Hd Hk. unfold digits. assert (0 < k).
  { assert (0 < 2 ^ (d - 1)) by (apply Z.pow_pos_nonneg; lia). lia. }
  destruct (digits_bounds (Z.to_pos k)) as [_ U]. rewrite Z2Pos.id in U by done.
  destruct (Z_le_gt_dec d (Zpos (digits2_pos (Z.to_pos k)))) as [?|Hg]; [done|].
  pose proof (Z.pow_le_mono_r 2 (Zpos (digits2_pos (Z.to_pos k))) (d - 1)). lia.
Qed.

Lemma digits_upper k d : 0 < k → k < 2 ^ d → digits k <= d.
Proof.
  intros Hk Hd. unfold digits.
  destruct (digits_bounds (Z.to_pos k)) as [L _]. rewrite Z2Pos.id in L by done.
  destruct (Z_le_gt_dec (Zpos (digits2_pos (Z.to_pos k))) d) as [?|Hg]; [done|].
  pose proof (Z.pow_le_mono_r 2 d (Zpos (digits2_pos (Z.to_pos k)) - 1)). lia.
Qed.

Lemma digits_pos k : 1 <= digits k.
Proof. unfold digits. lia. Qed.

Lemma of_usize_int k : (k < 2 ^ 53)%N → int_value (f64_of_usize k) (Z.of_N k).
Proof.
  intros Hk. destruct k as [|k]; [by left|]. right. split; [lia|]. cbn [Z.of_N].
  unfold f64_of_usize. cbn [Z.of_N binary_normalize].
  assert (Zpos (digits2_pos k) <= 53) as Hd.
  { apply (digits_upper (Zpos k)); [lia|]. by apply N2Z.inj_lt in Hk. }
  destruct (binary_round_normal false k 0) as (m & e & E & Hm & _ & Hx); [lia|].
  destruct (Hx Hd) as [Hm' He]. exists m, e. split; [done|]. split; [done|]. left.
  split; [lia|]. rewrite Hm'. do 2 f_equal. lia.
Qed.

Lemma of_usize_max : int_value (f64_of_usize usize_max) (2 ^ 64).
Proof.
  right. split; [done|]. exists 4503599627370496%positive, 12. split; [by vm_compute|]. split; [done|].
  right. done.
Qed.

Lemma int_normal x k : int_value x k → 0 < k → normal x (digits k).
Proof.
  intros [[-> _]|(Hk & m & e & -> & Hm & He)] H; [lia|]. exists m, e. split; [done|]. split; [done|].
  unfold digits. destruct He as [[He E]|[He E]].
  - assert (Zpos (digits2_pos m) = Zpos (digits2_pos (Z.to_pos k)) + - e) as Hs.
    { apply digits_shift; [lia|]. by rewrite Z2Pos.id. }
    lia.
  - assert (Zpos (digits2_pos (Z.to_pos k)) = Zpos (digits2_pos m) + e) as Hs.
    { apply digits_shift; [lia|]. by rewrite Z2Pos.id. }
    lia.
Qed.

Lemma shl_align_Z m e ez : ez <= e → Zpos (fst (shl_align m e ez)) = Zpos m * 2 ^ (e - ez).
Proof.
  intros H. unfold shl_align. destruct (ez - e) as [|n|n] eqn:E; [|lia|].
  - replace (e - ez) with 0 by lia. simpl. lia.
  - cbn [fst]. rewrite shift_pos_Z. do 2 f_equal. lia.
Qed.

Lemma int_align k m e ez :
  0 < k → ez <= e → ez <= 0 →
  ((e <= 0 ∧ Zpos m = k * 2 ^ (- e)) ∨ (0 < e ∧ k = Zpos m * 2 ^ e)) →
  Zpos (fst (shl_align m e ez)) = k * 2 ^ (- ez).
Proof.
  intros Hk He Hz H. rewrite shl_align_Z by done. destruct H as [[He' ->]|[He' ->]].
  - rewrite <-Z.mul_assoc, <-Z.pow_add_r by lia. do 2 f_equal. lia.
  - rewrite <-Z.mul_assoc, <-Z.pow_add_r by lia. done.
Qed.

(** The difference of two integers has the right sign and magnitude. *)
Lemma sub_int x y a b :
  int_value x a → int_value y b → a <= 2 ^ 64 → b < 2 ^ 53 →
  (a = b → f64_sub x y = S754_zero false) ∧
  (a < b → SFltb (f64_sub x y) f64_zero = true) ∧
  (b < a → ∃ c, normal (f64_sub x y) c ∧ digits (a - b) <= c <= digits (a - b) + 1).
Proof.
  intros Hx Hy Ha Hb. destruct Hy as [[-> ->]|(Hb' & m2 & e2 & -> & Hm2 & He2)].
  { destruct Hx as [[-> ->]|(Ha' & m1 & e1 & -> & Hm1 & He1)].
    - repeat split; [lia|lia].
    - repeat split; [lia|lia|]. intros _. exists (digits a). rewrite Z.sub_0_r. split; [|lia].
      apply (int_normal _ a); [|done]. right. split; [done|]. eauto 10. }
  assert (e2 <= 0) as Hz.
  { destruct He2 as [[? _]|[He E]]; [done|]. exfalso. destruct (digits_bounds m2) as [L _]. rewrite Hm2 in L.
    assert (2 ^ 1 <= 2 ^ e2) by (apply Z.pow_le_mono_r; lia).
    change (2 ^ (53 - 1)) with 4503599627370496 in L. change (2 ^ 53) with 9007199254740992 in Hb. nia. }
  destruct Hx as [[-> ->]|(Ha' & m1 & e1 & -> & Hm1 & He1)].
  { repeat split; [lia|lia]. }
  unfold f64_sub, SFsub. cbn [negb cond_Zopp].
  set (ez := Z.min e1 e2). assert (ez <= e1 ∧ ez <= e2 ∧ ez <= 0) as (Hz1 & Hz2 & Hz3) by lia.
  rewrite (int_align a m1 e1 ez), (int_align b m2 e2 ez) by done.
  replace (a * 2 ^ (- ez) - b * 2 ^ (- ez)) with ((a - b) * 2 ^ (- ez)) by lia.
  assert (0 < 2 ^ (- ez)) as Hp by (apply Z.pow_pos_nonneg; lia).
  split; [|split].
  - intros ->. by rewrite Z.sub_diag.
  - intros Hlt. destruct ((a - b) * 2 ^ (- ez)) as [|p|p] eqn:E; [nia|nia|]. cbn [binary_normalize].
    assert (Zpos (digits2_pos p) = digits (b - a) + - ez) as Hs.
    { unfold digits. apply digits_shift; [lia|]. rewrite Z2Pos.id by lia. nia. }
    assert (digits (b - a) <= 53) by (apply digits_upper; lia). pose proof (digits_pos (b - a)).
    destruct (binary_round_normal true p ez) as (m & e & -> & _); [lia|]. done.
  - intros Hlt. destruct ((a - b) * 2 ^ (- ez)) as [|p|p] eqn:E; [nia| |nia]. cbn [binary_normalize].
    assert (Zpos (digits2_pos p) = digits (a - b) + - ez) as Hs.
    { unfold digits. apply digits_shift; [lia|]. by rewrite Z2Pos.id by lia. }
    assert (digits (a - b) <= 64).
    { apply digits_upper; [lia|]. lia. }
    pose proof (digits_pos (a - b)).
    destruct (binary_round_normal false p ez) as (m & e & -> & Hm & He & _); [lia|].
    exists (53 + e). split; [by exists m, e|]. lia.
Qed.

Lemma ltb_int x y a b :
  int_value x a → int_value y b → a < 2 ^ 53 → b < 2 ^ 53 → SFltb x y = (a <? b).
Proof.
  assert (∀ k m e, 0 < k → k < 2 ^ 53 → Zpos (digits2_pos m) = 53 →
    ((e <= 0 ∧ Zpos m = k * 2 ^ (- e)) ∨ (0 < e ∧ k = Zpos m * 2 ^ e)) → e <= 0 ∧ Zpos m = k * 2 ^ (- e)) as Hsmall.
  { intros k m e Hk Hb Hm [?|[He E]]; [done|]. exfalso. destruct (digits_bounds m) as [L _]. rewrite Hm in L.
    assert (2 ^ 1 <= 2 ^ e) by (apply Z.pow_le_mono_r; lia).
    change (2 ^ (53 - 1)) with 4503599627370496 in L. change (2 ^ 53) with 9007199254740992 in Hb. nia. }
  intros [[-> ->]|(Ha' & m1 & e1 & -> & Hm1 & He1)] [[-> ->]|(Hb' & m2 & e2 & -> & Hm2 & He2)] Ha Hb.
  - done.
  - unfold SFltb. cbn [SFcompare]. symmetry. apply Z.ltb_lt. lia.
  - unfold SFltb. cbn [SFcompare]. symmetry. apply Z.ltb_ge. lia.
  - destruct (Hsmall a m1 e1) as [H1 E1]; [done..|]. destruct (Hsmall b m2 e2) as [H2 E2]; [done..|].
    unfold SFltb. cbn [SFcompare].
    destruct (digits_bounds m1) as [L1 U1], (digits_bounds m2) as [L2 U2]. rewrite Hm1 in L1, U1. rewrite Hm2 in L2, U2.
    assert (2 ^ 53 = 2 * 2 ^ (53 - 1)) as E53 by done.
    destruct (Z.compare_spec e1 e2) as [->|He|He].
    + change (Pcompare m1 m2 Eq) with (m1 ?= m2)%positive.
      assert (0 < 2 ^ (- e2)) by (apply Z.pow_pos_nonneg; lia).
      destruct (Pos.compare_spec m1 m2) as [->|Hm|Hm]; symmetry.
      * apply Z.ltb_ge. nia.
      * apply Z.ltb_lt. nia.
      * apply Z.ltb_ge. nia.
    + symmetry. apply Z.ltb_lt.
      replace (2 ^ (- e1)) with (2 ^ (e2 - e1) * 2 ^ (- e2)) in E1 by (rewrite <-Z.pow_add_r by lia; f_equal; lia).
      assert (2 ^ 1 <= 2 ^ (e2 - e1)) by (apply Z.pow_le_mono_r; lia).
      assert (0 < 2 ^ (- e2)) by (apply Z.pow_pos_nonneg; lia).
      destruct (Z_lt_le_dec a b) as [?|Hab]; [done|]. exfalso.
      assert (b * 2 ^ (- e2) <= a * 2 ^ (- e2)) by (apply Z.mul_le_mono_nonneg_r; lia).
      assert (2 * (a * 2 ^ (- e2)) <= Zpos m1).
      { rewrite E1. assert (2 * (a * 2 ^ (- e2)) <= 2 ^ (e2 - e1) * (a * 2 ^ (- e2))) by (apply Z.mul_le_mono_nonneg_r; nia). lia. }
      lia.
    + symmetry. apply Z.ltb_ge.
      replace (2 ^ (- e2)) with (2 ^ (e1 - e2) * 2 ^ (- e1)) in E2 by (rewrite <-Z.pow_add_r by lia; f_equal; lia).
      assert (2 ^ 1 <= 2 ^ (e1 - e2)) by (apply Z.pow_le_mono_r; lia).
      assert (0 < 2 ^ (- e1)) by (apply Z.pow_pos_nonneg; lia).
      destruct (Z_le_gt_dec b a) as [?|Hab]; [done|]. exfalso.
      assert (a * 2 ^ (- e1) <= b * 2 ^ (- e1)) by (apply Z.mul_le_mono_nonneg_r; lia).
      assert (2 * (b * 2 ^ (- e1)) <= Zpos m2).
      { rewrite E2. assert (2 * (b * 2 ^ (- e1)) <= 2 ^ (e1 - e2) * (b * 2 ^ (- e1))) by (apply Z.mul_le_mono_nonneg_r; nia). lia. }
      lia.
Qed.

Lemma max_int x y a b :
  int_value x a → int_value y b → a < 2 ^ 53 → b < 2 ^ 53 → int_value (f64_max x y) (Z.max a b).
Proof.
  intros Hx Hy Ha Hb. unfold f64_max.
  assert (f64_is_nan x = false) as -> by (by destruct Hx as [[_ ->]|(_ & m & e & -> & _)]).
  assert (f64_is_nan y = false) as -> by (by destruct Hy as [[_ ->]|(_ & m & e & -> & _)]).
  rewrite (ltb_int x y a b) by done. destruct (Z.ltb_spec a b).
  - by rewrite Z.max_r by lia.
  - by rewrite Z.max_l by lia.
Qed.
