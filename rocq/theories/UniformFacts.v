(** * Facts about the samples *)
From stdpp Require Import strings.
From Coq Require Import QArith Qround Qabs Lqa.
From Verif Require Export Uniform MainRandom FloatError.
From Verif Require Import FloatFacts FloatValid PlotNames FloatRound ProbabilisticFacts.
Local Open Scope Z_scope.

Definition not_signed (x : f64) : Prop :=
  match x with S754_zero false | S754_finite false _ _ => True | _ => False end.

(** Comparison of numbers is comparison of what they stand for. *)
Lemma ltb_value x y : valid x → valid y → not_signed x → not_signed y →
  SFltb x y = true ↔ (f64_value x < f64_value y)%Q.
Proof.
  intros Vx Vy Ux Uy. destruct x as [[]|[]| |[] m e], y as [[]|[]| |[] m' e']; try done.
  - cbn [f64_value cond_Zopp]. split; [intros _|done].
    pose proof (pow2_pos e'). pose proof (inject_pos (Zpos m') ltac:(lia)). nra.
  - cbn [f64_value cond_Zopp]. split; [done|intros H].
    pose proof (pow2_pos e). pose proof (inject_pos (Zpos m) ltac:(lia)). exfalso. nra.
  - rewrite ltb_positive. cbn [f64_value cond_Zopp].
    destruct (mantissa_bounds m e Vx) as [Bx Lx], (mantissa_bounds m' e' Vy) as [By Ly].
    apply valid_finite in Vx as [Ex _], Vy as [Ey _]. rewrite fexp64_max in Ex, Ey.
    assert (∀ m e m' e', Zpos m < 2 ^ 53 → (2 ^ 52 <= Zpos m') → e < e' →
      (inject_Z (Zpos m) * pow2 e < inject_Z (Zpos m') * pow2 e')%Q) as Hlt.
    { clear. intros m e m' e' H1 H2 H. rewrite (pow2_shift e e') by lia. pose proof (pow2_pos e).
      assert (Zpos m < Zpos m' * 2 ^ (e' - e)) as H3.
      { assert (2 <= 2 ^ (e' - e)) by (change 2 with (2 ^ 1) at 1; apply Z.pow_le_mono_r; lia). lia. }
      rewrite Zlt_Qlt, inject_Z_mult in H3. nra. }
    split.
    + intros [He|[-> Hm]].
      * apply Hlt; [done|apply Ly; lia|done].
      * rewrite Zlt_Qlt in Hm. pose proof (pow2_pos e'). nra.
    + intros H. destruct (Z.lt_trichotomy e e') as [?|[->|Hgt]]; [by left|right|exfalso].
      * split; [done|]. rewrite Zlt_Qlt. pose proof (pow2_pos e'). nra.
      * pose proof (Hlt m' e' m e By ltac:(apply Lx; lia) ltac:(lia)). lra.
Qed.

Lemma round_value s p e : -1021 <= Zpos (digits2_pos p) + e <= 1023 → Zpos (digits2_pos p) <= 53 →
  ∃ m e', binary_round f64_prec f64_emax s p e = S754_finite s m e' ∧ Zpos (digits2_pos m) = 53 ∧
    e' = Zpos (digits2_pos p) + e - 53 ∧ (inject_Z (Zpos m) * pow2 e' == inject_Z (Zpos p) * pow2 e)%Q.
Proof.
  intros H1 H2. destruct (binary_round_normal s p e H1) as (m & e' & E & Hm & _ & Hx). destruct (Hx H2) as [Em Ee].
  exists m, e'. split_and!; [done..|]. rewrite Em.
  assert (e' <= e) as Hle by lia. rewrite (pow2_shift e' e Hle), inject_Z_mult.
  replace (e - e')%Z with (53 - Zpos (digits2_pos p))%Z by lia. ring.
Qed.

Definition fraction (w : N) : Z := Z.of_N (N.shiftr w 12).

Lemma fraction_bound w : (w < 2 ^ 64)%N → 0 <= fraction w < 2 ^ 52.
Proof.
  intros H. unfold fraction. rewrite N.shiftr_div_pow2. split; [apply N2Z.is_nonneg|].
  assert (w / 2 ^ 12 < 2 ^ 52)%N as Hd; [|apply N2Z.inj_lt in Hd; exact Hd].
  apply N.div_lt_upper_bound; [done|]. exact H.
Qed.

(** The sample is exactly the fraction. *)
Lemma uniform_value w : (w < 2 ^ 64)%N →
  valid (uniform_sample w) ∧ not_signed (uniform_sample w) ∧
  (f64_value (uniform_sample w) == inject_Z (fraction w) * pow2 (-52))%Q.
Proof.
  intros Hw. pose proof (fraction_bound w Hw) as Hb. unfold uniform_sample. fold (fraction w).
  set (k := fraction w) in *. cbv zeta.
  assert (f64_sub (S754_finite false (Z.to_pos (2 ^ 52 + k)) (-52)) f64_one =
          binary_normalize f64_prec f64_emax k (-52) false) as ->.
  { change f64_one with (S754_finite false 4503599627370496 (-52)). unfold f64_sub, SFsub, SFadd.
    cbn [Z.min Z.compare Pos.compare Pos.compare_cont]. unfold shl_align at 1 2. rewrite Z.sub_diag. cbn [fst].
    f_equal. cbn [cond_Zopp negb]. rewrite Z2Pos.id by lia. lia. }
  destruct k as [|p|p]; [|clear Hw|lia].
  { change (binary_normalize f64_prec f64_emax 0 (-52) false) with (S754_zero false).
    change (f64_add (f64_mul (S754_zero false) f64_one) f64_zero) with (S754_zero false).
    split_and!; [done|done|]. cbn [f64_value]. change (inject_Z 0) with 0%Q. ring. }
  cbn [binary_normalize].
  assert (Zpos (digits2_pos p) <= 52) as Hd by (apply (digits_upper (Zpos p)); lia).
  destruct (round_value false p (-52)) as (m & e & -> & Hm & He & Hv); [lia|lia|].
  assert (f64_mul (S754_finite false m e) f64_one = S754_finite false m e) as ->.
  { change f64_one with (S754_finite false 4503599627370496 (-52)). unfold f64_mul, SFmul. cbn [xorb].
    assert (Zpos (m * 4503599627370496) = Zpos m * 2 ^ 52) as Ep by (rewrite Pos2Z.inj_mul; done).
    assert (Zpos (digits2_pos (m * 4503599627370496)) = 105) as Dp.
    { rewrite (digits_shift m 52) by (lia || done). lia. }
    rewrite (round_exact false (m * 4503599627370496) (e + -52) m).
    - rewrite Dp. f_equal. lia.
    - lia.
    - lia.
    - rewrite Dp. exact Ep. }
  change (f64_add (S754_finite false m e) f64_zero) with (S754_finite false m e).
  split_and!; [|done|].
  - apply valid_finite. rewrite Hm, fexp_normal by lia. lia.
  - cbn [f64_value cond_Zopp]. exact Hv.
Qed.

(** ** How many words are below a density *)

Definition unit_density (x : f64) : Prop := valid x ∧ SFleb f64_zero x = true ∧ SFleb x f64_one = true.

Lemma leb_positive m e m' e' :
  SFleb (S754_finite false m e) (S754_finite false m' e') = true → e < e' ∨ e = e' ∧ Zpos m <= Zpos m'.
Proof.
  unfold SFleb, SFcompare. destruct (Z.compare_spec e e') as [->|H|H]; [|by left|done].
  intros H. right. split; [done|]. change (Pos.compare_cont Eq m m') with ((m ?= m')%positive) in H.
  destruct (Pos.compare_spec m m'); [lia|lia|done].
Qed.

Lemma unit_value x : unit_density x → (0 <= f64_value x <= 1)%Q.
Proof.
  intros (Hv & H0 & H1). destruct x as [s|s| |s m e]; try done; try (by destruct s). destruct s; [done|].
  pose proof (unit_exponent m e Hv H1) as He. cbn [f64_value cond_Zopp].
  pose proof (pow2_pos e) as Hp. pose proof (inject_pos (Zpos m) ltac:(lia)) as Hm. split; [nra|].
  assert (f64_one = S754_finite false 4503599627370496 (-52)) as E by by vm_compute. rewrite E in H1.
  destruct (mantissa_bounds m e Hv) as [B _]. apply leb_positive in H1.
  assert (Zpos m <= 2 ^ (- e)) as Hle.
  { destruct H1 as [Hlt|[-> Hle]]; [|exact Hle].
    assert (2 ^ 53 <= 2 ^ (- e)) by (apply Z.pow_le_mono_r; lia). lia. }
  rewrite Zle_Qle, <- (pow2_Z (- e)) in Hle by lia.
  assert (pow2 (- e) * pow2 e == 1)%Q as E1.
  { rewrite <- pow2_add. replace (- e + e) with 0 by lia. done. }
  nra.
Qed.

Lemma ltb_unit w x : (w < 2 ^ 64)%N → unit_density x →
  SFltb (uniform_sample w) x = true ↔ (f64_value (uniform_sample w) < f64_value x)%Q.
Proof.
  intros Hw (Hv & H0 & H1). destruct (uniform_value w Hw) as (Vw & Uw & Ew).
  assert (x = S754_zero true ∨ not_signed x) as [->|Ux].
  { clear -H0 H1. destruct x as [[]|[]| |[] m e]; [by left|by right|discriminate H0|discriminate H1|discriminate H0|discriminate H0|by right]. }
  2: by apply ltb_value.
  (* the negative zero *)
  rewrite Ew. pose proof (fraction_bound w Hw) as [Hb _]. cbn [f64_value].
  split.
  - destruct (uniform_sample w) as [[]|[]| |[] ? ?]; done.
  - intros H. rewrite Zle_Qle in Hb. change (inject_Z 0) with 0%Q in Hb. pose proof (pow2_pos (-52)). exfalso. nra.
Qed.

Lemma fraction_threshold x : unit_density x →
  ∃ c, 0 <= c <= 2 ^ 52 ∧ (∀ w, (w < 2 ^ 64)%N → SFltb (uniform_sample w) x = true ↔ fraction w < c) ∧
    (inject_Z (c - 1) < f64_value x * inject_Z (2 ^ 52) <= inject_Z c)%Q.
Proof.
  intros Hx. pose proof (unit_value x Hx) as Hu. set (y := (f64_value x * inject_Z (2 ^ 52))%Q).
  exists (Qceiling y). pose proof (Qle_ceiling y) as Hc1. pose proof (Qceiling_lt y) as Hc2.
  assert (pow2 (-52) * inject_Z (2 ^ 52) == 1)%Q as E1 by done.
  assert (0 <= y <= inject_Z (2 ^ 52))%Q as Hy.
  { unfold y. change (inject_Z (2 ^ 52)) with (4503599627370496 # 1). lra. }
  split_and!.
  - assert (0 <= Qceiling y)%Z; [|done]. rewrite Zle_Qle. change (inject_Z 0) with 0%Q. lra.
  - apply Zlt_succ_le. unfold Z.succ. rewrite Zlt_Qlt. unfold Z.sub in Hc2. rewrite inject_Z_plus in *.
    change (inject_Z (- (1))) with (- (1))%Q in Hc2. change (inject_Z 1) with 1%Q. lra.
  - intros w Hw. rewrite ltb_unit by done. destruct (uniform_value w Hw) as (_ & _ & Ew). rewrite Ew.
    assert (inject_Z (fraction w) * pow2 (-52) < f64_value x ↔ inject_Z (fraction w) < y)%Q as ->.
    { unfold y. change (inject_Z (2 ^ 52)) with (4503599627370496 # 1) in *. change (pow2 (-52)) with (1 # 4503599627370496) in *.
      split; lra. }
    split.
    + intros H. rewrite Zlt_Qlt. lra.
    + intros H. assert (fraction w <= Qceiling y - 1)%Z as H' by lia. rewrite Zle_Qle in H'. lra.
  - exact Hc2.
  - exact Hc1.
Qed.

Lemma fraction_words w c : fraction w < Z.of_N c ↔ (w < 2 ^ 12 * c)%N.
Proof.
  unfold fraction. rewrite N.shiftr_div_pow2, <- N2Z.inj_lt. split.
  - intros H. pose proof (N.mul_succ_div_gt w (2 ^ 12) ltac:(done)).
    apply N.le_succ_l, (N.mul_le_mono_l _ _ (2 ^ 12)) in H. lia.
  - intros H. by apply N.div_lt_upper_bound.
Qed.

Lemma sample_threshold :
  ∀ x, unit_density x →
  ∃ c : N, (∀ w, (w < 2 ^ 64)%N → SFltb (uniform_sample w) x = true ↔ (w < c)%N) ∧
    (0 <= inject_Z (Z.of_N c) / inject_Z (2 ^ 64) - f64_value x < 1 / inject_Z (2 ^ 52))%Q.
Proof.
  intros x Hx. destruct (fraction_threshold x Hx) as (c & Hc & Hw & H1 & H2).
  exists (2 ^ 12 * Z.to_N c)%N. split.
  - intros w Hlt. rewrite (Hw w Hlt), <- fraction_words, Z2N.id by lia. done.
  - rewrite N2Z.inj_mul, Z2N.id by lia. rewrite inject_Z_mult. unfold Z.sub in H1. rewrite inject_Z_plus in H1.
    change (inject_Z (- (1))) with (- (1))%Q in H1. change (inject_Z (Z.of_N (2 ^ 12))) with (4096 # 1).
    change (inject_Z (2 ^ 64)) with (18446744073709551616 # 1). change (inject_Z (2 ^ 52)) with (4503599627370496 # 1) in *.
    assert ((4096 # 1) * inject_Z c / (18446744073709551616 # 1) == inject_Z c * (1 # 4503599627370496))%Q as ->.
    { unfold Qdiv. change (/ (18446744073709551616 # 1))%Q with (1 # 18446744073709551616). ring. }
    change (1 / (4503599627370496 # 1))%Q with (1 # 4503599627370496). split; lra.
Qed.

Lemma sample_injective :
  ∀ w w', (w < 2 ^ 64)%N → (w' < 2 ^ 64)%N →
  uniform_sample w = uniform_sample w' ↔ (w / 2 ^ 12 = w' / 2 ^ 12)%N.
Proof.
  intros w w' Hw Hw'. split.
  - intros H. destruct (uniform_value w Hw) as (_ & _ & E), (uniform_value w' Hw') as (_ & _ & E').
    rewrite H, E' in E. change (pow2 (-52)) with (1 # 4503599627370496) in E.
    assert (inject_Z (fraction w') == inject_Z (fraction w))%Q as Ef by lra.
    assert (fraction w' = fraction w) as Ef' by (by apply inject_Z_injective).
    unfold fraction in Ef'. rewrite !N.shiftr_div_pow2 in Ef'. by apply N2Z.inj in Ef'.
  - intros H. unfold uniform_sample. by rewrite !N.shiftr_div_pow2, H.
Qed.

(** ** The list of the samples *)

Definition all_samples (values : list f64) : Prop :=
  NoDup values ∧ ∀ v, v ∈ values ↔ ∃ w, (w < 2 ^ 64)%N ∧ v = uniform_sample w.

Definition sample_list (n : nat) : list f64 := (λ i, uniform_sample (N.of_nat i * 2 ^ 12)) <$> seq 0 n.

Lemma sample_list_all n : Z.of_nat n = 2 ^ 52 → all_samples (sample_list n).
Proof.
  intros Hn. assert (∀ i, (i < n)%nat → (N.of_nat i * 2 ^ 12 < 2 ^ 64)%N) as Hlt.
  { intros i Hi. change (2 ^ 12)%N with 4096%N. change (2 ^ 64)%N with 18446744073709551616%N.
    change (2 ^ 52) with 4503599627370496 in Hn. lia. }
  split.
  - unfold sample_list. pose proof (NoDup_seq 0 n) as Hnd. revert Hlt.
    assert (∀ i, i ∈ seq 0 n → (i < n)%nat) as Hin by (intros i Hi%elem_of_seq; lia).
    revert Hin. generalize (seq 0 n), Hnd. clear. intros l Hl Hin Hlt. induction Hl as [|i l Hi Hl IH]; [constructor|].
    cbn [fmap list_fmap]. constructor; [|apply IH; intros; apply Hin; by right].
    intros H. apply elem_of_list_fmap in H as (j & E & Hj). apply Hi.
    apply sample_injective in E; [|apply Hlt, Hin; by left|apply Hlt, Hin; by right].
    rewrite !N.div_mul in E by done. apply Nat2N.inj in E as ->. done.
  - intros v. unfold sample_list. rewrite elem_of_list_fmap. split.
    + intros (i & -> & Hi%elem_of_seq). eexists. split; [|done]. apply Hlt. lia.
    + intros (w & Hw & ->). exists (N.to_nat (w / 2 ^ 12)). rewrite N2Nat.id.
      pose proof (fraction_bound w Hw) as [_ Hb]. unfold fraction in Hb. rewrite N.shiftr_div_pow2 in Hb.
      assert (N.to_nat (w / 2 ^ 12) < n)%nat as Hi.
      { apply Nat2Z.inj_lt. rewrite Hn, N_nat_Z. exact Hb. }
      split; [|apply elem_of_seq; split; [apply Nat.le_0_l|exact Hi]].
      pose proof (Hlt _ Hi) as Hlt'. rewrite N2Nat.id in Hlt'.
      apply sample_injective; [done|done|]. by rewrite N.div_mul.
Qed.

Lemma hits_fmap {A B} (f : B → bool) (g : A → B) l : hits f (g <$> l) = hits (λ a, f (g a)) l.
Proof. unfold hits. induction l as [|a l IH]; [done|]. csimpl. destruct (f (g a)); csimpl; by rewrite IH. Qed.
Lemma hits_perm {A} (f : A → bool) l l' : l ≡ₚ l' → hits f l = hits f l'.
Proof. unfold hits. induction 1; csimpl; repeat (case_match; csimpl); congruence. Qed.
Lemma hits_below f c n : (c <= n)%nat → (∀ i, (i < n)%nat → f i = true ↔ (i < c)%nat) → hits f (seq 0 n) = c.
Proof.
  intros Hc Hf. unfold hits. replace n with (c + (n - c))%nat by lia. rewrite seq_app, List.filter_app, app_length.
  assert (∀ m s, (∀ i, (s <= i < s + m)%nat → f i = true) → length (List.filter f (seq s m)) = m) as H1.
  { clear. induction m as [|m IH]; intros s H; [done|]. cbn [seq List.filter]. rewrite (H s) by lia. cbn [length]. f_equal.
    apply IH. intros i Hi. apply H. lia. }
  assert (∀ m s, (∀ i, (s <= i < s + m)%nat → f i = false) → length (List.filter f (seq s m)) = 0%nat) as H2.
  { clear. induction m as [|m IH]; intros s H; [done|]. cbn [seq List.filter]. rewrite (H s) by lia.
    apply IH. intros i Hi. apply H. lia. }
  rewrite H1, H2; [lia|..].
  - intros i Hi. apply not_true_is_false. rewrite Hf by lia. lia.
  - intros i Hi. apply Hf; lia.
Qed.

Lemma sample_fraction :
  ∀ values x, all_samples values → unit_density x →
  Z.of_nat (length values) = 2 ^ 52 ∧
  (0 <= inject_Z (Z.of_nat (below x values)) / inject_Z (2 ^ 52) - f64_value x < 1 / inject_Z (2 ^ 52))%Q.
Proof.
  intros values x [Hnd Hv] Hx. destruct (Z_of_nat_complete (2 ^ 52) ltac:(done)) as [n Hn]. symmetry in Hn.
  destruct (sample_list_all n Hn) as [Hnd' Hv'].
  assert (values ≡ₚ sample_list n) as Hp.
  { apply NoDup_Permutation; [done..|]. intros v. by rewrite Hv, Hv'. }
  destruct (fraction_threshold x Hx) as (c & Hc & Hw & H1 & H2).
  assert (below x values = Z.to_nat c) as ->.
  { unfold below. rewrite (hits_perm _ _ _ Hp). unfold sample_list. rewrite hits_fmap.
    apply hits_below; [apply Nat2Z.inj_le; rewrite Z2Nat.id, Hn by lia; lia|].
    intros i Hi. rewrite Hw.
    - unfold fraction. rewrite N.shiftr_div_pow2, N.div_mul by done. rewrite nat_N_Z.
      rewrite (Nat2Z.inj_lt i (Z.to_nat c)), Z2Nat.id by lia. done.
    - apply Nat2Z.inj_lt in Hi. rewrite Hn in Hi. change (2 ^ 12)%N with 4096%N. change (2 ^ 64)%N with 18446744073709551616%N.
      change (2 ^ 52) with 4503599627370496 in Hi. lia. }
  split.
  - rewrite (Permutation_length Hp). unfold sample_list. by rewrite fmap_length, seq_length.
  - rewrite Z2Nat.id by lia. unfold Z.sub in H1. rewrite inject_Z_plus in H1. change (inject_Z (- (1))) with (- (1))%Q in H1.
    change (inject_Z (2 ^ 52)) with (4503599627370496 # 1) in *.
    change (1 / (4503599627370496 # 1))%Q with (1 # 4503599627370496). unfold Qdiv.
    change (/ (4503599627370496 # 1))%Q with (1 # 4503599627370496). split; lra.
Qed.

Lemma samples_exist : ∃ values, all_samples values.
Proof.
  destruct (Z_of_nat_complete (2 ^ 52) ltac:(done)) as [n Hn]. exists (sample_list n). by apply sample_list_all.
Qed.

(** ** Indices *)

Lemma range_uniform :
  ∀ n, (0 < n < 2 ^ 64)%N →
  (∀ w i, range_sample n w = Some i → (w < 2 ^ 64)%N → (i < n)%N) ∧
  ∀ i, (i < n)%N → ∃ a, (a + 2 ^ leading_zeros n <= 2 ^ 64)%N ∧
    ∀ w, (w < 2 ^ 64)%N → range_sample n w = Some i ↔ (a <= w < a + 2 ^ leading_zeros n)%N.
Proof.
  intros n Hn. unfold range_sample. rewrite N.shiftl_mul_pow2. set (s := (2 ^ leading_zeros n)%N).
  assert (0 < s)%N as Hs by (unfold s; apply N.neq_0_lt_0, N.pow_nonzero; done).
  assert (n * s <= 2 ^ 64)%N as Hns.
  { pose proof (N.size_gt n) as Hg. unfold s, leading_zeros.
    assert (N.size n <= 64)%N as Hsz.
    { destruct (N.le_gt_cases (N.size n) 64) as [?|Hgt]; [done|]. pose proof (N.size_le n) as Hle. rewrite N.succ_double_spec in Hle.
      assert (2 ^ 65 <= 2 ^ N.size n)%N by (apply N.pow_le_mono_r; lia). change (2 ^ 65)%N with (2 * 2 ^ 64)%N in *. lia. }
    replace (2 ^ 64)%N with (2 ^ N.size n * 2 ^ (64 - N.size n))%N by (rewrite <- N.pow_add_r; replace (N.size n + (64 - N.size n))%N with 64%N by (clear -Hsz; generalize dependent (N.size n); intros; lia); reflexivity).
    apply N.mul_le_mono_r. lia. }
  set (M := (2 ^ 64)%N) in *. assert (0 < M)%N as HM by done.
  assert (∀ w i, (w < M)%N → (if (w * n mod M <=? n * s - 1)%N then Some (w * n / M)%N else None) = Some i ↔
    (i * M <= w * n < i * M + n * s)%N) as Hiff.
  { intros w i _. pose proof (N.div_mod (w * n) M ltac:(lia)) as Hd. pose proof (N.mod_lt (w * n) M ltac:(lia)) as Hm.
    set (q := (w * n / M)%N) in *. set (r := (w * n mod M)%N) in *. clearbody q r.
    destruct (N.leb_spec r (n * s - 1)) as [Hr|Hr].
    - split; [intros [= <-]; nia|]. intros [Ha Hb]. f_equal.
      destruct (N.lt_trichotomy q i) as [Hlt|[->|Hgt]]; [|done|]; nia.
    - split; [done|]. intros [Ha Hb].
      destruct (N.lt_trichotomy q i) as [Hlt|[->|Hgt]]; nia. }
  split.
  - intros w i Hw Hlt. apply Hiff in Hw; [|done]. nia.
  - intros i Hi. exists ((i * M + (n - 1)) / n)%N. set (a := ((i * M + (n - 1)) / n)%N).
    pose proof (N.div_mod (i * M + (n - 1)) n ltac:(lia)) as Ha. pose proof (N.mod_lt (i * M + (n - 1)) n ltac:(lia)) as Hr.
    fold a in Ha. set (r := ((i * M + (n - 1)) mod n)%N) in *. clearbody a r. split.
    + assert (n * (a + s) < n * (M + 1))%N as H; [|apply N.mul_lt_mono_pos_l in H; lia]. nia.
    + intros w Hw. rewrite Hiff by done. split; nia.
Qed.

(** ** The expected degree *)

Lemma one_finite : f64_one = S754_finite false 4503599627370496 (-52).
Proof. by vm_compute. Qed.

(** Subtracting one from an integer is exact. *)
Lemma sub_one x a : int_value x a → 0 < a < 2 ^ 53 → int_value (f64_sub x f64_one) (a - 1).
Proof.
  intros Hx Ha. destruct (int_small x a Hx ltac:(lia)) as [[-> ->]|(Ha0 & m & e & -> & Hm & He & Em & De)]; [lia|].
  assert (-52 <= e) as He'. { pose proof (digits_pos a). lia. }
  assert (f64_sub (S754_finite false m e) f64_one = binary_normalize f64_prec f64_emax ((a - 1) * 2 ^ 52) (-52) false) as ->.
  { rewrite one_finite. unfold f64_sub, SFsub, SFadd. rewrite Z.min_r by lia.
    pose proof (shl_align_Z m e (-52) ltac:(lia)) as E1. pose proof (shl_align_Z 4503599627370496 (-52) (-52) ltac:(lia)) as E2.
    f_equal. cbn [cond_Zopp negb]. change (- Zpos (fst (shl_align 4503599627370496 (-52) (-52))))
      with (Z.opp (Zpos (fst (shl_align 4503599627370496 (-52) (-52))))). rewrite E1, E2, Em.
    rewrite <- Z.mul_assoc, <- Z.pow_add_r by lia. replace (- e + (e - -52)) with 52 by lia.
    change (Zpos 4503599627370496 * 2 ^ (-52 - -52)) with (2 ^ 52). ring. }
  destruct (Z.eq_dec a 1) as [->|Hne]; [by left|]. right. split; [lia|].
  destruct (a - 1) as [|b|b] eqn:Eb; [lia| |lia].
  assert (∃ P, Zpos P = Zpos b * 2 ^ 52) as [P HP].
  { exists (Z.to_pos (Zpos b * 2 ^ 52)). rewrite Z2Pos.id; lia. }
  rewrite <- HP. cbn [binary_normalize].
  assert (Zpos (digits2_pos P) = Zpos (digits2_pos b) + 52) as DP by (by apply digits_shift).
  assert (Zpos (digits2_pos b) <= 53) as Db by (apply (digits_upper (Zpos b)); lia).
  set (k := Zpos (digits2_pos b)) in *. assert (1 <= k) as Hk by (unfold k; lia).
  assert (∃ q, Zpos q = Zpos b * 2 ^ (53 - k)) as [q Hq].
  { assert (0 < 2 ^ (53 - k)) by (apply Z.pow_pos_nonneg; lia). exists (Z.to_pos (Zpos b * 2 ^ (53 - k))). rewrite Z2Pos.id; nia. }
  exists q, (k - 53). unfold binary_round. rewrite DP, fexp_normal by lia. unfold shl_align.
  assert (∀ n, k + 52 + -52 - 53 - -52 ≠ Zneg n) as Hno by (intros n; lia).
  assert (binary_round_aux f64_prec f64_emax false (Zpos P) (-52) loc_Exact = S754_finite false q (k - 53)) as E.
  { rewrite (round_exact false P (-52) q).
    - rewrite DP. f_equal. lia.
    - lia.
    - lia.
    - rewrite DP, HP, Hq, <- Z.mul_assoc, <- Z.pow_add_r by lia. do 2 f_equal. lia. }
  split_and!.
  - destruct (k + 52 + -52 - 53 - -52) as [|n|n] eqn:En; [exact E|exact E|by destruct (Hno n)].
  - rewrite (digits_shift b (53 - k)); [|lia|done]. fold k. lia.
  - left. split; [lia|]. rewrite Hq. do 2 f_equal. lia.
Qed.

Lemma unit_atmost x : unit_density x → atmost x 1.
Proof.
  intros (Hv & H0 & H1). destruct x as [s|s| |s m e]; [done|by destruct s|done|]. destruct s; [done|].
  pose proof (unit_exponent m e Hv H1) as He. rewrite one_finite in H1. destruct (mantissa_bounds m e Hv) as [B _].
  apply leb_positive in H1. split; [lia|]. rewrite Z.mul_1_l. destruct H1 as [Hlt|[-> Hle]]; [|exact Hle].
  assert (2 ^ 53 <= 2 ^ (- e)) by (apply Z.pow_le_mono_r; lia). lia.
Qed.

Lemma ltb_leb x : SFltb x f64_one = true → SFleb x f64_one = true.
Proof. unfold SFltb, SFleb. by destruct (SFcompare x f64_one) as [[]|]. Qed.

Lemma expected_degree :
  ∀ values f size x, all_samples values → unit_density f → not_signed f → above (-900) f →
  (3 <= size)%nat → (Z.of_nat size < 2 ^ 53)%Z → density_value (ReziprocalLinear f) size x →
  let degree := (inject_Z (Z.of_nat size - 1) * (inject_Z (Z.of_nat (below x values)) / inject_Z (2 ^ 52)))%Q in
  (Qabs (degree - f64_value f) <= inject_Z (Z.of_nat size - 1) / inject_Z (2 ^ 52) + f64_value f / inject_Z (2 ^ 53 - 1))%Q.
Proof.
  intros values f size x Hs Hf Uf Lf H3 Hsz [_ ->] degree.
  assert (int_value (f64_sub (f64_of_usize (N.of_nat size)) f64_one) (Z.of_nat size - 1)) as Hn.
  { rewrite <- (nat_N_Z size). apply sub_one; [apply of_usize_int|]; lia. }
  set (y := f64_sub (f64_of_usize (N.of_nat size)) f64_one) in *. set (n := Z.of_nat size - 1) in *.
  assert (2 <= n < 2 ^ 53) as Hn2 by lia. clearbody n.
  destruct (div_rounds (-900) f y n Lf) as [Lx Rx]; [|done|lia|lia|exists 1; by apply unit_atmost|].
  { clear -Uf. by destruct f as [[]|[]| |[] ? ?]. }
  assert (unsigned (f64_div f y) ∧ valid (f64_div f y)) as [Ux Vx].
  { split.
    - destruct (int_small _ _ Hn ltac:(lia)) as [[? _]|(_ & m & e & E & _)]; [lia|]. rewrite E.
      clear -Uf. destruct f as [[]|[]| |[] ms es]; try done.
      unfold f64_div, SFdiv. destruct (SFdiv_core_binary _ _ _ _ _ _) as [[mz ez] lz]. by apply round_unsigned.
    - apply div_valid; [apply Hf|]. unfold y. apply sub_valid; [apply of_usize_valid|]. by vm_compute. }
  set (x := f64_div f y) in *. clearbody x.
  pose proof (unit_value f Hf) as Bf.
  assert (2 <= inject_Z n)%Q as Qn by (change 2%Q with (inject_Z 2); rewrite <- Zle_Qle; lia).
  set (q := inject_Z n) in *. clearbody q. unfold rounds in Rx.
  assert (0 <= f64_value f / q)%Q as Hq0 by (apply Qle_shift_div_l; lra).
  assert (f64_value f / q * q == f64_value f)%Q as Eq by (field; lra).
  set (r := (f64_value f / q)%Q) in *. clearbody r. rewrite (Qabs_pos r Hq0) in Rx.
  change (inject_Z (2 ^ 53 - 1)) with (9007199254740991 # 1) in *.
  assert (r <= 1 # 2)%Q as Hr by nra.
  assert (Qabs (f64_value x - r) <= r * (1 # 9007199254740991))%Q as Rx' by lra.
  apply Qabs_Qle_condition in Rx'.
  assert (unit_density x) as Hx.
  { split; [done|]. assert (not_signed x) as Nx by (clear -Ux Lx; by destruct x as [[]|[]| |[] ? ?]). split.
    - clear -Nx. by destruct x as [[]|[]| |[] ? ?].
    - apply ltb_leb, ltb_value; [done|by vm_compute|done|by rewrite one_finite|]. assert (f64_value f64_one == 1)%Q as -> by done. lra. }
  destruct (sample_fraction values x Hs Hx) as [_ Hp]. unfold degree.
  set (p := (inject_Z (Z.of_nat (below x values)) / inject_Z (2 ^ 52))%Q) in *. clearbody p.
  change (inject_Z (2 ^ 52)) with (4503599627370496 # 1) in *.
  change (1 / (4503599627370496 # 1))%Q with (1 # 4503599627370496) in Hp. unfold Qdiv.
  change (/ (4503599627370496 # 1))%Q with (1 # 4503599627370496). change (/ (9007199254740991 # 1))%Q with (1 # 9007199254740991).
  rewrite <- Eq. apply Qabs_Qle_condition. split; nra.
Qed.
