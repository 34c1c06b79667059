(** * Facts about file names: which file of the program a script opens *)
From Coq Require Import Decimal DecimalN DecimalPos.
From stdpp Require Import strings gmap.
From Verif Require Import FormatSpec Codec CodecFacts JsonSpec OutputSpec FloatFacts FloatValid Decimal64 DecimalFacts Output
  Plotting JsonFacts NumberFacts OutputFacts MainOutput Pipeline.

Local Open Scope Z_scope.

(** ** Digits of an integer *)

Lemma value_bound ds : Forall (λ d, (d < 10)%N) ds → (digits_value ds < 10 ^ N.of_nat (length ds))%N.
Proof.
  induction ds as [|d ds IH] using rev_ind; intros H; [done|].
  apply Forall_app in H as [H Hd]. inversion_clear Hd as [|?? Hd' _].
  rewrite value_app, app_length, Nat2N.inj_add, N.pow_add_r. specialize (IH H). cbn [length].
  change (N.of_nat 1) with 1%N. rewrite N.pow_1_r. unfold digits_value at 2. cbn [foldl]. lia.
Qed.

Lemma value_first d ds : (10 ^ N.of_nat (length ds) * d <= digits_value (d :: ds))%N.
Proof.
  change (d :: ds) with ([d] ++ ds). rewrite value_app. unfold digits_value at 1. cbn [foldl]. lia.
Qed.

Lemma same_length_value ds ds' : length ds = length ds' → Forall (λ d, (d < 10)%N) ds → Forall (λ d, (d < 10)%N) ds' →
  digits_value ds = digits_value ds' → ds = ds'.
Proof.
  revert ds'. induction ds as [|d ds IH]; intros [|d' ds'] Hl H H' E; try done.
  inversion_clear H as [|?? Hd Hds]. inversion_clear H' as [|?? Hd' Hds'].
  injection Hl as Hl. pose proof (value_bound ds Hds) as B. pose proof (value_bound ds' Hds') as B'.
  change (d :: ds) with ([d] ++ ds) in E. change (d' :: ds') with ([d'] ++ ds') in E. rewrite !value_app in E.
  change (digits_value [d]) with (10 * 0 + d)%N in E. change (digits_value [d']) with (10 * 0 + d')%N in E.
  rewrite Hl in *. set (p := (10 ^ N.of_nat (length ds'))%N) in *.
  assert (d = d') as -> by nia. f_equal. apply IH; try done. lia.
Qed.

Lemma digits_same ds ds' : Forall (λ d, (d < 10)%N) ds → Forall (λ d, (d < 10)%N) ds' →
  ds ≠ [] → ds' ≠ [] → head ds ≠ Some 0%N → head ds' ≠ Some 0%N → digits_value ds = digits_value ds' → ds = ds'.
Proof.
  intros H H' Hn Hn' Hh Hh' E. apply same_length_value; try done.
  destruct ds as [|d ds]; [done|]. destruct ds' as [|d' ds']; [done|].
  assert (d ≠ 0%N) by (intros ->; by apply Hh). assert (d' ≠ 0%N) by (intros ->; by apply Hh').
  pose proof (value_bound _ H) as B. pose proof (value_bound _ H') as B'.
  pose proof (value_first d ds) as F. pose proof (value_first d' ds') as F'. cbn [length] in *.
  destruct (Nat.lt_trichotomy (length ds) (length ds')) as [Hlt|[->|Hlt]]; [|done|]; exfalso.
  - assert (10 ^ N.of_nat (S (length ds)) <= 10 ^ N.of_nat (length ds'))%N by (apply N.pow_le_mono_r; lia). nia.
  - assert (10 ^ N.of_nat (S (length ds')) <= 10 ^ N.of_nat (length ds))%N by (apply N.pow_le_mono_r; lia). nia.
Qed.

Lemma int_finite n : (n < 2 ^ 53)%N → n ≠ 0%N → ∃ m e, f64_of_usize n = S754_finite false m e.
Proof.
  intros Hn H0. destruct (of_usize_int n Hn) as [[H _]|(_ & m & e & H & _)]; [lia|]. eauto.
Qed.

Lemma display_int shortest n : shows shortest → (n < 2 ^ 53)%N →
  rust_display shortest (f64_of_usize n) = json_write_usize n.
Proof.
  intros Hs Hn. destruct (decide (n = 0%N)) as [->|H0]; [by vm_compute|].
  destruct (int_finite n Hn H0) as (m & e & E).
  destruct (shows_integer _ Hs n m e Hn E) as [Hl Hv]. cbv zeta in Hl, Hv.
  assert (valid (S754_finite false m e)) as Hval by (rewrite <- E; apply of_usize_valid).
  destruct (shows_digits _ Hs m e Hval) as (H1 & H2 & H3 & _ & _). cbv zeta in H1, H2, H3.
  rewrite E. unfold rust_display. cbn [show_finite default]. unfold rust_display_positive. cbv zeta.
  set (d := shortest (S754_finite false m e)) in *. set (k := dec_point d - Z.of_nat (length (dec_digits d))) in *.
  assert ((0 <=? k) = true) as Hk by lia.
  rewrite Hk.
  destruct (write_usize_digits n) as (ds & (D1 & D2 & ->) & D3 & D4). fold (digits_text ds). cbn [app]. unfold id. f_equal.
  apply digits_same; try done.
  - apply Forall_app. split; [done|apply zeros_bound].
  - destruct (dec_digits d); done.
  - destruct (dec_digits d); done.
  - intros Hh. specialize (D4 Hh) as ->. by apply H0.
  - unfold zeros. rewrite value_zeros_after, D3, Z_nat_N. apply N2Z.inj.
    rewrite N2Z.inj_mul, N2Z.inj_pow, Z2N.id by lia. done.
Qed.

Lemma trunc_int x k : int_value x k → py_trunc x = Some k.
Proof.
  intros [[-> ->]|(Hk & m & e & -> & _ & [[He E]|[He E]])]; [done| |]; unfold py_trunc.
  - destruct (Z.leb_spec 0 e) as [H|H]; f_equal.
    + assert (e = 0) as -> by lia. rewrite Z.opp_0, Z.pow_0_r in *. lia.
    + rewrite E, Z.div_mul; [done|]. apply Z.pow_nonzero; lia.
  - destruct (Z.leb_spec 0 e); [|lia]. by rewrite E.
Qed.

(** The script opens the file of the run with an integer multiplier. *)
Lemma int_text_display shortest n : shows shortest → (n < 2 ^ 53)%N →
  ∃ z, py_trunc (f64_of_usize n) = Some z ∧ py_int_text z = rust_display shortest (f64_of_usize n).
Proof.
  intros Hs Hn. exists (Z.of_N n). split; [by apply trunc_int, of_usize_int|].
  rewrite (display_int _ _ Hs Hn). unfold py_int_text. destruct (Z.ltb_spec (Z.of_N n) 0) as [H|H]; [lia|].
  cbn [app]. by rewrite Zabs2N.id.
Qed.

(** ** The position of the first digit *)

Section point.
  Context (shortest : Digits) (Hs : shows shortest) (m : positive) (e : Z)
    (Hv : valid (S754_finite false m e)) (He : e <= 0).
  Let d := shortest (S754_finite false m e).
  Let n := Z.of_N (digits_value (dec_digits d)).
  Let len := Z.of_nat (length (dec_digits d)).
  Let a := Z.max 0 (- (dec_point d - len)).

  Lemma point_digits : 1 <= len ∧ 10 ^ (len - 1) <= n < 10 ^ len.
  Proof.
    destruct (shows_digits _ Hs m e Hv) as (H1 & H2 & H3 & _ & _). fold d in H1, H2, H3.
    unfold n, len in *. destruct (dec_digits d) as [|c ds]; [done|].
    pose proof (value_bound _ H1) as B. pose proof (value_first c ds) as F.
    assert (c ≠ 0%N) by (intros ->; by apply H3). cbn [length] in *.
    apply N2Z.inj_lt in B. rewrite N2Z.inj_pow in B. rewrite nat_N_Z in B. change (Z.of_N 10) with 10 in B.
    apply N2Z.inj_le in F. rewrite N2Z.inj_mul, N2Z.inj_pow in F. rewrite nat_N_Z in F. change (Z.of_N 10) with 10 in F.
    replace (Z.of_nat (S (length ds)) - 1) with (Z.of_nat (length ds)) by lia. split; [lia|]. split; [|done].
    assert (0 < 10 ^ Z.of_nat (length ds)) by (apply Z.pow_pos_nonneg; lia). nia.
  Qed.

  Lemma point_near : 2 * Z.abs (Zpos m * 10 ^ a - n * 10 ^ (dec_point d - len + a) * 2 ^ (- e)) <= 10 ^ a.
  Proof.
    destruct (shows_digits _ Hs m e Hv) as (_ & _ & _ & _ & H5). fold d in H5.
    pose proof (decimal_nearest _ _ _ _ H5) as H. cbv zeta in H. fold len in H. fold n in H.
    rewrite (Z.max_r 0 (- e)) in H by lia. fold a in H.
    rewrite Z.add_opp_diag_r, Z.pow_0_r, Z.mul_1_r, Z.mul_1_l in H. exact H.
  Qed.

  Lemma point_le t : (2 * Zpos m + 1) * 10 ^ Z.max 0 (- t) < 2 * 2 ^ (- e) * 10 ^ Z.max 0 t → dec_point d <= t.
  Proof.
    intros H. destruct (Z.le_gt_cases (dec_point d) t) as [Hle|Hgt]; [done|]. exfalso.
    pose proof point_near as Hn. destruct point_digits as (Hl & Hlo & Hhi).
    set (T := Z.max 0 (- t)) in *. set (U := Z.max 0 t) in *. set (k := dec_point d - len) in *.
    assert (10 ^ a * 10 ^ U <= n * 10 ^ (k + a) * 10 ^ T) as Hb.
    { transitivity (10 ^ (len - 1) * 10 ^ (k + a) * 10 ^ T).
      - rewrite <- !Z.pow_add_r by lia. apply Z.pow_le_mono_r; lia.
      - apply Z.mul_le_mono_nonneg_r; [apply Z.pow_nonneg; lia|].
        apply Z.mul_le_mono_nonneg_r; [apply Z.pow_nonneg; lia|]. lia. }
    assert (0 < 10 ^ a) by (apply Z.pow_pos_nonneg; lia). assert (0 < 10 ^ T) by (apply Z.pow_pos_nonneg; lia).
    assert (0 < 10 ^ U) by (apply Z.pow_pos_nonneg; lia). assert (0 < 2 ^ (- e)) by (apply Z.pow_pos_nonneg; lia).
    set (A := 10 ^ a) in *. set (w := n * 10 ^ (k + a)) in *. set (E := 2 ^ (- e)) in *.
    set (P := 10 ^ T) in *. set (Q := 10 ^ U) in *. clearbody A w E P Q.
    assert (2 * w * E <= (2 * Zpos m + 1) * A) by lia.
    assert (2 * (A * Q) * E <= 2 * (w * P) * E) by nia.
    assert (2 * (w * P) * E <= (2 * Zpos m + 1) * A * P) by nia.
    assert ((2 * Zpos m + 1) * P * A < 2 * E * Q * A) by nia. lia.
  Qed.

  Lemma point_gt t : 2 * 2 ^ (- e) * 10 ^ Z.max 0 t <= (2 * Zpos m - 1) * 10 ^ Z.max 0 (- t) → t < dec_point d.
  Proof.
    intros H. destruct (Z.lt_ge_cases t (dec_point d)) as [Hle|Hgt]; [done|]. exfalso.
    pose proof point_near as Hn. destruct point_digits as (Hl & Hlo & Hhi).
    set (T := Z.max 0 (- t)) in *. set (U := Z.max 0 t) in *. set (k := dec_point d - len) in *.
    assert (n * 10 ^ (k + a) * 10 ^ T < 10 ^ a * 10 ^ U) as Hb.
    { apply Z.lt_le_trans with (10 ^ len * 10 ^ (k + a) * 10 ^ T).
      - apply Z.mul_lt_mono_pos_r; [apply Z.pow_pos_nonneg; lia|].
        apply Z.mul_lt_mono_pos_r; [apply Z.pow_pos_nonneg; lia|]. lia.
      - rewrite <- !Z.pow_add_r by lia. apply Z.pow_le_mono_r; lia. }
    assert (0 < 10 ^ a) by (apply Z.pow_pos_nonneg; lia). assert (0 < 10 ^ T) by (apply Z.pow_pos_nonneg; lia).
    assert (0 < 10 ^ U) by (apply Z.pow_pos_nonneg; lia). assert (0 < 2 ^ (- e)) by (apply Z.pow_pos_nonneg; lia).
    set (A := 10 ^ a) in *. set (w := n * 10 ^ (k + a)) in *. set (E := 2 ^ (- e)) in *.
    set (P := 10 ^ T) in *. set (Q := 10 ^ U) in *. clearbody A w E P Q.
    assert ((2 * Zpos m - 1) * A <= 2 * w * E) by lia.
    assert (2 * (w * P) * E < 2 * (A * Q) * E) by nia.
    assert ((2 * Zpos m - 1) * A * P <= 2 * (w * P) * E) by nia.
    assert (2 * E * Q * A <= (2 * Zpos m - 1) * P * A) by nia. lia.
  Qed.
End point.

(** ** The names of the node files *)

Lemma mantissa_bounds m e : valid (S754_finite false m e) → Zpos m < 2 ^ 53 ∧ (-1074 < e → 2 ^ 52 <= Zpos m).
Proof.
  intros [H _]%valid_finite. rewrite fexp64_max in H. pose proof (digits_bounds m) as [B1 B2].
  set (D := Zpos (digits2_pos m)) in *. split.
  - apply Z.lt_le_trans with (2 ^ D); [done|]. apply Z.pow_le_mono_r; lia.
  - intros He. assert (D = 53) as E by lia. rewrite E in B1. exact B1.
Qed.

Definition tenth_power (k : Z) : f64 := f64_of_decimal 1 (- k).

Lemma power_4 : tenth_power 4 = S754_finite false 7378697629483821 (-66).
Proof. by vm_compute. Qed.
Lemma power_9 : tenth_power 9 = S754_finite false 4835703278458517 (-82).
Proof. by vm_compute. Qed.

Lemma ltb_positive m e m' e' :
  SFltb (S754_finite false m e) (S754_finite false m' e') = true ↔ e < e' ∨ e = e' ∧ Zpos m < Zpos m'.
Proof.
  unfold SFltb, SFcompare. destruct (Z.compare_spec e e') as [->|H|H].
  - change (Pos.compare_cont Eq m m') with ((m ?= m')%positive). destruct (Pos.compare_spec m m'); split; try done; lia.
  - split; [by left|done].
  - split; [done|lia].
Qed.

(** With the distance of at least one unit in the last place to the boundary. *)
Section boundary.
  Context (shortest : Digits) (Hs : shows shortest) (m : positive) (e : Z)
    (Hv : valid (S754_finite false m e)) (He : e <= 0).
  Context (T : Z) (m0 : positive) (e0 : Z) (HT : 0 <= T) (He0 : -1074 < e0 <= -2).

  Lemma below_boundary :
    (2 * Zpos m0 - 1) * 10 ^ T < 2 * 2 ^ (- e0) → (2 ^ 54 - 1) * 10 ^ T < 4 * 2 ^ (- e0) →
    SFltb (S754_finite false m e) (S754_finite false m0 e0) = true →
    dec_point (shortest (S754_finite false m e)) <= - T.
  Proof.
    intros C1 C2 [Hlt|[-> Hlt]]%ltb_positive; apply (point_le shortest Hs m _ Hv He).
    - rewrite Z.opp_involutive, (Z.max_r 0 T), (Z.max_l 0 (- T)) by lia. rewrite Z.pow_0_r, Z.mul_1_r.
      destruct (mantissa_bounds m e Hv) as [B _]. assert (0 < 10 ^ T) by (apply Z.pow_pos_nonneg; lia).
      assert (2 * 2 ^ (- e0) <= 2 ^ (- e)) as Hp.
      { rewrite <- (Z.pow_succ_r 2 (- e0)) by lia. apply Z.pow_le_mono_r; lia. }
      change (2 ^ 53) with 9007199254740992 in *. change (2 ^ 54) with 18014398509481984 in *. nia.
    - rewrite Z.opp_involutive, (Z.max_r 0 T), (Z.max_l 0 (- T)) by lia. rewrite Z.pow_0_r, Z.mul_1_r.
      assert (0 < 10 ^ T) by (apply Z.pow_pos_nonneg; lia). nia.
  Qed.

  Lemma above_boundary :
    2 * 2 ^ (- e0) <= (2 * Zpos m0 + 1) * 10 ^ T → 2 ^ (- e0) <= (2 ^ 53 - 1) * 10 ^ T →
    SFltb (S754_finite false m0 e0) (S754_finite false m e) = true →
    - T < dec_point (shortest (S754_finite false m e)).
  Proof.
    intros C1 C2 [Hlt|[-> Hlt]]%ltb_positive; apply (point_gt shortest Hs m _ Hv He).
    - rewrite Z.opp_involutive, (Z.max_r 0 T), (Z.max_l 0 (- T)) by lia. rewrite Z.pow_0_r, Z.mul_1_r.
      destruct (mantissa_bounds m e Hv) as [_ B]. specialize (B ltac:(lia)). assert (0 < 10 ^ T) by (apply Z.pow_pos_nonneg; lia).
      assert (2 * 2 ^ (- e) <= 2 ^ (- e0)) as Hp.
      { rewrite <- (Z.pow_succ_r 2 (- e)) by lia. apply Z.pow_le_mono_r; lia. }
      change (2 ^ 53) with 9007199254740992 in *. change (2 ^ 52) with 4503599627370496 in *. nia.
    - rewrite Z.opp_involutive, (Z.max_r 0 T), (Z.max_l 0 (- T)) by lia. rewrite Z.pow_0_r, Z.mul_1_r.
      assert (0 < 10 ^ T) by (apply Z.pow_pos_nonneg; lia). nia.
  Qed.
End boundary.

Lemma unit_exponent m e : valid (S754_finite false m e) → SFleb (S754_finite false m e) f64_one = true → e <= -52.
Proof.
  intros Hv H. assert (f64_one = S754_finite false 4503599627370496 (-52)) as E by by vm_compute.
  rewrite E in H. unfold SFleb, SFcompare in H. destruct (Z.compare_spec e (-52)); [lia|lia|done].
Qed.

(** The texts of a factor in the names of the node files. *)
Lemma factor_texts :
  ∀ shortest x, shows shortest → valid x →
  SFleb f64_zero x = true → SFleb x f64_one = true →
  (SFltb (tenth_power 4) x = true ∨ SFltb x (tenth_power 9) = true →
    ryu shortest x = Some (py_repr shortest x)) ∧
  (SFltb (tenth_power 9) x = true → SFltb x (tenth_power 4) = true →
    ryu shortest x ≠ Some (py_repr shortest x)).
Proof.
  intros shortest x Hs Hv H0 H1. destruct x as [s|s| |s m e].
  { split; [intros _; by destruct s|]. intros H. exfalso. destruct s; vm_compute in H; discriminate H. }
  { exfalso. destruct s; [vm_compute in H0; discriminate H0|vm_compute in H1; discriminate H1]. }
  { exfalso. vm_compute in H0. discriminate H0. }
  destruct s; [exfalso; vm_compute in H0; discriminate H0|]. assert (e <= -52) as He by (by eapply unit_exponent).
  destruct (shows_parts shortest m e Hs Hv) as (Hd & _).
  pose proof (ryu_py _ Hd) as Hiff. cbv zeta in Hd.
  assert (dec_point (shortest (S754_finite false m e)) <= 16) as Hup.
  { apply (point_le shortest Hs m e Hv ltac:(lia)). change (Z.max 0 (- (16))) with 0. change (Z.max 0 16) with 16.
    destruct (mantissa_bounds m e Hv) as [B _]. rewrite Z.pow_0_r.
    assert (2 ^ 52 <= 2 ^ (- e)) by (apply Z.pow_le_mono_r; lia).
    change (2 ^ 53) with 9007199254740992 in *. change (2 ^ 52) with 4503599627370496 in *.
    change (10 ^ 16) with 10000000000000000. lia. }
  unfold ryu, py_repr. cbn [show_finite default]. rewrite power_4, power_9.
  unfold id. split.
  - intros H. f_equal. apply Hiff. destruct H as [H|H].
    + left. split; [|done].
      apply (above_boundary shortest Hs m e Hv ltac:(lia) 4 7378697629483821 (-66)); [lia|lia|by vm_compute..|done].
    + right.
      apply (below_boundary shortest Hs m e Hv ltac:(lia) 9 4835703278458517 (-82)); [lia|lia|by vm_compute..|done].
  - intros H H' [= E]. apply Hiff in E.
    assert (-9 < dec_point (shortest (S754_finite false m e))).
    { apply (above_boundary shortest Hs m e Hv ltac:(lia) 9 4835703278458517 (-82)); [lia|lia|by vm_compute..|done]. }
    assert (dec_point (shortest (S754_finite false m e)) <= -4).
    { apply (below_boundary shortest Hs m e Hv ltac:(lia) 4 7378697629483821 (-66)); [lia|lia|by vm_compute..|done]. }
    lia.
Qed.

(** ** Names as strings *)

Lemma name_app a b : name (a ++ b) = (name a +:+ name b)%string.
Proof. induction a as [|c a IH]; [done|]. cbn [app]. change (name (c :: a ++ b)) with (String (Ascii.ascii_of_byte c) (name (a ++ b))). by rewrite IH. Qed.
Lemma name_inj a b : name a = name b → a = b.
Proof.
  intros H. apply (f_equal String.list_byte_of_string) in H.
  by rewrite !String.list_byte_of_string_of_list_byte in H.
Qed.
Lemma name_text s : name (text s) = s.
Proof. apply String.string_of_list_byte_of_string. Qed.

(** The multiplier of job [k]. *)
Notation multiplier k := (f64_of_usize (N.of_nat k)).

Lemma density_file_apart shortest k k' : shows shortest → (k < 1000)%nat → (k' < 1000)%nat →
  name (density_file shortest 20 (multiplier k)) = name (density_file shortest 20 (multiplier k')) → k = k'.
Proof.
  intros Hs Hk Hk' H. apply name_inj in H. unfold density_file in H.
  rewrite !display_int in H by (try done; lia).
  repeat apply app_inv_head in H. apply app_inv_tail in H.
  destruct (write_usize_digits (N.of_nat k)) as (ds & D & V & _), (write_usize_digits (N.of_nat k')) as (ds' & D' & V' & _).
  rewrite H in D. pose proof (digits_as_unique _ _ _ D D') as ->. lia.
Qed.

(** What the scripts open. *)
Lemma density_opened shortest fs k : shows shortest → (k < 1000)%nat →
  ∀ x, densities_get_data fs (x, multiplier k) =
    load_file fs (text "data" ++ drop 6 (density_file shortest 20 (multiplier k))).
Proof.
  intros Hs Hk x. unfold densities_get_data. cbn [snd].
  destruct (int_text_display shortest (N.of_nat k) Hs ltac:(lia)) as (z & E1 & E2).
  rewrite E1. cbn [mbind option_bind]. rewrite E2. reflexivity.
Qed.
