(** * Rounding of binary64 numbers: nearest values, bounds, exact sums *)
From Verif Require Export FloatFacts.
From Verif Require Import Results ProbabilisticFacts.
From Coq Require Import ZArith Lia.
Local Open Scope Z_scope.

(** ** Guard bits *)

(** The record describes [N / D]: integer part, whether the rest is at least one
    half, whether it is neither zero nor one half. *)
Definition describes (N D : Z) (mrs : shr_record) : Prop :=
  0 < D ∧ 0 <= shr_m mrs ∧ shr_m mrs * D <= N < (shr_m mrs + 1) * D ∧
  (shr_r mrs = true ↔ D <= 2 * (N - shr_m mrs * D)) ∧
  (shr_s mrs = true ↔ N ≠ shr_m mrs * D ∧ 2 * (N - shr_m mrs * D) ≠ D).

Lemma shr_1_describes N D mrs : describes N D mrs → describes N (2 * D) (shr_1 mrs).
Proof.
  destruct mrs as [m r s]. unfold describes. cbn [shr_m shr_r shr_s]. intros (HD & Hm & Hb & Hr & Hs).
  assert (shr_s (shr_1 {| shr_m := m; shr_r := r; shr_s := s |}) = orb r s) as Es.
  { by destruct m as [|[]|[]]. }
  assert (orb r s = true ↔ N ≠ m * D) as Hos.
  { destruct r; cbn [orb].
    - assert (D <= 2 * (N - m * D)) by (by apply Hr). split; [lia|done].
    - rewrite Hs. split; [tauto|]. intros Hn. split; [done|]. intros E.
      assert (false = true) by (apply Hr; lia). done. }
  rewrite Es, Hos.
  assert (∃ h b, m = 2 * h + Z.b2z b ∧ 0 <= h ∧ shr_m (shr_1 {| shr_m := m; shr_r := r; shr_s := s |}) = h ∧
    shr_r (shr_1 {| shr_m := m; shr_r := r; shr_s := s |}) = b) as (h & b & -> & Hh & -> & ->).
  { destruct m as [|[p|p|]|]; cbn [shr_1 shr_m shr_r shr_s]; [| | | |lia].
    - by exists 0, false.
    - exists (Zpos p), true. cbn [Z.b2z]. split; [lia|]. split; [lia|done].
    - exists (Zpos p), false. cbn [Z.b2z]. split; [lia|]. split; [lia|done].
    - by exists 0, true. }
  clear Es Hos Hr Hs.
  assert (0 <= Z.b2z b <= 1) by (by destruct b).
  split; [lia|]. split; [lia|]. split; [nia|]. split.
  - destruct b; cbn [Z.b2z] in *; split; [intros _; nia|done|done|intros; nia].
  - destruct b; cbn [Z.b2z] in *; split; intros; nia.
Qed.

Lemma shr_describes n N D mrs : describes N D mrs → describes N (D * 2 ^ Z.of_nat n) (Nat.iter n shr_1 mrs).
Proof.
  intros H. induction n as [|n IH]; [by rewrite Z.mul_1_r|].
  cbn [Nat.iter nat_rect]. fold (Nat.iter n shr_1 mrs). apply shr_1_describes in IH.
  rewrite Nat2Z.inj_succ, Z.pow_succ_r by lia. by replace (D * (2 * 2 ^ Z.of_nat n)) with (2 * (D * 2 ^ Z.of_nat n)) by lia.
Qed.

(** Rounding to the nearest integer. *)
Lemma nearest_describes N D mrs :
  describes N D mrs →
  let m := round_nearest_even (shr_m mrs) (loc_of_shr_record mrs) in
  0 <= m ∧ 2 * Z.abs (m * D - N) <= D ∧ m <= shr_m mrs + 1 ∧ (N = shr_m mrs * D → m = shr_m mrs).
Proof.
  destruct mrs as [m r s]. unfold describes. cbn [shr_m shr_r shr_s]. intros (HD & Hm & Hb & Hr & Hs).
  assert (r = true ∨ r = false) as [-> | ->] by (destruct r; auto);
    assert (s = true ∨ s = false) as [-> | ->] by (destruct s; auto); cbn [loc_of_shr_record round_nearest_even].
  - assert (D <= 2 * (N - m * D)) by (by apply Hr). assert (N ≠ m * D) by (by apply Hs).
    split; [lia|]. split; [nia|]. split; [lia|]. lia.
  - assert (D <= 2 * (N - m * D)) by (by apply Hr).
    assert (2 * (N - m * D) = D).
    { destruct (Z.eq_dec (2 * (N - m * D)) D) as [?|Hne]; [done|].
      assert (false = true) by (apply Hs; split; [lia|done]). done. }
    destruct (Z.even m); (split; [lia|]; split; [nia|]; split; [lia|]; lia).
  - assert (¬ D <= 2 * (N - m * D)) by (intros H; by apply Hr in H). assert (N ≠ m * D) by (by apply Hs).
    split; [lia|]. split; [nia|]. split; [lia|]. lia.
  - assert (¬ D <= 2 * (N - m * D)) by (intros H; by apply Hr in H).
    assert (N = m * D).
    { destruct (Z.eq_dec N (m * D)) as [?|Hne]; [done|].
      assert (false = true) by (apply Hs; split; [done|lia]). done. }
    split; [lia|]. split; [nia|]. split; [lia|]. lia.
Qed.

(** A location describes some fraction. *)
Definition located (N D m : Z) (l : location) : Prop := describes N D (shr_record_of_loc m l).

Lemma located_exact m : 0 <= m → located m 1 m loc_Exact.
Proof. intros H. unfold located, describes. cbn. split; [lia|]. split; [done|]. split; [lia|]. split; (split; [done|lia]). Qed.

Lemma located_some m l : 0 <= m → ∃ N, 4 * m <= N < 4 * (m + 1) ∧ located N 4 m l.
Proof.
  intros H. unfold located, describes.
  destruct l as [|[]]; cbn [shr_record_of_loc shr_m shr_r shr_s].
  - exists (4 * m). split; [lia|]. split; [lia|]. split; [lia|]. split; [lia|]. split; (split; [done|lia]).
  - exists (4 * m + 2). split; [lia|]. split; [lia|]. split; [lia|]. split; [lia|]. split; (split; [done || lia|lia || done]).
  - exists (4 * m + 1). split; [lia|]. split; [lia|]. split; [lia|]. split; [lia|]. split; (split; [done || lia|lia || done]).
  - exists (4 * m + 3). split; [lia|]. split; [lia|]. split; [lia|]. split; [lia|]. split; (split; [done || lia|lia || done]).
Qed.

Lemma located_division N D q r :
  0 < D → N = D * q + r → 0 <= r < D → 0 <= q → located N D q (new_location D r).
Proof.
  intros HD HN Hr Hq. unfold located, describes.
  assert (new_location D r = if Zeq_bool r 0 then loc_Exact else loc_Inexact (Z.compare (2 * r) D)) as ->.
  { unfold new_location. destruct (Z.even D) eqn:Ev; [done|]. unfold new_location_odd.
    destruct (Zeq_bool r 0); [done|]. f_equal.
    assert (D mod 2 = 1) as Hodd.
    { rewrite Zmod_odd, <- Z.negb_even, Ev. done. }
    pose proof (Z.div_mod D 2 ltac:(lia)).
    destruct (Z.compare_spec (2 * r + 1) D), (Z.compare_spec (2 * r) D); done || lia. }
  destruct (Zeq_bool r 0) eqn:E0.
  - apply Zeq_bool_eq in E0. cbn. split; [done|]. split; [done|]. split; [nia|]. split; (split; [done|nia]).
  - apply Zeq_bool_neq in E0.
    destruct (Z.compare_spec (2 * r) D); cbn; (split; [done|]; split; [done|]; split; [nia|]; split);
      (split; [first [done|intros; nia]|first [done|intros; nia]]).
Qed.

(** ** Bounds *)

Lemma Zdigits2_bounds m : 0 < m → 2 ^ (Zdigits2 m - 1) <= m < 2 ^ Zdigits2 m.
Proof. destruct m as [|p|p]; [lia| |lia]. intros _. apply digits_bounds. Qed.
Lemma Zdigits2_le m d : 0 <= m → 0 <= d → m < 2 ^ d → Zdigits2 m <= d.
Proof.
  intros Hm Hd H. destruct (Z.eq_dec m 0) as [->|Hn]; [done|].
  destruct (Zdigits2_bounds m) as [L _]; [lia|].
  destruct (Z_le_gt_dec (Zdigits2 m) d) as [?|Hg]; [done|].
  pose proof (Z.pow_le_mono_r 2 d (Zdigits2 m - 1) ltac:(lia) ltac:(lia)). lia.
Qed.

Lemma fexp_le D : D <= 53 → fexp64 D <= 0.
Proof. unfold fexp, emin, f64_prec, f64_emax. lia. Qed.

(** One shift to the exponent of the format. *)
Lemma shr_fexp_describes N D m e l :
  located N D m l → 
  ∃ k, 0 <= k ∧ (k = 0 ∨ e + k = fexp64 (Zdigits2 m + e)) ∧ fexp64 (Zdigits2 m + e) <= e + k ∧
    (shr_fexp f64_prec f64_emax m e l).2 = e + k ∧
    describes N (D * 2 ^ k) (shr_fexp f64_prec f64_emax m e l).1.
Proof.
  intros H. unfold shr_fexp, shr. destruct (fexp64 (Zdigits2 m + e) - e) as [|n|n] eqn:E.
  - exists 0. split; [done|]. split; [by left|]. split; [lia|]. split; [cbn; lia|]. by rewrite Z.mul_1_r.
  - exists (Zpos n). split; [done|]. split; [right; lia|]. split; [lia|]. split; [done|]. cbn [fst].
    rewrite iter_pos_nat. pose proof (shr_describes (Pos.to_nat n) N D _ H) as Hd. by rewrite positive_nat_Z in Hd.
  - exists 0. split; [done|]. split; [by left|]. split; [lia|]. split; [cbn; lia|]. by rewrite Z.mul_1_r.
Qed.

(** [|x| <= B]. *)
Definition atmost (x : f64) (B : Z) : Prop :=
  match x with
  | S754_zero _ => 0 <= B
  | S754_finite _ m e => e <= 0 ∧ Zpos m <= B * 2 ^ (- e)
  | _ => False
  end.

Lemma round_atmost s N D m e l B :
  located N D m l → e <= 0 → 0 <= B < 2 ^ 53 → N <= B * 2 ^ (- e) * D →
  atmost (binary_round_aux f64_prec f64_emax s m e l) B.
Proof.
  intros Hloc He HB HN. unfold binary_round_aux.
  assert (0 <= m ∧ 0 < D ∧ m * D <= N) as (Hm & HD & HmN).
  { destruct Hloc as (HD & Hm & Hb & _). destruct l as [|[]]; cbn in *; lia. }
  assert (m <= B * 2 ^ (- e)) as HmB by nia.
  assert (0 < 2 ^ (- e)) as Hpe by (apply Z.pow_pos_nonneg; lia).
  assert (Zdigits2 m + e <= 53) as Hd.
  { enough (Zdigits2 m <= 53 - e) by lia. apply Zdigits2_le; [done|lia|].
    replace (53 - e) with (53 + - e) by lia. rewrite Z.pow_add_r by lia. nia. }
  destruct (shr_fexp_describes N D m e l Hloc) as (k & Hk & Hk0 & _ & Ee & Hdes).
  destruct (shr_fexp f64_prec f64_emax m e l) as [mrs1 e1]. cbn [fst snd] in *. subst e1.
  pose proof (fexp_le _ Hd) as Hf.
  assert (e + k <= 0) as He1 by lia.
  assert (0 < 2 ^ k) as Hpk by (apply Z.pow_pos_nonneg; lia).
  assert (2 ^ (- e) = 2 ^ (- (e + k)) * 2 ^ k) as Epow by (rewrite <- Z.pow_add_r by lia; f_equal; lia).
  set (P := 2 ^ (- (e + k))) in *. assert (0 < P) as HP by (apply Z.pow_pos_nonneg; lia).
  destruct (nearest_describes _ _ _ Hdes) as (Hn0 & _ & Hn1 & Hn2).
  set (m2 := round_nearest_even (shr_m mrs1) (loc_of_shr_record mrs1)) in *.
  assert (m2 <= B * P) as Hm2.
  { destruct Hdes as (_ & Hm1 & Hb1 & _).
    destruct (Z_lt_le_dec (shr_m mrs1) (B * P)) as [Hlt|Hge]; [lia|].
    assert (N = shr_m mrs1 * (D * 2 ^ k)) as EN.
    { assert (B * P * (D * 2 ^ k) <= shr_m mrs1 * (D * 2 ^ k)) by (apply Z.mul_le_mono_nonneg_r; nia).
      assert (N <= B * P * (D * 2 ^ k)) by (rewrite Epow in HN; nia). lia. }
    rewrite (Hn2 EN). nia. }
  clearbody m2. clear Hn1 Hn2 Hdes.
  assert (Zdigits2 m2 + (e + k) <= 53) as Hd2.
  { enough (Zdigits2 m2 <= 53 - (e + k)) by lia. apply Zdigits2_le; [done|lia|].
    replace (53 - (e + k)) with (53 + - (e + k)) by lia. rewrite Z.pow_add_r by lia. fold P. nia. }
  destruct (shr_fexp_describes m2 1 m2 (e + k) loc_Exact (located_exact _ Hn0)) as (k2 & Hk2 & Hk20 & _ & Ee2 & Hdes2).
  destruct (shr_fexp f64_prec f64_emax m2 (e + k) loc_Exact) as [mrs2 e2]. cbn [fst snd] in *. subst e2.
  pose proof (fexp_le _ Hd2) as Hf2. assert (e + k + k2 <= 0) as He2 by lia.
  destruct Hdes2 as (_ & Hm3 & Hb3 & _). rewrite Z.mul_1_l in Hb3.
  destruct (shr_m mrs2) as [|p|p]; [cbn; lia| |lia].
  change (f64_emax - f64_prec) with 971. destruct (Z.leb_spec (e + k + k2) 971); [|lia].
  cbn [atmost]. split; [done|].
  assert (P = 2 ^ (- (e + k + k2)) * 2 ^ k2) as EP by (unfold P; rewrite <- Z.pow_add_r by lia; f_equal; lia).
  assert (0 < 2 ^ k2) by (apply Z.pow_pos_nonneg; lia). rewrite EP in Hm2. nia.
Qed.

Lemma binary_round_atmost s p e B :
  e <= 0 → 0 <= B < 2 ^ 53 → Zpos p <= B * 2 ^ (- e) → atmost (binary_round f64_prec f64_emax s p e) B.
Proof.
  intros He HB Hp. unfold binary_round, shl_align.
  destruct (fexp64 (Zpos (digits2_pos p) + e) - e) as [|n|n] eqn:E.
  - eapply round_atmost; [by apply located_exact|done|done|lia].
  - eapply round_atmost; [by apply located_exact|done|done|lia].
  - eapply round_atmost; [by apply located_exact|lia|done|]. rewrite shift_pos_Z, Z.mul_1_r.
    assert (0 < 2 ^ Zpos n) by (apply Z.pow_pos_nonneg; lia).
    replace (- fexp64 (Zpos (digits2_pos p) + e)) with (- e + Zpos n) by lia. rewrite Z.pow_add_r by lia. nia.
Qed.

Lemma normalize_atmost m e sz B :
  e <= 0 → 0 <= B < 2 ^ 53 → Z.abs m <= B * 2 ^ (- e) → atmost (binary_normalize f64_prec f64_emax m e sz) B.
Proof.
  intros He HB Hm. destruct m as [|p|p]; cbn [binary_normalize]; [cbn; lia| |];
    apply binary_round_atmost; (done || lia).
Qed.

Lemma of_usize_atmost k B : 0 <= B < 2 ^ 53 → Z.of_N k <= B → atmost (f64_of_usize k) B.
Proof. intros HB Hk. apply normalize_atmost; [lia|done|]. change (2 ^ - 0) with 1. lia. Qed.

Lemma atmost_mono x B B' : atmost x B → B <= B' → atmost x B'.
Proof.
  destruct x as [| | |s m e]; cbn; intros H HB; [lia|done|done|]. destruct H as [He Hm]. split; [done|].
  assert (0 < 2 ^ (- e)) by (apply Z.pow_pos_nonneg; lia). nia.
Qed.

Lemma atmost_nonneg x B : atmost x B → 0 <= B.
Proof.
  destruct x as [| | |s m e]; cbn; [done|done|done|]. intros [He Hm].
  assert (0 < 2 ^ (- e)) by (apply Z.pow_pos_nonneg; lia). nia.
Qed.

Lemma align_atmost s m e ez A :
  ez <= e → e <= 0 → Zpos m <= A * 2 ^ (- e) →
  Z.abs (cond_Zopp s (Zpos (fst (shl_align m e ez)))) <= A * 2 ^ (- ez).
Proof.
  intros Hz He Hm. rewrite shl_align_Z by done.
  assert (0 < 2 ^ (e - ez)) as Hp by (apply Z.pow_pos_nonneg; lia).
  assert (Z.abs (cond_Zopp s (Zpos m * 2 ^ (e - ez))) = Zpos m * 2 ^ (e - ez)) as ->.
  { unfold cond_Zopp. destruct s; nia. }
  replace (- ez) with (- e + (e - ez)) by lia. rewrite Z.pow_add_r by lia. nia.
Qed.

Lemma add_atmost x y A B : atmost x A → atmost y B → A + B < 2 ^ 53 → atmost (f64_add x y) (A + B).
Proof.
  intros Hx Hy Hs. pose proof (atmost_nonneg _ _ Hx). pose proof (atmost_nonneg _ _ Hy).
  destruct x as [sx| | |sx mx ex], y as [sy| | |sy my ey]; try done.
  - unfold f64_add, SFadd. destruct (Bool.eqb sx sy); cbn in *; lia.
  - eapply atmost_mono; [exact Hy|lia].
  - eapply atmost_mono; [exact Hx|lia].
  - destruct Hx as [Hex Hmx], Hy as [Hey Hmy]. unfold f64_add, SFadd.
    apply normalize_atmost; [lia|lia|].
    pose proof (align_atmost sx mx ex (Z.min ex ey) A ltac:(lia) Hex Hmx).
    pose proof (align_atmost sy my ey (Z.min ex ey) B ltac:(lia) Hey Hmy). lia.
Qed.

Lemma sub_atmost x y A B : atmost x A → atmost y B → A + B < 2 ^ 53 → atmost (f64_sub x y) (A + B).
Proof.
  intros Hx Hy Hs. pose proof (atmost_nonneg _ _ Hx). pose proof (atmost_nonneg _ _ Hy).
  destruct x as [sx| | |sx mx ex], y as [sy| | |sy my ey]; try done.
  - unfold f64_sub, SFsub. destruct (Bool.eqb sx (negb sy)); cbn in *; lia.
  - eapply atmost_mono; [exact Hy|lia].
  - eapply atmost_mono; [exact Hx|lia].
  - destruct Hx as [Hex Hmx], Hy as [Hey Hmy]. unfold f64_sub, SFsub.
    apply normalize_atmost; [lia|lia|].
    pose proof (align_atmost sx mx ex (Z.min ex ey) A ltac:(lia) Hex Hmx).
    pose proof (align_atmost sy my ey (Z.min ex ey) B ltac:(lia) Hey Hmy). lia.
Qed.

Lemma mul_atmost x y A B : atmost x A → atmost y B → A * B < 2 ^ 53 → atmost (f64_mul x y) (A * B).
Proof.
  intros Hx Hy Hs. pose proof (atmost_nonneg _ _ Hx). pose proof (atmost_nonneg _ _ Hy).
  destruct x as [sx| | |sx mx ex], y as [sy| | |sy my ey]; try done; try (cbn in *; nia).
  destruct Hx as [Hex Hmx], Hy as [Hey Hmy]. unfold f64_mul, SFmul.
  eapply round_atmost; [by apply located_exact|lia|nia|].
  replace (- (ex + ey)) with (- ex + - ey) by lia. rewrite Z.pow_add_r by lia. rewrite Pos2Z.inj_mul, Z.mul_1_r.
  assert (0 < 2 ^ (- ex)) by (apply Z.pow_pos_nonneg; lia). assert (0 < 2 ^ (- ey)) by (apply Z.pow_pos_nonneg; lia).
  replace (A * B * (2 ^ (- ex) * 2 ^ (- ey))) with ((A * 2 ^ (- ex)) * (B * 2 ^ (- ey))) by lia.
  apply Z.mul_le_mono_nonneg; lia.
Qed.

(** ** Small integers *)

Lemma int_small x k :
  int_value x k → k < 2 ^ 53 →
  (k = 0 ∧ x = S754_zero false) ∨
  (0 < k ∧ ∃ m e, x = S754_finite false m e ∧ Zpos (digits2_pos m) = 53 ∧ -52 <= e <= 0 ∧ Zpos m = k * 2 ^ (- e) ∧
     e = digits k - 53).
Proof.
  intros [?|(Hk & m & e & -> & Hm & He)] Hlt; [by left|]. right. split; [done|]. exists m, e. split; [done|]. split; [done|].
  assert (normal (S754_finite false m e) (digits k)) as (m' & e' & [= <- <-] & _ & Hdk).
  { apply int_normal; [|done]. right. split; [done|]. by exists m, e. }
  assert (digits k <= 53) by (apply digits_upper; lia). pose proof (digits_pos k).
  split; [lia|]. split; [|lia]. destruct He as [[_ ?]|[? _]]; [done|lia].
Qed.

Lemma int_atmost x k : int_value x k → k < 2 ^ 53 → atmost x k.
Proof.
  intros Hx Hk. destruct (int_small x k Hx Hk) as [[-> ->]|(H0 & m & e & -> & _ & He & Hm & _)]; [done|].
  cbn. split; [lia|]. lia.
Qed.

(** The sum of small integers is exact. *)
Lemma add_int x y a b : int_value x a → int_value y b → a + b < 2 ^ 53 → int_value (f64_add x y) (a + b).
Proof.
  intros Hx Hy Hs.
  assert (0 <= a ∧ 0 <= b) as [Ha0 Hb0].
  { destruct Hx as [[-> _]|[? _]], Hy as [[-> _]|[? _]]; lia. }
  destruct (int_small x a Hx ltac:(lia)) as [[-> ->]|(Ha & m1 & e1 & -> & Hm1 & He1 & E1 & D1)];
    destruct (int_small y b Hy ltac:(lia)) as [[-> ->]|(Hb & m2 & e2 & -> & Hm2 & He2 & E2 & D2)].
  - by left.
  - exact Hy.
  - rewrite Z.add_0_r. exact Hx.
  - unfold f64_add, SFadd. cbn [cond_Zopp]. set (ez := Z.min e1 e2).
    rewrite (int_align a m1 e1 ez), (int_align b m2 e2 ez) by (lia || (left; split; [lia|done])).
    rewrite <- Z.mul_add_distr_r.
    assert (0 < 2 ^ (- ez)) as Hp by (apply Z.pow_pos_nonneg; lia).
    destruct ((a + b) * 2 ^ (- ez)) as [|p|p] eqn:E; [nia| |nia]. cbn [binary_normalize].
    set (d := digits (a + b)).
    assert (Zpos (digits2_pos p) = d + - ez) as Hd.
    { unfold d, digits. apply digits_shift; [lia|]. by rewrite Z2Pos.id by lia. }
    assert (d <= 53) as Hd53 by (apply digits_upper; lia).
    assert (digits a <= d ∧ digits b <= d) as [Hda Hdb].
    { unfold d, digits. split; apply digits_le; rewrite !Z2Pos.id by lia; lia. }
    assert (53 <= d + - ez) as H53 by lia. pose proof (digits_pos (a + b)) as Hd1. fold d in Hd1.
    assert (0 < 2 ^ (53 - d)) as Hp2 by (apply Z.pow_pos_nonneg; lia).
    unfold binary_round. rewrite Hd. rewrite fexp_normal by lia.
    unfold shl_align. replace (d + - ez + ez - 53 - ez) with (d - ez - 53) by lia.
    assert (match d - ez - 53 with Zneg n => (shift_pos n p, d + - ez + ez - 53) | _ => (p, ez) end = (p, ez)) as ->.
    { destruct (d - ez - 53) eqn:E'; [done|done|lia]. }
    rewrite (round_exact false p ez (Z.to_pos ((a + b) * 2 ^ (53 - d)))).
    + right. split; [lia|]. eexists _, _. split; [done|]. rewrite Hd. split.
      * rewrite (digits_shift (Z.to_pos (a + b)) (53 - d)); [|lia|].
        { fold (digits (a + b)). fold d. lia. }
        rewrite !Z2Pos.id by nia. done.
      * left. split; [lia|]. rewrite Z2Pos.id by nia. do 2 f_equal. lia.
    + rewrite Hd. lia.
    + rewrite Hd. lia.
    + rewrite Hd, Z2Pos.id by nia. rewrite <- E, <- Z.mul_assoc, <- Z.pow_add_r by lia. do 2 f_equal. lia.
Qed.

(** ** Quotients *)

(** The result is nearest among the numbers with 53 binary digits. *)
Lemma round_half s p e l N D :
  let d := Zpos (digits2_pos p) in
  located N D (Zpos p) l → 53 <= d → -1021 <= d + e <= 1023 →
  ∃ m' e', binary_round_aux f64_prec f64_emax s (Zpos p) e l = S754_finite s m' e' ∧
    Zpos (digits2_pos m') = 53 ∧ e <= e' ∧
    2 * Z.abs (Zpos m' * 2 ^ (e' - e) * D - N) <= 2 ^ (e' - e) * D.
Proof.
  intros d Hloc Hd HD. unfold binary_round_aux.
  assert (0 < D ∧ Zpos p * D <= N < (Zpos p + 1) * D) as (HD0 & HN).
  { destruct Hloc as (? & ? & ? & _). destruct l as [|[]]; cbn in *; done. }
  destruct (shr_fexp_describes N D (Zpos p) e l Hloc) as (k & Hk & Hk0 & Hk1 & Ee & Hdes).
  cbn [Zdigits2] in *. fold d in Hk0, Hk1. rewrite fexp_normal in Hk0, Hk1 by lia.
  assert (k = d - 53) as -> by lia. clear Hk0 Hk1.
  destruct (shr_fexp f64_prec f64_emax (Zpos p) e l) as [mrs1 e1]. cbn [fst snd] in *. subst e1.
  set (K := 2 ^ (d - 53)) in *. assert (0 < K) as HK by (apply Z.pow_pos_nonneg; lia).
  destruct (digits_bounds p) as [Hb1 Hb2]. fold d in Hb1, Hb2.
  destruct (nearest_describes _ _ _ Hdes) as (Hn0 & Hhalf & Hn1 & _).
  assert (2 ^ 52 <= shr_m mrs1 < 2 ^ 53) as Hm.
  { destruct Hdes as (_ & _ & Hb & _).
    assert (2 ^ (d - 1) = 2 ^ 52 * K) as E1 by (unfold K; rewrite <- Z.pow_add_r by lia; f_equal; lia).
    assert (2 ^ d = 2 ^ 53 * K) as E2 by (unfold K; rewrite <- Z.pow_add_r by lia; f_equal; lia).
    rewrite E1 in Hb1. rewrite E2 in Hb2.
    assert (2 ^ 52 * K * D <= N) by (etrans; [|apply HN]; apply Z.mul_le_mono_nonneg_r; lia).
    assert (N < 2 ^ 53 * K * D).
    { eapply Z.lt_le_trans; [apply HN|]. apply Z.mul_le_mono_nonneg_r; lia. }
    clear HN. split.
    - destruct (Z_le_gt_dec (2 ^ 52) (shr_m mrs1)) as [?|Hg]; [done|]. exfalso.
      assert ((shr_m mrs1 + 1) * (D * K) <= 2 ^ 52 * (D * K)) by (apply Z.mul_le_mono_nonneg_r; nia). nia.
    - destruct (Z_lt_le_dec (shr_m mrs1) (2 ^ 53)) as [?|Hg]; [done|]. exfalso.
      assert (2 ^ 53 * (D * K) <= shr_m mrs1 * (D * K)) by (apply Z.mul_le_mono_nonneg_r; nia). nia. }
  pose proof (round_near (shr_m mrs1) (loc_of_shr_record mrs1)) as Hr.
  set (m2 := round_nearest_even (shr_m mrs1) (loc_of_shr_record mrs1)) in *.
  assert (2 ^ 52 <= m2 <= 2 ^ 53) as Hm2 by lia. clearbody m2. clear Hr Hm Hn1 Hdes.
  destruct m2 as [|p2|p2]; [exfalso; cbn in Hm2; lia| |exfalso; cbn in Hm2; lia].
  unfold shr_fexp. cbn [Zdigits2].
  destruct (Z.eq_dec (Zpos p2) (2 ^ 53)) as [E2|E2].
  - assert (Zpos (digits2_pos p2) = 54) as ->.
    { apply digits_unique; [lia|]. rewrite E2. split; [done|]. apply Z.pow_lt_mono_r; lia. }
    rewrite fexp_normal by lia. replace (54 + (e + (d - 53)) - 53 - (e + (d - 53))) with 1 by lia.
    assert (p2 = 9007199254740992%positive) as -> by (by apply (inj Zpos)).
    unfold shr. cbn [SpecFloat.iter_pos shr_record_of_loc shr_1 shr_m].
    change (f64_emax - f64_prec) with 971. destruct (Z.leb_spec (e + (d - 53) + 1) 971); [|lia].
    eexists _, _. split; [reflexivity|]. split; [reflexivity|]. split; [lia|].
    replace (e + (d - 53) + 1 - e) with (Z.succ (d - 53)) by lia. rewrite Z.pow_succ_r by lia. fold K.
    change 9007199254740992 with (2 * 4503599627370496) in Hhalf.
    replace (4503599627370496 * (2 * K) * D - N) with (2 * 4503599627370496 * (D * K) - N) by lia. nia.
  - assert (Zpos (digits2_pos p2) = 53) as Ed2.
    { apply digits_unique; [lia|]. change (53 - 1) with 52. lia. }
    rewrite Ed2. rewrite fexp_normal by lia. replace (53 + (e + (d - 53)) - 53 - (e + (d - 53))) with 0 by lia.
    unfold shr. cbn [shr_record_of_loc shr_m]. change (f64_emax - f64_prec) with 971.
    destruct (Z.leb_spec (e + (d - 53)) 971); [|lia].
    eexists _, _. split; [reflexivity|]. split; [done|]. split; [lia|].
    replace (e + (d - 53) - e) with (d - 53) by lia. fold K.
    replace (Zpos p2 * K * D - N) with (Zpos p2 * (D * K) - N) by lia. lia.
Qed.

Lemma div_atmost x y n B :
  int_value y n → 0 < n < 2 ^ 53 → 0 <= B < 2 ^ 53 → atmost x (B * n) → atmost (f64_div x y) B.
Proof.
  intros Hy Hn HB Hx.
  destruct (int_small y n Hy ltac:(lia)) as [[? _]|(_ & my & ey & -> & Hmy & Hey & Ey & _)]; [lia|].
  destruct x as [sx| | |sx mx ex]; [cbn in *; lia|done|done|]. destruct Hx as [Hex Hmx].
  unfold f64_div, SFdiv, SFdiv_core_binary. cbn [Zdigits2]. rewrite Hmy.
  set (d := Zpos (digits2_pos mx)). set (e' := Z.min (fexp64 (d + ex - (53 + ey))) (ex - ey)).
  assert (0 < 2 ^ (- ex)) as Hpx by (apply Z.pow_pos_nonneg; lia).
  assert (0 < 2 ^ (- ey)) as Hpy by (apply Z.pow_pos_nonneg; lia).
  assert (e' <= 0) as He'.
  { enough (d + ex - (53 + ey) <= 53) as Hle by (pose proof (fexp_le _ Hle); lia).
    destruct (digits_bounds mx) as [L _]. fold d in L. destruct (digits_bounds my) as [_ U]. rewrite Hmy in U.
    destruct (Z_le_gt_dec (d + ex - (53 + ey)) 53) as [?|Hg]; [done|]. exfalso.
    (* 2^(d-1) <= mx <= B n 2^-ex < 2^53 n 2^-ex, n 2^-ey < 2^53 *)
    assert (Zpos mx * 2 ^ (- ey) <= B * 2 ^ (- ex) * Zpos my) as H1 by nia.
    assert (2 ^ (d - 1) * 2 ^ (- ey) <= Zpos mx * 2 ^ (- ey)) as H2 by nia.
    assert (B * 2 ^ (- ex) * Zpos my < 2 ^ 53 * 2 ^ (- ex) * 2 ^ 53) as H3.
    { assert (B * 2 ^ (- ex) * Zpos my <= B * 2 ^ (- ex) * 2 ^ 53) by (apply Z.mul_le_mono_nonneg_l; nia).
      assert (B * 2 ^ (- ex) * 2 ^ 53 < 2 ^ 53 * 2 ^ (- ex) * 2 ^ 53) by nia. lia. }
    rewrite <- !Z.pow_add_r in * by lia.
    pose proof (Z.pow_le_mono_r 2 (53 + - ex + 53) (d - 1 + - ey) ltac:(lia) ltac:(lia)). lia. }
  assert (0 <= ex - ey - e') as Hs by lia.
  set (m' := match ex - ey - e' with Zpos _ => Z.shiftl (Zpos mx) (ex - ey - e') | Z0 => Zpos mx | Zneg _ => 0 end).
  assert (m' = Zpos mx * 2 ^ (ex - ey - e')) as Em.
  { unfold m'. destruct (ex - ey - e') eqn:E; [by rewrite Z.mul_1_r| |lia]. rewrite <- E. apply Z.shiftl_mul_pow2. lia. }
  assert (0 < 2 ^ (ex - ey - e')) as Hps by (apply Z.pow_pos_nonneg; lia).
  pose proof (Z_div_mod m' (Zpos my) ltac:(lia)) as Hq.
  destruct (Z.div_eucl m' (Zpos my)) as [q r]. destruct Hq as [Eq Hr].
  assert (0 <= q) as Hq0.
  { destruct (Z_le_gt_dec 0 q) as [?|Hg]; [done|]. exfalso. assert (0 <= m') by nia. nia. }
  eapply round_atmost; [eapply located_division; [|exact Eq|exact Hr|exact Hq0]; lia|done|done|].
  rewrite Em, Ey.
  (* mx 2^(ex-ey-e') <= B 2^-e' n 2^-ey *)
  assert (2 ^ (- e') * 2 ^ (- ey) = 2 ^ (- ex) * 2 ^ (ex - ey - e')) as Ep by (rewrite <- !Z.pow_add_r by lia; f_equal; lia).
  replace (B * 2 ^ (- e') * (n * 2 ^ (- ey))) with (B * n * (2 ^ (- e') * 2 ^ (- ey))) by lia. rewrite Ep. nia.
Qed.

(** The quotient of two integers is the nearest number. *)
Definition nearest_quotient (x : f64) (S n : Z) : Prop :=
  (S = 0 ∧ x = S754_zero false) ∨
  ∃ m e, x = S754_finite false m e ∧ Zpos (digits2_pos m) = 53 ∧ e <= 0 ∧
    2 * Z.abs (Zpos m * n - S * 2 ^ (- e)) <= n.

Lemma div_nearest x y S n :
  int_value x S → int_value y n → S < 2 ^ 53 → 0 < n < 2 ^ 53 → nearest_quotient (f64_div x y) S n.
Proof.
  intros Hx Hy HS Hn.
  destruct (int_small y n Hy ltac:(lia)) as [[? _]|(_ & my & ey & -> & Hmy & Hey & Ey & Dy)]; [lia|].
  destruct (int_small x S Hx ltac:(lia)) as [[-> ->]|(HS0 & mx & ex & -> & Hmx & Hex & Ex & Dx)]; [by left|]. right.
  assert (atmost (f64_div (S754_finite false mx ex) (S754_finite false my ey)) S) as Hat.
  { apply (div_atmost _ _ n); [done|done|lia|]. eapply atmost_mono; [by apply int_atmost|nia]. }
  revert Hat. unfold f64_div, SFdiv, SFdiv_core_binary. cbn [Zdigits2 xorb]. rewrite Hmx, Hmy.
  rewrite fexp_normal by lia.
  replace (Z.min (53 + ex - (53 + ey) - 53) (ex - ey)) with (ex - ey - 53) by lia.
  replace (ex - ey - (ex - ey - 53)) with 53 by lia. cbv iota.
  rewrite Z.shiftl_mul_pow2 by lia.
  destruct (digits_bounds mx) as [L1 U1], (digits_bounds my) as [L2 U2]. rewrite Hmx in L1, U1. rewrite Hmy in L2, U2.
  pose proof (Z_div_mod (Zpos mx * 2 ^ 53) (Zpos my) ltac:(lia)) as Hq.
  destruct (Z.div_eucl (Zpos mx * 2 ^ 53) (Zpos my)) as [q r]. destruct Hq as [Eq Hr].
  assert (2 ^ 52 <= q) as Lq.
  { destruct (Z_le_gt_dec (2 ^ 52) q) as [?|Hg]; [done|]. exfalso.
    pose proof (Z.mul_le_mono_nonneg_l (q + 1) (2 ^ 52) (Zpos my) ltac:(lia) ltac:(lia)).
    assert (2 ^ 53 = 2 * 2 ^ 52) as E by done. change (53 - 1) with 52 in *. nia. }
  assert (q < 2 ^ 54) as Uq.
  { destruct (Z_le_gt_dec (2 ^ 54) q) as [Hg|?]; [|lia]. exfalso.
    pose proof (Z.mul_le_mono_nonneg (2 ^ (53 - 1)) (Zpos my) (2 ^ 54) q ltac:(lia) L2 ltac:(lia) Hg) as H3.
    pose proof (Z.mul_lt_mono_pos_r (2 ^ 53) (Zpos mx) (2 ^ 53) ltac:(lia)) as [H4 _]. specialize (H4 U1).
    rewrite <-!Z.pow_add_r in H3, H4 by lia. change (53 - 1 + 54) with 106 in H3. change (53 + 53) with 106 in H4. lia. }
  assert (located (Zpos mx * 2 ^ 53) (Zpos my) q (new_location (Zpos my) r)) as Hloc.
  { apply located_division; [lia|done|done|lia]. }
  destruct q as [|q|q]; [lia| |lia].
  assert (53 <= Zpos (digits2_pos q) <= 54) as Hd.
  { destruct (digits_bounds q) as [L U]. split.
    - destruct (Z_le_gt_dec 53 (Zpos (digits2_pos q))) as [?|Hg]; [done|].
      pose proof (Z.pow_le_mono_r 2 (Zpos (digits2_pos q)) 52 ltac:(lia) ltac:(lia)). lia.
    - destruct (Z_le_gt_dec (Zpos (digits2_pos q)) 54) as [?|Hg]; [done|].
      pose proof (Z.pow_le_mono_r 2 54 (Zpos (digits2_pos q) - 1) ltac:(lia) ltac:(lia)). lia. }
  destruct (round_half false q (ex - ey - 53) _ _ _ Hloc ltac:(lia) ltac:(lia)) as (m & e & -> & Hm & He & Hhalf).
  cbn [atmost]. intros [He0 _]. exists m, e. split; [done|]. split; [done|]. split; [done|].
  set (j := e - (ex - ey - 53)) in *. rewrite Ex, Ey in Hhalf.
  assert (0 < 2 ^ j) as Hpj by (apply Z.pow_pos_nonneg; lia).
  assert (0 < 2 ^ (- ey)) as Hpy by (apply Z.pow_pos_nonneg; lia).
  assert (S * 2 ^ (- ex) * 2 ^ 53 = S * 2 ^ (- e) * (2 ^ j * 2 ^ (- ey))) as E1.
  { rewrite <- !Z.mul_assoc, <- !Z.pow_add_r by lia. do 2 f_equal. lia. }
  rewrite E1 in Hhalf.
  set (W := 2 ^ j * 2 ^ (- ey)) in *. assert (0 < W) as HW by nia.
  replace (Zpos m * 2 ^ j * (n * 2 ^ (- ey)) - S * 2 ^ (- e) * W) with ((Zpos m * n - S * 2 ^ (- e)) * W) in Hhalf by (unfold W; lia).
  replace (2 ^ j * (n * 2 ^ (- ey))) with (n * W) in Hhalf by (unfold W; lia).
  rewrite Z.abs_mul, (Z.abs_eq W) in Hhalf by lia. nia.
Qed.

(** ** Square roots *)

Lemma sqrt_atmost x B :
  atmost x B → unsigned x → 1 <= B → B + 1 < 2 ^ 53 → atmost (f64_sqrt x) (B + 1) ∧ unsigned (f64_sqrt x).
Proof.
  intros Hx Hu HB1 HB. destruct x as [sx| | |sx m e]; [cbn in *; split; [lia|done]|done|done|].
  cbn in Hu. subst sx. destruct Hx as [He Hm].
  unfold f64_sqrt, SFsqrt, SFsqrt_core_binary. cbn [Zdigits2].
  set (e' := Z.min (fexp64 (Z.div2 (Zpos (digits2_pos m) + e + 1))) (Z.div2 e)).
  assert (2 * Z.div2 e <= e ∧ Z.div2 e <= 0) as [Hd2 Hd0].
  { rewrite Z.div2_div. pose proof (Z.div_mod e 2 ltac:(lia)). pose proof (Z.mod_pos_bound e 2 ltac:(lia)). lia. }
  assert (e' <= 0 ∧ 0 <= e - 2 * e') as [He' Hs] by lia.
  set (m' := match e - 2 * e' with Zpos _ => Z.shiftl (Zpos m) (e - 2 * e') | Z0 => Zpos m | Zneg _ => 0 end).
  assert (m' = Zpos m * 2 ^ (e - 2 * e')) as Em.
  { unfold m'. destruct (e - 2 * e') eqn:E; [by rewrite Z.mul_1_r| |lia]. rewrite <- E. apply Z.shiftl_mul_pow2. lia. }
  assert (0 < 2 ^ (e - 2 * e')) as Hps by (apply Z.pow_pos_nonneg; lia).
  assert (0 < 2 ^ (- e')) as Hpe by (apply Z.pow_pos_nonneg; lia).
  assert (m' <= B * (2 ^ (- e') * 2 ^ (- e'))) as Hm'.
  { assert (2 ^ (- e') * 2 ^ (- e') = 2 ^ (- e) * 2 ^ (e - 2 * e')) as -> by (rewrite <- !Z.pow_add_r by lia; f_equal; lia).
    rewrite Em. nia. }
  pose proof (Z.sqrtrem_spec m' ltac:(nia)) as Hsq. destruct (Z.sqrtrem m') as [q r]. destruct Hsq as [Eq Hr].
  assert (0 <= q) as Hq0.
  { destruct (Z_le_gt_dec 0 q) as [?|Hg]; [done|]. lia. }
  assert (q <= B * 2 ^ (- e')) as Hq.
  { destruct (Z_le_gt_dec q (B * 2 ^ (- e'))) as [?|Hg]; [done|]. exfalso.
    assert (B * 2 ^ (- e') * (B * 2 ^ (- e')) < q * q) by nia.
    assert (B * (2 ^ (- e') * 2 ^ (- e')) <= B * 2 ^ (- e') * (B * 2 ^ (- e'))) by nia. nia. }
  set (l := if Zeq_bool r 0 then loc_Exact else loc_Inexact (if r <=? q then Lt else Gt)). clearbody l.
  destruct (located_some q l Hq0) as (N & HN & Hloc). split.
  - eapply round_atmost; [exact Hloc|done|lia|]. nia.
  - by apply round_unsigned.
Qed.

(** Sums of unsigned numbers are unsigned. *)
Lemma binary_round_unsigned p e : unsigned (binary_round f64_prec f64_emax false p e).
Proof. unfold binary_round. destruct (shl_align _ _ _). by apply round_unsigned. Qed.
Lemma add_unsigned x y : unsigned x → unsigned y → unsigned (f64_add x y).
Proof.
  destruct x as [sx|sx| |sx mx ex], y as [sy|sy| |sy my ey]; cbn; intros; subst; try done.
  apply binary_round_unsigned.
Qed.
