(** * The computed deviations are standard deviations *)
From stdpp Require Import strings.
From Verif Require Export DeviationFacts MainBenchmarkNumbers.
From Verif Require Import BenchmarkFacts Results ProbabilisticFacts Spec.
From Coq Require Import ZArith QArith Qabs Lqa Lia.
Local Open Scope Z_scope.

Lemma total_column col : (total_q (values_q col) == inject_Z (Z.of_N (column_total col)))%Q.
Proof.
  induction col as [|x col IH]; [done|]. cbn [values_q map total_q foldr]. fold (values_q col). fold (total_q (values_q col)).
  change (column_total (x :: col)) with (x + column_total col)%N. rewrite IH, N2Z.inj_add, inject_Z_plus. done.
Qed.

Section column.
  Context (col : list N).
  Let n := Z.of_nat (length col).
  Context (Hn : 1 <= n <= 4096) (Hb : Forall (λ e, e <= 1024)%N col).

  Lemma dev_ne : col ≠ [].
  Proof. intros E. unfold n in Hn. rewrite E in Hn. cbn in Hn. lia. Qed.

  Lemma dev_total : 0 <= Z.of_N (column_total col) <= 1024 * n.
  Proof. pose proof (column_total_le col 1024 Hb). unfold n. lia. Qed.

  Lemma dev_count : int_value (f64_of_usize (N.of_nat (length col))) n.
  Proof. unfold n. rewrite <- nat_N_Z. apply of_usize_int. lia. Qed.

  Lemma dev_sum : int_value (float_sum col) (Z.of_N (column_total col)).
  Proof. pose proof dev_total. apply float_sum_int. lia. Qed.

  Lemma dev_mean_atmost : atmost (mean_of col) 1024.
  Proof.
    pose proof dev_total. apply (div_atmost _ _ n); [apply dev_count|lia|lia|].
    eapply atmost_mono; [apply int_atmost; [apply dev_sum|lia]|lia].
  Qed.

  Lemma dev_mean : above (-105) (mean_of col) ∧ rounds (exact_mean col) (f64_value (mean_of col)).
  Proof.
    pose proof dev_total. pose proof dev_sum as Hs.
    destruct (div_rounds (-52) (float_sum col) (f64_of_usize (N.of_nat (length col))) n) as [H1 H2].
    - apply (int_above _ _ Hs). lia.
    - destruct (int_small _ _ Hs ltac:(lia)) as [[_ ->]|(_ & m & e & -> & _)]; done.
    - apply dev_count.
    - lia.
    - lia.
    - eexists. apply int_atmost; [exact Hs|lia].
    - split; [exact H1|]. eapply rounds_proper; [|done|exact H2].
      rewrite (int_value_Q _ _ Hs) by lia. unfold exact_mean. by rewrite total_column.
  Qed.

  (** One square. *)
  Lemma dev_square e : (e <= 1024)%N →
    let d := f64_sub (f64_of_usize e) (mean_of col) in
    let c := (inject_Z (Z.of_N e) - f64_value (mean_of col))%Q in
    above (-316) (f64_mul d d) ∧ atmost (f64_mul d d) (2048 * 2048) ∧ unsigned (f64_mul d d) ∧
    near 3 (c * c) (f64_value (f64_mul d d)).
  Proof.
    intros He. cbv zeta. destruct dev_mean as [Lm _]. pose proof dev_mean_atmost as Am.
    assert (int_value (f64_of_usize e) (Z.of_N e)) as Hi by (apply of_usize_int; lia).
    assert (atmost (f64_of_usize e) 1024) as Ae by (apply of_usize_atmost; lia).
    assert (above (-105) (f64_of_usize e)) as Le.
    { apply (above_mono (-52)); [|lia]. apply (int_above _ _ Hi). lia. }
    destruct (sub_rounds (-105) _ _ 1024 1024 Le Lm Ae Am ltac:(lia) ltac:(lia)) as [L1 R1].
    pose proof (sub_atmost _ _ 1024 1024 Ae Am ltac:(lia)) as A1.
    set (d := f64_sub (f64_of_usize e) (mean_of col)) in *.
    assert (atmost d (2 ^ 26)) as A2 by (eapply atmost_mono; [exact A1|lia]).
    destruct (mul_rounds (-158) (-158) d d L1 L1 A2 A2 ltac:(lia)) as [L2 R2].
    split; [exact L2|]. split; [by apply mul_atmost|]. split; [apply square_unsigned|].
    eapply near_square; [|exact R2]. eapply rounds_proper; [|done|exact R1]. by rewrite (int_value_Q _ _ Hi) by lia.
  Qed.

  Lemma dev_squares l z Z0 A k :
    Forall (λ e, e <= 1024)%N l → above (-316) z → atmost z A → unsigned z → near k Z0 (f64_value z) → (0 <= Z0)%Q →
    3 <= k → k + Z.of_nat (length l) <= 2 ^ 50 → A + Z.of_nat (length l) * (2048 * 2048) < 2 ^ 53 →
    let s := foldl f64_add z (map (λ e, let d := f64_sub (f64_of_usize e) (mean_of col) in f64_mul d d) l) in
    above (-316) s ∧ atmost s (A + Z.of_nat (length l) * (2048 * 2048)) ∧ unsigned s ∧
    near (k + Z.of_nat (length l)) (Z0 + square_sum (f64_value (mean_of col)) l) (f64_value s).
  Proof.
    intros Hl. revert z Z0 A k. induction Hl as [|e l He Hl IH]; intros z Z0 A k Lz Az Uz Nz HZ Hk Hk2 HA; cbn [map foldl length] in *.
    - split; [done|]. split; [by replace (A + Z.of_nat 0 * (2048 * 2048)) with A by lia|]. split; [done|].
      replace (k + Z.of_nat 0) with k by lia. eapply near_proper; [|done|exact Nz]. unfold square_sum. cbn. ring.
    - destruct (dev_square e He) as (Ls & As & Us & Ns). cbv zeta in *.
      set (d := f64_sub (f64_of_usize e) (mean_of col)) in *.
      set (c := (inject_Z (Z.of_N e) - f64_value (mean_of col))%Q) in *.
      pose proof (square_nonneg c) as Hc.
      destruct (add_rounds (-316) z (f64_mul d d) A (2048 * 2048) Lz Ls Uz Us Az As ltac:(lia) ltac:(lia)) as [La Ra].
      pose proof (add_atmost _ _ _ _ Az As ltac:(lia)) as Aa.
      assert (near k (c * c) (f64_value (f64_mul d d))) as Ns' by (eapply near_mono; [exact Ns|done|lia]).
      assert (near (k + 1) (Z0 + c * c) (f64_value (f64_add z (f64_mul d d)))) as Na.
      { eapply near_rounds; [apply near_plus; [exact Nz|exact Ns']|exact Ra|lra|lia]. }
      destruct (IH (f64_add z (f64_mul d d)) (Z0 + c * c)%Q (A + 2048 * 2048) (k + 1)) as (H1 & H2 & H3 & H4);
        [exact La|exact Aa|by apply add_unsigned|exact Na|lra|lia|lia|lia|].
      split; [exact H1|]. split; [by replace (A + Z.of_nat (S (length l)) * (2048 * 2048)) with (A + 2048 * 2048 + Z.of_nat (length l) * (2048 * 2048)) by lia|].
      split; [exact H3|]. replace (k + Z.of_nat (S (length l))) with (k + 1 + Z.of_nat (length l)) by lia.
      eapply near_proper; [|done|exact H4]. rewrite square_sum_cons. fold c. ring.
  Qed.

  (** The computed mean is close enough. *)
  Lemma dev_exact : (variance col == 0)%Q → (f64_value (mean_of col) == exact_mean col)%Q.
  Proof.
    intros Hv. pose proof dev_ne as Hne. pose proof (length_q_pos col Hne) as Hlq. pose proof dev_total as Ht.
    assert (square_sum (exact_mean col) col == 0)%Q as Hs.
    { rewrite variance_sum in Hv. setoid_replace (square_sum (exact_mean col) col) with (square_sum (exact_mean col) col / length_q col * length_q col)%Q by (field; lra).
      rewrite Hv. ring. }
    apply square_sum_zero in Hs.
    assert (∃ x, inject_Z (Z.of_N x) == exact_mean col)%Q as [x Ex].
    { clear -Hs Hne. revert Hs. generalize (exact_mean col). intros q Hs. destruct Hs as [|x l Hx _]; [done|]. by exists x. }
    assert (inject_Z (Z.of_N (column_total col)) == inject_Z (Z.of_N x * n))%Q as Et.
    { rewrite <- total_column, inject_Z_mult, Ex. unfold exact_mean, length_q. fold n. field.
      unfold length_q in Hlq. fold n in Hlq. lra. }
    assert (Z.of_N (column_total col) = Z.of_N x * n) as Ez by (by apply inject_Z_injective). clear Ex Hs Et. rename Ez into Et.
    destruct (div_nearest _ _ _ _ dev_sum dev_count ltac:(lia) ltac:(lia)) as [[E0 E1]|(m & e & E & Hm & He & Hq)].
    - fold (mean_of col) in E1. rewrite E1. cbn [f64_value]. unfold exact_mean. rewrite total_column, E0. change (inject_Z 0) with 0%Q. field. lra.
    - fold (mean_of col) in E. rewrite E. cbn [f64_value cond_Zopp]. rewrite Et in Hq.
      assert (Zpos m = Z.of_N x * 2 ^ (- e)) as Em.
      { replace (Zpos m * n - Z.of_N x * n * 2 ^ (- e)) with (n * (Zpos m - Z.of_N x * 2 ^ (- e))) in Hq by ring. nia. }
      rewrite Em, inject_Z_mult, <- (pow2_Z (- e)) by lia. rewrite <- Qmult_assoc, <- pow2_add. replace (- e + e) with 0 by lia.
      change (pow2 0) with 1%Q. unfold exact_mean. rewrite total_column, Et, inject_Z_mult. unfold length_q. fold n.
      unfold length_q in Hlq. fold n in Hlq. field. lra.
  Qed.

  Lemma dev_centre : near 1 (variance col) (square_sum (f64_value (mean_of col)) col / length_q col).
  Proof.
    pose proof dev_ne as Hne. pose proof (length_q_pos col Hne) as Hlq.
    assert (0 <= variance col)%Q as Hv.
    { rewrite variance_sum. apply Qle_shift_div_l; [done|]. rewrite Qmult_0_l. apply square_sum_nonneg. }
    assert (square_sum (f64_value (mean_of col)) col / length_q col
      == variance col + (f64_value (mean_of col) - exact_mean col) * (f64_value (mean_of col) - exact_mean col))%Q as E.
    { rewrite (square_sum_mean _ col Hne), variance_sum. field. lra. }
    apply near_bounds. rewrite E. set (d := (f64_value (mean_of col) - exact_mean col)%Q) in *.
    pose proof (square_nonneg d) as Hd. change (inject_Z 1) with 1%Q.
    destruct (variance_gap col Hne) as [H0|H1].
    - assert (d == 0)%Q as Ed by (unfold d; rewrite (dev_exact H0); ring). rewrite Ed. split; lra.
    - split; [lra|].
      assert (length_q col <= 4096)%Q as Hl by (unfold length_q; fold n; change 4096%Q with (inject_Z 4096); rewrite <- Zle_Qle; lia).
      assert (length_q col * length_q col <= 4096 * 4096)%Q as Hl2 by nra.
      assert (variance col * (length_q col * length_q col) <= variance col * (4096 * 4096))%Q as Hl3 by nra.
      assert (1 <= variance col * 16777216)%Q as Hv1 by lra.
      (* the error of the mean *)
      assert (exact_mean col <= 1024)%Q as Hm.
      { unfold exact_mean. apply Qle_shift_div_r; [done|]. rewrite total_column. unfold length_q. fold n.
        change 1024%Q with (inject_Z 1024). rewrite <- inject_Z_mult, <- Zle_Qle. apply dev_total. }
      assert (0 <= exact_mean col)%Q as Hm0.
      { unfold exact_mean. apply Qle_shift_div_l; [done|]. rewrite Qmult_0_l, total_column. change 0%Q with (inject_Z 0). rewrite <- Zle_Qle. apply dev_total. }
      destruct (rounds_bounds _ _ Hm0 (proj2 dev_mean)) as [B1 B2].
      change (inject_Z (2 ^ 53 - 1)) with (9007199254740991 # 1)%Q in *.
      assert (- (1 # 8796093022207) <= d)%Q as D1 by (unfold d; lra).
      assert (d <= 1 # 8796093022207)%Q as D2 by (unfold d; lra).
      assert (d * d <= (1 # 8796093022207) * (1 # 8796093022207))%Q as D3 by (clear -D1 D2; nra). lra.
  Qed.

  Lemma deviation_near :
    near (n + 8) (variance col) (f64_value (deviation_of col) * f64_value (deviation_of col)).
  Proof.
    pose proof dev_ne as Hne. pose proof (length_q_pos col Hne) as Hlq.
    assert (0 <= variance col)%Q as Hv.
    { rewrite variance_sum. apply Qle_shift_div_l; [done|]. rewrite Qmult_0_l. apply square_sum_nonneg. }
    destruct (dev_squares col f64_zero 0 0 3 Hb) as (L1 & A1 & U1 & N1);
      [done|done|done|apply near_zero|done|lia|fold n; lia|fold n; lia|].
    unfold deviation_of. cbv zeta in *. set (s := foldl f64_add f64_zero _) in *. fold n in N1, A1.
    destruct (div_rounds (-316) s _ n L1 U1 dev_count ltac:(lia) ltac:(lia) ltac:(by eexists)) as [L2 R2].
    assert (atmost (f64_div s (f64_of_usize (N.of_nat (length col)))) (2048 * 2048)) as A2.
    { apply (div_atmost _ _ n); [apply dev_count|lia|lia|]. eapply atmost_mono; [exact A1|lia]. }
    assert (unsigned (f64_div s (f64_of_usize (N.of_nat (length col))))) as U2.
    { destruct (int_small _ _ dev_count ltac:(lia)) as [[? _]|(_ & m & e & -> & _)]; [lia|].
      clear -U1. destruct s as [ss|ss| |ss ms es]; cbn in U1; subst; try done.
      unfold f64_div, SFdiv. destruct (SFdiv_core_binary _ _ _ _ _ _) as [[mz ez] lz]. by apply round_unsigned. }
    set (q := f64_div s _) in *.
    set (c := (square_sum (f64_value (mean_of col)) col / length_q col)%Q).
    assert (0 <= c)%Q as Hc. { unfold c. apply Qle_shift_div_l; [done|]. rewrite Qmult_0_l. apply square_sum_nonneg. }
    assert (near (3 + n + 1) c (f64_value q)) as N2.
    { eapply near_rounds; [|exact R2|exact Hc|lia]. fold (length_q col). unfold length_q in *. fold n in Hlq |- *.
      apply near_divide; [done|]. eapply near_proper; [|done|exact N1]. ring. }
    destruct (sqrt_rounds _ q L2 U2 ltac:(lia) ltac:(by eexists)) as [S1 S2].
    pose proof (near_root _ _ _ _ N2 Hc ltac:(lia) S1 S2) as N3.
    pose proof dev_centre as N0. fold c in N0.
    (* combine *)
    apply near_bounds in N3 as [X1 X2]. apply near_bounds in N0 as [Y1 Y2]. apply near_bounds.
    set (w := (f64_value (f64_sqrt q) * f64_value (f64_sqrt q))%Q) in *. clearbody w.
    destruct (near_room (3 + n + 1 + 2) (variance col) ltac:(lia) Hv) as [T1 T2].
    assert (inject_Z (3 + n + 1 + 2) * (1 # 4503599627370496) * c
      <= inject_Z (3 + n + 1 + 2) * (1 # 4503599627370496) * (variance col + inject_Z 1 * (1 # 4503599627370496) * variance col))%Q as Hk.
    { rewrite !(Qmult_comm (inject_Z (3 + n + 1 + 2) * _)). apply Qmult_le_compat_r; [exact Y2|].
      assert (0 <= inject_Z (3 + n + 1 + 2))%Q by (change 0%Q with (inject_Z 0); rewrite <- Zle_Qle; lia). lra. }
    replace (n + 8) with (3 + n + 1 + 2 + 2) by lia. rewrite near_split.
    set (t := (inject_Z (3 + n + 1 + 2) * (1 # 4503599627370496))%Q) in *.
    change (inject_Z 1) with 1%Q in *. change (inject_Z 2) with (2 # 1)%Q.
    set (v := variance col) in *. set (T := (t * v)%Q) in *.
    setoid_replace (t * (v + 1 * (1 # 4503599627370496) * v))%Q with (T + (1 # 4503599627370496) * T)%Q in Hk by (unfold T; ring).
    set (C := (t * c)%Q) in *. clearbody C T c v. split; lra.
  Qed.

  Lemma dev_finite : finite_unsigned (deviation_of col).
  Proof.
    destruct (dev_squares col f64_zero 0 0 3 Hb) as (_ & A1 & U1 & _);
      [done|done|done|apply near_zero|done|lia|fold n; lia|fold n; lia|].
    unfold deviation_of. cbv zeta in *. set (s := foldl f64_add f64_zero _) in *. fold n in A1.
    assert (atmost (f64_div s (f64_of_usize (N.of_nat (length col)))) (2048 * 2048)) as A2.
    { apply (div_atmost _ _ n); [apply dev_count|lia|lia|]. eapply atmost_mono; [exact A1|lia]. }
    assert (unsigned (f64_div s (f64_of_usize (N.of_nat (length col))))) as U2.
    { destruct (int_small _ _ dev_count ltac:(lia)) as [[? _]|(_ & m & e & -> & _)]; [lia|].
      clear -U1. destruct s as [ss|ss| |ss ms es]; cbn in U1; subst; try done.
      unfold f64_div, SFdiv. destruct (SFdiv_core_binary _ _ _ _ _ _) as [[mz ez] lz]. by apply round_unsigned. }
    destruct (sqrt_atmost _ _ A2 U2) as [H1 H2]; [lia|lia|]. by eapply atmost_finite.
  Qed.
End column.

Lemma finite_unsigned_value x : finite_unsigned x → (0 <= f64_value x)%Q.
Proof.
  destruct x as [s| | |s m e]; try done. cbn. intros ->. pose proof (pow2_pos e).
  assert (0 < inject_Z (Zpos m))%Q by (by apply inject_pos). cbn [cond_Zopp]. nra.
Qed.

Lemma finite_unsigned_zero x : finite_unsigned x → (f64_value x == 0)%Q → x = f64_zero.
Proof.
  destruct x as [s| | |s m e]; try done; cbn; [by intros ->|]. intros -> H. pose proof (pow2_pos e).
  assert (0 < inject_Z (Zpos m))%Q by (by apply inject_pos). cbn [cond_Zopp] in H. nra.
Qed.

Lemma variance_nonneg col : (0 <= variance col)%Q.
Proof.
  destruct col as [|x col]; [done|]. rewrite variance_sum. apply Qle_shift_div_l; [by apply length_q_pos|].
  rewrite Qmult_0_l. apply square_sum_nonneg.
Qed.

Lemma variance_zero col : col ≠ [] → (variance col == 0)%Q ↔ ∀ x y, x ∈ col → y ∈ col → x = y.
Proof.
  intros Hne. pose proof (length_q_pos col Hne) as Hlq. split.
  - intros Hv. assert (square_sum (exact_mean col) col == 0)%Q as Hs.
    { rewrite variance_sum in Hv. setoid_replace (square_sum (exact_mean col) col) with (square_sum (exact_mean col) col / length_q col * length_q col)%Q by (field; lra).
      rewrite Hv. ring. }
    apply square_sum_zero in Hs. rewrite Forall_forall in Hs. intros x y Hx Hy.
    pose proof (Hs x Hx) as E1. pose proof (Hs y Hy) as E2. rewrite <- E2 in E1. apply N2Z.inj. by apply inject_Z_injective.
  - intros Hall. assert (∃ c, ∀ x, x ∈ col → x = c) as [c Hc].
    { destruct col as [|c col]; [done|]. exists c. intros x Hx. apply Hall; [done|by left]. }
    clear Hall.
    assert (total_q (values_q col) == length_q col * inject_Z (Z.of_N c))%Q as Et.
    { clear -Hc. unfold length_q. induction col as [|x col IH].
      - cbn [values_q map total_q foldr length]. change (inject_Z (Z.of_nat 0)) with 0%Q. ring.
      - cbn [values_q map total_q foldr length]. fold (values_q col). fold (total_q (values_q col)).
        rewrite IH by (intros y Hy; apply Hc; by right). rewrite (Hc x) by (by left).
        rewrite Nat2Z.inj_succ. unfold Z.succ. rewrite inject_Z_plus. change (inject_Z 1) with 1%Q. ring. }
    rewrite variance_sum.
    assert (square_sum (exact_mean col) col == 0)%Q as ->; [|by field; lra].
    assert (exact_mean col == inject_Z (Z.of_N c))%Q as Em by (unfold exact_mean; rewrite Et; field; lra).
    revert Em. generalize (exact_mean col). intros q Em. clear -Em Hc. induction col as [|x col IH]; [done|].
    rewrite square_sum_cons, IH by (intros y Hy; apply Hc; by right). rewrite (Hc x) by (by left). rewrite Em. ring.
Qed.

(** [d] is off the square root of [v] by at most the part [2^-j]. *)
Definition close_to_root (j : positive) (v d : Q) : Prop :=
  ∀ q, (0 <= q → (q * q <= v → (1 - (1 # 2 ^ j)) * q <= d) ∧ (v <= q * q → d <= (1 + (1 # 2 ^ j)) * q))%Q.

Lemma near_root_close k (j : positive) v d :
  near k v (d * d) → (0 <= d)%Q → (0 <= v)%Q → (inject_Z k * (1 # 4503599627370496) <= 1 # 2 ^ j)%Q → close_to_root j v d.
Proof.
  intros H Hd Hv Hk q Hq. apply near_bounds in H as [H1 H2].
  assert (0 < 1 # 2 ^ j)%Q as E0 by done. assert (1 # 2 ^ j <= 1)%Q as E1 by (unfold Qle; cbn; lia).
  set (t := (1 # 2 ^ j)%Q) in *. clearbody t.
  assert (inject_Z k * (1 # 4503599627370496) * v <= t * v)%Q as Ht by nra.
  split; intros Hqv.
  - assert (((1 - t) * q) * ((1 - t) * q) <= d * d)%Q as Hs.
    { assert ((1 - t) * (1 - t) * (q * q) <= (1 - t) * (q * q))%Q by nra. assert ((1 - t) * (q * q) <= (1 - t) * v)%Q by nra. lra. }
    destruct (Qlt_le_dec d ((1 - t) * q)) as [Hlt|?]; [|done]. exfalso.
    assert (d * d < (1 - t) * q * ((1 - t) * q))%Q by nra. lra.
  - assert (d * d <= ((1 + t) * q) * ((1 + t) * q))%Q as Hs.
    { assert ((1 + t) * v <= (1 + t) * (q * q))%Q by nra. assert ((1 + t) * (q * q) <= (1 + t) * (1 + t) * (q * q))%Q by nra. lra. }
    destruct (Qlt_le_dec ((1 + t) * q) d) as [Hlt|?]; [|done]. exfalso.
    assert (0 <= (1 + t) * q)%Q by nra. assert ((1 + t) * q * ((1 + t) * q) < d * d)%Q by nra. lra.
Qed.

Lemma deviation_accurate :
  ∀ col, (1 ≤ length col ≤ 4096)%nat → Forall (λ e, e <= 1024)%N col →
  let d := f64_value (deviation_of col) in
  (inject_Z (2 ^ 52) * Qabs (d * d - variance col) <= inject_Z (Z.of_nat (length col) + 8) * variance col)%Q.
Proof.
  intros col Hl Hb. cbv zeta. pose proof (deviation_near col ltac:(lia) Hb) as H. unfold near in H.
  set (a := Qabs _) in *. clearbody a. set (k := (inject_Z (Z.of_nat (length col) + 8) * variance col)%Q).
  assert (a <= (1 # 4503599627370496) * k)%Q as Ha by (unfold k; lra). clearbody k.
  change (inject_Z (2 ^ 52)) with (4503599627370496 # 1)%Q. lra.
Qed.

Lemma deviation_close :
  ∀ col, (1 ≤ length col ≤ 4000)%nat → Forall (λ e, e <= 1024)%N col →
  finite_unsigned (deviation_of col) ∧ close_to_root 40 (variance col) (f64_value (deviation_of col)).
Proof.
  intros col Hl Hb. assert (1 <= Z.of_nat (length col) <= 4096) as Hl' by lia.
  pose proof (dev_finite col Hl' Hb) as Hf. split; [done|].
  apply (near_root_close (Z.of_nat (length col) + 8)).
  - by apply deviation_near.
  - by apply finite_unsigned_value.
  - apply variance_nonneg.
  - assert (inject_Z (Z.of_nat (length col) + 8) <= inject_Z 4096)%Q as H by (rewrite <- Zle_Qle; lia).
    change (inject_Z 4096) with (4096 # 1)%Q in H. change (1 # 2 ^ 40)%Q with (1 # 1099511627776)%Q. lra.
Qed.

Lemma deviation_zero :
  ∀ col, (1 ≤ length col ≤ 4096)%nat → Forall (λ e, e <= 1024)%N col →
  deviation_of col = f64_zero ↔ ∀ x y, x ∈ col → y ∈ col → x = y.
Proof.
  intros col Hl Hb. assert (1 <= Z.of_nat (length col) <= 4096) as Hl' by lia.
  assert (col ≠ []) as Hne by (by intros ->; cbn in Hl; lia).
  rewrite <- (variance_zero col Hne). pose proof (deviation_near col Hl' Hb) as H. apply near_bounds in H as [H1 H2].
  destruct (near_room (Z.of_nat (length col) + 8) (variance col) ltac:(lia) (variance_nonneg col)) as [R1 R2].
  pose proof (variance_nonneg col) as Hv. split.
  - intros E. rewrite E in H1. cbn [f64_value f64_zero] in H1. lra.
  - intros E. apply finite_unsigned_zero; [by apply dev_finite|].
    set (d := f64_value (deviation_of col)) in *. pose proof (square_nonneg d). assert (d * d == 0)%Q as Ed by (rewrite E in H2; lra).
    apply Qmult_integral in Ed. by destruct Ed.
Qed.

(** ** The two programs *)

(** The deviation of a column of recorded data. *)
Definition spread_ok (col : list N) (r : f64 * f64) : Prop :=
  finite_unsigned r.2 ∧ close_to_root 40 (variance col) (f64_value r.2) ∧
  (r.2 = f64_zero ↔ ∀ x y, x ∈ col → y ∈ col → x = y).

Lemma numbers_spread (size : nat) get_full rs : (size ≤ 1000)%nat →
  numbers_ok size get_full rs → Forall2 spread_ok (columns get_full rs) (summary get_full rs).
Proof.
  intros Hs H. unfold summary. apply Forall2_fmap_r, Forall_Forall2_diag, Forall_forall.
  intros col Hcol. apply elem_of_list_lookup in Hcol as [i Hi].
  destruct (Forall2_lookup_l _ _ _ _ _ H Hi) as (r & _ & Hlen & Hb & _).
  assert (Forall (λ e, e <= 1024)%N col) as Hb' by (eapply Forall_impl; [exact Hb|intros e He; cbn in *; lia]).
  destruct (deviation_close col ltac:(lia) Hb') as [Hf Hc].
  split; [exact Hf|]. split; [exact Hc|]. apply deviation_zero; [lia|done].
Qed.

Lemma node_run_deviations :
  ∀ bd fuel induced rng args shots results times,
  induces_orders induced → (∀ k n, (0 < n → r_range rng k n < n)%nat) →
  (∀ size i, shot_ok (shots size i) ∧ shot_exp (shots size i)) →
  node_run bd fuel induced rng args shots = Some (Val (results, times)) →
  ∃ ed cd ks rs, results = sweep_arrays 16 (seq 2 44) (λ size, size <=? 20)%nat rs ∧
    ∀ size, (2 ≤ size ≤ 45)%nat →
      Forall2 spread_ok (columns (size <=? 20)%nat (rs size)) (summary (size <=? 20)%nat (rs size)) ∧
      (* the recorded data, as in C47 *)
      ∃ timeout tm, times !! (size - 2)%nat = Some tm ∧
        measured bd fuel induced rng size ed cd timeout (size <=? 20)%nat (shots size) (ks size) (rs size) tm (ks (S size)).
Proof.
  intros bd fuel induced rng args shots results times Hind Hrng Hsh H.
  destruct (node_run_numbers _ _ _ _ _ _ _ _ Hind Hrng Hsh H) as (ed & cd & ks & rs & E & Hn & _).
  exists ed, cd, ks, rs. split; [exact E|]. intros size Hs. destruct (Hn size Hs) as [H1 H2]. split; [|exact H2].
  apply (numbers_spread size); [lia|exact H1].
Qed.

Lemma density_run_deviations :
  ∀ bd fuel induced rng args shots results times,
  induces_orders induced → (∀ k n, (0 < n → r_range rng k n < n)%nat) →
  (∀ m i, shot_ok (shots m i) ∧ shot_exp (shots m i)) →
  (1 ≤ d_num_nodes args ≤ 1000)%nat →
  density_run bd fuel induced rng args shots = Some (Val (results, times)) →
  ∃ ks rs, results = sweep_arrays 8 (seq 1 21) (λ _, false) rs ∧
    ∀ m, (1 ≤ m ≤ 21)%nat →
      Forall2 spread_ok (columns false (rs m)) (summary false (rs m)) ∧
      (* the recorded data, as in C47 *)
      ∃ timeout tm, times !! (m - 1)%nat = Some tm ∧
        measured bd fuel induced rng (d_num_nodes args)
          (Constant (f64_div (d_edge_density_multiplier args) (f64_of_usize 22)))
          (Constant (f64_div (f64_of_usize (N.of_nat m)) (f64_of_usize 22)))
          timeout false (shots m) (ks m) (rs m) tm (ks (S m)).
Proof.
  intros bd fuel induced rng args shots results times Hind Hrng Hsh Hsize H.
  destruct (density_run_numbers _ _ _ _ _ _ _ _ Hind Hrng Hsh Hsize H) as (ks & rs & E & Hn & _).
  exists ks, rs. split; [exact E|]. intros m Hs. destruct (Hn m Hs) as [H1 H2]. split; [|exact H2].
  apply (numbers_spread (d_num_nodes args)); [lia|exact H1].
Qed.
