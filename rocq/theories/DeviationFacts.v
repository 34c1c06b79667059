(** * How close the computed deviations are to the standard deviations *)
From Verif Require Export FloatError.
From Verif Require Import BenchmarkFacts Results ProbabilisticFacts.
From Coq Require Import ZArith QArith Qabs Lqa Lia.
Local Open Scope Z_scope.

(** ** The standard deviation, in exact arithmetic *)

Definition total_q (l : list Q) : Q := foldr Qplus 0%Q l.
Definition values_q (col : list N) : list Q := map (λ x, inject_Z (Z.of_N x)) col.
Definition length_q (col : list N) : Q := inject_Z (Z.of_nat (length col)).
Definition exact_mean (col : list N) : Q := (total_q (values_q col) / length_q col)%Q.
(** The square of the standard deviation. *)
Definition variance (col : list N) : Q :=
  (total_q (map (λ x, (x - exact_mean col) * (x - exact_mean col)) (values_q col)) / length_q col)%Q.

(** [y] is off [a] by at most [k * 2^-52] of [a]. *)
Definition near (k : Z) (a y : Q) : Prop := (Qabs (y - a) <= inject_Z k * (1 # 4503599627370496) * a)%Q.

Lemma near_bounds k a y : near k a y ↔ (a - inject_Z k * (1 # 4503599627370496) * a <= y ∧ y <= a + inject_Z k * (1 # 4503599627370496) * a)%Q.
Proof. unfold near. rewrite Qabs_Qle_condition. split; intros [??]; split; lra. Qed.

Lemma near_proper k a a' y y' : (a == a')%Q → (y == y')%Q → near k a y → near k a' y'.
Proof. unfold near. intros Ha Hy. by rewrite Ha, Hy. Qed.

Lemma rounds_bounds a y : (0 <= a)%Q → rounds a y →
  (inject_Z (2 ^ 53 - 1) * (a - y) <= a ∧ inject_Z (2 ^ 53 - 1) * (y - a) <= a)%Q.
Proof.
  unfold rounds. intros Ha H. rewrite (Qabs_pos a) in H by done.
  pose proof (Qle_Qabs (y - a)). pose proof (Qle_Qabs (- (y - a))) as H1. rewrite Qabs_opp in H1.
  assert (0 < inject_Z (2 ^ 53 - 1))%Q by done. split; nra.
Qed.

Lemma near_zero k : near k 0 0.
Proof. unfold near. rewrite (Qabs_pos (0 - 0)) by done. lra. Qed.

(** A quarter is enough room for the factors that occur. *)
Lemma near_room k a : 0 <= k <= 2 ^ 50 → (0 <= a)%Q →
  (0 <= inject_Z k * (1 # 4503599627370496) * a ∧ inject_Z k * (1 # 4503599627370496) * a <= (1 # 4) * a)%Q.
Proof.
  intros Hk Ha. assert (0 <= inject_Z k)%Q as H1 by (change 0%Q with (inject_Z 0); rewrite <- Zle_Qle; lia).
  assert (inject_Z k <= inject_Z (2 ^ 50))%Q as H2 by (rewrite <- Zle_Qle; lia).
  assert (0 <= inject_Z k * (1 # 4503599627370496))%Q as H3 by lra.
  assert (inject_Z k * (1 # 4503599627370496) <= 1 # 4)%Q as H4.
  { change (inject_Z (2 ^ 50)) with (1125899906842624 # 1)%Q in H2. lra. }
  split; nra.
Qed.

Lemma near_split k j a : (inject_Z (k + j) * (1 # 4503599627370496) * a == inject_Z k * (1 # 4503599627370496) * a + inject_Z j * (1 # 4503599627370496) * a)%Q.
Proof. rewrite inject_Z_plus. ring. Qed.

Lemma near_mono k k' a y : near k a y → (0 <= a)%Q → k <= k' → near k' a y.
Proof.
  rewrite !near_bounds. intros [H1 H2] Ha Hk.
  assert (inject_Z k * (1 # 4503599627370496) * a <= inject_Z k' * (1 # 4503599627370496) * a)%Q.
  { apply Qmult_le_compat_r; [|done]. apply Qmult_le_compat_r; [|done]. by rewrite <- Zle_Qle. }
  split; lra.
Qed.

Lemma near_nonneg k a y : near k a y → (0 <= a)%Q → 0 <= k <= 2 ^ 50 → (0 <= y)%Q.
Proof. rewrite near_bounds. intros [H1 H2] Ha Hk. destruct (near_room k a Hk Ha). lra. Qed.

Lemma near_rounds k a y z : near k a y → rounds y z → (0 <= a)%Q → 0 <= k <= 2 ^ 50 → near (k + 1) a z.
Proof.
  intros H Hr Ha Hk. pose proof (near_nonneg k a y H Ha Hk) as Hy. apply rounds_bounds in Hr as [R1 R2]; [|done].
  apply near_bounds in H as [H1 H2]. apply near_bounds. destruct (near_room k a Hk Ha) as [T1 T2].
  rewrite near_split. set (t := (inject_Z k * (1 # 4503599627370496) * a)%Q) in *. clearbody t.
  change (inject_Z (2 ^ 53 - 1)) with (9007199254740991 # 1)%Q in *.
  change (inject_Z 1) with 1%Q. split; lra.
Qed.

Lemma near_square a d q : rounds a d → rounds (d * d) q → near 3 (a * a) q.
Proof.
  intros Ha Hq.
  assert (near 2 (a * a) (d * d)) as Hn.
  { unfold rounds in Ha. assert (Qabs a * Qabs a == a * a)%Q as Ea.
    { rewrite <- Qabs_Qmult. apply Qabs_pos. nra. }
    unfold near. setoid_replace (d * d - a * a)%Q with ((d - a) * ((d - a) + 2 * a))%Q by ring.
    rewrite Qabs_Qmult.
    assert (Qabs (d - a + 2 * a) <= Qabs (d - a) + 2 * Qabs a)%Q as Ht.
    { eapply Qle_trans; [apply Qabs_triangle|]. rewrite (Qabs_Qmult 2 a), (Qabs_pos 2) by done. lra. }
    pose proof (Qabs_nonneg (d - a)) as P1. pose proof (Qabs_nonneg a) as P2. pose proof (Qabs_nonneg (d - a + 2 * a)) as P3.
    set (u := Qabs (d - a)) in *. set (v := Qabs a) in *. set (w := Qabs (d - a + 2 * a)) in *. clearbody u v w.
    change (inject_Z (2 ^ 53 - 1)) with (9007199254740991 # 1)%Q in *.
    change (inject_Z 2) with (2 # 1)%Q. rewrite <- Ea.
    assert (u <= (1 # 9007199254740991) * v)%Q as U1 by lra.
    assert (w <= (3 # 1) * v)%Q as W1 by lra.
    assert (u * w <= u * ((3 # 1) * v))%Q as X1 by (apply Qmult_le_l_weak || nra).
    assert (u * ((3 # 1) * v) <= (1 # 9007199254740991) * v * ((3 # 1) * v))%Q as X2 by nra.
    nra. }
  change 3 with (2 + 1). eapply near_rounds; [exact Hn|exact Hq| |lia]. nra.
Qed.

Lemma near_plus k a b y z : near k a y → near k b z → near k (a + b) (y + z).
Proof. rewrite !near_bounds. intros [??] [??]. split; lra. Qed.

Lemma near_divide k a y n : (0 < n)%Q → near k a y → near k (a / n) (y / n).
Proof.
  rewrite !near_bounds. intros Hn [H1 H2]. pose proof (Qinv_lt_0_compat _ Hn) as Hi.
  unfold Qdiv. set (i := (/ n)%Q) in *. clearbody i.
  set (t := (inject_Z k * (1 # 4503599627370496))%Q) in *. clearbody t.
  assert ((a - t * a) * i <= y * i)%Q by (apply Qmult_le_compat_r; lra).
  assert (y * i <= (a + t * a) * i)%Q by (apply Qmult_le_compat_r; lra). split; lra.
Qed.

(** The square of the square root. *)
Lemma near_root k a y s :
  near k a y → (0 <= a)%Q → 0 <= k <= 2 ^ 50 →
  (inject_Z ((2 ^ 53 - 1) * (2 ^ 53 - 1)) * s <= inject_Z (2 ^ 106) * y)%Q →
  (inject_Z (2 ^ 106) * y <= inject_Z ((2 ^ 53 + 1) * (2 ^ 53 + 1)) * s)%Q →
  near (k + 2) a s.
Proof.
  intros H Ha Hk S1 S2. apply near_bounds in H as [H1 H2]. apply near_bounds. destruct (near_room k a Hk Ha) as [T1 T2].
  rewrite near_split. set (t := (inject_Z k * (1 # 4503599627370496) * a)%Q) in *. clearbody t.
  let c := eval vm_compute in (inject_Z ((2 ^ 53 - 1) * (2 ^ 53 - 1))) in change (inject_Z ((2 ^ 53 - 1) * (2 ^ 53 - 1))) with c in S1.
  let c := eval vm_compute in (inject_Z ((2 ^ 53 + 1) * (2 ^ 53 + 1))) in change (inject_Z ((2 ^ 53 + 1) * (2 ^ 53 + 1))) with c in S2.
  let c := eval vm_compute in (inject_Z (2 ^ 106)) in change (inject_Z (2 ^ 106)) with c in S1, S2.
  change (inject_Z 2) with (2 # 1)%Q.
  split; lra.
Qed.

(** ** Sums of squares *)

Definition square_sum (c : Q) (col : list N) : Q := total_q (map (λ x, (x - c) * (x - c))%Q (values_q col)).

Lemma square_sum_cons c x col :
  (square_sum c (x :: col) == (inject_Z (Z.of_N x) - c) * (inject_Z (Z.of_N x) - c) + square_sum c col)%Q.
Proof. done. Qed.
Lemma square_nonneg (d : Q) : (0 <= d * d)%Q.
Proof. nra. Qed.
Lemma square_sum_nonneg c col : (0 <= square_sum c col)%Q.
Proof.
  induction col as [|x col IH]; [done|]. rewrite square_sum_cons.
  pose proof (square_nonneg (inject_Z (Z.of_N x) - c)). lra.
Qed.

(** The sum of squares around another centre. *)
Lemma square_sum_shift c m col :
  (square_sum c col == square_sum m col + 2 * (m - c) * (total_q (values_q col) - length_q col * m) + length_q col * ((c - m) * (c - m)))%Q.
Proof.
  unfold square_sum, length_q. induction col as [|x col IH]; cbn [map values_q total_q foldr length].
  - change (inject_Z (Z.of_nat 0)) with 0%Q. ring.
  - fold (values_q col). fold (total_q (values_q col)). fold (total_q (map (λ x, (x - c) * (x - c))%Q (values_q col))).
    fold (total_q (map (λ x, (x - m) * (x - m))%Q (values_q col))). rewrite IH.
    rewrite Nat2Z.inj_succ. unfold Z.succ. rewrite inject_Z_plus. change (inject_Z 1) with 1%Q. ring.
Qed.

Lemma length_q_pos col : col ≠ [] → (0 < length_q col)%Q.
Proof. intros H. apply inject_pos. destruct col; [done|]. cbn [length]. lia. Qed.

Lemma square_sum_mean c col : col ≠ [] →
  (square_sum c col == square_sum (exact_mean col) col + length_q col * ((c - exact_mean col) * (c - exact_mean col)))%Q.
Proof.
  intros H. pose proof (length_q_pos col H). rewrite (square_sum_shift c (exact_mean col)). unfold exact_mean. field. lra.
Qed.

Lemma variance_sum col : (variance col == square_sum (exact_mean col) col / length_q col)%Q.
Proof. done. Qed.

(** No deviation: all values are the same. *)
Lemma square_sum_zero c col : (square_sum c col == 0)%Q → Forall (λ x, inject_Z (Z.of_N x) == c)%Q col.
Proof.
  induction col as [|x col IH]; intros H; [done|].
  rewrite square_sum_cons in H. pose proof (square_sum_nonneg c col) as Hn. set (d := (inject_Z (Z.of_N x) - c)%Q) in *.
  pose proof (square_nonneg d). assert (d * d == 0)%Q as Ed by lra.
  constructor; [|apply IH; lra]. apply Qmult_integral in Ed. unfold d in Ed. destruct Ed; lra.
Qed.

Lemma total_integer col : ∃ z, (total_q (values_q col) == inject_Z z)%Q.
Proof. induction col as [|x col [z IH]]; [by exists 0|]. exists (Z.of_N x + z). cbn. fold (values_q col). fold (total_q (values_q col)). rewrite IH, inject_Z_plus. done. Qed.
Lemma square_integer col : ∃ z, (square_sum 0 col == inject_Z z)%Q.
Proof.
  unfold square_sum. induction col as [|x col [z IH]]; [by exists 0|]. exists (Z.of_N x * Z.of_N x + z). cbn.
  fold (values_q col). fold (total_q (map (λ x, (x - 0) * (x - 0))%Q (values_q col))). rewrite IH, inject_Z_plus, inject_Z_mult. ring.
Qed.

(** Otherwise, the variance is at least [1 / n^2]. *)
Lemma variance_gap col : col ≠ [] →
  (variance col == 0)%Q ∨ (1 <= variance col * (length_q col * length_q col))%Q.
Proof.
  intros H. pose proof (length_q_pos col H) as Hn.
  destruct (total_integer col) as [S ES], (square_integer col) as [Z2 E2].
  assert (variance col * (length_q col * length_q col) == inject_Z (Z2 * Z.of_nat (length col) - S * S))%Q as E.
  { rewrite variance_sum. rewrite (square_sum_mean 0 col H) in E2. unfold Zminus.
    rewrite inject_Z_plus, inject_Z_opp, !inject_Z_mult, <- E2, <- ES. fold (length_q col). unfold exact_mean. field. lra. }
  assert (0 <= variance col)%Q as Hv.
  { rewrite variance_sum. apply Qle_shift_div_l; [done|]. rewrite Qmult_0_l. apply square_sum_nonneg. }
  rewrite E. destruct (Z_le_gt_dec 1 (Z2 * Z.of_nat (length col) - S * S)) as [Hg|Hg].
  - right. change 1%Q with (inject_Z 1). by rewrite <- Zle_Qle.
  - left. assert (inject_Z (Z2 * Z.of_nat (length col) - S * S) <= inject_Z 0)%Q as Hle by (rewrite <- Zle_Qle; lia).
    rewrite <- E in Hle. change (inject_Z 0) with 0%Q in Hle.
    assert (0 < length_q col * length_q col)%Q by nra. nra.
Qed.
