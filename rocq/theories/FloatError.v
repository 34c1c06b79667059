(** * Rounding errors of binary64 operations *)
From Verif Require Export FloatRound.
From Verif Require Import Results ProbabilisticFacts.
From Coq Require Import ZArith QArith Qabs Qpower Lqa Lia.
Local Open Scope Z_scope.

(** ** Values *)

Definition pow2 (e : Z) : Q := Qpower (2 # 1) e.

(** The rational number that a finite number stands for. *)
Definition f64_value (x : f64) : Q :=
  match x with
  | S754_finite s m e => (inject_Z (cond_Zopp s (Zpos m)) * pow2 e)%Q
  | _ => 0%Q
  end.

(** [y] is off [a] by at most the part [1 / (2^53 - 1)] of [a]. *)
Definition rounds (a y : Q) : Prop := (inject_Z (2 ^ 53 - 1) * Qabs (y - a) <= Qabs a)%Q.

Lemma pow2_pos e : (0 < pow2 e)%Q.
Proof. unfold pow2. by apply Qpower_0_lt. Qed.
Lemma pow2_add a b : (pow2 (a + b) == pow2 a * pow2 b)%Q.
Proof. unfold pow2. by apply Qpower_plus. Qed.
Lemma pow2_Z e : 0 <= e → (pow2 e == inject_Z (2 ^ e))%Q.
Proof. intros He. unfold pow2. rewrite Zpower_Qpower by done. done. Qed.
Lemma pow2_shift e e' : e <= e' → (pow2 e' == inject_Z (2 ^ (e' - e)) * pow2 e)%Q.
Proof. intros H. rewrite <- pow2_Z by lia. rewrite <- pow2_add. by replace (e' - e + e) with e' by lia. Qed.

Lemma inject_pos z : 0 < z → (0 < inject_Z z)%Q.
Proof. intros H. change 0%Q with (inject_Z 0). by rewrite <- Zlt_Qlt. Qed.

Lemma Qabs_Z z : (Qabs (inject_Z z) == inject_Z (Z.abs z))%Q.
Proof. done. Qed.
Lemma Qabs_scale a b : (0 <= b)%Q → (Qabs (a * b) == Qabs a * b)%Q.
Proof. intros Hb. by rewrite Qabs_Qmult, (Qabs_pos b). Qed.

Lemma rounds_exact a y : (y == a)%Q → rounds a y.
Proof.
  intros E. unfold rounds. setoid_replace (y - a)%Q with 0%Q by (rewrite E; ring). rewrite (Qabs_pos 0) by done.
  pose proof (Qabs_nonneg a). lra.
Qed.

Lemma rounds_proper a a' y y' : (a == a')%Q → (y == y')%Q → rounds a y → rounds a' y'.
Proof. unfold rounds. intros Ha Hy. by rewrite Ha, Hy. Qed.

Lemma rounds_opp a y : rounds a y → rounds (- a) (- y).
Proof.
  unfold rounds. setoid_replace (- y - - a)%Q with (- (y - a))%Q by ring. by rewrite !Qabs_opp.
Qed.

(** In scaled integers. *)
Lemma rounds_scaled N D m e k :
  0 < D → 0 <= k → 2 ^ 52 <= m → 2 * Z.abs (m * 2 ^ k * D - N) <= 2 ^ k * D →
  rounds (inject_Z N / inject_Z D * pow2 e) (inject_Z m * pow2 (e + k)).
Proof.
  intros HD Hk Hm H. assert (0 < 2 ^ k) as Hpk by (apply Z.pow_pos_nonneg; lia).
  assert ((2 ^ 53 - 1) * Z.abs (m * 2 ^ k * D - N) <= N) as HZ.
  { set (X := 2 ^ k * D) in *. replace (m * 2 ^ k * D) with (m * X) in * by (unfold X; lia).
    assert (0 < X) by nia. assert (2 ^ 52 * X <= m * X) by nia. lia. }
  assert (0 <= N) as HN by lia.
  unfold rounds.
  assert (0 < inject_Z D)%Q as HDq by (by apply inject_pos).
  pose proof (pow2_pos e) as Hpe.
  set (c := (pow2 e / inject_Z D)%Q).
  assert (0 < c)%Q as Hc by (unfold c, Qdiv; apply Qmult_lt_0_compat; [done|by apply Qinv_lt_0_compat]).
  setoid_replace (inject_Z m * pow2 (e + k) - inject_Z N / inject_Z D * pow2 e)%Q
    with (inject_Z (m * 2 ^ k * D - N) * c)%Q.
  2: { rewrite pow2_add, (pow2_Z k) by done. unfold c. replace (m * 2 ^ k * D - N) with (m * 2 ^ k * D + - N) by lia.
       rewrite inject_Z_plus, !inject_Z_mult, inject_Z_opp. field. intros E. rewrite E in HDq. lra. }
  setoid_replace (inject_Z N / inject_Z D * pow2 e)%Q with (inject_Z N * c)%Q.
  2: { unfold c. field. intros E. rewrite E in HDq. lra. }
  rewrite !Qabs_scale by (by apply Qlt_le_weak). rewrite !Qabs_Z, (Z.abs_eq N) by done.
  rewrite Qmult_assoc, <- inject_Z_mult. apply Qmult_le_compat_r; [|by apply Qlt_le_weak].
  by rewrite <- Zle_Qle.
Qed.

(** ** Normal numbers with exponents that are not too low *)

Definition above (E : Z) (x : f64) : Prop :=
  match x with
  | S754_zero _ => True
  | S754_finite _ m e => Zpos (digits2_pos m) = 53 ∧ E <= e
  | _ => False
  end.

Lemma above_mono E E' x : above E x → E' <= E → above E' x.
Proof. destruct x; cbn; try done. intros [??] ?. split; [done|lia]. Qed.

Lemma digits53 m : Zpos (digits2_pos m) = 53 → 2 ^ 52 <= Zpos m < 2 ^ 53.
Proof. intros H. pose proof (digits_bounds m) as Hb. rewrite H in Hb. exact Hb. Qed.

Lemma value_sign s m e : (f64_value (S754_finite s m e) == if s then - (inject_Z (Zpos m) * pow2 e) else inject_Z (Zpos m) * pow2 e)%Q.
Proof. destruct s; cbn [f64_value cond_Zopp]; [|done]. rewrite inject_Z_opp. ring. Qed.

(** Rounding of a located number. *)
Lemma round_rounds s p e l N D :
  located N D (Zpos p) l → 53 <= Zpos (digits2_pos p) → -1021 <= Zpos (digits2_pos p) + e <= 1023 →
  let r := binary_round_aux f64_prec f64_emax s (Zpos p) e l in
  let a := (inject_Z N / inject_Z D * pow2 e)%Q in
  above (Zpos (digits2_pos p) + e - 53) r ∧ rounds (if s then - a else a) (f64_value r).
Proof.
  intros Hloc Hd Hr. cbv zeta.
  destruct (round_normal s p e l Hd Hr) as (m1 & e1 & E1 & _ & He1).
  destruct (round_half s p e l N D Hloc Hd Hr) as (m & e' & E & Hm & He & Hh).
  rewrite E in E1. injection E1 as <- <-. rewrite E. split; [cbn; split; [done|lia]|].
  assert (0 < D) as HD by (by destruct Hloc).
  assert (rounds (inject_Z N / inject_Z D * pow2 e) (inject_Z (Zpos m) * pow2 e')) as HR.
  { replace e' with (e + (e' - e)) by lia. apply rounds_scaled; [done|lia|by apply digits53|done]. }
  destruct s; (eapply rounds_proper; [done|symmetry; apply value_sign|]); [by apply rounds_opp|done].
Qed.

Lemma binary_round_rounds s p e :
  -1021 <= Zpos (digits2_pos p) + e <= 1023 →
  let r := binary_round f64_prec f64_emax s p e in
  let a := (inject_Z (Zpos p) * pow2 e)%Q in
  above (Zpos (digits2_pos p) + e - 53) r ∧ rounds (if s then - a else a) (f64_value r).
Proof.
  intros Hr. cbv zeta. destruct (Z_le_gt_dec (Zpos (digits2_pos p)) 53) as [Hle|Hgt].
  - destruct (binary_round_normal s p e Hr) as (m & e' & -> & Hm & He & Hx). destruct (Hx Hle) as [Em Ee].
    split; [cbn; split; [done|lia]|].
    assert (inject_Z (Zpos m) * pow2 e' == inject_Z (Zpos p) * pow2 e)%Q as Ev.
    { rewrite Em, inject_Z_mult. rewrite (pow2_shift e' e) by lia. replace (e - e') with (53 - Zpos (digits2_pos p)) by lia. ring. }
    apply rounds_exact. rewrite value_sign. destruct s; by rewrite Ev.
  - unfold binary_round. rewrite fexp_normal by lia. unfold shl_align.
    destruct (Zpos (digits2_pos p) + e - 53 - e) eqn:E; [|clear E|lia].
    all: assert (inject_Z (Zpos p) / inject_Z 1 * pow2 e == inject_Z (Zpos p) * pow2 e)%Q as Ev
        by (change (inject_Z 1) with 1%Q; field);
      destruct (round_rounds s p e loc_Exact (Zpos p) 1 (located_exact _ (Pos2Z.is_nonneg _)) ltac:(lia) Hr) as [H1 H2];
      (split; [done|]); (eapply rounds_proper; [|done|exact H2]); (destruct s; by rewrite Ev).
Qed.

Lemma normalize_rounds z e sz :
  (z ≠ 0 → -1021 <= Zpos (digits2_pos (Z.to_pos (Z.abs z))) + e <= 1023) →
  let r := binary_normalize f64_prec f64_emax z e sz in
  above (if decide (z = 0) then 0 else Zpos (digits2_pos (Z.to_pos (Z.abs z))) + e - 53) r ∧
  rounds (inject_Z z * pow2 e) (f64_value r).
Proof.
  intros Hr. destruct z as [|p|p]; cbn [binary_normalize].
  - split; [done|]. apply rounds_exact. cbn [f64_value]. change (inject_Z 0) with 0%Q. ring.
  - destruct (binary_round_rounds false p e (Hr ltac:(done))) as [H1 H2]. by split.
  - destruct (binary_round_rounds true p e (Hr ltac:(done))) as [H1 H2]. split; [done|].
    eapply rounds_proper; [|done|exact H2]. change (Zneg p) with (- Zpos p). rewrite inject_Z_opp. ring.
Qed.

(** ** Operations *)

Lemma align_value s m e ez : ez <= e →
  (inject_Z (cond_Zopp s (Zpos (fst (shl_align m e ez)))) * pow2 ez == f64_value (S754_finite s m e))%Q.
Proof.
  intros H. rewrite shl_align_Z by done. cbn [f64_value].
  assert (cond_Zopp s (Zpos m * 2 ^ (e - ez)) = cond_Zopp s (Zpos m) * 2 ^ (e - ez)) as ->.
  { unfold cond_Zopp. destruct s; lia. }
  rewrite inject_Z_mult, (pow2_shift ez e) by done. ring.
Qed.

Lemma abs_digits z A e : z ≠ 0 → e <= 0 → A < 2 ^ 53 → Z.abs z <= A * 2 ^ (- e) → Zpos (digits2_pos (Z.to_pos (Z.abs z))) + e <= 53.
Proof.
  intros Hz He HA H. pose proof (digits_upper (Z.abs z) (53 - e) ltac:(lia)) as Hu. unfold digits in Hu.
  enough (Z.abs z < 2 ^ (53 - e)) by (specialize (Hu ltac:(done)); lia).
  replace (53 - e) with (53 + - e) by lia. rewrite Z.pow_add_r by lia.
  assert (0 < 2 ^ (- e)) by (apply Z.pow_pos_nonneg; lia). nia.
Qed.

Lemma above_value_zero E s : above E (S754_zero s).
Proof. done. Qed.

Lemma sub_rounds E x y A B :
  above E x → above E y → atmost x A → atmost y B → A + B < 2 ^ 53 → -1000 <= E <= 0 →
  above (E - 53) (f64_sub x y) ∧ rounds (f64_value x - f64_value y) (f64_value (f64_sub x y)).
Proof.
  intros Lx Ly Hx Hy Hs HE. pose proof (atmost_nonneg _ _ Hx). pose proof (atmost_nonneg _ _ Hy).
  destruct x as [sx| | |sx mx ex], y as [sy| | |sy my ey]; try done.
  - unfold f64_sub, SFsub. destruct (Bool.eqb sx (negb sy)); (split; [done|apply rounds_exact; cbn; ring]).
  - unfold f64_sub, SFsub. split; [eapply above_mono; [exact Ly|lia]|]. apply rounds_exact. rewrite !value_sign. cbn [f64_value].
    destruct sy; cbn [negb]; ring.
  - unfold f64_sub, SFsub. split; [eapply above_mono; [exact Lx|lia]|]. apply rounds_exact. rewrite !value_sign. cbn [f64_value].
    destruct sx; ring.
  - destruct Hx as [Hex Hmx], Hy as [Hey Hmy], Lx as [Dx Lx], Ly as [Dy Ly]. unfold f64_sub, SFsub.
    pose proof (align_atmost sx mx ex (Z.min ex ey) A ltac:(lia) Hex Hmx) as Ax.
    pose proof (align_atmost sy my ey (Z.min ex ey) B ltac:(lia) Hey Hmy) as Ay.
    pose proof (align_value sx mx ex (Z.min ex ey) ltac:(lia)) as Vx.
    pose proof (align_value sy my ey (Z.min ex ey) ltac:(lia)) as Vy.
    set (zx := cond_Zopp sx _) in *. set (zy := cond_Zopp sy _) in *.
    destruct (normalize_rounds (zx - zy) (Z.min ex ey) false) as [H1 H2].
    { intros Hz. split; [lia|]. pose proof (abs_digits (zx - zy) (A + B) (Z.min ex ey) Hz ltac:(lia) ltac:(lia) ltac:(lia)). lia. }
    split.
    + eapply above_mono; [exact H1|]. destruct (decide (zx - zy = 0)); lia.
    + eapply rounds_proper; [|done|exact H2]. unfold Zminus. rewrite inject_Z_plus, inject_Z_opp, <- Vx, <- Vy. ring.
Qed.

(** Sums of numbers that are not negative do not become smaller. *)
Lemma add_rounds E x y A B :
  above E x → above E y → unsigned x → unsigned y → atmost x A → atmost y B → A + B < 2 ^ 53 → -1000 <= E <= 0 →
  above E (f64_add x y) ∧ rounds (f64_value x + f64_value y) (f64_value (f64_add x y)).
Proof.
  intros Lx Ly Ux Uy Hx Hy Hs HE. pose proof (atmost_nonneg _ _ Hx). pose proof (atmost_nonneg _ _ Hy).
  destruct x as [sx| | |sx mx ex], y as [sy| | |sy my ey]; try done.
  - unfold f64_add, SFadd. destruct (Bool.eqb sx sy); (split; [done|apply rounds_exact; cbn; ring]).
  - unfold f64_add, SFadd. split; [done|]. apply rounds_exact. cbn [f64_value]. ring.
  - unfold f64_add, SFadd. split; [done|]. apply rounds_exact. cbn [f64_value]. ring.
  - cbn in Ux, Uy. subst sx sy. destruct Hx as [Hex Hmx], Hy as [Hey Hmy], Lx as [Dx Lx], Ly as [Dy Ly]. unfold f64_add, SFadd.
    pose proof (align_atmost false mx ex (Z.min ex ey) A ltac:(lia) Hex Hmx) as Ax.
    pose proof (align_atmost false my ey (Z.min ex ey) B ltac:(lia) Hey Hmy) as Ay.
    pose proof (align_value false mx ex (Z.min ex ey) ltac:(lia)) as Vx.
    pose proof (align_value false my ey (Z.min ex ey) ltac:(lia)) as Vy.
    cbn [cond_Zopp] in *. pose proof (shl_align_Z mx ex (Z.min ex ey) ltac:(lia)) as Zx.
    set (px := fst (shl_align mx ex _)) in *. set (py := fst (shl_align my ey _)) in *.
    assert (53 <= Zpos (digits2_pos (px + py))) as Hd.
    { rewrite <- Dx. apply digits_le. assert (0 < 2 ^ (ex - Z.min ex ey)) by (apply Z.pow_pos_nonneg; lia). nia. }
    destruct (normalize_rounds (Zpos px + Zpos py) (Z.min ex ey) false) as [H1 H2].
    { intros Hz. pose proof (abs_digits (Zpos px + Zpos py) (A + B) (Z.min ex ey) Hz ltac:(lia) ltac:(lia) ltac:(lia)).
      change (Z.to_pos (Z.abs (Zpos px + Zpos py))) with (px + py)%positive in *. lia. }
    split.
    + eapply above_mono; [exact H1|]. change (Z.to_pos (Z.abs (Zpos px + Zpos py))) with (px + py)%positive. destruct (decide _); lia.
    + eapply rounds_proper; [|done|exact H2]. rewrite inject_Z_plus, <- Vx, <- Vy. ring.
Qed.

Lemma mul_rounds E F x y :
  above E x → above F y → atmost x (2 ^ 26) → atmost y (2 ^ 26) → -900 <= E + F → 
  above (E + F) (f64_mul x y) ∧ rounds (f64_value x * f64_value y) (f64_value (f64_mul x y)).
Proof.
  intros Lx Ly Hx Hy HE.
  destruct x as [sx| | |sx mx ex]; try contradiction; destruct y as [sy| | |sy my ey]; try contradiction.
  1-3: (unfold f64_mul, SFmul; split; [done|apply rounds_exact; cbn [f64_value]; ring]).
  destruct Hx as [Hex Hmx], Hy as [Hey Hmy], Lx as [Dx Lx], Ly as [Dy Ly]. unfold f64_mul, SFmul.
  destruct (digits53 mx Dx) as [L1 U1], (digits53 my Dy) as [L2 U2].
  assert (105 <= Zpos (digits2_pos (mx * my)) <= 106) as Hd.
  { pose proof (digits_lower (Zpos mx * Zpos my) 105 ltac:(lia)) as Hl. pose proof (digits_upper (Zpos mx * Zpos my) 106 (Pos2Z.is_pos (mx * my))) as Hu.
    unfold digits in *. cbn [Z.mul Z.to_pos] in Hl, Hu. split; [apply Hl|apply Hu].
    - change (105 - 1) with (52 + 52). rewrite Z.pow_add_r by lia. try rewrite Pos2Z.inj_mul.
      apply Z.mul_le_mono_nonneg; lia.
    - change 106 with (53 + 53). rewrite Z.pow_add_r by lia. try rewrite Pos2Z.inj_mul. apply Z.mul_lt_mono_nonneg; lia. }
  destruct (round_rounds (xorb sx sy) (mx * my) (ex + ey) loc_Exact (Zpos (mx * my)) 1 (located_exact _ (Pos2Z.is_nonneg _)) ltac:(lia) ltac:(lia)) as [H1 H2].
  split; [eapply above_mono; [exact H1|lia]|].
  eapply rounds_proper; [|done|exact H2].
  assert (inject_Z (Zpos (mx * my)) / inject_Z 1 * pow2 (ex + ey) == (inject_Z (Zpos mx) * pow2 ex) * (inject_Z (Zpos my) * pow2 ey))%Q as Ev.
  { rewrite Pos2Z.inj_mul, inject_Z_mult, pow2_add. change (inject_Z 1) with 1%Q. field. }
  rewrite !value_sign. destruct sx, sy; cbn [xorb]; rewrite Ev; ring.
Qed.

Lemma int_value_Q x k : int_value x k → k < 2 ^ 53 → (f64_value x == inject_Z k)%Q.
Proof.
  intros Hx Hk. destruct (int_small x k Hx Hk) as [[-> ->]|(Hk0 & m & e & -> & Hm & He & Em & _)]; [done|].
  cbn [f64_value cond_Zopp]. rewrite Em, inject_Z_mult, <- (pow2_Z (- e)) by lia.
  rewrite <- Qmult_assoc, <- pow2_add. replace (- e + e) with 0 by lia. change (pow2 0) with 1%Q. ring.
Qed.

Lemma int_above x k : int_value x k → k < 2 ^ 53 → above (-52) x.
Proof.
  intros Hx Hk. destruct (int_small x k Hx Hk) as [[-> ->]|(Hk0 & m & e & -> & Hm & He & Em & Dx)]; [done|].
  split; [done|]. pose proof (digits_pos k). lia.
Qed.

Lemma div_rounds E x y n :
  above E x → unsigned x → int_value y n → 0 < n < 2 ^ 53 → -900 <= E → (∃ A, atmost x A) →
  above (E - 53) (f64_div x y) ∧ rounds (f64_value x / inject_Z n) (f64_value (f64_div x y)).
Proof.
  intros Lx Ux Hy Hn HE [A Hx].
  pose proof (int_value_Q y n Hy ltac:(lia)) as Vy. pose proof (int_above y n Hy ltac:(lia)) as Lyy.
  destruct (int_small y n Hy ltac:(lia)) as [[? _]|(_ & my & ey & -> & Dy & Hey & Ey & _)]; [lia|].
  assert (¬ inject_Z n == 0)%Q as Hn0.
  { assert (0 < inject_Z n)%Q by (apply inject_pos; lia). intros E0. rewrite E0 in *. lra. }
  destruct x as [sx| | |sx mx ex]; try contradiction.
  { unfold f64_div, SFdiv. split; [exact I|]. apply rounds_exact. cbn [f64_value]. by field. }
  cbn in Ux. subst sx. destruct Hx as [Hex Hmx], Lx as [Dx Lx], Lyy as [_ Ly].
  unfold f64_div, SFdiv, SFdiv_core_binary. cbn [Zdigits2 xorb]. rewrite Dx, Dy.
  rewrite fexp_normal by lia.
  replace (Z.min (53 + ex - (53 + ey) - 53) (ex - ey)) with (ex - ey - 53) by lia.
  replace (ex - ey - (ex - ey - 53)) with 53 by lia. cbv iota.
  rewrite Z.shiftl_mul_pow2 by lia.
  destruct (digits53 mx Dx) as [L1 U1], (digits53 my Dy) as [L2 U2].
  pose proof (Z_div_mod (Zpos mx * 2 ^ 53) (Zpos my) ltac:(lia)) as Hq.
  destruct (Z.div_eucl (Zpos mx * 2 ^ 53) (Zpos my)) as [q r]. destruct Hq as [Eq Hr].
  assert (2 ^ 52 <= q) as Lq.
  { destruct (Z_le_gt_dec (2 ^ 52) q) as [?|Hg]; [done|]. exfalso.
    pose proof (Z.mul_le_mono_nonneg_l (q + 1) (2 ^ 52) (Zpos my) ltac:(lia) ltac:(lia)).
    assert (2 ^ 53 = 2 * 2 ^ 52) as E1 by done. nia. }
  assert (q < 2 ^ 54) as Uq.
  { destruct (Z_le_gt_dec (2 ^ 54) q) as [Hg|?]; [|lia]. exfalso.
    pose proof (Z.mul_le_mono_nonneg (2 ^ 52) (Zpos my) (2 ^ 54) q ltac:(lia) L2 ltac:(lia) Hg) as H3.
    pose proof (Z.mul_lt_mono_pos_r (2 ^ 53) (Zpos mx) (2 ^ 53) ltac:(lia)) as [H4 _]. specialize (H4 U1).
    rewrite <-!Z.pow_add_r in H3, H4 by lia. change (52 + 54) with 106 in H3. change (53 + 53) with 106 in H4. lia. }
  assert (located (Zpos mx * 2 ^ 53) (Zpos my) q (new_location (Zpos my) r)) as Hloc.
  { apply located_division; [lia|done|done|lia]. }
  destruct q as [|q|q]; [lia| |lia].
  assert (53 <= Zpos (digits2_pos q) <= 54) as Hd.
  { pose proof (digits_lower (Zpos q) 53 ltac:(lia)) as Hl. pose proof (digits_upper (Zpos q) 54 ltac:(lia)) as Hu.
    unfold digits in *. cbn [Z.to_pos] in Hl, Hu. split; [by apply Hl|by apply Hu]. }
  destruct (round_rounds false q (ex - ey - 53) _ _ _ Hloc ltac:(lia) ltac:(lia)) as [H1 H2].
  split; [eapply above_mono; [exact H1|lia]|].
  eapply rounds_proper; [|done|exact H2].
  rewrite <- Vy. cbn [f64_value cond_Zopp]. rewrite inject_Z_mult, <- (pow2_Z 53) by lia.
  assert (pow2 ex == pow2 53 * pow2 (ex - ey - 53) * pow2 ey)%Q as ->.
  { rewrite <- !pow2_add. by replace (53 + (ex - ey - 53) + ey) with ex by lia. }
  pose proof (pow2_pos ey). assert (0 < inject_Z (Zpos my))%Q by (by apply inject_pos).
  field. split; intros E0; lra.
Qed.

Lemma div2_spec e : 2 * Z.div2 e <= e <= 2 * Z.div2 e + 1.
Proof. rewrite Z.div2_div. pose proof (Z.div_mod e 2 ltac:(lia)). pose proof (Z.mod_pos_bound e 2 ltac:(lia)). lia. Qed.

(** The square root of an integer [M] lies between [q] and [q + 1/2], or between [q + 1/2] and
    [q + 1]; all numbers of the interval are rounded to the same number. *)
Lemma round_root p e M r :
  M = Zpos p * Zpos p + r → 0 <= r <= 2 * Zpos p → Zpos (digits2_pos p) = 53 → -1021 <= 53 + e <= 1023 →
  let l := if Zeq_bool r 0 then loc_Exact else loc_Inexact (if r <=? Zpos p then Lt else Gt) in
  ∃ m k, binary_round_aux f64_prec f64_emax false (Zpos p) e l = S754_finite false m (e + k) ∧ 0 <= k ∧
    Zpos (digits2_pos m) = 53 ∧
    let a := 2 * Zpos m * 2 ^ k in
    (a * (2 ^ 53 - 1)) * (a * (2 ^ 53 - 1)) <= 2 ^ 106 * (4 * M) <= (a * (2 ^ 53 + 1)) * (a * (2 ^ 53 + 1)).
Proof.
  intros EM Hr Hd He. cbv zeta. destruct (digits53 p Hd) as [Lp Up].
  assert (∃ N D lo hi, located N D (Zpos p) (if Zeq_bool r 0 then loc_Exact else loc_Inexact (if r <=? Zpos p then Lt else Gt)) ∧
    0 <= lo <= hi ∧ lo * lo <= 4 * M <= hi * hi ∧
    ∀ m K, 0 < K → 2 * Z.abs (m * K * D - N) <= K * D → hi - K <= 2 * m * K <= lo + K) as (N & D & lo & hi & Hloc & Hlo & HM & HK).
  { destruct (Zeq_bool r 0) eqn:E0.
    - apply Zeq_bool_eq in E0. exists (Zpos p), 1, (2 * Zpos p), (2 * Zpos p). split; [by apply located_exact|].
      split; [lia|]. split; [lia|]. intros m K HK H. lia.
    - apply Zeq_bool_neq in E0. destruct (Z.leb_spec r (Zpos p)) as [Hle|Hlt].
      + exists (4 * Zpos p + 1), 4, (2 * Zpos p), (2 * Zpos p + 1). split.
        { unfold located, describes. cbn [shr_record_of_loc shr_m shr_r shr_s].
          split; [lia|]. split; [lia|]. split; [lia|]. split; (split; [done || lia|lia || done]). }
        split; [lia|]. split; [nia|]. intros m K HK H. lia.
      + exists (4 * Zpos p + 3), 4, (2 * Zpos p + 1), (2 * Zpos p + 2). split.
        { unfold located, describes. cbn [shr_record_of_loc shr_m shr_r shr_s].
          split; [lia|]. split; [lia|]. split; [lia|]. split; (split; [done || lia|lia || done]). }
        split; [lia|]. split; [nia|]. intros m K HK H. lia. }
  destruct (round_half false p e _ N D Hloc ltac:(lia) ltac:(lia)) as (m & e' & E & Hm & Hee & Hh).
  exists m, (e' - e). replace (e + (e' - e)) with e' by lia. split; [done|]. split; [lia|]. split; [done|].
  assert (0 < 2 ^ (e' - e)) as Hp by (apply Z.pow_pos_nonneg; lia).
  specialize (HK (Zpos m) (2 ^ (e' - e)) Hp Hh). destruct (digits53 m Hm) as [Lm _].
  set (K := 2 ^ (e' - e)) in *. set (a := 2 * Zpos m * K) in *.
  assert (2 ^ 53 * K <= a) as Ha by (unfold a; change (2 ^ 53) with (2 * 2 ^ 52); nia).
  clearbody a K. clear E Hh Hloc Hm Lm.
  assert (a * (2 ^ 53 - 1) <= 2 ^ 53 * lo) as H1 by lia.
  assert (2 ^ 53 * hi <= a * (2 ^ 53 + 1)) as H2 by lia.
  assert (0 <= a) as Ha0 by lia.
  split.
  - transitivity ((2 ^ 53 * lo) * (2 ^ 53 * lo)); [apply Z.mul_le_mono_nonneg; lia|].
    replace (2 ^ 53 * lo * (2 ^ 53 * lo)) with (2 ^ 106 * (lo * lo)) by (change (2 ^ 106) with (2 ^ 53 * 2 ^ 53); ring). lia.
  - transitivity ((2 ^ 53 * hi) * (2 ^ 53 * hi)); [|apply Z.mul_le_mono_nonneg; lia].
    replace (2 ^ 53 * hi * (2 ^ 53 * hi)) with (2 ^ 106 * (hi * hi)) by (change (2 ^ 106) with (2 ^ 53 * 2 ^ 53); ring). lia.
Qed.

(** The square of the square root. *)
Lemma sqrt_rounds E x :
  above E x → unsigned x → -900 <= E → (∃ A, atmost x A) →
  let s := f64_value (f64_sqrt x) in
  (inject_Z ((2 ^ 53 - 1) * (2 ^ 53 - 1)) * (s * s) <= inject_Z (2 ^ 106) * f64_value x)%Q ∧
  (inject_Z (2 ^ 106) * f64_value x <= inject_Z ((2 ^ 53 + 1) * (2 ^ 53 + 1)) * (s * s))%Q.
Proof.
  intros Lx Ux HE [A Hx]. cbv zeta. destruct x as [sx| | |sx m e]; [|done|done|].
  { unfold f64_sqrt, SFsqrt. cbn [f64_value]. split; lra. }
  cbn in Ux. subst sx. destruct Hx as [He _], Lx as [Dm Le].
  unfold f64_sqrt, SFsqrt, SFsqrt_core_binary. cbn [Zdigits2]. rewrite Dm.
  pose proof (div2_spec e) as H2. pose proof (div2_spec (53 + e + 1)) as H3.
  assert (Z.div2 (53 + e + 1) = Z.div2 e + 27) as -> by lia.
  rewrite fexp_normal by lia. replace (Z.min (Z.div2 e + 27 - 53) (Z.div2 e)) with (Z.div2 e - 26) by lia.
  set (e' := Z.div2 e - 26) in *.
  assert (52 <= e - 2 * e' <= 53) as Hs by lia.
  assert (match e - 2 * e' with Zpos _ => Z.shiftl (Zpos m) (e - 2 * e') | Z0 => Zpos m | Zneg _ => 0 end
    = Zpos m * 2 ^ (e - 2 * e')) as ->.
  { destruct (e - 2 * e') eqn:E0; [lia| |lia]. rewrite <- E0. apply Z.shiftl_mul_pow2. lia. }
  destruct (digits53 m Dm) as [Lm Um].
  assert (2 ^ 52 <= 2 ^ (e - 2 * e') <= 2 ^ 53) as Hps by (split; apply Z.pow_le_mono_r; lia).
  set (M := Zpos m * 2 ^ (e - 2 * e')).
  assert (2 ^ 104 <= M < 2 ^ 106) as HM.
  { unfold M. change (2 ^ 104) with (2 ^ 52 * 2 ^ 52). change (2 ^ 106) with (2 ^ 53 * 2 ^ 53). split; [apply Z.mul_le_mono_nonneg; lia|].
    apply Z.lt_le_trans with (2 ^ 53 * 2 ^ (e - 2 * e')); [apply Z.mul_lt_mono_pos_r; lia|]. apply Z.mul_le_mono_nonneg_l; lia. }
  pose proof (Z.sqrtrem_spec M ltac:(lia)) as Hsq. destruct (Z.sqrtrem M) as [q r]. destruct Hsq as [Eq Hr].
  assert (0 <= q) as Hq0 by lia.
  assert (2 ^ 52 <= q < 2 ^ 53) as Hq.
  { change (2 ^ 104) with (2 ^ 52 * 2 ^ 52) in HM. change (2 ^ 106) with (2 ^ 53 * 2 ^ 53) in HM. split.
    - destruct (Z_le_gt_dec (2 ^ 52) q) as [?|Hg]; [done|]. exfalso.
      assert ((q + 1) * (q + 1) <= 2 ^ 52 * 2 ^ 52) by (apply Z.mul_le_mono_nonneg; lia). lia.
    - destruct (Z_lt_le_dec q (2 ^ 53)) as [?|Hg]; [done|]. exfalso.
      assert (2 ^ 53 * 2 ^ 53 <= q * q) by (apply Z.mul_le_mono_nonneg; lia). lia. }
  destruct q as [|q|q]; [lia| |lia].
  assert (Zpos (digits2_pos q) = 53) as Dq by (apply digits_unique; [lia|]; change (53 - 1) with 52; lia).
  destruct (round_root q e' M r Eq Hr Dq ltac:(lia)) as (m2 & k & E1 & Hk & Hm2 & HB). cbv zeta in E1. rewrite E1. clear E1.
  cbv zeta in HB. cbn [f64_value cond_Zopp].
  assert (inject_Z (Zpos m) * pow2 e == inject_Z M * (pow2 e' * pow2 e'))%Q as Ex.
  { unfold M. rewrite inject_Z_mult, <- (pow2_Z (e - 2 * e')) by lia. rewrite <- Qmult_assoc, <- !pow2_add.
    by replace (e - 2 * e' + (e' + e')) with e by lia. }
  assert (inject_Z (Zpos m2) * pow2 (e' + k) * (inject_Z (Zpos m2) * pow2 (e' + k))
    == inject_Z (Zpos m2 * 2 ^ k * (Zpos m2 * 2 ^ k)) * (pow2 e' * pow2 e'))%Q as Es.
  { rewrite !inject_Z_mult, <- (pow2_Z k) by lia. rewrite pow2_add. ring. }
  rewrite Ex, Es. pose proof (pow2_pos e') as Hpe. assert (0 <= pow2 e' * pow2 e')%Q by nra.
  rewrite !Qmult_assoc, <- !inject_Z_mult.
  set (a := Zpos m2 * 2 ^ k) in *.
  replace (2 * Zpos m2 * 2 ^ k * (2 ^ 53 - 1)) with (2 * (a * (2 ^ 53 - 1))) in HB by (unfold a; ring).
  replace (2 * Zpos m2 * 2 ^ k * (2 ^ 53 + 1)) with (2 * (a * (2 ^ 53 + 1))) in HB by (unfold a; ring).
  replace (2 * Zpos m2 * 2 ^ k) with (2 * a) in HB by (unfold a; ring).
  rewrite <- !(Qmult_assoc (inject_Z _) (pow2 e') (pow2 e')).
  split; (apply Qmult_le_compat_r; [|done]); rewrite <- Zle_Qle.
  - replace ((2 ^ 53 - 1) * (2 ^ 53 - 1) * (a * a)) with ((a * (2 ^ 53 - 1)) * (a * (2 ^ 53 - 1))) by ring. lia.
  - replace ((2 ^ 53 + 1) * (2 ^ 53 + 1) * (a * a)) with ((a * (2 ^ 53 + 1)) * (a * (2 ^ 53 + 1))) by ring. lia.
Qed.
