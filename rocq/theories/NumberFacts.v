(** * Facts about the texts of numbers: what is written is read back *)
From Coq Require Import Decimal DecimalN DecimalPos.
From stdpp Require Import strings.
From Verif Require Import FormatSpec Codec CodecFacts JsonSpec FloatValid Decimal64 DecimalFacts Output Plotting JsonFacts.

Local Open Scope Z_scope.

(** ** Digits *)

Lemma foldl_value ds n : foldl (λ n d, 10 * n + d)%N n ds = (n * 10 ^ N.of_nat (length ds) + digits_value ds)%N.
Proof.
  unfold digits_value. revert n. induction ds as [|d ds IH]; intros n; [simpl; lia|].
  cbn [foldl length]. rewrite IH, (IH (10 * 0 + d)%N), Nat2N.inj_succ, N.pow_succ_r'. lia.
Qed.
Lemma value_app a b : digits_value (a ++ b) = (digits_value a * 10 ^ N.of_nat (length b) + digits_value b)%N.
Proof. unfold digits_value at 1. by rewrite foldl_app, foldl_value. Qed.
Lemma value_zeros n : digits_value (replicate n 0%N) = 0%N.
Proof. induction n as [|n IH]; [done|]. exact IH. Qed.
Lemma value_zeros_before n ds : digits_value (replicate n 0%N ++ ds) = digits_value ds.
Proof. rewrite value_app, value_zeros. lia. Qed.
Lemma value_zeros_after n ds : digits_value (ds ++ replicate n 0%N) = (digits_value ds * 10 ^ N.of_nat n)%N.
Proof. rewrite value_app, value_zeros, replicate_length. lia. Qed.

Lemma zeros_bound n : Forall (λ d, (d < 10)%N) (zeros n).
Proof. apply Forall_replicate. lia. Qed.

(** ** Texts of numbers *)

(** A number text that a reader takes for [x], with the sign [n]; [fl]: not as an integer. *)
Definition shown_as (n fl : bool) (x : f64) (t : bytes) : Prop :=
  ∃ ip fp s tip tfp ex tex,
    sign_text n s ∧ digits_as ip tip ∧ (head ip = Some 0%N → ip = [0%N]) ∧
    fraction_text fp tfp ∧ exponent_text ex tex ∧ t = s ++ tip ++ tfp ++ tex ∧
    (fl = true → fp ≠ [] ∨ tex ≠ []) ∧
    x = (if n then SFopp else id) (f64_of_decimal (digits_value (ip ++ fp)) (ex - Z.of_nat (length fp))).
Notation shown := (shown_as false).

Lemma shown_minus fl x t : shown fl x t → shown_as true fl (SFopp x) (text "-" ++ t).
Proof.
  intros (ip & fp & s & tip & tfp & ex & tex & Hs & Hip & Hz & Hfp & Hex & -> & Hfl & ->).
  inversion Hs. subst. exists ip, fp, (text "-"), tip, tfp, ex, tex. split_and!; try done. constructor.
Qed.

Lemma shown_number n fl x t : shown_as n fl x t → ∃ m k, number_text n m k t ∧
  x = (if n then SFopp else id) (f64_of_decimal m k).
Proof.
  intros (ip & fp & s & tip & tfp & ex & tex & Hs & Hip & Hz & Hfp & Hex & Ht & _ & Hx).
  exists (digits_value (ip ++ fp)), (ex - Z.of_nat (length fp)). split; [|done].
  exists ip, fp, s, tip, tfp, ex, tex. split_and!; done.
Qed.

Lemma shown_read n fl x t : shown_as n fl x t → ∃ l, read_literal t = Some l ∧ literal_f64 l = x ∧
  (fl = true → py_of_literal l = PFloat x).
Proof.
  intros (ip & fp & s & tip & tfp & ex & tex & Hs & Hip & Hz & Hfp & Hex & -> & Hfl & Hx).
  destruct (number_read_parts n ip fp s tip tfp ex tex Hs Hip Hz Hfp Hex) as (l & Hl & _ & (Hn & Hv & Hk) & _ & Hlf & Hle).
  assert (literal_f64 l = x) as Hlx by (unfold literal_f64; rewrite Hv, Hk, Hn, Hx; by destruct n).
  exists l. split_and!; [done..|]. intros Hf. unfold py_of_literal. rewrite Hlx.
  destruct (lit_frac l) eqn:E1; [|done]. destruct (lit_exp l) eqn:E2; [done|].
  destruct (Hfl Hf) as [H|H]; [by subst fp|]. by destruct (H (Hle eq_refl)).
Qed.

(** The digits of a positive number, as the contract [shows] has them. *)
Definition shows_one (d : decimal) : Prop :=
  Forall (λ c, (c < 10)%N) (dec_digits d) ∧ dec_digits d ≠ [] ∧ head (dec_digits d) ≠ Some 0%N.
Definition decimal_number (d : decimal) : f64 :=
  f64_of_decimal (digits_value (dec_digits d)) (dec_point d - Z.of_nat (length (dec_digits d))).

Lemma pow10_N n : Z.of_N (10 ^ N.of_nat n) = 10 ^ Z.of_nat n.
Proof. rewrite N2Z.inj_pow. by rewrite nat_N_Z. Qed.

(** The texts without an exponent. *)
Lemma shown_integer d (fl : bool) : shows_one d → Z.of_nat (length (dec_digits d)) <= dec_point d →
  shown fl (decimal_number d)
    (digits_text (dec_digits d ++ zeros (dec_point d - Z.of_nat (length (dec_digits d)))) ++
     if fl then text ".0" else []).
Proof.
  intros (Hd & Hn & Hh) Hk. set (ds := dec_digits d) in *. set (k := dec_point d - Z.of_nat (length ds)).
  exists (ds ++ zeros k), (if fl then [0%N] else []), [], (digits_text (ds ++ zeros k)),
    (if fl then text ".0" else []), 0, [].
  split_and!.
  - constructor.
  - split_and!; [apply Forall_app_2; [done|apply zeros_bound]|by destruct ds|done].
  - intros H. destruct ds as [|a ds']; [done|]. by simpl in H, Hh.
  - destruct fl; [|constructor]. change (text ".0") with (char "." ++ digits_text [0%N]). constructor.
    split_and!; [by repeat constructor|done|done].
  - constructor.
  - by rewrite app_nil_r.
  - intros ->. by left.
  - unfold decimal_number. cbn [id]. fold ds. fold k. destruct fl.
    + apply (decimal_value_N _ _ _ _ (-1)); [lia|simpl; lia|].
      rewrite (value_app (ds ++ zeros k)). unfold zeros. rewrite value_zeros_after.
      cbn [length]. change (digits_value [0%N]) with 0%N. rewrite N.add_0_r, !N2Z.inj_mul, pow10_N.
      rewrite Z2Nat.id by lia. change (Z.of_N (10 ^ N.of_nat 1)) with 10.
      change (0 - Z.of_nat 1 - -1) with 0. replace (k - -1) with (k + 1) by lia.
      rewrite Z.pow_add_r by lia. change (10 ^ 1) with 10. change (10 ^ 0) with 1. ring.
    + apply (decimal_value_N _ _ _ _ 0); [lia|simpl; lia|].
      rewrite app_nil_r. unfold zeros. rewrite value_zeros_after, N2Z.inj_mul, pow10_N.
      rewrite Z2Nat.id by lia. cbn [length]. change (0 - Z.of_nat 0 - 0) with 0. rewrite Z.sub_0_r. ring.
Qed.

Lemma take_drop_value (ds : list N) n : (take n ds ++ drop n ds) = ds.
Proof. apply take_drop. Qed.

Lemma shown_inside d fl : shows_one d → 0 < dec_point d → dec_point d < Z.of_nat (length (dec_digits d)) →
  shown fl (decimal_number d)
    (digits_text (take (Z.to_nat (dec_point d)) (dec_digits d)) ++ text "." ++
     digits_text (drop (Z.to_nat (dec_point d)) (dec_digits d))).
Proof.
  intros (Hd & Hn & Hh) Hk Hl. set (ds := dec_digits d) in *. set (n := Z.to_nat (dec_point d)).
  assert (0 < n < length ds)%nat as Hnl by (unfold n; lia).
  assert (drop n ds ≠ []) as Hdn.
  { intros E. apply (f_equal length) in E. rewrite drop_length in E. simpl in E. lia. }
  exists (take n ds), (drop n ds), [], (digits_text (take n ds)), (text "." ++ digits_text (drop n ds)), 0, [].
  split_and!.
  - constructor.
  - split_and!; [by apply Forall_take| |done].
    intros E. apply (f_equal length) in E. rewrite take_length in E. simpl in E. lia.
  - intros H. destruct ds as [|a ds']; [done|]. destruct n; [lia|]. by simpl in H, Hh.
  - change (text ".") with (char "."). constructor. split_and!; [by apply Forall_drop|done|done].
  - constructor.
  - by rewrite app_nil_r.
  - by left.
  - cbn [id]. rewrite take_drop, drop_length. unfold decimal_number. fold ds. f_equal. unfold n. lia.
Qed.

Lemma shown_small d fl : shows_one d → dec_point d <= 0 →
  shown fl (decimal_number d) (text "0." ++ digits_text (zeros (- dec_point d) ++ dec_digits d)).
Proof.
  intros (Hd & Hn & Hh) Hk. set (ds := dec_digits d) in *.
  exists [0%N], (zeros (- dec_point d) ++ ds), [], (digits_text [0%N]),
    (char "." ++ digits_text (zeros (- dec_point d) ++ ds)), 0, [].
  assert (zeros (- dec_point d) ++ ds ≠ []) as Hz by (intros E; apply app_eq_nil in E as [_ E]; done).
  split_and!.
  - constructor.
  - split_and!; [by repeat constructor|done|done].
  - done.
  - constructor. split_and!; [apply Forall_app_2; [apply zeros_bound|done]|done|done].
  - constructor.
  - by rewrite app_nil_r.
  - by left.
  - cbn [id]. change ([0%N] ++ zeros (- dec_point d) ++ ds) with (replicate (S (Z.to_nat (- dec_point d))) 0%N ++ ds).
    rewrite value_zeros_before, app_length. unfold zeros. rewrite replicate_length. unfold decimal_number. fold ds.
    f_equal. lia.
Qed.

(** The texts with an exponent. *)
Lemma head_take1 (ds : list N) : ds ≠ [] → ∃ a, take 1 ds = [a] ∧ head ds = Some a.
Proof. destruct ds as [|a ds]; [done|]. intros _. by exists a. Qed.

Lemma to_uint_value n : digits_value (digit_list (N.to_uint n)) = n.
Proof. rewrite <- of_uint_value. apply DecimalN.Unsigned.of_to. Qed.

Lemma digits_head n : (n ≠ 0)%N → ∃ d ds, digit_list (N.to_uint n) = d :: ds ∧ (d ≠ 0)%N.
Proof.
  intros Hn. destruct (digit_list (N.to_uint n)) as [|d ds] eqn:E.
  - pose proof (to_uint_value n) as H. rewrite E in H. by destruct Hn.
  - exists d, ds. split; [done|]. intros ->.
    destruct (N.to_uint n) as [|u|u|u|u|u|u|u|u|u|u] eqn:Eu; try discriminate E.
    pose proof (to_uint_normal n u Eu) as ->. pose proof (to_uint_value n) as H. rewrite Eu in H. simpl in H.
    by destruct Hn.
Qed.

Lemma write_usize_digits n : ∃ ds, digits_as ds (json_write_usize n) ∧ digits_value ds = n ∧
  (head ds = Some 0%N → ds = [0%N]).
Proof.
  exists (digit_list (N.to_uint n)). unfold digits_as. split_and!.
  - apply digit_list_bound.
  - destruct (decide (n = 0%N)) as [->|Hn]; [done|]. destruct (digits_head n Hn) as (d & ds & -> & _). done.
  - apply write_digits_list.
  - apply to_uint_value.
  - destruct (decide (n = 0%N)) as [->|Hn]; [done|]. destruct (digits_head n Hn) as (d & ds & -> & Hd).
    intros [= ->]. done.
Qed.

Lemma shown_exponent d fl (sg : bytes) (pad : list N) : shows_one d →
  (sg = text "-" ∧ dec_point d - 1 < 0 ∨ (sg = [] ∨ sg = text "+") ∧ 0 <= dec_point d - 1) →
  (pad = [] ∨ pad = [0%N]) →
  shown fl (decimal_number d)
    (digits_text (take 1 (dec_digits d)) ++
     (if decide (length (dec_digits d) = 1%nat) then [] else text "." ++ digits_text (drop 1 (dec_digits d))) ++
     text "e" ++ sg ++ digits_text pad ++ json_write_usize (Z.abs_N (dec_point d - 1))).
Proof.
  intros (Hd & Hn & Hh) Hsg Hpad. set (ds := dec_digits d) in *.
  destruct (head_take1 ds Hn) as (a & Ha & Hha).
  destruct (write_usize_digits (Z.abs_N (dec_point d - 1))) as (es & (Hes & Hesn & Ees) & Hv & _).
  assert (digits_as (pad ++ es) (digits_text pad ++ json_write_usize (Z.abs_N (dec_point d - 1)))) as Hexp.
  { split_and!.
    - apply Forall_app_2; [|done]. destruct Hpad as [-> | ->]; by repeat constructor.
    - intros E. apply app_eq_nil in E as [_ E]. done.
    - rewrite Ees. destruct Hpad as [-> | ->]; done. }
  assert (Z.of_N (digits_value (pad ++ es)) = Z.abs (dec_point d - 1)) as Hval.
  { assert (digits_value (pad ++ es) = digits_value es) as ->.
    { destruct Hpad as [-> | ->]; [done|]. by rewrite (value_zeros_before 1). }
    rewrite Hv. lia. }
  exists (take 1 ds), (drop 1 ds), [], (digits_text (take 1 ds)),
    (if decide (length ds = 1%nat) then [] else text "." ++ digits_text (drop 1 ds)),
    (dec_point d - 1), (text "e" ++ sg ++ digits_text pad ++ json_write_usize (Z.abs_N (dec_point d - 1))).
  split_and!.
  - constructor.
  - split_and!; [by apply Forall_take|by rewrite Ha|done].
  - rewrite Ha. intros [= ->]. done.
  - destruct (decide (length ds = 1%nat)) as [E|E].
    + rewrite drop_ge by lia. constructor.
    + change (text ".") with (char "."). constructor. split_and!; [by apply Forall_drop| |done].
      intros E'. apply (f_equal length) in E'. rewrite drop_length in E'. simpl in E'.
      destruct ds; [done|]. simpl in *. lia.
  - destruct Hsg as [[-> Hneg]|[Hsg Hpos]].
    + assert (dec_point d - 1 = - Z.of_N (digits_value (pad ++ es))) as E by (rewrite Hval; lia).
      pose proof (exponent_some (char "e") (char "-") true (pad ++ es) _ (or_introl eq_refl)
        (or_introl sign_minus) Hexp) as H. cbv iota in H. rewrite <- E in H. exact H.
    + assert (dec_point d - 1 = Z.of_N (digits_value (pad ++ es))) as E by (rewrite Hval; lia).
      assert (sign_text false sg ∨ (false = false ∧ sg = char "+")) as Hs
        by (destruct Hsg as [-> | ->]; [left; constructor|by right]).
      pose proof (exponent_some (char "e") sg false (pad ++ es) _ (or_introl eq_refl) Hs Hexp) as H.
      cbv iota in H. rewrite <- E in H. exact H.
  - done.
  - right. done.
  - cbn [id]. rewrite take_drop, drop_length. unfold decimal_number. fold ds. f_equal.
    destruct ds; [done|]. simpl. lia.
Qed.

(** ** [ryu], [Display] and [repr] *)

Lemma ryu_pretty_shown d : shows_one d →
  shown true (decimal_number d) (ryu_pretty d).
Proof.
  intros Hd. unfold ryu_pretty. cbv zeta.
  destruct ((0 <=? dec_point d - Z.of_nat (length (dec_digits d))) && (dec_point d <=? 16)) eqn:E1.
  { apply (shown_integer d true Hd). lia. }
  destruct ((0 <? dec_point d) && (dec_point d <=? 16)) eqn:E2.
  { apply (shown_inside d true Hd); lia. }
  destruct ((-5 <? dec_point d) && (dec_point d <=? 0)) eqn:E3.
  { apply (shown_small d true Hd). lia. }
  pose proof (shown_exponent d true (if dec_point d - 1 <? 0 then text "-" else []) [] Hd) as H.
  cbn [digits_text map List.concat app] in H. apply H; [|by left].
  destruct (dec_point d - 1 <? 0) eqn:E; [left|right]; split; try done; try lia. by left.
Qed.

Lemma py_repr_shown d : shows_one d →
  shown true (decimal_number d) (py_repr_positive d).
Proof.
  intros Hd. unfold py_repr_positive. cbv zeta.
  destruct ((-4 <? dec_point d) && (dec_point d <=? 16)) eqn:E1.
  { destruct (0 <=? dec_point d - Z.of_nat (length (dec_digits d))) eqn:E2.
    { apply (shown_integer d true Hd). lia. }
    destruct (0 <? dec_point d) eqn:E3.
    { apply (shown_inside d true Hd); lia. }
    apply (shown_small d true Hd). lia. }
  pose proof (shown_exponent d true (if dec_point d - 1 <? 0 then text "-" else text "+")
    (if Z.abs (dec_point d - 1) <? 10 then [0%N] else []) Hd) as H.
  replace (digits_text (if Z.abs (dec_point d - 1) <? 10 then [0%N] else [])) with
    (if Z.abs (dec_point d - 1) <? 10 then text "0" else []) in H by (by destruct (_ <? 10)).
  apply H.
  - destruct (dec_point d - 1 <? 0) eqn:E; [left|right]; split; try done; try lia. by right.
  - destruct (_ <? 10); [by right|by left].
Qed.

Lemma display_shown d : shows_one d → shown false (decimal_number d) (rust_display_positive d).
Proof.
  intros Hd. unfold rust_display_positive. cbv zeta.
  destruct (0 <=? dec_point d - Z.of_nat (length (dec_digits d))) eqn:E1.
  { pose proof (shown_integer d false Hd) as H. cbv iota in H. rewrite app_nil_r in H. apply H. lia. }
  destruct (0 <? dec_point d) eqn:E2.
  { apply (shown_inside d false Hd); lia. }
  apply (shown_small d false Hd). lia.
Qed.

(** With sign and zero. *)
Lemma shows_parts shortest m e : shows shortest → valid (S754_finite false m e) →
  let d := shortest (S754_finite false m e) in
  shows_one d ∧ decimal_number d = S754_finite false m e.
Proof.
  intros Hs Hv. cbv zeta. destruct (shows_digits _ Hs m e Hv) as (H1 & H2 & H3 & _ & H5). done.
Qed.

Definition finite (x : f64) : Prop := match x with S754_zero _ | S754_finite _ _ _ => True | _ => False end.

Lemma zero_shown (fl : bool) : shown fl (S754_zero false) (if fl then text "0.0" else text "0").
Proof.
  exists [0%N], (if fl then [0%N] else []), [], (digits_text [0%N]), (if fl then text ".0" else []), 0, [].
  split_and!.
  - constructor.
  - split_and!; [by repeat constructor|done|done].
  - done.
  - destruct fl; [|constructor]. change (text ".0") with (char "." ++ digits_text [0%N]). constructor.
    split_and!; [by repeat constructor|done|done].
  - constructor.
  - by destruct fl.
  - intros ->. by left.
  - by destruct fl.
Qed.

Lemma show_finite_shown (fl : bool) zero show shortest x :
  shows shortest → valid x → finite x → shown fl (S754_zero false) zero →
  (∀ d, shows_one d → shown fl (decimal_number d) (show d)) →
  ∃ n t, show_finite zero show shortest x = Some t ∧ shown_as n fl x t.
Proof.
  intros Hs Hv Hf Hz Hd. destruct x as [s| | |s m e]; try done.
  - destruct s; [exists true|exists false]; eexists; split; [reflexivity| |reflexivity|exact Hz].
    by apply (shown_minus fl (S754_zero false)).
  - destruct (shows_parts shortest m e Hs Hv) as (H1 & H3). specialize (Hd _ H1). rewrite H3 in Hd.
    destruct s; [exists true|exists false]; eexists; split; [reflexivity| |reflexivity|exact Hd].
    by apply (shown_minus fl (S754_finite false m e)).
Qed.

Lemma ryu_shown shortest x : shows shortest → valid x → finite x →
  ∃ n t, ryu shortest x = Some t ∧ shown_as n true x t.
Proof.
  intros. apply show_finite_shown; try done; [apply (zero_shown true)|]. intros. by apply ryu_pretty_shown.
Qed.
Lemma py_repr_shown_as shortest x : shows shortest → valid x → finite x →
  ∃ n, shown_as n true x (py_repr shortest x).
Proof.
  intros Hs Hv Hf. destruct (show_finite_shown true (text "0.0") py_repr_positive shortest x) as (n & t & H1 & H2); try done.
  - apply (zero_shown true).
  - intros. by apply py_repr_shown.
  - exists n. unfold py_repr. rewrite H1. by destruct x.
Qed.
Lemma display_shown_as shortest x : shows shortest → valid x → finite x →
  ∃ n, shown_as n false x (rust_display shortest x).
Proof.
  intros Hs Hv Hf. destruct (show_finite_shown false (text "0") rust_display_positive shortest x) as (n & t & H1 & H2); try done.
  - apply (zero_shown false).
  - intros. by apply display_shown.
  - exists n. unfold rust_display. rewrite H1. by destruct x.
Qed.

(** ** When the texts agree *)

Lemma ryu_py d : shows_one d →
  ryu_pretty d = py_repr_positive d ↔ (-4 < dec_point d <= 16 ∨ dec_point d <= -9).
Proof.
  intros (Hd & Hn & Hh). unfold ryu_pretty, py_repr_positive. cbv zeta.
  set (ds := dec_digits d) in *. set (kk := dec_point d). set (k := kk - Z.of_nat (length ds)).
  assert (0 < length ds)%nat as Hlen by (destruct ds; [done|]; simpl; lia).
  destruct (decide (-4 < kk <= 16)) as [H1|H1].
  { replace ((-4 <? kk) && (kk <=? 16)) with true by lia.
    replace (kk <=? 16) with true by lia. rewrite !andb_true_r.
    split; [by left|]. intros _. destruct (0 <=? k); [done|]. destruct (0 <? kk) eqn:E; [done|].
    by replace ((-5 <? kk) && (kk <=? 0)) with true by lia. }
  replace ((-4 <? kk) && (kk <=? 16)) with false by lia.
  replace ((0 <=? k) && (kk <=? 16)) with false by lia.
  replace ((0 <? kk) && (kk <=? 16)) with false by lia.
  destruct ((-5 <? kk) && (kk <=? 0)) eqn:E3.
  - split; [|lia]. intros H. exfalso. destruct ds as [|a ds']; [done|]. inversion_clear Hd as [|?? Ha _].
    cbn [take] in H. destruct a as [|a]; [done|]. clear - H Ha.
    assert (a = 1 ∨ a = 2 ∨ a = 3 ∨ a = 4 ∨ a = 5 ∨ a = 6 ∨ a = 7 ∨ a = 8 ∨ a = 9)%positive as Hc by lia.
    by destruct Hc as [-> |[-> |[-> |[-> |[-> |[-> |[-> |[-> | ->]]]]]]]].
  - destruct (kk - 1 <? 0) eqn:E4.
    + destruct (Z.abs (kk - 1) <? 10) eqn:E5.
      * split; [|lia]. intros H. exfalso. apply (f_equal length) in H. rewrite !app_length in H. simpl in H. lia.
      * split; [lia|done].
    + split; [|lia]. intros H. exfalso. apply (f_equal length) in H. rewrite !app_length in H. simpl in H.
      destruct (Z.abs (kk - 1) <? 10); simpl in H; lia.
Qed.
