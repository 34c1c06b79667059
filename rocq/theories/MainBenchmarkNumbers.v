(** * The numbers that the benchmark programs compute *)
From stdpp Require Import strings.
From Verif Require Export MainBenchmarkFull FloatRound.
From Verif Require Import ProbabilisticFacts Spec.
From Coq Require Import ZArith Lia.
Local Open Scope Z_scope.

Definition column_total (col : list N) : N := foldr N.add 0%N col.

(** A finite number that is not negative; not the negative zero either. *)
Definition finite_unsigned (x : f64) : Prop :=
  match x with S754_zero s => s = false | S754_finite s _ _ => s = false | _ => False end.

Lemma atmost_finite x B : atmost x B → unsigned x → finite_unsigned x.
Proof. by destruct x. Qed.

(** ** Sums and means *)

Lemma float_sum_int col :
  Z.of_N (column_total col) < 2 ^ 53 → int_value (float_sum col) (Z.of_N (column_total col)).
Proof.
  induction col as [|e col IH] using rev_ind; intros H; [by left|].
  assert (column_total (col ++ [e]) = (column_total col + e)%N) as E.
  { clear. unfold column_total. induction col as [|x col IH]; simpl; [lia|]. rewrite IH. lia. }
  rewrite E in *. rewrite float_sum_app. replace (Z.of_N (column_total col + e)) with (Z.of_N (column_total col) + Z.of_N e) by lia.
  apply add_int; [apply IH; lia| |lia]. apply of_usize_int. lia.
Qed.

Lemma column_total_le col b :
  Forall (λ e, e <= b)%N col → (column_total col <= b * N.of_nat (length col))%N.
Proof. induction 1 as [|e col He _ IH]; simpl; lia. Qed.

Section column.
  Context (col : list N) (b : N).
  Context (Hlen : N.of_nat (length col) = 3000%N) (Hb : Forall (λ e, e <= b)%N col) (Hb1 : (1 <= b <= 1000)%N).

  Lemma total_small : Z.of_N (column_total col) <= Z.of_N b * 3000 ∧ Z.of_N b * 3000 < 2 ^ 53.
  Proof. pose proof (column_total_le col b Hb). rewrite Hlen in H. lia. Qed.

  Lemma mean_nearest : nearest_quotient (mean_of col) (Z.of_N (column_total col)) 3000.
  Proof.
    destruct total_small. unfold mean_of. rewrite Hlen. apply div_nearest; [apply float_sum_int; lia| |lia|lia].
    by apply (of_usize_int 3000).
  Qed.

  Lemma mean_atmost : atmost (mean_of col) (Z.of_N b).
  Proof.
    destruct total_small. unfold mean_of. rewrite Hlen. apply (div_atmost _ _ 3000); [|lia|lia|].
    - by apply (of_usize_int 3000).
    - eapply atmost_mono; [apply int_atmost; [apply float_sum_int; lia|lia]|lia].
  Qed.

  Lemma mean_finite : finite_unsigned (mean_of col).
  Proof. by destruct mean_nearest as [[_ ->]|(m & e & -> & _)]. Qed.

  Lemma squares_atmost (l : list N) z A :
    Forall (λ e, e <= b)%N l → atmost z A → unsigned z → A + Z.of_nat (length l) * 4000000 < 2 ^ 53 →
    let s := foldl f64_add z (map (λ e, let d := f64_sub (f64_of_usize e) (mean_of col) in f64_mul d d) l) in
    atmost s (A + Z.of_nat (length l) * 4000000) ∧ unsigned s.
  Proof.
    intros Hl. revert z A. induction Hl as [|e l He Hl IH]; intros z A Hz Hu Hs; cbn [map foldl length] in *.
    - replace (A + Z.of_nat 0 * 4000000) with A by lia. done.
    - pose proof mean_atmost as Hm.
      assert (atmost (f64_sub (f64_of_usize e) (mean_of col)) 2000) as Hd.
      { eapply atmost_mono; [apply (sub_atmost _ _ (Z.of_N b) (Z.of_N b)); [apply of_usize_atmost; lia|done|lia]|lia]. }
      assert (atmost (f64_mul (f64_sub (f64_of_usize e) (mean_of col)) (f64_sub (f64_of_usize e) (mean_of col))) (2000 * 2000)) as Hq
        by (by apply mul_atmost).
      replace (A + Z.of_nat (S (length l)) * 4000000) with ((A + 2000 * 2000) + Z.of_nat (length l) * 4000000) by lia.
      apply IH; [apply add_atmost; [done|done|lia]| |lia]. apply add_unsigned; [done|apply square_unsigned].
  Qed.

  Lemma deviation_finite : finite_unsigned (deviation_of col).
  Proof.
    unfold deviation_of. cbv zeta. rewrite Hlen.
    destruct (squares_atmost col f64_zero 0 Hb) as [Hs Hu]; [cbn; lia|done|lia|].
    set (s := foldl f64_add f64_zero _) in *.
    assert (int_value (f64_of_usize 3000) 3000) as Hn by (by apply (of_usize_int 3000)).
    assert (atmost (f64_div s (f64_of_usize 3000)) 4000000) as Hq.
    { apply (div_atmost _ _ 3000); [done|lia|lia|]. eapply atmost_mono; [exact Hs|]. lia. }
    assert (unsigned (f64_div s (f64_of_usize 3000))) as Hqu.
    { destruct (int_small _ _ Hn ltac:(lia)) as [[? _]|(_ & m & e & -> & _)]; [lia|].
      destruct s as [ss|ss| |ss ms es]; cbn in Hu; subst; try done.
      unfold f64_div, SFdiv. destruct (SFdiv_core_binary _ _ _ _ _ _) as [[mz ez] lz]. by apply round_unsigned. }
    destruct (sqrt_atmost _ _ Hq Hqu) as [H1 H2]; [lia|lia|]. by eapply atmost_finite.
  Qed.
End column.

(** If all values are the same, the mean is exact and the deviation is zero. *)
Lemma int_value_unique x y k : int_value x k → int_value y k → k < 2 ^ 53 → x = y.
Proof.
  intros Hx Hy Hk.
  destruct (int_small _ _ Hx Hk) as [[E ->]|(H0 & m & e & -> & _ & _ & Em & Ee)];
    destruct (int_small _ _ Hy Hk) as [[E' ->]|(H0' & m' & e' & -> & _ & _ & Em' & Ee')]; try lia; [done|].
  subst e e'. f_equal. rewrite <- Em' in Em. by injection Em as ->.
Qed.

Lemma constant_mean col c :
  N.of_nat (length col) = 3000%N → Forall (λ e, e = c) col → (1 <= c <= 1000)%N →
  mean_of col = f64_of_usize c ∧ deviation_of col = f64_zero.
Proof.
  intros Hlen Hc Hc1.
  assert (Forall (λ e, e <= c)%N col) as Hb by (eapply Forall_impl; [exact Hc|intros ? ->; cbn; lia]).
  assert (column_total col = 3000 * c)%N as Ht.
  { rewrite <- Hlen. clear -Hc. induction Hc as [|e col -> _ IH]; [done|]. cbn [length].
    change (column_total (c :: col)) with (c + column_total col)%N. rewrite IH. lia. }
  assert (mean_of col = f64_of_usize c) as Em.
  { destruct (mean_nearest col c Hlen Hb Hc1) as [[? _]|(m & e & E & Hm & He & Hn)]; [lia|].
    rewrite E. apply (int_value_unique _ _ (Z.of_N c)); [|apply of_usize_int; lia|lia].
    right. split; [lia|]. exists m, e. split; [done|]. split; [done|]. left. split; [done|].
    rewrite Ht in Hn. set (P := 2 ^ (- e)) in *. nia. }
  split; [done|]. unfold deviation_of. cbv zeta. rewrite Em, Hlen.
  assert (f64_sub (f64_of_usize c) (f64_of_usize c) = S754_zero false) as Ez.
  { apply (sub_int _ _ (Z.of_N c) (Z.of_N c)); [apply of_usize_int; lia|apply of_usize_int; lia|lia|lia|done]. }
  assert (foldl f64_add f64_zero
    (map (λ e, f64_mul (f64_sub (f64_of_usize e) (f64_of_usize c)) (f64_sub (f64_of_usize e) (f64_of_usize c))) col) = f64_zero) as ->.
  { clear -Hc Ez. induction Hc as [|e col -> _ IH]; [done|]. cbn [map foldl]. rewrite Ez. exact IH. }
  by vm_compute.
Qed.

(** ** The columns of the benchmark *)

Lemma path_small adj g p :
  wf_input adj g → path_ok adj g p →
  (N.of_nat (time p) <= N.of_nat (length adj))%N ∧ (space p <= N.of_nat (length adj))%N.
Proof.
  intros Hin (Hv & -> & ->). split.
  - pose proof (valid_length adj g Hin _ Hv). unfold time_cost. lia.
  - pose proof (space_cost_le adj (proj2 (proj1 Hin)) (steps p)). lia.
Qed.

Lemma columns_small (size : nat) get_full rs :
  (1 ≤ size ≤ 1000)%nat → Forall (sample_ok size get_full) rs →
  Forall (Forall (λ e, e <= N.of_nat size)%N) (columns get_full rs).
Proof.
  intros Hs Hrs.
  assert (∀ f, (∀ r p, sample_ok size get_full r → f r = Some p → path_ok (s_adj r) (s_order r) p) →
    Forall (λ e, e <= N.of_nat size)%N (times_of f rs) ∧ Forall (λ e, e <= N.of_nat size)%N (spaces_of f rs)) as H.
  { intros f Hf. rewrite Forall_forall in Hrs.
    assert (∀ r p, r ∈ rs → f r = Some p → (N.of_nat (time p) <= N.of_nat size)%N ∧ (space p <= N.of_nat size)%N) as Hp.
    { intros r p Hr Hp. pose proof (Hrs r Hr) as Hok. pose proof (so_simple _ _ _ Hok) as Hsi.
      assert (wf_input (s_adj r) (s_order r)) as Hin.
      { assert (N.of_nat size < 2 ^ 64 - 1)%N by lia. split; [by eapply simple_wf|].
        destruct Hsi as (-> & _). exact (so_order _ _ _ Hok). }
      pose proof (path_small _ _ p Hin (Hf r p Hok Hp)) as Hps. destruct Hsi as (Hl & _). by rewrite Hl in Hps. }
    split; apply Forall_forall; intros e He; unfold times_of, spaces_of in He; apply elem_of_list_omap in He as (r & Hr & E);
      destruct (f r) as [p|] eqn:Ep; try done; injection E as <-; by destruct (Hp r p). }
  assert (∀ r p, sample_ok size get_full r → Some (s_fast r) = Some p → path_ok (s_adj r) (s_order r) p) as H1.
  { intros r p Hr [= <-]. apply (so_fast _ _ _ Hr). }
  assert (∀ r p, sample_ok size get_full r → s_approx r = Some p → path_ok (s_adj r) (s_order r) p) as H2.
  { intros r p Hr Hp. by apply (so_approx _ _ _ Hr). }
  unfold columns. destruct get_full.
  - assert (∀ r p, sample_ok size true r → s_full_first r = Some p → path_ok (s_adj r) (s_order r) p) as H3.
    { intros r p Hr Hp. destruct (so_full _ _ _ Hr) as (p' & q & E1 & E2 & ? & ? & _); [done|lia|]. congruence. }
    assert (∀ r p, sample_ok size true r → s_full_last r = Some p → path_ok (s_adj r) (s_order r) p) as H4.
    { intros r p Hr Hp. destruct (so_full _ _ _ Hr) as (p' & q & E1 & E2 & ? & ? & _); [done|lia|]. congruence. }
    destruct (H _ H1), (H _ H2), (H _ H3), (H _ H4). repeat constructor; assumption.
  - destruct (H _ H1), (H _ H2). repeat constructor; assumption.
Qed.

(** Mean and deviation of a column: all values are at most [b]. *)
Definition statistic_ok (b : N) (col : list N) (r : f64 * f64) : Prop :=
  N.of_nat (length col) = 3000%N ∧ Forall (λ e, e <= b)%N col ∧
  (* the mean is a number with 53 binary digits nearest to the quotient *)
  nearest_quotient r.1 (Z.of_N (column_total col)) 3000 ∧
  finite_unsigned r.1 ∧ finite_unsigned r.2 ∧
  (∀ c, (1 <= c)%N → Forall (λ e, e = c) col → r.1 = f64_of_usize c ∧ r.2 = f64_zero).

Lemma column_statistic col b :
  N.of_nat (length col) = 3000%N → Forall (λ e, e <= b)%N col → (1 <= b <= 1000)%N →
  statistic_ok b col (mean_of col, deviation_of col).
Proof.
  intros Hlen Hb Hb1. split; [done|]. split; [done|]. cbn [fst snd]. split; [by eapply mean_nearest|].
  split; [by eapply mean_finite|]. split; [by eapply deviation_finite|].
  intros c Hc Hall. apply constant_mean; [done|done|].
  destruct col as [|e col]; [done|]. inversion Hb; inversion Hall; subst. lia.
Qed.

(** What [do_it] returns. *)
Definition numbers_ok (size : nat) (get_full : bool) (rs : list Sample) : Prop :=
  Forall2 (statistic_ok (N.of_nat size)) (columns get_full rs) (summary get_full rs).

Lemma measured_numbers bd fuel induced rng (size : nat) ed cd timeout get_full shots k rs times k' :
  (1 ≤ size ≤ 1000)%nat → (∀ i, shot_ok (shots i)) → (∀ i, shot_exp (shots i)) →
  measured bd fuel induced rng size ed cd timeout get_full shots k rs times k' →
  numbers_ok size get_full rs.
Proof.
  intros Hs Hok He Hm. pose proof (measured_full _ _ _ _ _ _ _ _ _ _ _ _ _ _ Hs Hok He Hm) as Hlen.
  destruct Hm as (_ & Hrs & _). pose proof (columns_small size get_full rs Hs Hrs) as Hb.
  unfold numbers_ok, summary. apply Forall2_fmap_r. apply Forall_Forall2_diag.
  rewrite Forall_forall in Hlen, Hb. apply Forall_forall. intros col Hcol.
  apply column_statistic; [by apply Hlen|by apply Hb|lia].
Qed.

Lemma sweep_arrays_finite {A} n (data : list A) get_full rs :
  (∀ a, a ∈ data → ∃ s, numbers_ok s (get_full a) (rs a)) →
  Forall (Forall finite_unsigned) (sweep_arrays n data get_full rs).
Proof.
  intros H. unfold sweep_arrays. apply Forall_fmap, Forall_forall. intros i _. unfold compose.
  apply Forall_concat, Forall_fmap, Forall_forall. intros a Ha. unfold compose.
  destruct (H a Ha) as [s Hn].
  unfold cell. destruct (summary (get_full a) (rs a) !! (i / 2)%nat) as [r|] eqn:E; [|done].
  destruct (Forall2_lookup_r _ _ _ _ _ Hn E) as (col & _ & Hst). destruct Hst as (_ & _ & _ & H1 & H2 & _).
  constructor; [|done]. by destruct (Nat.even i).
Qed.

(** ** The two programs *)

Lemma node_run_numbers :
  ∀ bd fuel induced rng args shots results times,
  induces_orders induced → (∀ k n, (0 < n → r_range rng k n < n)%nat) →
  (∀ size i, shot_ok (shots size i) ∧ shot_exp (shots size i)) →
  node_run bd fuel induced rng args shots = Some (Val (results, times)) →
  ∃ ed cd ks rs, results = sweep_arrays 16 (seq 2 44) (λ size, size <=? 20)%nat rs ∧
    (∀ size, (2 ≤ size ≤ 45)%nat → numbers_ok size (size <=? 20)%nat (rs size) ∧
      (* the recorded data, as in C47 *)
      ∃ timeout tm, times !! (size - 2)%nat = Some tm ∧
        measured bd fuel induced rng size ed cd timeout (size <=? 20)%nat (shots size) (ks size) (rs size) tm (ks (S size))) ∧
    Forall (Forall finite_unsigned) results.
Proof.
  intros bd fuel induced rng args shots results times Hind Hrng Hsh H.
  destruct (node_run_result _ _ _ _ _ _ _ Hind Hrng (λ size i, proj1 (Hsh size i)) H)
    as [[? _]|(ed & cd & ts & rs & times' & ks & _ & _ & _ & [= -> ->] & _ & _ & Hm)]; [done|].
  exists ed, cd, ks, rs. split; [done|].
  assert (∀ size, (2 ≤ size ≤ 45)%nat → numbers_ok size (size <=? 20)%nat (rs size)) as Hn.
  { intros size Hs. destruct (Hm size Hs) as (timeout & tm & _ & _ & Hme).
    eapply measured_numbers; [lia|intros i; apply Hsh|intros i; apply Hsh|exact Hme]. }
  split.
  { intros size Hs. split; [by apply Hn|]. destruct (Hm size Hs) as (timeout & tm & _ & ? & ?). by exists timeout, tm. }
  apply (sweep_arrays_finite 16 (seq 2 44) (λ size, size <=? 20)%nat rs).
  intros size Hs%elem_of_seq. exists size. apply Hn. lia.
Qed.

Lemma density_run_numbers :
  ∀ bd fuel induced rng args shots results times,
  induces_orders induced → (∀ k n, (0 < n → r_range rng k n < n)%nat) →
  (∀ m i, shot_ok (shots m i) ∧ shot_exp (shots m i)) →
  (1 ≤ d_num_nodes args ≤ 1000)%nat →
  density_run bd fuel induced rng args shots = Some (Val (results, times)) →
  ∃ ks rs, results = sweep_arrays 8 (seq 1 21) (λ _, false) rs ∧
    (∀ m, (1 ≤ m ≤ 21)%nat → numbers_ok (d_num_nodes args) false (rs m) ∧
      (* the recorded data, as in C47 *)
      ∃ timeout tm, times !! (m - 1)%nat = Some tm ∧
        measured bd fuel induced rng (d_num_nodes args)
          (Constant (f64_div (d_edge_density_multiplier args) (f64_of_usize 22)))
          (Constant (f64_div (f64_of_usize (N.of_nat m)) (f64_of_usize 22)))
          timeout false (shots m) (ks m) (rs m) tm (ks (S m))) ∧
    Forall (Forall finite_unsigned) results.
Proof.
  intros bd fuel induced rng args shots results times Hind Hrng Hsh Hsize H.
  assert (N.of_nat (d_num_nodes args) < 2 ^ 64 - 1)%N as Hsmall by lia.
  destruct (density_run_result _ _ _ _ _ _ _ Hind Hrng (λ m i, proj1 (Hsh m i)) Hsmall H)
    as [[? _]|(rs & times' & ks & [= -> ->] & _ & _ & Hm)]; [done|].
  exists ks, rs. split; [done|].
  assert (∀ m, (1 ≤ m ≤ 21)%nat → numbers_ok (d_num_nodes args) false (rs m)) as Hn.
  { intros m Hs. destruct (Hm m Hs) as (timeout & tm & _ & _ & Hme).
    eapply measured_numbers; [done|intros i; apply Hsh|intros i; apply Hsh|exact Hme]. }
  split.
  { intros m Hs. split; [by apply Hn|]. destruct (Hm m Hs) as (timeout & tm & _ & ? & ?). by exists timeout, tm. }
  apply (sweep_arrays_finite 8 (seq 1 21) (λ _, false) rs).
  intros m Hs%elem_of_seq. eexists. apply Hn. lia.
Qed.

Lemma mean_nearest_quotient :
  ∀ col, col ≠ [] → (N.of_nat (length col) < 2 ^ 53)%N → (column_total col < 2 ^ 53)%N →
  nearest_quotient (mean_of col) (Z.of_N (column_total col)) (Z.of_nat (length col)).
Proof.
  intros col Hne Hlen Ht. unfold mean_of. apply div_nearest; [apply float_sum_int; lia| |lia|].
  - replace (Z.of_nat (length col)) with (Z.of_N (N.of_nat (length col))) by lia. by apply of_usize_int.
  - destruct col; [done|]. cbn [length] in *. lia.
Qed.
