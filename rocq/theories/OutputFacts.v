(** * Proofs about the output files of the benchmark programs *)
From stdpp Require Import strings gmap.
From Verif Require Import FormatSpec Codec CodecFacts JsonSpec OutputSpec FloatValid Decimal64 DecimalFacts Output
  Plotting JsonFacts NumberFacts BenchmarkFacts MainBenchmark MainBenchmarkNumbers.

(** ** Parts of the document *)

Definition storable (x : f64) : Prop := valid x ∧ finite x.

Section parts.
  Context (shortest : Digits) (Hs : shows shortest).

  Lemma shown_text n fl x t : shown_as n fl x t → float_text x t.
  Proof.
    intros H. destruct (shown_number n fl x t H) as (m & k & Hn & ->). exists n, m, k. split; [done|]. by destruct n.
  Qed.

  Lemma float_held x : storable x → holds_float (json_f64 shortest x) x ∧ printable (json_f64 shortest x).
  Proof.
    intros [Hv Hf]. destruct (ryu_shown shortest x Hs Hv Hf) as (n & t & E & Ht). unfold json_f64. rewrite E. split.
    - exists t. split; [done|]. by eapply shown_text.
    - destruct (shown_number n true x t Ht) as (m & k & Hn & _). by eapply printable_number.
  Qed.

  Lemma int_held n : holds_int (json_u64 n) n ∧ printable (json_u64 n).
  Proof.
    destruct (write_usize_digits n) as (ds & Hd & Hv & Hz). split.
    - exists (json_write_usize n), ds. done.
    - apply (printable_number false (digits_value (ds ++ [])) (0 - Z.of_nat (length (@nil N)))%Z).
      exists ds, [], [], (json_write_usize n), [], 0%Z, []. split_and!; try done; try constructor. by rewrite app_nil_r.
  Qed.

  Lemma list_held {A} (f : A → json) (R : json → A → Prop) (P : A → Prop) l :
    (∀ a, P a → R (f a) a ∧ printable (f a)) → Forall P l →
    holds_list R (JArray (map f l)) l ∧ printable (JArray (map f l)).
  Proof.
    intros Hf Hl. split.
    - exists (map f l). split; [done|]. apply Forall2_fmap_l. apply Forall_Forall2_diag.
      eapply Forall_impl; [exact Hl|]. intros a Ha. by apply Hf.
    - constructor. apply Forall_fmap. eapply Forall_impl; [exact Hl|]. intros a Ha. by apply Hf.
  Qed.

  Lemma plain_char s : forallb (λ c, (32 <=? Byte.to_N c) && negb (Byte.to_N c =? 34) && negb (Byte.to_N c =? 92))%N (char s) = true →
    plain (char s).
  Proof.
    intros H. unfold plain. rewrite Forall_forall. intros c Hc. rewrite forallb_forall in H.
    assert (List.In c (char s)) as Hin by (by apply elem_of_list_In).
    specialize (H c Hin). rewrite !andb_true_iff, !negb_true_iff in H. destruct H as [[H1 H2] H3].
    apply N.leb_le in H1. apply N.eqb_neq in H2, H3. done.
  Qed.

  Lemma duration_held t : holds_duration (json_duration t) t ∧ printable (json_duration t).
  Proof.
    destruct (int_held (t / 1000000000)) as [H1 H2], (int_held (t mod 1000000000)) as [H3 H4]. split.
    - eexists _, _, (t mod 1000000000)%N. split; [reflexivity|].
      pose proof (N.div_mod t 1000000000 ltac:(done)) as E. pose proof (N.mod_lt t 1000000000 ltac:(done)) as Hlt.
      assert (t - t mod 1000000000 = 1000000000 * (t / 1000000000))%N as Es by lia.
      rewrite Es. rewrite N.mul_comm, N.div_mul by done. split_and!; [done|done|done|lia|].
      by rewrite N.mod_mul.
    - constructor. repeat (constructor; [split; [|assumption]|]); [..|constructor];
        [by apply (plain_char "secs")|by apply (plain_char "nanos")].
  Qed.

  Lemma times_held t : holds_times (json_times t) t ∧ printable (json_times t).
  Proof.
    destruct (duration_held (time_optimal t)) as [H1 H2], (duration_held (space_optimal_approximated t)) as [H3 H4].
    assert (holds_option holds_duration (match full t with Some d => json_duration d | None => JNull end) (full t) ∧
      printable (match full t with Some d => json_duration d | None => JNull end)) as [H5 H6].
    { destruct (full t) as [d|]; [apply duration_held|]. split; [done|constructor]. }
    split.
    - eexists _, _, _. split; [reflexivity|]. done.
    - constructor. repeat (constructor; [split; [|assumption]|]); [..|constructor];
        [by apply (plain_char "time_optimal")|by apply (plain_char "space_optimal_approximated")|by apply (plain_char "full")].
  Qed.

  Lemma density_held d : storable (factor_of d) →
    holds_density (json_density shortest d) d ∧ printable (json_density shortest d).
  Proof.
    intros Hd. destruct (float_held _ Hd) as [H1 H2].
    destruct d as [f|f|f]; (split; [eexists; split; [reflexivity|done]|]);
      (constructor; constructor; [split; [|assumption]|constructor]);
      [by apply (plain_char "constant")|by apply (plain_char "reziprocal_linear")|by apply (plain_char "reziprocal_square_root")].
  Qed.

  Lemma results_held results : Forall (Forall storable) results →
    holds_list (holds_list holds_float) (json_results shortest results) results ∧ printable (json_results shortest results).
  Proof.
    intros H. unfold json_results. apply (list_held _ _ (Forall storable)); [|done].
    intros l Hl. apply (list_held _ _ storable); [|done]. apply float_held.
  Qed.

  Lemma times_list_held times :
    holds_list holds_times (JArray (map json_times times)) times ∧ printable (JArray (map json_times times)).
  Proof. apply (list_held _ _ (λ _, True)); [|by apply Forall_true]. intros t _. apply times_held. Qed.

  Lemma node_held ed cd seed results times :
    storable (factor_of ed) → storable (factor_of cd) → Forall (Forall storable) results →
    holds_node (node_json shortest ed cd seed results times) ed cd seed results times ∧
    printable (node_json shortest ed cd seed results times).
  Proof.
    intros He Hc Hr.
    destruct (int_held 45) as [A1 A2], (int_held 3000) as [B1 B2], (int_held 192) as [C1 C2], (int_held 30) as [D1 D2].
    destruct (density_held ed He) as [E1 E2], (density_held cd Hc) as [F1 F2], (int_held seed) as [G1 G2].
    destruct (results_held results Hr) as [H1 H2], (times_list_held times) as [I1 I2].
    split.
    - eexists _, _, _, _, _, _, _, _, _. split; [reflexivity|]. split_and!; assumption.
    - constructor. repeat (constructor; [split; [|assumption]|]); [..|constructor];
        [by apply (plain_char "max_size")|by apply (plain_char "num_average")|by apply (plain_char "walltime")|
         by apply (plain_char "ncpus")|by apply (plain_char "edge_density")|by apply (plain_char "correction_density")|
         by apply (plain_char "seed")|by apply (plain_char "results")|by apply (plain_char "time_results")].
  Qed.

  Lemma sweep_held size mu seed results times :
    storable mu → Forall (Forall storable) results →
    holds_sweep (density_json shortest size mu seed results times) size mu seed results times ∧
    printable (density_json shortest size mu seed results times).
  Proof.
    intros He Hr.
    destruct (int_held (N.of_nat size)) as [A1 A2], (int_held 3000) as [B1 B2], (int_held 10) as [C1 C2], (int_held 30) as [D1 D2].
    destruct (float_held mu He) as [E1 E2], (int_held 21) as [F1 F2], (int_held seed) as [G1 G2].
    destruct (results_held results Hr) as [H1 H2], (times_list_held times) as [I1 I2].
    split.
    - eexists _, _, _, _, _, _, _, _, _. split; [reflexivity|]. split_and!; assumption.
    - constructor. repeat (constructor; [split; [|assumption]|]); [..|constructor];
        [by apply (plain_char "size")|by apply (plain_char "num_average")|by apply (plain_char "walltime")|
         by apply (plain_char "ncpus")|by apply (plain_char "edge_density_multiplier")|by apply (plain_char "num_density")|
         by apply (plain_char "seed")|by apply (plain_char "results")|by apply (plain_char "time_results")].
  Qed.
End parts.

(** ** Validity of the results *)

Lemma fold_valid {A} (f : A → f64) l x : valid x → (∀ a, valid (f a)) → valid (foldl (λ s a, f64_add s (f a)) x l).
Proof.
  intros Hx Hf. revert x Hx. induction l as [|a l IH]; intros x Hx; [done|]. cbn [foldl]. apply IH. by apply add_valid.
Qed.
Lemma mean_valid col : valid (mean_of col).
Proof. apply div_valid; [|apply of_usize_valid]. apply fold_valid; [done|]. intros. apply of_usize_valid. Qed.
Lemma deviation_valid col : valid (deviation_of col).
Proof.
  unfold deviation_of. apply sqrt_valid, div_valid; [|apply of_usize_valid].
  set (l := map _ col). assert (Forall valid l) as Hl.
  { apply Forall_fmap, Forall_true. intros e. cbv beta. unfold compose.
    apply mul_valid; apply sub_valid; (apply of_usize_valid || apply mean_valid). }
  assert (valid f64_zero) as Hz by done. revert Hz. generalize f64_zero. induction Hl as [|a l Ha Hl IH]; intros x Hx; [done|].
  cbn [foldl]. apply IH. by apply add_valid.
Qed.

Lemma arrays_valid {A} n (data : list A) get_full rs : Forall (Forall valid) (sweep_arrays n data get_full rs).
Proof.
  unfold sweep_arrays. apply Forall_fmap, Forall_true. intros i. unfold compose.
  apply Forall_concat, Forall_fmap, Forall_true. intros a. unfold compose, cell.
  destruct (summary (get_full a) (rs a) !! (i / 2)) as [r|] eqn:E; [|constructor].
  unfold summary in E. apply list_lookup_fmap_Some in E as (col & _ & ->). constructor; [|constructor]. cbn [fst snd].
  destruct (Nat.even i); [apply mean_valid|apply deviation_valid].
Qed.

Lemma arrays_storable results : Forall (Forall valid) results → Forall (Forall finite_unsigned) results →
  Forall (Forall storable) results.
Proof.
  intros H1 H2. rewrite !Forall_forall in *. intros l Hl. specialize (H1 l Hl). specialize (H2 l Hl).
  rewrite !Forall_forall in *. intros x Hx. split; [by apply H1|]. specialize (H2 x Hx). by destruct x.
Qed.
