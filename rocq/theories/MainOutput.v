(** * Main theorems about the output files of the benchmark programs *)
From stdpp Require Import strings gmap.
From Verif Require Import FormatSpec Codec CodecFacts JsonSpec OutputSpec FloatValid Decimal64 DecimalFacts Output
  Plotting JsonFacts NumberFacts OutputFacts BenchmarkFacts MainBenchmark MainBenchmarkNumbers.

(** ** File names *)

Lemma stripped_app a b : stripped (a ++ b) = stripped a ++ stripped b.
Proof. apply List.filter_app. Qed.
Lemma stripped_number t : Forall (λ c, is_number_char c = true) t → stripped t = t.
Proof.
  induction 1 as [|c t Hc _ IH]; [done|]. unfold stripped in *. cbn [List.filter].
  assert (negb (Byte.eqb c Byte.x7b || Byte.eqb c Byte.x22 || Byte.eqb c Byte.x7d) = true) as ->
    by (destruct c; first [discriminate Hc|reflexivity]). by rewrite IH.
Qed.

Lemma float_text_chars x t : float_text x t → Forall (λ c, is_number_char c = true) t.
Proof. intros (n & m & k & Ht & _). by eapply number_chars. Qed.

Lemma float_text_unique x y t : float_text x t → float_text y t → x = y.
Proof.
  intros (n & m & k & Ht & ->) (n' & m' & k' & Ht' & ->).
  destruct (number_read _ _ _ _ Ht) as (l & El & _ & <- & <- & <-).
  destruct (number_read _ _ _ _ Ht') as (l' & El' & _ & <- & <- & <-).
  rewrite El in El'. by injection El' as ->.
Qed.

Lemma json_density_print shortest d t : ryu shortest (factor_of d) = Some t →
  json_print (json_density shortest d) = text "{""" ++ char (type_name d) ++ text """:" ++ t ++ text "}".
Proof. destruct d as [f|f|f]; cbn [factor_of]; intros E; cbn [json_density json_print]; unfold json_f64; by rewrite E. Qed.

Lemma stripped_density shortest d t : shows shortest → storable (factor_of d) → ryu shortest (factor_of d) = Some t →
  stripped (json_print (json_density shortest d)) = char (type_name d) ++ char ":" ++ t ∧ float_text (factor_of d) t.
Proof.
  intros Hs [Hv Hf] E. rewrite (json_density_print _ _ _ E).
  destruct (ryu_shown shortest _ Hs Hv Hf) as (n & t' & E' & Ht). rewrite E in E'. injection E' as <-.
  apply shown_text in Ht. split; [|done]. rewrite !stripped_app, (stripped_number t) by (by eapply float_text_chars).
  change (stripped (text "}")) with (@nil Byte.byte). rewrite app_nil_r. by destruct d.
Qed.

Lemma node_file_name shortest ed cd : shows shortest → storable (factor_of ed) → storable (factor_of cd) →
  node_name ed cd (node_file shortest ed cd).
Proof.
  intros Hs He Hc.
  destruct (ryu_shown shortest _ Hs (proj1 He) (proj2 He)) as (_ & t & Et & _).
  destruct (ryu_shown shortest _ Hs (proj1 Hc) (proj2 Hc)) as (_ & t' & Et' & _).
  destruct (stripped_density shortest ed t Hs He Et) as [E1 H1].
  destruct (stripped_density shortest cd t' Hs Hc Et') as [E2 H2].
  exists t, t'. split; [done|]. split; [done|]. unfold node_file.
  rewrite !stripped_app, E1, E2. rewrite <- !app_assoc. done.
Qed.

Lemma sweep_file_name shortest size mu : shows shortest → storable mu → sweep_name size mu (density_file shortest size mu).
Proof.
  intros Hs [Hv Hf]. destruct (write_usize_digits (N.of_nat size)) as (ds & Hd & Hval & _).
  destruct (display_shown_as shortest mu Hs Hv Hf) as (n & Ht). apply shown_text in Ht.
  exists ds, (json_write_usize (N.of_nat size)). split; [done|]. split; [done|].
  exists (rust_display shortest mu). split; [done|]. unfold density_file. done.
Qed.

Lemma char_split t t' u u' : Forall (λ c, is_number_char c = true) t → Forall (λ c, is_number_char c = true) t' →
  t ++ char "_" ++ u = t' ++ char "_" ++ u' → t = t' ∧ u = u'.
Proof.
  intros Ht Ht' E. assert (span_number (t ++ char "_" ++ u) = (t, char "_" ++ u)) as E1 by (by apply span_number_app).
  rewrite E, (span_number_app t') in E1 by done. by injection E1 as -> ->.
Qed.

Lemma density_eq d d' : type_name d = type_name d' → factor_of d = factor_of d' → d = d'.
Proof. destruct d, d'; cbn; intros H E; try discriminate H; by rewrite E. Qed.

Lemma type_split d d' u u' : char (type_name d) ++ char ":" ++ u = char (type_name d') ++ char ":" ++ u' →
  type_name d = type_name d' ∧ u = u'.
Proof. destruct d, d'; intros E; try discriminate E; (split; [done|]); by repeat injection E as E. Qed.

Lemma node_name_unique :
  ∀ ed cd ed' cd' file, node_name ed cd file → node_name ed' cd' file → ed = ed' ∧ cd = cd'.
Proof.
  intros ed cd ed' cd' file (t1 & t2 & H1 & H2 & ->) (t1' & t2' & H1' & H2' & E).
  apply app_inv_head in E. apply type_split in E as [T1 E].
  apply char_split in E as [<- E]; [|by eapply float_text_chars..].
  apply type_split in E as [T2 E]. apply app_inv_tail in E as <-.
  split; (apply density_eq; [done|by eapply float_text_unique]).
Qed.

Lemma digits_as_chars ds t : digits_as ds t → Forall (λ c, is_number_char c = true) t.
Proof. intros (Hd & _ & ->). by apply digits_number_chars. Qed.
Lemma digits_as_unique ds ds' t : digits_as ds t → digits_as ds' t → ds = ds'.
Proof.
  intros (Hd & _ & E) (Hd' & _ & E'). pose proof (span_digits_app ds [] Hd I) as H. pose proof (span_digits_app ds' [] Hd' I) as H'.
  unfold digits_text in H, H'. rewrite <- E in H. rewrite <- E', H in H'. by injection H'.
Qed.

Lemma sweep_name_unique :
  ∀ size mu size' mu' file, sweep_name size mu file → sweep_name size' mu' file → size = size' ∧ mu = mu'.
Proof.
  intros size mu size' mu' file (ds & t & Hd & Hv & u & Hu & ->) (ds' & t' & Hd' & Hv' & u' & Hu' & E).
  apply app_inv_head in E. change (char "_numdensities:21_density:") with (char "_" ++ char "numdensities:21_density:") in E.
  rewrite <- !app_assoc in E. apply char_split in E as [<- E]; [|by eapply digits_as_chars..].
  apply app_inv_head, app_inv_tail in E as <-.
  pose proof (digits_as_unique _ _ _ Hd Hd') as <-. split; [lia|]. by eapply float_text_unique.
Qed.

(** The two programs never write to the same file. *)
Lemma names_apart : ∀ ed cd size mu file, node_name ed cd file → ¬ sweep_name size mu file.
Proof. intros ed cd size mu file (t1 & t2 & _ & _ & ->) (ds & t & _ & _ & u & _ & E). discriminate E. Qed.

(** ** Running the programs *)

Lemma unit_finite x : SFleb f64_zero x && SFleb x f64_one = true → finite x.
Proof. by destruct x as [|[]| |]. Qed.

Lemma density_new_factor ty x d : density_new ty x = Val d → factor_of d = x ∧ type_name d = ty ∧ finite x.
Proof.
  unfold density_new, check_factor. destruct (SFleb f64_zero x && SFleb x f64_one) eqn:E.
  - apply unit_finite in E.
    destruct (String.eqb ty "constant") eqn:E1; [apply String.eqb_eq in E1 as ->; by intros [= <-]|].
    destruct (String.eqb ty "reziprocal_linear") eqn:E2; [apply String.eqb_eq in E2 as ->; by intros [= <-]|].
    destruct (String.eqb ty "reziprocal_square_root") eqn:E3; [apply String.eqb_eq in E3 as ->; by intros [= <-]|done].
  - destruct (String.eqb ty "constant"); [done|]. destruct (String.eqb ty "reziprocal_linear"); [done|].
    by destruct (String.eqb ty "reziprocal_square_root").
Qed.

Lemma node_output :
  ∀ shortest bd fuel induced rng seed args shots creatable fs o,
  shows shortest → valid (n_edge_density args) → valid (n_correction_density args) →
  induces_orders induced → (∀ k n, 0 < n → r_range rng k n < n) →
  (∀ size i, shot_ok (shots size i) ∧ shot_exp (shots size i)) →
  node_main shortest bd fuel induced rng seed args shots creatable fs = Some o →
  (* either it writes the file *)
  (∃ ed cd results times file b v,
    type_name ed = n_edge_density_type args ∧ factor_of ed = n_edge_density args ∧
    type_name cd = n_correction_density_type args ∧ factor_of cd = n_correction_density args ∧
    node_run bd fuel induced rng args shots = Some (Val (results, times)) ∧
    node_name ed cd file ∧ json_document v b ∧ holds_node v ed cd seed results times ∧
    if creatable (name file) then o = Val (<[name file := b]> fs) else o = Panic) ∨
  (* or the arguments are wrong *)
  o = Panic ∧ (density_new (n_edge_density_type args) (n_edge_density args) = Panic ∨
               density_new (n_correction_density_type args) (n_correction_density args) = Panic).
Proof.
  intros shortest bd fuel induced rng seed args shots creatable fs o Hs Hve Hvc Hind Hrng Hsh H.
  unfold node_main in H.
  destruct (density_new (n_edge_density_type args) (n_edge_density args)) as [ed|] eqn:E1; cbn [rbind] in H;
    [|injection H as <-; by right; auto].
  destruct (density_new (n_correction_density_type args) (n_correction_density args)) as [cd|] eqn:E2; cbn [rbind] in H;
    [|injection H as <-; by right; auto].
  left. destruct (node_run bd fuel induced rng args shots) as [[[results times]|]|] eqn:Er; cbn [rbind] in H; [| |done].
  2: { exfalso. destruct (node_run_result _ _ _ _ _ _ _ Hind Hrng (λ size i, proj1 (Hsh size i)) Er)
        as [[_ [?|?]]|(? & ? & ? & ? & ? & ? & _ & _ & _ & ? & _)]; congruence. }
  destruct (density_new_factor _ _ _ E1) as (F1 & T1 & Fi1). destruct (density_new_factor _ _ _ E2) as (F2 & T2 & Fi2).
  assert (Forall (Forall storable) results) as Hst.
  { destruct (node_run_numbers _ _ _ _ _ _ _ _ Hind Hrng Hsh Er) as (_ & _ & _ & rs & -> & _ & Hfin).
    apply arrays_storable; [apply arrays_valid|done]. }
  assert (storable (factor_of ed)) as He by (rewrite F1; done).
  assert (storable (factor_of cd)) as Hc by (rewrite F2; done).
  destruct (node_held shortest Hs ed cd seed results times He Hc Hst) as [Hh Hp].
  exists ed, cd, results, times, (node_file shortest ed cd), (json_print (node_json shortest ed cd seed results times)),
    (node_json shortest ed cd seed results times).
  split_and!; try done; [by apply node_file_name|by apply print_document|].
  injection H as <-. unfold write_output. by destruct (creatable _).
Qed.

Lemma density_multiplier_finite mu ed : density mu = Val ed → finite mu.
Proof.
  unfold density, check_factor. destruct (SFleb _ _ && SFleb _ _) eqn:E; [|done]. intros _.
  destruct mu as [s|s| |s m e]; try done; by destruct s.
Qed.

Lemma density_output :
  ∀ shortest bd fuel induced rng seed args shots creatable fs o,
  shows shortest → valid (d_edge_density_multiplier args) →
  induces_orders induced → (∀ k n, 0 < n → r_range rng k n < n) →
  (∀ m i, shot_ok (shots m i) ∧ shot_exp (shots m i)) → 1 ≤ d_num_nodes args ≤ 1000 →
  density_main shortest bd fuel induced rng seed args shots creatable fs = Some o →
  (∃ results times file b v,
    density_run bd fuel induced rng args shots = Some (Val (results, times)) ∧
    sweep_name (d_num_nodes args) (d_edge_density_multiplier args) file ∧ json_document v b ∧
    holds_sweep v (d_num_nodes args) (d_edge_density_multiplier args) seed results times ∧
    if creatable (name file) then o = Val (<[name file := b]> fs) else o = Panic) ∨
  o = Panic ∧ let x := f64_div (d_edge_density_multiplier args) (f64_of_usize 22) in
    ¬ (SFleb f64_zero x = true ∧ SFleb x f64_one = true).
Proof.
  intros shortest bd fuel induced rng seed args shots creatable fs o Hs Hv Hind Hrng Hsh Hsize H.
  unfold density_main in H.
  assert (N.of_nat (d_num_nodes args) < 2 ^ 64 - 1)%N as Hsmall by lia.
  destruct (density_run bd fuel induced rng args shots) as [o'|] eqn:Er; [|done].
  destruct (density_run_result _ _ _ _ _ _ _ Hind Hrng (λ m i, proj1 (Hsh m i)) Hsmall Er)
    as [[-> Hn]|(rs & times & ks & -> & _)]; [cbn [rbind] in H; injection H as <-; by right|].
  left. cbn [rbind] in H. set (results := sweep_arrays 8 (seq 1 21) (λ _, false) rs) in *.
  assert (Forall (Forall storable) results) as Hst.
  { destruct (density_run_numbers _ _ _ _ _ _ _ _ Hind Hrng Hsh Hsize Er) as (_ & _ & _ & _ & Hfin).
    apply arrays_storable; [apply arrays_valid|done]. }
  assert (storable (d_edge_density_multiplier args)) as He.
  { split; [done|]. unfold density_run in Er. destruct (density _) as [ed|] eqn:Ed; [|done]. by eapply density_multiplier_finite. }
  destruct (sweep_held shortest Hs (d_num_nodes args) _ seed results times He Hst) as [Hh Hp].
  exists results, times, (density_file shortest (d_num_nodes args) (d_edge_density_multiplier args)),
    (json_print (density_json shortest (d_num_nodes args) (d_edge_density_multiplier args) seed results times)),
    (density_json shortest (d_num_nodes args) (d_edge_density_multiplier args) seed results times).
  split_and!; try done; [by apply sweep_file_name|by apply print_document|].
  injection H as <-. unfold write_output. by destruct (creatable _).
Qed.

Lemma document_reader :
  ∀ v b, json_document v b → json_load b = Some v ∧ ∀ v', json_document v' b → v' = v.
Proof. intros v b H. split; [by apply load_complete|]. intros v' H'. by eapply document_unique. Qed.
