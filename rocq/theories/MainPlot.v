(** * From the parameter files to the figures: main facts *)
From stdpp Require Import strings gmap.
From Verif Require Import FormatSpec Codec CodecFacts JsonSpec OutputSpec FloatFacts FloatValid Decimal64 DecimalFacts Output
  Plotting JsonFacts NumberFacts OutputFacts BenchmarkFacts MainBenchmark MainBenchmarkNumbers MainOutput Pipeline
  BenchmarkRuns MainBenchmarkFull PlotSpec PlotNames PlotFacts.

Lemma times_list (times : list Times) n a : length times = n →
  ∃ tm, times = map tm (seq a n) ∧ ∀ i, a ≤ i < a + n → times !! (i - a) = Some (tm i).
Proof.
  intros Hl. exists (λ i, default (mkTimes 0 0 None) (times !! (i - a))).
  assert (∀ i, a ≤ i < a + n → times !! (i - a) = Some (default (mkTimes 0 0 None) (times !! (i - a)))) as H.
  { intros i Hi. destruct (times !! (i - a)) eqn:E; [done|]. apply lookup_ge_None in E. lia. }
  split; [|done]. apply list_eq. intros i. rewrite list_lookup_fmap. destruct (decide (i < n)) as [Hi|Hi].
  - rewrite lookup_seq_lt by done. cbn [fmap option_fmap option_map]. rewrite <- H by lia. f_equal. lia.
  - rewrite lookup_seq_ge by lia. apply lookup_ge_None. lia.
Qed.

Lemma half_storable : storable half.
Proof. split; by vm_compute. Qed.
Lemma multiplier_storable k : k < 1000 → storable (multiplier k).
Proof.
  intros Hk. split; [apply of_usize_valid|].
  destruct (of_usize_int (N.of_nat k)) as [[_ ->]|(_ & m & e & -> & _)]; [lia|done..].
Qed.

(** ** The programs *)

Notation node_document shortest w rs tm :=
  (node_json shortest (ReziprocalSquareRoot half) (ReziprocalSquareRoot half) (m_seed w)
    (sweep_arrays 16 (seq 2 44) (λ size, size <=? 20) rs) (map tm (seq 2 44))).
Notation node_output_file shortest := (name (node_file shortest (ReziprocalSquareRoot half) (ReziprocalSquareRoot half))).
Notation density_document shortest w k rs tm :=
  (density_json shortest 20 (multiplier k) (m_seed w)
    (sweep_arrays 8 (seq 1 21) (λ _, false) rs) (map tm (seq 1 21))).
Notation density_output_file shortest k := (name (density_file shortest 20 (multiplier k))).

Lemma node_main_stored shortest bd induced w args ed cd fs o :
  induces_orders induced → machine_ok w →
  density_new (n_edge_density_type args) (n_edge_density args) = Val ed →
  density_new (n_correction_density_type args) (n_correction_density args) = Val cd →
  node_main shortest bd (m_fuel w) induced (m_rng w) (m_seed w) args (m_shots w) (m_creatable w) fs = Some o →
  ∃ rs tm,
    (∃ ts ks, node_timeouts = Val ts ∧ ks 2 = 0 ∧
      ∀ size, 2 ≤ size ≤ 45 → ∃ timeout, ts !! size = Some timeout ∧
        measured bd (m_fuel w) induced (m_rng w) size ed cd
          timeout (size <=? 20) (m_shots w size) (ks size) (rs size) (tm size) (ks (S size))) ∧
    Forall (Forall storable) (sweep_arrays 16 (seq 2 44) (λ size, size <=? 20) rs) ∧
    Forall (Forall finite_unsigned) (sweep_arrays 16 (seq 2 44) (λ size, size <=? 20) rs) ∧
    o = Val (<[name (node_file shortest ed cd) := json_print (node_json shortest ed cd (m_seed w)
      (sweep_arrays 16 (seq 2 44) (λ size, size <=? 20) rs) (map tm (seq 2 44)))]> fs).
Proof.
  intros Hind (Hrng & Hsh & Hc) E1 E2 Eo. unfold node_main in Eo.
  rewrite E1, E2 in Eo. cbn [rbind] in Eo.
  destruct (node_run bd (m_fuel w) induced (m_rng w) args (m_shots w)) as [o'|] eqn:Er; [|done].
  destruct (node_run_result _ _ _ _ _ _ _ Hind Hrng (λ size i, proj1 (Hsh size i)) Er)
    as [[_ [?|?]]|(ed' & cd' & ts & rs & times & ks & Ed & Ecd & Ets & -> & Hlen & Hk & Hm)]; [congruence..|].
  rewrite E1 in Ed. rewrite E2 in Ecd. injection Ed as <-. injection Ecd as <-.
  cbn [rbind] in Eo. injection Eo as <-. unfold write_output. rewrite Hc.
  destruct (times_list times 44 2 Hlen) as (tm & -> & Htm).
  destruct (node_run_numbers _ _ _ _ _ _ _ _ Hind Hrng Hsh Er) as (_ & _ & _ & rs' & E & _ & Hfin).
  exists rs, tm. split_and!; [|..|done].
  - exists ts, ks. split_and!; [done..|]. intros size Hsize. destruct (Hm size Hsize) as (timeout & t & T1 & T2 & T3).
    exists timeout. split; [done|]. rewrite Htm in T2 by lia. by injection T2 as <-.
  - apply arrays_storable; [apply arrays_valid|done].
  - done.
Qed.

Lemma parse_node x y a b :
  parse_benchmark (Some ("node", [("edge_density", VFloat x); ("correction_density", VFloat y);
    ("edge_density_type", VString a); ("correction_density_type", VString b)])) = Val (NodeArgs_ (mkNodeArgs x a y b)).
Proof. reflexivity. Qed.
Lemma half_density : density_new "reziprocal_square_root" half = Val (ReziprocalSquareRoot half).
Proof. by vm_compute. Qed.
Lemma node_line : benchmark_matches parse_f64 ("node" :: shell_words (default [] (splitlines node_dat !! 0))) =
  Some (Some ("node", [("edge_density", VFloat half); ("correction_density", VFloat half);
    ("edge_density_type", VString "reziprocal_square_root"); ("correction_density_type", VString "reziprocal_square_root")])).
Proof. by vm_compute. Qed.

Lemma node_called shortest bd induced w argv x fs fs' :
  induces_orders induced → machine_ok w →
  benchmark_matches parse_f64 argv =
    Some (Some ("node", [("edge_density", VFloat x); ("correction_density", VFloat x);
      ("edge_density_type", VString "reziprocal_square_root"); ("correction_density_type", VString "reziprocal_square_root")])) →
  density_new "reziprocal_square_root" x = Val (ReziprocalSquareRoot x) →
  results_main shortest bd induced w argv fs = Some fs' →
  ∃ rs tm,
    (∃ ts ks, node_timeouts = Val ts ∧ ks 2 = 0 ∧
      ∀ size, 2 ≤ size ≤ 45 → ∃ timeout, ts !! size = Some timeout ∧
        measured bd (m_fuel w) induced (m_rng w) size (ReziprocalSquareRoot x) (ReziprocalSquareRoot x)
          timeout (size <=? 20) (m_shots w size) (ks size) (rs size) (tm size) (ks (S size))) ∧
    Forall (Forall storable) (sweep_arrays 16 (seq 2 44) (λ size, size <=? 20) rs) ∧
    Forall (Forall finite_unsigned) (sweep_arrays 16 (seq 2 44) (λ size, size <=? 20) rs) ∧
    fs' = <[name (node_file shortest (ReziprocalSquareRoot x) (ReziprocalSquareRoot x)) :=
      json_print (node_json shortest (ReziprocalSquareRoot x) (ReziprocalSquareRoot x) (m_seed w)
        (sweep_arrays 16 (seq 2 44) (λ size, size <=? 20) rs) (map tm (seq 2 44)))]> fs.
Proof.
  intros Hind Hw Hm Eh H. unfold results_main in H. rewrite Hm, parse_node in H.
  destruct (node_main shortest bd (m_fuel w) induced (m_rng w) (m_seed w) _ (m_shots w) (m_creatable w) fs) as [o|] eqn:Eo;
    cbn [mbind option_bind] in H; [|done]. injection H as <-.
  destruct (node_main_stored _ _ _ _
    (mkNodeArgs x "reziprocal_square_root" x "reziprocal_square_root") _ _ _ _ Hind Hw Eh Eh Eo) as (rs & tm & H1 & H2 & H3 & ->).
  exists rs, tm. done.
Qed.

Lemma node_program shortest bd induced w fs fs' :
  induces_orders induced → machine_ok w →
  results_main shortest bd induced w ("node" :: shell_words (default [] (splitlines node_dat !! 0))) fs = Some fs' →
  ∃ rs tm, node_recorded bd induced w rs tm ∧
    Forall (Forall storable) (sweep_arrays 16 (seq 2 44) (λ size, size <=? 20) rs) ∧
    Forall (Forall finite_unsigned) (sweep_arrays 16 (seq 2 44) (λ size, size <=? 20) rs) ∧
    fs' = <[node_output_file shortest := json_print (node_document shortest w rs tm)]> fs.
Proof. intros Hind Hw H. exact (node_called shortest bd induced w _ half fs fs' Hind Hw node_line half_density H). Qed.

Lemma density_lines :
  Forall (λ k, benchmark_matches parse_f64 ("density" :: shell_words (default [] (splitlines density_dat !! (k - 1)))) =
    Some (Some ("density", [("num_nodes", VNumber 20); ("edge_density", VFloat (multiplier k))]))) (seq 1 21).
Proof. repeat constructor; by vm_compute. Qed.

Lemma density_program shortest bd induced w k fs fs' :
  induces_orders induced → machine_ok w → 1 ≤ k ≤ 21 →
  results_main shortest bd induced w ("density" :: shell_words (default [] (splitlines density_dat !! (k - 1)))) fs = Some fs' →
  ∃ rs tm, density_recorded bd induced w k rs tm ∧
    Forall (Forall storable) (sweep_arrays 8 (seq 1 21) (λ _, false) rs) ∧
    Forall (Forall finite_unsigned) (sweep_arrays 8 (seq 1 21) (λ _, false) rs) ∧
    fs' = <[density_output_file shortest k := json_print (density_document shortest w k rs tm)]> fs.
Proof.
  intros Hind (Hrng & Hsh & Hc) Hk H. unfold results_main in H.
  assert (k ∈ seq 1 21) as Hin by (apply elem_of_seq; lia).
  pose proof (proj1 (Forall_forall _ _) density_lines k Hin) as E. cbv beta in E.
  rewrite E in H. clear E. set (args := mkDensityArgs 20 (multiplier k)).
  change (parse_benchmark _) with (Val (DensityArgs_ args)) in H. cbv iota beta in H.
  destruct (density_main shortest bd (m_fuel w) induced (m_rng w) (m_seed w) args (m_shots w) (m_creatable w) fs) as [o|] eqn:Eo;
    cbn [mbind option_bind] in H; [|done]. injection H as <-.
  unfold density_main in Eo.
  destruct (density_run bd (m_fuel w) induced (m_rng w) args (m_shots w)) as [o'|] eqn:Er; [|done].
  assert (N.of_nat (d_num_nodes args) < 2 ^ 64 - 1)%N as Hsmall by by vm_compute.
  destruct (density_run_result _ _ _ _ _ _ _ Hind Hrng (λ m i, proj1 (Hsh m i)) Hsmall Er)
    as [[_ Hn]|(rs & times & ks & -> & Hlen & Hk1 & Hm)].
  { exfalso. apply Hn. change (d_edge_density_multiplier args) with (multiplier k).
    clear -Hin. revert k Hin. apply Forall_forall. repeat constructor; by vm_compute. }
  cbn [rbind] in Eo. injection Eo as <-. unfold write_output. rewrite Hc.
  destruct (times_list times 21 1 Hlen) as (tm & -> & Htm).
  assert (1 ≤ d_num_nodes args ≤ 1000) as Hsz by (change (d_num_nodes args) with 20; lia).
  destruct (density_run_numbers _ _ _ _ _ _ _ _ Hind Hrng Hsh Hsz Er) as (_ & rs' & E & _ & Hfin).
  exists rs, tm. split_and!; [|..|done].
  - exists ks. split_and!; [done..|]. intros m Hm'. destruct (Hm m Hm') as (timeout & t & T1 & T2 & T3).
    exists timeout. split; [done|]. rewrite Htm in T2 by lia. by injection T2 as <-.
  - apply arrays_storable; [apply arrays_valid|done].
  - done.
Qed.

(** ** Copies *)

Lemma copied_file fs1 fs2 (file : bytes) : copied fs1 fs2 → take 7 file = text "output/" →
  fs2 !! name (text "data" ++ drop 6 file) = fs1 !! name file.
Proof.
  intros H E. assert (file = text "output/" ++ drop 7 file) as -> by (by rewrite <- E, take_drop).
  generalize (drop 7 file). intros r. rewrite name_app.
  change (text "data" ++ drop 6 (text "output/" ++ r)) with (text "data/" ++ r). rewrite name_app. apply H.
Qed.

Lemma load_printed fs file v : printable v → fs !! name file = Some (json_print v) →
  load_file fs file = Some (py_of_json v).
Proof. intros Hv E. unfold load_file. rewrite E. cbn [mbind option_bind]. by rewrite print_load. Qed.

Lemma nodes_opened shortest fs : shows shortest →
  nodes_get_data shortest fs (half, half) = load_file fs (text "data" ++ drop 6
    (node_file shortest (ReziprocalSquareRoot half) (ReziprocalSquareRoot half))).
Proof.
  intros Hs. destruct half_storable as [Hv Hf].
  destruct (factor_texts shortest half Hs Hv ltac:(by vm_compute) ltac:(by vm_compute)) as [Ht _].
  assert (SFltb (tenth_power 4) half = true) as Hlt by by vm_compute. specialize (Ht (or_introl Hlt)). clear Hlt.
  destruct (stripped_density shortest (ReziprocalSquareRoot half) _ Hs (conj Hv Hf) Ht) as [E _].
  unfold nodes_get_data, node_file. rewrite !stripped_app, E. cbn [fst snd type_name]. generalize (py_repr shortest half).
  intros t. f_equal.
Qed.

Lemma node_parameters fs : fs !! "parameters/node.dat" = Some node_dat →
  get_parameters fs (text "node") = Some [(half, half)].
Proof. intros H. unfold get_parameters. change (name _) with "parameters/node.dat". rewrite H. by vm_compute. Qed.
Lemma density_parameters fs : fs !! "parameters/density.dat" = Some density_dat →
  get_parameters fs (text "density") = Some (map (λ k, (multiplier 20, multiplier k)) (seq 1 21)).
Proof. intros H. unfold get_parameters. change (name _) with "parameters/density.dat". rewrite H. by vm_compute. Qed.

Lemma node_file_head shortest : shows shortest →
  take 7 (node_file shortest (ReziprocalSquareRoot half) (ReziprocalSquareRoot half)) = text "output/".
Proof. intros Hs. unfold node_file. rewrite stripped_app. reflexivity. Qed.

(** ** The node figure *)

Lemma nodes_figure :
  ∀ shortest bd induced w fs fs1 fs2,
  shows shortest → induces_orders induced → machine_ok w →
  fs !! "parameters/node.dat" = Some node_dat →
  exe_node_hpc shortest bd induced w fs = Some fs1 →
  fs2 !! "parameters/node.dat" = Some node_dat → copied fs1 fs2 →
  ∃ rs tm, node_recorded bd induced w rs tm ∧
    nodes_main shortest fs2 =
      Some (mkAxes (map (time_curve rs) [0; 1; 2; 3]) (2, 44), mkAxes (map (space_curve rs) [0; 1; 2; 3]) (2, 44)) ∧
    nodes_appendix shortest fs2 = Some (map (time_bars rs) [0; 1; 2; 3], map (space_bars rs) [0; 1; 2; 3], (2, 44)) ∧
    runtimes_node shortest fs2 =
      Some (map (λ size, (size, Z.of_N (space_optimal_approximated (tm size)))) (seq 2 44),
            map (λ size, (size, Z.of_N (default 0%N (full (tm size))))) (seq 2 19)).
Proof.
  intros shortest bd induced w fs fs1 fs2 Hs Hind Hw Hp H Hp2 Hc.
  unfold exe_node_hpc, readarray, job in H. rewrite Hp in H.
  destruct (results_main _ _ _ _ _ ∅) as [new|] eqn:E; cbn [mbind option_bind] in H; [|done]. injection H as <-.
  apply node_program in E as (rs & tm & Hrec & Hst & Hun & ->); [|done..].
  exists rs, tm. split; [done|].
  set (file := node_file shortest (ReziprocalSquareRoot half) (ReziprocalSquareRoot half)) in *.
  assert (fs2 !! name (text "data" ++ drop 6 file) = Some (json_print (node_document shortest w rs tm))) as Hf.
  { rewrite (copied_file _ _ file Hc) by (by apply node_file_head). apply lookup_union_Some_l. by rewrite lookup_insert. }
  destruct (node_held shortest Hs (ReziprocalSquareRoot half) (ReziprocalSquareRoot half) (m_seed w)
    (sweep_arrays 16 (seq 2 44) (λ size, size <=? 20) rs) (map tm (seq 2 44)) half_storable half_storable Hst) as [_ Hpr].
  assert (nodes_get_data shortest fs2 (half, half) = Some (py_of_json (node_document shortest w rs tm))) as Hd.
  { rewrite nodes_opened by done. by apply load_printed. }
  destruct (node_members shortest Hs (ReziprocalSquareRoot half) (ReziprocalSquareRoot half) (m_seed w)
    (sweep_arrays 16 (seq 2 44) (λ size, size <=? 20) rs) (map tm (seq 2 44)) Hst) as [K1 K2].
  set (doc := py_of_json (node_document shortest w rs tm)) in *. split_and!.
  - unfold nodes_main. rewrite node_parameters by done. cbn [mbind option_bind]. change ([(half, half)] !! 0) with (Some (half, half)).
    cbn [mbind option_bind]. rewrite Hd. cbn [mbind option_bind]. rewrite K1. cbn [mbind option_bind].
    rewrite nodes_drawn. done.
  - unfold nodes_appendix. rewrite node_parameters by done. cbn [mbind option_bind]. change ([(half, half)] !! 0) with (Some (half, half)).
    cbn [mbind option_bind]. rewrite Hd. cbn [mbind option_bind]. rewrite K1. cbn [mbind option_bind].
    rewrite (appendix_drawn rs Hun). done.
  - unfold runtimes_node. rewrite node_parameters by done. cbn [mbind option_bind]. change ([(half, half)] !! 0) with (Some (half, half)).
    cbn [mbind option_bind]. rewrite Hd. cbn [mbind option_bind].
    destruct (runtimes_read doc _ K2) as [R1 R2]. rewrite R1, R2. cbn [mbind option_bind].
    rewrite !map_map, !map_length, seq_length.
    assert (omap (λ t, Z.of_N <$> full t) (map tm (seq 2 44)) = map (λ size, Z.of_N (default 0%N (full (tm size)))) (seq 2 19)) as Ho.
    { destruct Hrec as (ts & ks & _ & _ & Hm).
      assert (∀ size, 2 ≤ size ≤ 45 → full (tm size) = if size <=? 20 then Some (default 0%N (full (tm size))) else None) as Hfull.
      { intros size Hsz. destruct (Hm size Hsz) as (timeout & _ & _ & _ & _ & Et). rewrite Et. unfold average_times.
        cbn [full]. by destruct (size <=? 20). }
      change (seq 2 44) with (seq 2 19 ++ seq 21 25). rewrite map_app, omap_app.
      assert (∀ l, Forall (λ s, 2 ≤ s ≤ 20) l →
        omap (λ t, Z.of_N <$> full t) (map tm l) = map (λ size, Z.of_N (default 0%N (full (tm size)))) l) as A1.
      { induction 1 as [|s l Hs' _ IH]; [done|]. cbn [map]. change (omap ?f (?a :: ?r)) with (match f a with Some y => y :: omap f r | None => omap f r end).
        cbv beta. rewrite (Hfull s) by lia. assert (s <=? 20 = true) as -> by (apply Nat.leb_le; lia).
        cbn [fmap option_fmap option_map default]. by rewrite IH. }
      assert (∀ l, Forall (λ s, 21 ≤ s ≤ 45) l → omap (λ t, Z.of_N <$> full t) (map tm l) = []) as A2.
      { induction 1 as [|s l Hs' _ IH]; [done|]. cbn [map]. change (omap ?f (?a :: ?r)) with (match f a with Some y => y :: omap f r | None => omap f r end).
        cbv beta. rewrite (Hfull s) by lia. assert (s <=? 20 = false) as -> by (apply Nat.leb_gt; lia).
        cbn [fmap option_fmap option_map]. done. }
      rewrite A1, A2, app_nil_r; [done|..]; apply Forall_forall; intros s Hs'; apply elem_of_seq in Hs'; lia. }
    rewrite Ho, map_length, seq_length, !zip_map. done.
Qed.

(** ** The density figure *)

Lemma density_file_head shortest k : take 7 (density_file shortest 20 (multiplier k)) = text "output/".
Proof. reflexivity. Qed.

Definition density_stored (shortest : Digits) (bd : build) (induced : Frames → list nat → PartialOrderGraph)
    (w : Machine) (fs : Disk) (k : nat) (rs : nat → list Sample) (tm : nat → Times) : Prop :=
  density_recorded bd induced w k rs tm ∧
  Forall (Forall storable) (sweep_arrays 8 (seq 1 21) (λ _, false) rs) ∧
  Forall (Forall finite_unsigned) (sweep_arrays 8 (seq 1 21) (λ _, false) rs) ∧
  fs !! density_output_file shortest k = Some (json_print (density_document shortest w k rs tm)).

(** What the scripts find in the file of one run. *)
Lemma density_found shortest bd induced w fs1 fs2 k rs tm : shows shortest → k < 1000 → copied fs1 fs2 →
  density_stored shortest bd induced w fs1 k rs tm →
  ∃ doc, (∀ x, densities_get_data fs2 (x, multiplier k) = Some doc) ∧
    py_key doc (text "results") = Some (PList (map (λ l, PList (map PFloat l)) (sweep_arrays 8 (seq 1 21) (λ _, false) rs))) ∧
    py_key doc (text "time_results") = Some (PList (map py_times (map tm (seq 1 21)))).
Proof.
  intros Hs Hk Hc (_ & Hst & _ & Hf). exists (py_of_json (density_document shortest w k rs tm)). split.
  - intros x. rewrite (density_opened shortest fs2 k Hs Hk x). apply load_printed.
    + apply sweep_held; [done|by apply multiplier_storable|done].
    + by rewrite (copied_file fs1 fs2 _ Hc (density_file_head shortest k)).
  - by apply density_members.
Qed.

Definition panel_row (rs : nat → list Sample) (p : nat) : list f64 :=
  map (λ m, mean_of ((if Nat.even p then times_of else spaces_of) (strategy (p / 2)) (rs m))) (seq 1 21).

Lemma rows_drawn rs mm :
  image_rows (PList (map (λ l, PList (map PFloat l)) (sweep_arrays 8 (seq 1 21) (λ _, false) rs))) (seq 0 4) mm =
  Some (map (panel_row rs) (seq 0 4), spread mm (List.concat (map (panel_row rs) (seq 0 4)))).
Proof.
  set (dat := PList _).
  assert (∀ is mm, Forall (λ i, i < 4) is →
    image_rows dat is mm = Some (map (panel_row rs) is, spread mm (List.concat (map (panel_row rs) is)))) as H.
  { clear mm. induction is as [|i is IH]; intros mm Hi; [done|]. inversion_clear Hi as [|?? Hi1 Hi2].
    cbn [image_rows].
    assert (py_index dat (2 * i) = Some (PList (map PFloat (panel_row rs i)))) as Ei.
    { unfold dat, py_index. rewrite list_lookup_fmap, (density_array rs i Hi1). done. }
    rewrite Ei. cbn [mbind option_bind]. rewrite row_drawn.
    cbn [mbind option_bind]. rewrite IH by done. cbn [mbind option_bind map List.concat]. unfold spread. by rewrite foldl_app. }
  apply H. repeat constructor; lia.
Qed.

Lemma images_drawn fs2 (docs : nat → pyval) (rs : nat → nat → list Sample) x ks mm :
  (∀ k, k ∈ ks → densities_get_data fs2 (x, multiplier k) = Some (docs k) ∧
    py_key (docs k) (text "results") = Some (PList (map (λ l, PList (map PFloat l)) (sweep_arrays 8 (seq 1 21) (λ _, false) (rs k))))) →
  images_loop fs2 (map (λ k, (x, multiplier k)) ks) mm =
  Some (map (λ k, map (panel_row (rs k)) (seq 0 4)) ks,
        spread mm (List.concat (map (λ k, List.concat (map (panel_row (rs k)) (seq 0 4))) ks))).
Proof.
  revert mm. induction ks as [|k ks IH]; intros mm H; [done|]. cbn [map images_loop].
  destruct (H k) as [H1 H2]; [by left|]. rewrite H1. cbn [mbind option_bind]. rewrite H2. cbn [mbind option_bind].
  rewrite rows_drawn. cbn [mbind option_bind]. rewrite IH by (intros k' Hk'; apply H; by right).
  cbn [mbind option_bind List.concat]. unfold spread. by rewrite foldl_app.
Qed.

Lemma choice_list {A} (P : nat → A → Prop) (l : list nat) (a : A) :
  (∀ k, k ∈ l → ∃ x, P k x) → ∃ f, (∀ k, k ∈ l → P k (f k)) ∧ ∀ k, k ∉ l → f k = a.
Proof.
  induction l as [|k l IH]; intros H.
  - exists (λ _, a). split; [|done]. intros k Hk. by apply elem_of_nil in Hk.
  - destruct IH as [f [Hf Ha]]; [intros k' Hk'; apply H; by right|]. destruct (H k) as [x Hx]; [by left|].
    exists (λ k', if decide (k' = k) then x else f k'). split; intros k' Hk'.
    + destruct (decide (k' = k)) as [->|Hne]; [done|]. apply Hf. by apply elem_of_cons in Hk' as [?|?].
    + rewrite not_elem_of_cons in Hk'. destruct Hk' as [H1 H2]. rewrite decide_False by done. by apply Ha.
Qed.

Lemma panel_rows_unsigned rs p : p < 4 → Forall (Forall finite_unsigned) (sweep_arrays 8 (seq 1 21) (λ _, false) rs) →
  Forall finite_unsigned (panel_row rs p).
Proof. intros Hp H. rewrite Forall_lookup in H. apply (H (2 * p)). by apply density_array. Qed.

Lemma twenty_unsigned : finite_unsigned (f64_of_usize (N.of_nat numnodes)) ∧ finite_unsigned f64_zero.
Proof. by vm_compute. Qed.

Definition images_ok (rs : nat → nat → list Sample) (r : option (list (list (list f64)) * (f64 * f64))) : Prop :=
  ∃ lo hi, r = Some (map (panel_image rs) [0; 1; 2; 3], (lo, hi)) ∧
    (∀ p k m, p < 4 → 1 ≤ k ≤ 21 → 1 ≤ m ≤ 21 →
      SFltb (panel_value rs p k m) lo = false ∧ SFltb hi (panel_value rs p k m) = false) ∧
    (lo = f64_of_usize 20 ∨ ∃ p k m, (p < 4 ∧ 1 ≤ k ≤ 21 ∧ 1 ≤ m ≤ 21) ∧ lo = panel_value rs p k m) ∧
    (hi = f64_zero ∨ ∃ p k m, (p < 4 ∧ 1 ≤ k ≤ 21 ∧ 1 ≤ m ≤ 21) ∧ hi = panel_value rs p k m).

Lemma density_shown shortest bd induced (ws : nat → Machine) fs1 fs2 rs tm :
  shows shortest → copied fs1 fs2 → fs2 !! "parameters/density.dat" = Some density_dat →
  (∀ k, 1 ≤ k ≤ 21 → density_stored shortest bd induced (ws k) fs1 k (rs k) (tm k)) →
  images_ok rs (draw_images fs2) ∧
  ∃ lo hi, runtimes_density fs2 =
    Some (map (λ k, map (λ m, Z.of_N (space_optimal_approximated (tm k m))) (seq 1 21)) (seq 1 21), (lo, hi)) ∧
    (∀ k m, 1 ≤ k ≤ 21 → 1 ≤ m ≤ 21 → (lo <= Z.of_N (space_optimal_approximated (tm k m)) <= hi)%Z) ∧
    (lo = 999 * 60 * 1000000000 ∨ ∃ k m, (1 ≤ k ≤ 21 ∧ 1 ≤ m ≤ 21)%nat ∧ lo = Z.of_N (space_optimal_approximated (tm k m)))%Z ∧
    (hi = 0 ∨ ∃ k m, (1 ≤ k ≤ 21 ∧ 1 ≤ m ≤ 21)%nat ∧ hi = Z.of_N (space_optimal_approximated (tm k m)))%Z.
Proof.
  intros Hs Hc Hp Hst.
  destruct (choice_list (λ k doc, (∀ x, densities_get_data fs2 (x, multiplier k) = Some doc) ∧
    py_key doc (text "results") = Some (PList (map (λ l, PList (map PFloat l)) (sweep_arrays 8 (seq 1 21) (λ _, false) (rs k)))) ∧
    py_key doc (text "time_results") = Some (PList (map py_times (map (tm k) (seq 1 21))))) (seq 1 21) PNone) as [docs [Hd _]].
  { intros k Hk. apply elem_of_seq in Hk. eapply density_found; [done|lia|done|]. apply Hst. lia. }
  split.
  - unfold draw_images. rewrite density_parameters by done. cbn [mbind option_bind].
    rewrite (images_drawn fs2 docs rs).
    2: { intros k Hk. destruct (Hd k Hk) as (H1 & H2 & _). done. }
    cbn [mbind option_bind].
    assert (map (λ i, omap (λ r, r !! i) (map (λ k, map (panel_row (rs k)) (seq 0 4)) (seq 1 21))) (seq 0 4) =
      map (panel_image rs) [0; 1; 2; 3]) as Eimg.
    { change (seq 0 4) with [0; 1; 2; 3]. unfold panel_image, panel_value.
      assert (∀ i l, i < 4 → omap (λ r, r !! i) (map (λ k, map (panel_row (rs k)) [0; 1; 2; 3]) l) = map (λ k, panel_row (rs k) i) l) as Ho.
      { intros i l Hi. assert (i = 0 ∨ i = 1 ∨ i = 2 ∨ i = 3) as [->|[->|[->| ->]]] by lia;
          (induction l as [|k l IH]; [done|]; exact (f_equal (cons _) IH)). }
      apply list_eq. intros j. rewrite !list_lookup_fmap. destruct ([0; 1; 2; 3] !! j) as [i|] eqn:E; [|done].
      cbn [fmap option_fmap option_map]. f_equal. rewrite Ho; [done|].
      destruct j as [|[|[|[|j]]]]; try done; injection E as <-; lia. }
    rewrite Eimg.
    assert (forallb rectangular (map (panel_image rs) [0; 1; 2; 3]) = true) as Hrect.
    { apply forallb_forall. intros im Him. apply elem_of_list_In, elem_of_list_fmap in Him as (p & -> & _).
      unfold panel_image. change (seq 1 21) with (1 :: seq 2 20) at 2. cbn [map rectangular]. apply forallb_forall.
      intros r Hr. apply elem_of_list_In, elem_of_list_fmap in Hr as (k & -> & _). by rewrite !map_length, Nat.eqb_refl. }
    rewrite Hrect. destruct twenty_unsigned as [T1 T2].
    set (all := List.concat _).
    assert (∀ p k, p < 4 → 1 ≤ k ≤ 21 → ∀ x, x ∈ panel_row (rs k) p → x ∈ all) as Hall.
    { intros p k Hp' Hk x Hx. unfold all. apply elem_of_list_In, in_concat.
      exists (List.concat (map (panel_row (rs k)) (seq 0 4))). split.
      - apply in_map_iff. exists k. split; [done|]. apply in_seq. lia.
      - apply in_concat. exists (panel_row (rs k) p). split; [|by apply elem_of_list_In].
        apply in_map_iff. exists p. split; [done|]. apply in_seq. lia. }
    assert (Forall finite_unsigned all) as Hun.
    { apply Forall_concat. apply Forall_forall. intros l Hl. apply elem_of_list_fmap in Hl as (k & -> & Hk).
      apply Forall_concat. apply Forall_forall. intros l Hl. apply elem_of_list_fmap in Hl as (p & -> & Hp').
      apply elem_of_seq in Hk, Hp'. apply panel_rows_unsigned; [lia|]. apply Hst. lia. }
    pose proof (spread_covers all _ _ T1 T2 Hun) as Hcov.
    destruct (spread (f64_of_usize (N.of_nat numnodes), f64_zero) all) as [lo hi].
    assert (∀ x, x ∈ all → ∃ p k m, (p < 4 ∧ 1 ≤ k ≤ 21 ∧ 1 ≤ m ≤ 21) ∧ x = panel_value rs p k m) as Hfrom.
    { clear -all. intros x Hx. unfold all in Hx. apply elem_of_list_In, in_concat in Hx as (l & Hl & Hx).
      apply in_map_iff in Hl as (k & <- & Hk). apply in_concat in Hx as (l & Hl & Hx).
      apply in_map_iff in Hl as (p & <- & Hp). apply in_map_iff in Hx as (m & <- & Hm).
      apply in_seq in Hk, Hp, Hm. exists p, k, m. split; [lia|done]. }
    destruct Hcov as (_ & _ & C3 & C4 & C1 & C2). exists lo, hi. split; [done|]. split.
    2: { split; [destruct C3 as [->|C3]; [by left|right; by apply Hfrom]|destruct C4 as [->|C4]; [by left|right; by apply Hfrom]]. }
    intros p k m Hp' Hk Hm. assert (panel_value rs p k m ∈ all) as Hin.
    { apply (Hall p k Hp' Hk). unfold panel_row, panel_value. apply elem_of_list_fmap. exists m. split; [done|].
      apply elem_of_seq. lia. }
    split; [apply C1|apply C2]; by right.
  - unfold runtimes_density. rewrite density_parameters by done. cbn [mbind option_bind].
    assert (∀ ks, (∀ k, k ∈ ks → k ∈ seq 1 21) →
      mapM (λ para : f64 * f64, d ← densities_get_data fs2 para; runtimes_of d (text "space_optimal_approximated"))
        (map (λ k, (multiplier 20, multiplier k)) ks) =
      Some (map (λ k, map (λ m, Z.of_N (space_optimal_approximated (tm k m))) (seq 1 21)) ks)) as Hmap.
    { induction ks as [|k ks IH]; intros Hks; [done|]. cbn [map].
      change (mapM ?f (?a :: ?l)) with (y ← f a; r ← mapM f l; Some (y :: r)). cbv beta.
      destruct (Hd k) as (H1 & _ & H3); [apply Hks; by left|]. rewrite H1. cbn [mbind option_bind].
      destruct (runtimes_read _ _ H3) as [R1 _]. rewrite R1, map_map. cbn [mbind option_bind].
      rewrite IH by (intros k' Hk'; apply Hks; by right). done. }
    rewrite Hmap by done. cbn [mbind option_bind].
    set (rows := map _ (seq 1 21)). 
    assert (∀ l mn mx, let '(lo, hi) := foldl (λ '(mn, mx) n, (Z.min mn n, Z.max mx n)) (mn, mx) l in
      (lo <= mn ∧ mx <= hi ∧ (∀ n, n ∈ l → lo <= n <= hi) ∧ (lo = mn ∨ lo ∈ l) ∧ (hi = mx ∨ hi ∈ l))%Z) as Hfold.
    { induction l as [|n l IH]; intros mn mx; cbn [foldl].
      - split_and!; [lia..| |by left|by left]. intros n Hn. by apply elem_of_nil in Hn.
      - specialize (IH (Z.min mn n) (Z.max mx n)). destruct (foldl _ _ l) as [lo hi]. destruct IH as (L1 & L2 & L3 & L4 & L5).
        split_and!; [lia..| | |].
        + intros n' [->|Hn']%elem_of_cons; [lia|by apply L3].
        + destruct L4 as [->|L4]; [|right; by right]. destruct (Z.min_spec mn n) as [[_ ->]|[_ ->]]; [by left|right; by left].
        + destruct L5 as [->|L5]; [|right; by right]. destruct (Z.max_spec mx n) as [[_ ->]|[_ ->]]; [right; by left|by left]. }
    specialize (Hfold (List.concat rows) (999 * 60 * 1000000000)%Z 0%Z).
    destruct (foldl _ _ (List.concat rows)) as [lo hi]. destruct Hfold as (_ & _ & L3 & L4 & L5).
    assert (∀ x, x ∈ List.concat rows → ∃ k m, (1 ≤ k ≤ 21 ∧ 1 ≤ m ≤ 21)%nat ∧ x = Z.of_N (space_optimal_approximated (tm k m))) as Hfrom.
    { clear -rows. intros x Hx. apply elem_of_list_In, in_concat in Hx as (l & Hl & Hx). unfold rows in Hl.
      apply in_map_iff in Hl as (k & <- & Hk). apply in_map_iff in Hx as (m & <- & Hm).
      apply in_seq in Hk, Hm. exists k, m. split; [lia|done]. }
    exists lo, hi. split; [done|]. split.
    2: { split; [destruct L4 as [->|L4]; [by left|right; by apply Hfrom]|destruct L5 as [->|L5]; [by left|right; by apply Hfrom]]. }
    intros k m Hk Hm. apply L3. apply elem_of_list_In, in_concat.
    exists (map (λ m, Z.of_N (space_optimal_approximated (tm k m))) (seq 1 21)). split.
    + unfold rows. apply in_map_iff. exists k. split; [done|]. apply in_seq. lia.
    + apply in_map_iff. exists m. split; [done|]. apply in_seq. lia.
Qed.

Section density_runs.
Context (shortest : Digits) (bd : build) (induced : Frames → list nat → PartialOrderGraph) (ws : nat → Machine).
Context (Hs : shows shortest) (Hind : induces_orders induced) (Hw : ∀ i, machine_ok (ws i)).
Context (machine : nat → nat).

Definition all_stored (done : list nat) (fs : Disk) : Prop :=
  ∀ k, k ∈ done → ∃ r, density_stored shortest bd induced (ws (machine k)) fs k (fst r) (snd r).

Lemma stored_more (done : list nat) fs k rs tm :
  Forall (λ k, 1 ≤ k ≤ 21) (k :: done) → k ∉ done → all_stored done fs →
  density_recorded bd induced (ws (machine k)) k rs tm →
  Forall (Forall storable) (sweep_arrays 8 (seq 1 21) (λ _, false) rs) →
  Forall (Forall finite_unsigned) (sweep_arrays 8 (seq 1 21) (λ _, false) rs) →
  all_stored (k :: done) (<[density_output_file shortest k := json_print (density_document shortest (ws (machine k)) k rs tm)]> fs).
Proof.
  intros Hin Hk Hd H1 H2 H3 k' [->|Hk']%elem_of_cons.
  - exists (rs, tm). split_and!; [done..|]. apply lookup_insert.
  - destruct (Hd k' Hk') as ([rs' tm'] & A1 & A2 & A3 & A4). exists (rs', tm'). split_and!; [done..|].
    rewrite lookup_insert_ne; [done|]. intros E. inversion_clear Hin as [|?? Hk1 Hin'].
    rewrite Forall_forall in Hin'. specialize (Hin' k' Hk').
    apply density_file_apart in E; [|done|lia|lia]. by subst.
Qed.
End density_runs.

Lemma all_stored_perm shortest bd induced ws machine l l' fs : (∀ k, k ∈ l' → k ∈ l) →
  all_stored shortest bd induced ws machine l fs → all_stored shortest bd induced ws machine l' fs.
Proof. intros Hsub H k Hk. apply H. by apply Hsub. Qed.

Lemma none_stored shortest bd induced ws machine fs : all_stored shortest bd induced ws machine [] fs.
Proof. intros k Hk. by apply elem_of_nil in Hk. Qed.

Lemma parameters_kept shortest k v (fs : Disk) :
  <[density_output_file shortest k := v]> fs !! "parameters/density.dat" = fs !! "parameters/density.dat".
Proof. by apply lookup_insert_ne. Qed.

(** The loop of exe_density_local.bash. *)
Lemma local_stored shortest bd induced ws (Hs : shows shortest) (Hind : induces_orders induced) (Hw : ∀ i, machine_ok (ws i)) n :
  ∀ i fs fs', n + i = 21 → density_runs shortest bd induced ws i (drop i (splitlines density_dat)) fs = Some fs' →
  all_stored shortest bd induced ws pred (seq 1 i) fs → all_stored shortest bd induced ws pred (seq 1 21) fs'.
Proof.
  induction n as [|n IH]; intros i fs fs' Hn H Hd.
  - assert (i = 21) as -> by lia. change (drop 21 (splitlines density_dat)) with (@nil bytes) in H. by injection H as <-.
  - destruct (splitlines density_dat !! i) as [line|] eqn:El.
    2: { apply lookup_ge_None in El. change (length (splitlines density_dat)) with 21 in El. lia. }
    rewrite (drop_S _ line) in H by done. cbn [density_runs] in H.
    destruct (results_main _ _ _ (ws i) _ fs) as [fs1|] eqn:E; cbn [mbind option_bind] in H; [|done].
    assert (line = default [] (splitlines density_dat !! (S i - 1))) as Eline.
    { replace (S i - 1) with i by lia. by rewrite El. }
    rewrite Eline in E. apply density_program in E as (rs & tm & H1 & H2 & H3 & ->); [|done|done|lia].
    eapply (IH (S i)); [lia|exact H|]. eapply all_stored_perm; [|apply (stored_more _ _ _ ws Hs pred (seq 1 i)); try done].
    + intros k Hk. apply elem_of_seq in Hk. apply elem_of_cons. destruct (decide (k = S i)); [by left|right; apply elem_of_seq; lia].
    + constructor; [lia|]. apply Forall_seq. lia.
    + rewrite elem_of_seq. lia.
Qed.

(** The array of jobs. *)
Lemma jobs_stored shortest bd induced ws (Hs : shows shortest) (Hind : induces_orders induced) (Hw : ∀ i, machine_ok (ws i)) order :
  ∀ done fs fs', Forall (λ k, 1 ≤ k ≤ 21) (order ++ done) → NoDup (order ++ done) →
  fs !! "parameters/density.dat" = Some density_dat →
  density_jobs shortest bd induced ws order fs = Some fs' →
  all_stored shortest bd induced ws id done fs → all_stored shortest bd induced ws id (order ++ done) fs'.
Proof.
  induction order as [|k order IH]; intros done fs fs' Hr Hnd Hp H Hd; [by injection H as <-|].
  cbn [density_jobs] in H. unfold exe_density_hpc at 1, readarray, job in H. rewrite Hp in H.
  cbn [mbind option_bind default] in H.
  destruct (results_main _ _ _ (ws k) _ ∅) as [new|] eqn:E; cbn [mbind option_bind] in H; [|done].
  cbn [app] in Hr, Hnd. inversion_clear Hr as [|?? Hk Hr']. inversion_clear Hnd as [|?? Hk' Hnd'].
  apply density_program in E as (rs & tm & H1 & H2 & H3 & ->); [|done|done|done].
  rewrite <- (insert_union_l ∅ fs), (left_id_L ∅ (∪) fs) in H.
  eapply all_stored_perm; [|eapply (IH (k :: done)); [..|exact H|apply (stored_more _ _ _ ws Hs id done); try done]].
  - intros k'. set_solver +.
  - rewrite <- Permutation_middle. by constructor.
  - rewrite <- Permutation_middle. by constructor.
  - by rewrite parameters_kept.
  - constructor; [done|]. by apply Forall_app in Hr' as [_ ?].
  - intros Hin. apply Hk'. apply elem_of_app. by right.
Qed.

Lemma density_figure_of shortest bd induced ws (machine : nat → nat) fs1 fs2 :
  shows shortest → copied fs1 fs2 → fs2 !! "parameters/density.dat" = Some density_dat →
  all_stored shortest bd induced ws machine (seq 1 21) fs1 →
  ∃ rs tm, (∀ k, 1 ≤ k ≤ 21 → density_recorded bd induced (ws (machine k)) k (rs k) (tm k)) ∧
    (∃ lo hi, draw_images fs2 = Some (map (panel_image rs) [0; 1; 2; 3], (lo, hi)) ∧
      (∀ p k m, p < 4 → 1 ≤ k ≤ 21 → 1 ≤ m ≤ 21 →
        SFltb (panel_value rs p k m) lo = false ∧ SFltb hi (panel_value rs p k m) = false) ∧
      (lo = f64_of_usize 20 ∨ ∃ p k m, (p < 4 ∧ 1 ≤ k ≤ 21 ∧ 1 ≤ m ≤ 21) ∧ lo = panel_value rs p k m) ∧
      (hi = f64_zero ∨ ∃ p k m, (p < 4 ∧ 1 ≤ k ≤ 21 ∧ 1 ≤ m ≤ 21) ∧ hi = panel_value rs p k m)) ∧
    (∃ lo hi, runtimes_density fs2 =
        Some (map (λ k, map (λ m, Z.of_N (space_optimal_approximated (tm k m))) (seq 1 21)) (seq 1 21), (lo, hi)) ∧
      (∀ k m, 1 ≤ k ≤ 21 → 1 ≤ m ≤ 21 → (lo <= Z.of_N (space_optimal_approximated (tm k m)) <= hi)%Z) ∧
      (lo = 999 * 60 * 1000000000 ∨ ∃ k m, (1 ≤ k ≤ 21 ∧ 1 ≤ m ≤ 21)%nat ∧ lo = Z.of_N (space_optimal_approximated (tm k m)))%Z ∧
      (hi = 0 ∨ ∃ k m, (1 ≤ k ≤ 21 ∧ 1 ≤ m ≤ 21)%nat ∧ hi = Z.of_N (space_optimal_approximated (tm k m)))%Z).
Proof.
  intros Hs Hc Hp Hst.
  destruct (choice_list _ (seq 1 21) ((λ _, []), (λ _, mkTimes 0 0 None)) Hst) as [f [Hf _]]. cbv beta in Hf.
  exists (λ k, fst (f k)), (λ k, snd (f k)).
  assert (∀ k, 1 ≤ k ≤ 21 → density_stored shortest bd induced (ws (machine k)) fs1 k (fst (f k)) (snd (f k))) as H.
  { intros k Hk. apply Hf. apply elem_of_seq. lia. }
  split; [intros k Hk; by apply (H k Hk)|].
  exact (density_shown shortest bd induced (λ k, ws (machine k)) fs1 fs2 _ _ Hs Hc Hp H).
Qed.

Lemma density_figure_local :
  ∀ shortest bd induced ws fs fs1 fs2,
  shows shortest → induces_orders induced → (∀ i, machine_ok (ws i)) →
  fs !! "parameters/density.dat" = Some density_dat →
  exe_density_local shortest bd induced ws fs = Some fs1 →
  fs2 !! "parameters/density.dat" = Some density_dat → copied fs1 fs2 →
  ∃ rs tm, (∀ k, 1 ≤ k ≤ 21 → density_recorded bd induced (ws (pred k)) k (rs k) (tm k)) ∧
    (∃ lo hi, draw_images fs2 = Some (map (panel_image rs) [0; 1; 2; 3], (lo, hi)) ∧
      (∀ p k m, p < 4 → 1 ≤ k ≤ 21 → 1 ≤ m ≤ 21 →
        SFltb (panel_value rs p k m) lo = false ∧ SFltb hi (panel_value rs p k m) = false) ∧
      (lo = f64_of_usize 20 ∨ ∃ p k m, (p < 4 ∧ 1 ≤ k ≤ 21 ∧ 1 ≤ m ≤ 21) ∧ lo = panel_value rs p k m) ∧
      (hi = f64_zero ∨ ∃ p k m, (p < 4 ∧ 1 ≤ k ≤ 21 ∧ 1 ≤ m ≤ 21) ∧ hi = panel_value rs p k m)) ∧
    (∃ lo hi, runtimes_density fs2 =
        Some (map (λ k, map (λ m, Z.of_N (space_optimal_approximated (tm k m))) (seq 1 21)) (seq 1 21), (lo, hi)) ∧
      (∀ k m, 1 ≤ k ≤ 21 → 1 ≤ m ≤ 21 → (lo <= Z.of_N (space_optimal_approximated (tm k m)) <= hi)%Z) ∧
      (lo = 999 * 60 * 1000000000 ∨ ∃ k m, (1 ≤ k ≤ 21 ∧ 1 ≤ m ≤ 21)%nat ∧ lo = Z.of_N (space_optimal_approximated (tm k m)))%Z ∧
      (hi = 0 ∨ ∃ k m, (1 ≤ k ≤ 21 ∧ 1 ≤ m ≤ 21)%nat ∧ hi = Z.of_N (space_optimal_approximated (tm k m)))%Z).
Proof.
  intros shortest bd induced ws fs fs1 fs2 Hs Hind Hw Hp H Hp2 Hc.
  unfold exe_density_local, readarray in H. rewrite Hp in H.
  apply (density_figure_of shortest bd induced ws pred fs1 fs2 Hs Hc Hp2).
  apply (local_stored shortest bd induced ws Hs Hind Hw 21 0 fs fs1); [done|exact H|]. apply none_stored.
Qed.

Lemma density_figure_hpc :
  ∀ shortest bd induced ws order fs fs1 fs2,
  shows shortest → induces_orders induced → (∀ i, machine_ok (ws i)) →
  order ≡ₚ seq 1 21 →
  fs !! "parameters/density.dat" = Some density_dat →
  density_jobs shortest bd induced ws order fs = Some fs1 →
  fs2 !! "parameters/density.dat" = Some density_dat → copied fs1 fs2 →
  ∃ rs tm, (∀ k, 1 ≤ k ≤ 21 → density_recorded bd induced (ws k) k (rs k) (tm k)) ∧
    (∃ lo hi, draw_images fs2 = Some (map (panel_image rs) [0; 1; 2; 3], (lo, hi)) ∧
      (∀ p k m, p < 4 → 1 ≤ k ≤ 21 → 1 ≤ m ≤ 21 →
        SFltb (panel_value rs p k m) lo = false ∧ SFltb hi (panel_value rs p k m) = false) ∧
      (lo = f64_of_usize 20 ∨ ∃ p k m, (p < 4 ∧ 1 ≤ k ≤ 21 ∧ 1 ≤ m ≤ 21) ∧ lo = panel_value rs p k m) ∧
      (hi = f64_zero ∨ ∃ p k m, (p < 4 ∧ 1 ≤ k ≤ 21 ∧ 1 ≤ m ≤ 21) ∧ hi = panel_value rs p k m)) ∧
    (∃ lo hi, runtimes_density fs2 =
        Some (map (λ k, map (λ m, Z.of_N (space_optimal_approximated (tm k m))) (seq 1 21)) (seq 1 21), (lo, hi)) ∧
      (∀ k m, 1 ≤ k ≤ 21 → 1 ≤ m ≤ 21 → (lo <= Z.of_N (space_optimal_approximated (tm k m)) <= hi)%Z) ∧
      (lo = 999 * 60 * 1000000000 ∨ ∃ k m, (1 ≤ k ≤ 21 ∧ 1 ≤ m ≤ 21)%nat ∧ lo = Z.of_N (space_optimal_approximated (tm k m)))%Z ∧
      (hi = 0 ∨ ∃ k m, (1 ≤ k ≤ 21 ∧ 1 ≤ m ≤ 21)%nat ∧ hi = Z.of_N (space_optimal_approximated (tm k m)))%Z).
Proof.
  intros shortest bd induced ws order fs fs1 fs2 Hs Hind Hw Ho Hp H Hp2 Hc.
  apply (density_figure_of shortest bd induced ws id fs1 fs2 Hs Hc Hp2).
  eapply all_stored_perm; [|eapply (jobs_stored shortest bd induced ws Hs Hind Hw order [] fs fs1); [..|exact H|]].
  - intros k Hk. rewrite app_nil_r, Ho. done.
  - rewrite app_nil_r, Ho. apply Forall_seq. lia.
  - rewrite app_nil_r, Ho. apply NoDup_seq.
  - done.
  - apply none_stored.
Qed.

(** ** What the figures do not show *)

Lemma curve_cut a i (f : nat → option f64) : i < 2 → a_xlim a = (2, 44) →
  visible a (mkCurve i (map (λ size, (size, f size)) (sizes_of i))) = map (λ size, (size, f size)) (seq 2 43).
Proof.
  intros Hi E. unfold visible. rewrite E. cbn [fst snd c_points]. by assert (i = 0 ∨ i = 1) as [->| ->] by lia.
Qed.

(** The largest size is computed but lies outside of the figure. *)
Lemma last_size_hidden :
  ∀ shortest bd induced w fs fs1 fs2 a b i,
  shows shortest → induces_orders induced → machine_ok w →
  fs !! "parameters/node.dat" = Some node_dat →
  exe_node_hpc shortest bd induced w fs = Some fs1 →
  fs2 !! "parameters/node.dat" = Some node_dat → copied fs1 fs2 →
  nodes_main shortest fs2 = Some (a, b) → i < 2 →
  ∃ c d, a_curves a !! i = Some c ∧ a_curves b !! i = Some d ∧
    map fst (c_points c) = seq 2 44 ∧ map fst (visible a c) = seq 2 43 ∧
    map fst (c_points d) = seq 2 44 ∧ map fst (visible b d) = seq 2 43.
Proof.
  intros shortest bd induced w fs fs1 fs2 a b i Hs Hind Hw Hp H Hp2 Hc Hm Hi.
  destruct (nodes_figure shortest bd induced w fs fs1 fs2 Hs Hind Hw Hp H Hp2 Hc) as (rs & tm & _ & E & _).
  rewrite E in Hm. injection Hm as <- <-. exists (time_curve rs i), (space_curve rs i).
  unfold time_curve, space_curve. cbn [c_points a_curves].
  rewrite !(curve_cut _ i) by done. assert (i = 0 ∨ i = 1) as [->| ->] by lia; rewrite !map_map; done.
Qed.

(** ** Other parameters *)

(** The script for the nodes finds the file of the program if both factors are
    larger than 1e-4 or smaller than 1e-9 ... *)
Lemma nodes_name_found :
  ∀ shortest x y fs, shows shortest → valid x → valid y →
  SFleb f64_zero x = true → SFleb x f64_one = true → SFleb f64_zero y = true → SFleb y f64_one = true →
  (SFltb (tenth_power 4) x = true ∨ SFltb x (tenth_power 9) = true) →
  (SFltb (tenth_power 4) y = true ∨ SFltb y (tenth_power 9) = true) →
  nodes_get_data shortest fs (x, y) =
    load_file fs (text "data" ++ drop 6 (node_file shortest (ReziprocalSquareRoot x) (ReziprocalSquareRoot y))).
Proof.
  intros shortest x y fs Hs Hx Hy Hx0 Hx1 Hy0 Hy1 Rx Ry.
  destruct (factor_texts shortest x Hs Hx Hx0 Hx1) as [Tx _], (factor_texts shortest y Hs Hy Hy0 Hy1) as [Ty _].
  specialize (Tx Rx). specialize (Ty Ry).
  assert (∀ z, valid z → SFleb f64_zero z = true → SFleb z f64_one = true → storable z) as Hst.
  { intros z Hz H0 H1. split; [done|]. destruct z as [|[]| |]; done. }
  destruct (stripped_density shortest (ReziprocalSquareRoot x) _ Hs (Hst x Hx Hx0 Hx1) Tx) as [Ex _].
  destruct (stripped_density shortest (ReziprocalSquareRoot y) _ Hs (Hst y Hy Hy0 Hy1) Ty) as [Ey _].
  unfold nodes_get_data, node_file. rewrite !stripped_app, Ex, Ey. cbn [fst snd type_name].
  generalize (py_repr shortest x), (py_repr shortest y). intros t t'. f_equal.
Qed.

(** ... and does not find it if the first one lies in between. *)
Lemma nodes_name_missed :
  ∀ shortest x y contents, shows shortest → valid x → valid y →
  SFleb f64_zero x = true → SFleb x f64_one = true → SFleb f64_zero y = true → SFleb y f64_one = true →
  SFltb (tenth_power 9) x = true → SFltb x (tenth_power 4) = true →
  (SFltb (tenth_power 4) y = true ∨ SFltb y (tenth_power 9) = true) →
  nodes_get_data shortest
    {[name (text "data" ++ drop 6 (node_file shortest (ReziprocalSquareRoot x) (ReziprocalSquareRoot y))) := contents]}
    (x, y) = None.
Proof.
  intros shortest x y contents Hs Hx Hy Hx0 Hx1 Hy0 Hy1 Rx1 Rx2 Ry.
  destruct (factor_texts shortest x Hs Hx Hx0 Hx1) as [_ Tx], (factor_texts shortest y Hs Hy Hy0 Hy1) as [Ty _].
  specialize (Tx Rx1 Rx2). specialize (Ty Ry).
  assert (∀ z, valid z → SFleb f64_zero z = true → SFleb z f64_one = true → storable z) as Hst.
  { intros z Hz H0 H1. split; [done|]. destruct z as [|[]| |]; done. }
  pose proof (Hst x Hx Hx0 Hx1) as Sx. destruct (ryu_shown shortest x Hs (proj1 Sx) (proj2 Sx)) as (n & t & Et & _).
  destruct (stripped_density shortest (ReziprocalSquareRoot x) _ Hs Sx Et) as [Ex _].
  destruct (stripped_density shortest (ReziprocalSquareRoot y) _ Hs (Hst y Hy Hy0 Hy1) Ty) as [Ey _].
  unfold nodes_get_data, load_file. rewrite lookup_singleton_ne; [done|].
  intros E. apply name_inj in E. unfold node_file in E. rewrite !stripped_app, Ex, Ey in E. cbn [fst snd type_name] in E.
  apply Tx. rewrite Et. f_equal. clear -E. revert E. generalize (py_repr shortest x), (py_repr shortest y). intros u v E.
  change (text "data/node-reziprocal_square_root:" ++ t ++ text "_reziprocal_square_root:" ++ v ++ text ".json" =
    text "data/node-reziprocal_square_root:" ++ u ++ text "_reziprocal_square_root:" ++ v ++ text ".json") in E.
  apply app_inv_head in E. by apply app_inv_tail in E.
Qed.

(** The script for the densities reads the file for 20 nodes, also if the line of the
    parameters asks for another number. *)
Lemma densities_other_size :
  ∀ shortest n k contents, shows shortest → k < 1000 → n ≠ 20 →
  densities_get_data {[name (text "data" ++ drop 6 (density_file shortest n (multiplier k))) := contents]}
    (multiplier n, multiplier k) = None.
Proof.
  intros shortest n k contents Hs Hk Hne. rewrite (density_opened shortest _ k Hs Hk (multiplier n)).
  unfold load_file. rewrite lookup_singleton_ne; [done|]. intros E. apply name_inj in E. apply Hne.
  unfold density_file in E. revert E. generalize (rust_display shortest (multiplier k)). intros t E.
  set (suffix := text "_numdensities:" ++ json_write_usize (N.of_nat NUM_DENSITIES) ++ text "_density:" ++ t ++ text ".json") in E.
  change (text "data/density-numnodes:" ++ json_write_usize (N.of_nat n) ++ suffix =
    text "data/density-numnodes:" ++ json_write_usize (N.of_nat 20) ++ suffix) in E.
  apply app_inv_head in E. apply app_inv_tail in E.
  destruct (write_usize_digits (N.of_nat n)) as (ds & D & V & _), (write_usize_digits (N.of_nat 20)) as (ds' & D' & V' & _).
  rewrite E in D. pose proof (digits_as_unique _ _ _ D D') as ->. lia.
Qed.

(** ** Time *)

(** The searches of the sizes get at most the time of the job, those of the densities
    may take more. *)
Lemma node_job_budget :
  ∃ ts, node_timeouts = Val ts ∧
  (N.of_nat NUM_AVERAGE * (foldr N.add 0 ts + TIMEOUT_PER_SINGLE_SHOT_EXACT_SWEEP) ≤ node_job_walltime)%N.
Proof.
  destruct node_timeouts_budget as (ts & E & H & _). exists ts. split; [done|]. etransitivity; [exact H|].
  by vm_compute.
Qed.
Lemma density_job_budget_refuted :
  ¬ (N.of_nat NUM_AVERAGE * foldr N.add 0 density_timeouts ≤ density_job_walltime)%N.
Proof. by vm_compute. Qed.

(** ** There are such runs *)

Lemma machine_exists rng (gens : Generators) (exp : f64 → f64) :
  (∀ k n, 0 < n → r_range rng k n < n) → exp_function exp → exp_near_zero exp → ∃ w, machine_ok w ∧ m_rng w = rng.
Proof.
  intros Hr H1 H2. destruct (shot_exists gens exp) as (shot & S1 & S2 & S3).
  exists (mkMachine 0 0 rng (λ _ _, shot) (λ _, true)). split; [|done]. split_and!; [done| |done].
  intros a i. split; [done|]. unfold shot_exp. cbn [m_shots]. by rewrite S3.
Qed.

Lemma shots_ok gens exp (shots : nat → nat → Shot) : exp_function exp → exp_near_zero exp →
  (∀ a i, shot_with gens exp (shots a i)) → ∀ a i, shot_ok (shots a i) ∧ shot_exp (shots a i).
Proof. intros H1 H2 H a i. destruct (H a i) as (S1 & S2 & S3). split; [done|]. unfold shot_exp. by rewrite S3. Qed.

Lemma node_possible :
  ∀ shortest bd induced rng seed (gens : Generators) (exp : f64 → f64) fs,
  induces_orders induced → (∀ k n, 0 < n → r_range rng k n < n) → exp_function exp → exp_near_zero exp →
  fs !! "parameters/node.dat" = Some node_dat →
  ∃ w, machine_ok w ∧ m_rng w = rng ∧ m_seed w = seed ∧ is_Some (exe_node_hpc shortest bd induced w fs).
Proof.
  intros shortest bd induced rng seed gens exp fs Hind Hr H1 H2 Hp.
  set (args := mkNodeArgs half "reziprocal_square_root" half "reziprocal_square_root").
  destruct (node_run_possible bd induced rng args gens exp Hind Hr) as (shots & fuel & o & Hsh & Ho).
  exists (mkMachine fuel seed rng shots (λ _, true)). split_and!.
  { split_and!; [done| |done]. by eapply shots_ok. }
  { done. } { done. }
  unfold exe_node_hpc, readarray, job, results_main. rewrite Hp, node_line, parse_node. fold args.
  unfold node_main. cbn [m_fuel m_seed m_rng m_shots m_creatable]. rewrite Ho.
  change (n_edge_density_type args) with "reziprocal_square_root".
  change (n_correction_density_type args) with "reziprocal_square_root".
  change (n_edge_density args) with half. change (n_correction_density args) with half. rewrite half_density.
  destruct o as [[results times]|]; cbn [rbind mbind option_bind]; by eexists.
Qed.

Lemma density_line_possible shortest bd induced rng (gens : Generators) (exp : f64 → f64) k :
  induces_orders induced → (∀ k n, 0 < n → r_range rng k n < n) → exp_function exp → exp_near_zero exp → 1 ≤ k ≤ 21 →
  ∃ w, (machine_ok w ∧ m_rng w = rng) ∧ ∀ fs, is_Some (results_main shortest bd induced w
    ("density" :: shell_words (default [] (splitlines density_dat !! (k - 1)))) fs).
Proof.
  intros Hind Hr H1 H2 Hk. set (args := mkDensityArgs 20 (multiplier k)).
  assert (N.of_nat (d_num_nodes args) < 2 ^ 64 - 1)%N as Hsmall by by vm_compute.
  destruct (density_run_possible bd induced rng args gens exp Hind Hr Hsmall) as (shots & fuel & o & Hsh & Ho).
  exists (mkMachine fuel 0 rng shots (λ _, true)). split.
  { split; [|done]. split_and!; [done| |done]. by eapply shots_ok. }
  intros fs. unfold results_main. assert (k ∈ seq 1 21) as Hin by (apply elem_of_seq; lia).
  pose proof (proj1 (Forall_forall _ _) density_lines k Hin) as E. cbv beta in E. rewrite E. clear E.
  change (parse_benchmark _) with (Val (DensityArgs_ args)). cbv iota beta.
  unfold density_main. cbn [m_fuel m_seed m_rng m_shots m_creatable]. rewrite Ho.
  destruct o as [[results times]|]; cbn [rbind mbind option_bind]; by eexists.
Qed.

Lemma density_possible :
  ∀ shortest bd induced rng (gens : Generators) (exp : f64 → f64) fs order,
  induces_orders induced → (∀ k n, 0 < n → r_range rng k n < n) → exp_function exp → exp_near_zero exp →
  order ≡ₚ seq 1 21 →
  fs !! "parameters/density.dat" = Some density_dat →
  ∃ ws, (∀ i, machine_ok (ws i) ∧ m_rng (ws i) = rng) ∧ is_Some (density_jobs shortest bd induced ws order fs) ∧
    is_Some (exe_density_local shortest bd induced (λ i, ws (S i)) fs).
Proof.
  intros shortest bd induced rng gens exp fs order Hind Hr H1 H2 Horder Hp.
  destruct (machine_exists rng gens exp Hr H1 H2) as [w0 Hw0].
  destruct (choice_list (λ k w, (machine_ok w ∧ m_rng w = rng) ∧ ∀ fs, is_Some (results_main shortest bd induced w
    ("density" :: shell_words (default [] (splitlines density_dat !! (k - 1)))) fs)) (seq 1 21) w0) as (ws & Hws & Hout).
  { intros k Hk. apply elem_of_seq in Hk. by eapply density_line_possible; [..|lia]. }
  assert (∀ i, machine_ok (ws i) ∧ m_rng (ws i) = rng) as Hok.
  { intros i. destruct (decide (i ∈ seq 1 21)) as [Hi|Hi]; [by apply Hws|]. by rewrite (Hout i Hi). }
  exists ws. split; [done|]. split.
  - assert (∀ k, k ∈ order → 1 ≤ k ≤ 21) as Ho. { intros k Hk. rewrite Horder in Hk. apply elem_of_seq in Hk. lia. }
    clear Horder. revert fs Hp. induction order as [|k order IH]; intros fs Hp; [by eexists|].
    cbn [density_jobs]. unfold exe_density_hpc at 1, readarray, job. rewrite Hp. cbn [mbind option_bind default].
    assert (k ∈ seq 1 21) as Hin. { apply elem_of_seq. specialize (Ho k ltac:(by left)). lia. }
    destruct (Hws k Hin) as [_ Hrun]. destruct (Hrun ∅) as [new E]. rewrite E. cbn [mbind option_bind].
    apply density_program in E as (rs & tm & _ & _ & _ & ->); [|done|apply Hok|apply Ho; by left].
    apply IH; [intros k' Hk'; apply Ho; by right|].
    rewrite <- (insert_union_l ∅ fs), (left_id_L ∅ (∪) fs). by rewrite parameters_kept.
  - unfold exe_density_local, readarray. rewrite Hp. clear Hp Horder.
    assert (∀ n i fs, n + i = 21 → is_Some (density_runs shortest bd induced (λ i, ws (S i)) i (drop i (splitlines density_dat)) fs)) as H.
    { clear fs. induction n as [|n IH]; intros i fs Hn.
      - assert (i = 21) as -> by lia. change (drop 21 (splitlines density_dat)) with (@nil bytes). by eexists.
      - destruct (splitlines density_dat !! i) as [line|] eqn:El.
        2: { apply lookup_ge_None in El. change (length (splitlines density_dat)) with 21 in El. lia. }
        rewrite (drop_S _ line) by done. cbn [density_runs].
        assert (line = default [] (splitlines density_dat !! (S i - 1))) as Eline.
        { replace (S i - 1) with i by lia. by rewrite El. }
        destruct (Hws (S i)) as [_ Hrun]; [apply elem_of_seq; lia|]. destruct (Hrun fs) as [fs1 E].
        rewrite Eline, E. cbn [mbind option_bind]. apply IH. lia. }
    apply (H 21 0). done.
Qed.
