(** * Facts about the plotting scripts: what they read *)
From stdpp Require Import strings gmap.
From Verif Require Import FormatSpec Codec CodecFacts JsonSpec OutputSpec FloatValid Decimal64 DecimalFacts Output
  Plotting JsonFacts NumberFacts OutputFacts BenchmarkFacts MainBenchmark MainBenchmarkNumbers MainOutput Pipeline PlotSpec.

(** ** Python values of the parts of the output files *)

Section values.
  Context (shortest : Digits) (Hs : shows shortest).

  Lemma py_f64 x : storable x → py_of_json (json_f64 shortest x) = PFloat x.
  Proof.
    intros [Hv Hf]. destruct (ryu_shown shortest x Hs Hv Hf) as (n & t & E & Ht). unfold json_f64. rewrite E.
    destruct (shown_read n true x t Ht) as (l & Hl & _ & Hp). cbn [py_of_json]. rewrite Hl. by apply Hp.
  Qed.

  Lemma read_usize n : ∃ ds, read_literal (json_write_usize n) = Some (mkLiteral false ds [] None) ∧ digits_value ds = n.
  Proof.
    destruct (write_usize_digits n) as (ds & (Hd & Hn & ->) & Hv & Hz). fold (digits_text ds). exists ds. split; [|done].
    unfold read_literal.
    assert (read_sign (digits_text ds) = (false, digits_text ds)) as ->.
    { destruct (digits_first ds) as (c & t & -> & Hc & _); [done..|]. by apply read_sign_digit. }
    pose proof (read_digits_app ds [] Hd Hn I) as E. rewrite app_nil_r in E. rewrite E. done.
  Qed.
  Lemma py_u64 n : py_of_json (json_u64 n) = PInt (Z.of_N n).
  Proof. destruct (read_usize n) as (ds & E & Hv). cbn [json_u64 py_of_json]. rewrite E.
    unfold py_of_literal. cbn [lit_frac lit_exp lit_int lit_negative]. by rewrite Hv. Qed.

  Lemma py_results results : Forall (Forall storable) results →
    py_of_json (json_results shortest results) = PList (map (λ l, PList (map PFloat l)) results).
  Proof.
    intros H. unfold json_results. cbn [py_of_json]. f_equal. rewrite map_map. apply map_ext_Forall.
    eapply Forall_impl; [exact H|]. intros l Hl. cbn [py_of_json]. f_equal. rewrite map_map. apply map_ext_Forall.
    eapply Forall_impl; [exact Hl|]. intros x Hx. by apply py_f64.
  Qed.

  Definition py_duration (t : N) : pyval :=
    PDict [(text "secs", PInt (Z.of_N (t / 1000000000))); (text "nanos", PInt (Z.of_N (t mod 1000000000)))].
  Definition py_times (t : Times) : pyval :=
    PDict [(text "time_optimal", py_duration (time_optimal t));
           (text "space_optimal_approximated", py_duration (space_optimal_approximated t));
           (text "full", match full t with Some d => py_duration d | None => PNone end)].
  Lemma py_duration_json t : py_of_json (json_duration t) = py_duration t.
  Proof. unfold json_duration. cbn [py_of_json map]. by rewrite !py_u64. Qed.
  Lemma py_times_json t : py_of_json (json_times t) = py_times t.
  Proof.
    unfold json_times. cbn [py_of_json map]. rewrite !py_duration_json. unfold py_times.
    destruct (full t); [by rewrite py_duration_json|done].
  Qed.
  Lemma py_times_list times : py_of_json (JArray (map json_times times)) = PList (map py_times times).
  Proof. cbn [py_of_json]. f_equal. rewrite map_map. apply map_ext. apply py_times_json. Qed.

  (** The members that the scripts look up. *)
  Lemma node_members ed cd seed results times : Forall (Forall storable) results →
    py_key (py_of_json (node_json shortest ed cd seed results times)) (text "results") =
      Some (PList (map (λ l, PList (map PFloat l)) results)) ∧
    py_key (py_of_json (node_json shortest ed cd seed results times)) (text "time_results") =
      Some (PList (map py_times times)).
  Proof.
    intros H. unfold node_json.
    change (py_of_json (JObject ?l)) with (PDict (map (λ '(k, v), (k, py_of_json v)) l)). cbn [map].
    rewrite (py_results _ H), py_times_list. done.
  Qed.
  Lemma density_members size mu seed results times : Forall (Forall storable) results →
    py_key (py_of_json (density_json shortest size mu seed results times)) (text "results") =
      Some (PList (map (λ l, PList (map PFloat l)) results)) ∧
    py_key (py_of_json (density_json shortest size mu seed results times)) (text "time_results") =
      Some (PList (map py_times times)).
  Proof.
    intros H. unfold density_json.
    change (py_of_json (JObject ?l)) with (PDict (map (λ '(k, v), (k, py_of_json v)) l)). cbn [map].
    rewrite (py_results _ H), py_times_list. done.
  Qed.

  Lemma times_key (t : Times) :
    runtime_of (text "space_optimal_approximated") (py_times t) = Some (Some (Z.of_N (space_optimal_approximated t))) ∧
    runtime_of (text "full") (py_times t) = Some (Z.of_N <$> full t).
  Proof.
    assert (∀ d, (Z.of_N (d / 1000000000) * 1000000000 + Z.of_N (d mod 1000000000))%Z = Z.of_N d) as E.
    { intros d. pose proof (N.div_mod d 1000000000 ltac:(done)). lia. }
    assert (∀ d, match py_duration d with PNone => Some None | t => s ← py_key t (text "secs"); n ← py_key t (text "nanos");
        s ← py_int s; n ← py_int n; Some (Some (s * 1000000000 + n)%Z) end = Some (Some (Z.of_N d))) as E'.
    { intros d. rewrite <- (E d). reflexivity. }
    split.
    - unfold runtime_of, py_times. change (py_get _ _) with (Some (py_duration (space_optimal_approximated t))).
      cbn [mbind option_bind]. apply E'.
    - unfold runtime_of, py_times.
      change (py_get _ _) with (Some (match full t with Some d => py_duration d | None => PNone end)).
      cbn [mbind option_bind]. destruct (full t) as [d|]; [|done]. apply E'.
  Qed.

  Lemma runtimes_read v times : py_key v (text "time_results") = Some (PList (map py_times times)) →
    runtimes_of v (text "space_optimal_approximated") = Some (map (λ t, Z.of_N (space_optimal_approximated t)) times) ∧
    runtimes_of v (text "full") = Some (omap (λ t, Z.of_N <$> full t) times).
  Proof.
    intros H. unfold runtimes_of. rewrite H. cbn [mbind option_bind py_iter].
    assert (∀ (f : Times → option Z) key, (∀ t, runtime_of key (py_times t) = Some (f t)) →
      mapM (runtime_of key) (map py_times times) = Some (map f times)) as Hm.
    { clear. intros f key Hf. induction times as [|t l IH]; [done|]. cbn [map].
      change (mapM (runtime_of key) (py_times t :: map py_times l)) with
        (x ← runtime_of key (py_times t); k ← mapM (runtime_of key) (map py_times l); Some (x :: k)).
      rewrite Hf, IH. done. }
    rewrite (Hm (λ t, Some (Z.of_N (space_optimal_approximated t))) _ (λ t, proj1 (times_key t))).
    rewrite (Hm (λ t, Z.of_N <$> full t) _ (λ t, proj2 (times_key t))).
    cbn [mbind option_bind]. split; f_equal.
    - clear. induction times as [|t l IH]; [done|]. cbn. by f_equal.
    - clear. induction times as [|t l IH]; [done|]. cbn. by destruct (full t); cbn; f_equal.
  Qed.
End values.

(** ** The arrays *)

Lemma node_array rs i : i < 4 →
  let results := sweep_arrays 16 (seq 2 44) (λ size, size <=? 20) rs in
  results !! (i * 4) = Some (map (λ size, mean_of (times_of (strategy i) (rs size))) (sizes_of i)) ∧
  results !! (i * 4 + 2) = Some (map (λ size, mean_of (spaces_of (strategy i) (rs size))) (sizes_of i)).
Proof.
  intros Hi. cbv zeta. unfold sweep_arrays. rewrite !list_lookup_fmap, !lookup_seq_lt by lia.
  assert (i = 0 ∨ i = 1 ∨ i = 2 ∨ i = 3) as [->|[->|[->| ->]]] by lia;
    lazy -[mean_of deviation_of times_of spaces_of]; done.
Qed.

Lemma density_array rs p : p < 4 →
  sweep_arrays 8 (seq 1 21) (λ _, false) rs !! (2 * p) =
    Some (map (λ m, mean_of ((if Nat.even p then times_of else spaces_of) (strategy (p / 2)) (rs m))) (seq 1 21)).
Proof.
  intros Hp. unfold sweep_arrays. rewrite !list_lookup_fmap, !lookup_seq_lt by lia.
  assert (p = 0 ∨ p = 1 ∨ p = 2 ∨ p = 3) as [->|[->|[->| ->]]] by lia;
    lazy -[mean_of deviation_of times_of spaces_of]; done.
Qed.

(** ** Curves *)

Lemma mapM_floats {A} (f : f64 → A) g (l : list f64) : (∀ x, g (PFloat x) = Some (f x)) →
  mapM g (map PFloat l) = Some (map f l).
Proof.
  intros Hg. induction l as [|x l IH]; [done|]. cbn [map].
  change (mapM g (PFloat x :: map PFloat l)) with (y ← g (PFloat x); k ← mapM g (map PFloat l); Some (y :: k)).
  by rewrite Hg, IH.
Qed.
Lemma zip_map {A B} (f : A → B) l : zip l (map f l) = map (λ a, (a, f a)) l.
Proof. induction l as [|a l IH]; [done|]. cbn [map]. unfold zip in *. cbn [zip_with]. by f_equal. Qed.

Lemma plot_floats label l (f : nat → f64) :
  plot label l (PList (map PFloat (map f l))) = Some (mkCurve label (map (λ size, (size, Some (f size))) l)).
Proof.
  unfold plot. cbn [py_iter mbind option_bind]. rewrite (mapM_floats Some) by done. cbn [mbind option_bind].
  rewrite !map_length, Nat.eqb_refl. by rewrite map_map, zip_map.
Qed.

Lemma sizes_length i : length (sizes_of i) = if i <? 2 then 44 else 19.
Proof. unfold sizes_of. destruct (i <? 2); by rewrite seq_length. Qed.
Lemma sizes_seq i : seq 2 (length (sizes_of i)) = sizes_of i.
Proof. rewrite sizes_length. unfold sizes_of. by destruct (i <? 2). Qed.

Lemma round_drawn rs a b mx i : i < 4 →
  nodes_round (PList (map (λ l, PList (map PFloat l)) (sweep_arrays 16 (seq 2 44) (λ size, size <=? 20) rs))) (a, b, mx) i
  = Some (a ++ [time_curve rs i], b ++ [space_curve rs i], Nat.max mx (length (sizes_of i))).
Proof.
  intros Hi. destruct (node_array rs i Hi) as [E1 E2]. cbv zeta in E1, E2. unfold nodes_round, py_index.
  rewrite !list_lookup_fmap, E1, E2. cbn [fmap option_fmap option_map mbind option_bind py_iter].
  rewrite !map_length, sizes_seq, !plot_floats. done.
Qed.

Lemma nodes_drawn rs :
  nodes_loop (PList (map (λ l, PList (map PFloat l)) (sweep_arrays 16 (seq 2 44) (λ size, size <=? 20) rs)))
    ([], [], 0) (seq 0 4)
  = Some (map (time_curve rs) (seq 0 4), map (space_curve rs) (seq 0 4), 44).
Proof.
  cbn [seq nodes_loop]. do 4 (rewrite round_drawn by lia; cbn [mbind option_bind]). rewrite !sizes_length. done.
Qed.

(** ** Error bars *)

Lemma node_array_deviation rs i : i < 4 →
  let results := sweep_arrays 16 (seq 2 44) (λ size, size <=? 20) rs in
  results !! (i * 4 + 1) = Some (map (λ size, deviation_of (times_of (strategy i) (rs size))) (sizes_of i)) ∧
  results !! (i * 4 + 3) = Some (map (λ size, deviation_of (spaces_of (strategy i) (rs size))) (sizes_of i)).
Proof.
  intros Hi. cbv zeta. unfold sweep_arrays. rewrite !list_lookup_fmap, !lookup_seq_lt by lia.
  assert (i = 0 ∨ i = 1 ∨ i = 2 ∨ i = 3) as [->|[->|[->| ->]]] by lia;
    lazy -[mean_of deviation_of times_of spaces_of]; done.
Qed.

Lemma not_negative x : finite_unsigned x → negb (SFltb x f64_zero) = true.
Proof. by destruct x as [[]|[]| |[]]. Qed.

Lemma errorbar_floats label l (f g : nat → f64) : Forall finite_unsigned (map g l) →
  errorbar label l (PList (map PFloat (map f l))) (PList (map PFloat (map g l))) =
    Some (mkBars label (map (λ size, (size, (f size, g size))) l)).
Proof.
  intros Hg. unfold errorbar. cbn [py_iter mbind option_bind]. rewrite !(mapM_floats id) by done.
  cbn [mbind option_bind]. rewrite !map_id, !map_length, Nat.eqb_refl. cbn [andb].
  assert (forallb (λ d, negb (SFltb d f64_zero)) (map g l) = true) as ->.
  { clear -Hg. induction Hg as [|x l' Hx _ IH]; [done|]. cbn [forallb]. by rewrite (not_negative x Hx), IH. }
  do 2 f_equal. clear. induction l as [|a l IH]; [done|]. cbn [map]. unfold zip in *. cbn [zip_with]. by f_equal.
Qed.

Lemma appendix_round_drawn rs a b mx i : i < 4 →
  Forall (Forall finite_unsigned) (sweep_arrays 16 (seq 2 44) (λ size, size <=? 20) rs) →
  appendix_round (PList (map (λ l, PList (map PFloat l)) (sweep_arrays 16 (seq 2 44) (λ size, size <=? 20) rs))) (a, b, mx) i
  = Some (a ++ [time_bars rs i], b ++ [space_bars rs i], Nat.max mx (length (sizes_of i))).
Proof.
  intros Hi Hu. destruct (node_array rs i Hi) as [E1 E2], (node_array_deviation rs i Hi) as [E3 E4].
  cbv zeta in E1, E2, E3, E4. unfold appendix_round, py_index.
  rewrite Forall_lookup in Hu. pose proof (Hu _ _ E3) as U3. pose proof (Hu _ _ E4) as U4. clear Hu.
  rewrite !list_lookup_fmap, E1, E2, E3, E4. cbn [fmap option_fmap option_map mbind option_bind py_iter].
  rewrite !map_length, sizes_seq, !errorbar_floats by done. done.
Qed.

Lemma appendix_drawn rs :
  Forall (Forall finite_unsigned) (sweep_arrays 16 (seq 2 44) (λ size, size <=? 20) rs) →
  appendix_loop (PList (map (λ l, PList (map PFloat l)) (sweep_arrays 16 (seq 2 44) (λ size, size <=? 20) rs)))
    ([], [], 0) (seq 0 4)
  = Some (map (time_bars rs) (seq 0 4), map (space_bars rs) (seq 0 4), 44).
Proof.
  intros Hu. cbn [seq appendix_loop]. do 4 (rewrite appendix_round_drawn by (try done; lia); cbn [mbind option_bind]).
  rewrite !sizes_length. done.
Qed.

(** ** The order of the numbers *)

Lemma ltb_unsigned x y : finite_unsigned x → finite_unsigned y →
  SFltb x y = match x, y with
    | S754_finite _ m e, S754_finite _ m' e' => (e <? e')%Z || ((e =? e')%Z && (m <? m')%positive)
    | S754_zero _, S754_finite _ _ _ => true
    | _, _ => false
    end.
Proof.
  intros Hx Hy. destruct x as [[]|[]| |[] m e], y as [[]|[]| |[] m' e']; try done.
  unfold SFltb, SFcompare. destruct (Z.compare_spec e e') as [->|H|H].
  - rewrite Z.ltb_irrefl, Z.eqb_refl. change ((m ?= m')%positive) with (Pos.compare_cont Eq m m').
    destruct (Pos.ltb_spec m m') as [H|H].
    + unfold Pos.lt, Pos.compare in H. by rewrite H.
    + destruct (Pos.compare_cont Eq m m') eqn:E; try done. change (Pos.compare m m' = Lt) in E.
      change (m < m')%positive in E. lia.
  - apply Z.ltb_lt in H as ->. done.
  - assert ((e <? e')%Z = false) as -> by lia. assert ((e =? e')%Z = false) as -> by lia. done.
Qed.
Lemma ltb_trans x y z : finite_unsigned x → finite_unsigned y → finite_unsigned z →
  SFltb x y = true → SFltb y z = true → SFltb x z = true.
Proof.
  intros Hx Hy Hz. rewrite !ltb_unsigned by done.
  destruct x, y, z; try done. rewrite !orb_true_iff, !andb_true_iff, !Z.ltb_lt, !Z.eqb_eq, !Pos.ltb_lt. lia.
Qed.
Lemma nlt_trans x y z : finite_unsigned x → finite_unsigned y → finite_unsigned z →
  SFltb x y = false → SFltb y z = false → SFltb x z = false.
Proof.
  intros Hx Hy Hz. rewrite !ltb_unsigned by done.
  destruct x, y, z; try done. rewrite !orb_false_iff, !andb_false_iff, !Z.ltb_ge, !Z.eqb_neq, !Pos.ltb_ge. lia.
Qed.
Lemma ltb_irrefl x : finite_unsigned x → SFltb x x = false.
Proof.
  intros Hx. rewrite ltb_unsigned by done. destruct x; try done. apply orb_false_iff.
  rewrite Z.ltb_irrefl, Z.eqb_refl. split; [done|]. apply Pos.ltb_irrefl.
Qed.

Definition spread (mm : f64 * f64) (l : list f64) : f64 * f64 :=
  foldl (λ '(mn, mx) d, (if SFltb d mn then d else mn, if SFltb mx d then d else mx)) mm l.

Lemma spread_covers l : ∀ mn mx, finite_unsigned mn → finite_unsigned mx → Forall finite_unsigned l →
  let '(lo, hi) := spread (mn, mx) l in
  finite_unsigned lo ∧ finite_unsigned hi ∧ (lo = mn ∨ lo ∈ l) ∧ (hi = mx ∨ hi ∈ l) ∧
  (∀ x, x = mn ∨ x ∈ l → SFltb x lo = false) ∧ (∀ x, x = mx ∨ x ∈ l → SFltb hi x = false).
Proof.
  induction l as [|d l IH]; intros mn mx Hmn Hmx Hl.
  - cbn. split_and!; try done; [by left|by left|..]; intros x [->|Hx]; try (by apply ltb_irrefl); by apply elem_of_nil in Hx.
  - inversion_clear Hl as [|?? Hd Hl'].
    change (spread (mn, mx) (d :: l)) with (spread (if SFltb d mn then d else mn, if SFltb mx d then d else mx) l).
    set (mn' := if SFltb d mn then d else mn). set (mx' := if SFltb mx d then d else mx).
    assert (finite_unsigned mn') as H1 by (unfold mn'; by destruct (SFltb d mn)).
    assert (finite_unsigned mx') as H2 by (unfold mx'; by destruct (SFltb mx d)).
    specialize (IH mn' mx' H1 H2 Hl'). destruct (spread (mn', mx') l) as [lo hi].
    destruct IH as (F1 & F2 & O1 & O2 & C1 & C2). split_and!; [done|done|..].
    + destruct O1 as [->|?]; [|right; by constructor]. unfold mn'. destruct (SFltb d mn); [right; by constructor|by left].
    + destruct O2 as [->|?]; [|right; by constructor]. unfold mx'. destruct (SFltb mx d); [right; by constructor|by left].
    + assert (∀ x, finite_unsigned x → SFltb x mn' = false → SFltb x lo = false) as Hstep.
      { intros x Hx Hxm. apply (nlt_trans x mn' lo); try done. apply C1. by left. }
      intros x [->|Hx].
      * apply Hstep; [done|]. unfold mn'. destruct (SFltb d mn) eqn:E; [|by apply ltb_irrefl].
        destruct (SFltb mn d) eqn:E'; [|done]. pose proof (ltb_trans d mn d Hd Hmn Hd E E'). by rewrite ltb_irrefl in *.
      * apply elem_of_cons in Hx as [->|Hx]; [|by apply C1; right]. apply Hstep; [done|].
        unfold mn'. destruct (SFltb d mn) eqn:E; [by apply ltb_irrefl|done].
    + assert (∀ x, finite_unsigned x → SFltb mx' x = false → SFltb hi x = false) as Hstep.
      { intros x Hx Hxm. apply (nlt_trans hi mx' x); try done. apply C2. by left. }
      intros x [->|Hx].
      * apply Hstep; [done|]. unfold mx'. destruct (SFltb mx d) eqn:E; [|by apply ltb_irrefl].
        destruct (SFltb d mx) eqn:E'; [|done]. pose proof (ltb_trans d mx d Hd Hmx Hd E' E). by rewrite ltb_irrefl in *.
      * apply elem_of_cons in Hx as [->|Hx]; [|by apply C2; right]. apply Hstep; [done|].
        unfold mx'. destruct (SFltb mx d) eqn:E; [by apply ltb_irrefl|done].
Qed.

(** ** Images *)

Lemma row_drawn mm l : image_row mm (PList (map PFloat l)) = Some (l, spread mm l).
Proof.
  unfold image_row. cbn [py_iter mbind option_bind]. rewrite (mapM_floats id) by done. cbn [mbind option_bind].
  by rewrite map_id.
Qed.
