(** * The two benchmark programs: main facts *)
From stdpp Require Import strings.
From Verif Require Export BenchmarkFacts.
From Verif Require Import Spec.

(** The entry that a list of pairs (mean, deviation) contributes to array [i]. *)
Definition cell (result : list (f64 * f64)) (i : nat) : list f64 :=
  match result !! (i / 2) with
  | Some r => [if Nat.even i then r.1 else r.2]
  | None => []
  end.

Lemma push_result_spec results e :
  2 * e.1 + 1 < length results →
  ∃ results', push_result results e = Val results' ∧ length results' = length results ∧
    ∀ i, results' !! i = (λ l, l ++ (if i / 2 =? e.1 then [if Nat.even i then e.2.1 else e.2.2] else [])) <$> results !! i.
Proof.
  destruct e as [n r]. cbn [fst snd]. intros H. unfold push_result. cbn [fst snd].
  destruct (lookup_lt_is_Some_2 results (2 * n) ltac:(lia)) as [l0 H0].
  destruct (lookup_lt_is_Some_2 results (2 * n + 1) ltac:(lia)) as [l1 H1].
  rewrite (index_push_Val _ _ _ _ H0). cbn [obind].
  rewrite (index_push_Val _ _ _ l1) by (by rewrite list_lookup_insert_ne by lia).
  eexists. split; [reflexivity|]. split; [by rewrite !insert_length|]. intros i.
  destruct (decide (i = 2 * n + 1)) as [->|Hi1].
  - rewrite list_lookup_insert by (rewrite insert_length; lia). rewrite H1. cbn [fmap option_fmap option_map].
    replace ((2 * n + 1) / 2) with n by (apply (Nat.div_unique _ _ n 1); lia).
    rewrite Nat.eqb_refl. replace (Nat.even (2 * n + 1)) with false; [done|].
    symmetry. rewrite <- Nat.negb_odd. apply negb_false_iff, Nat.odd_spec. exists n. lia.
  - rewrite list_lookup_insert_ne by done. destruct (decide (i = 2 * n)) as [->|Hi0].
    + rewrite list_lookup_insert by lia. rewrite H0. cbn [fmap option_fmap option_map].
      replace ((2 * n) / 2) with n by (apply (Nat.div_unique _ _ n 0); lia).
      rewrite Nat.eqb_refl. replace (Nat.even (2 * n)) with true; [done|].
      symmetry. apply Nat.even_spec. exists n. lia.
    + rewrite list_lookup_insert_ne by done. destruct (Nat.eqb_spec (i / 2) n) as [E|_].
      * pose proof (Nat.div_mod i 2 ltac:(done)) as Hdm. pose proof (Nat.mod_upper_bound i 2 ltac:(done)). lia.
      * destruct (results !! i); simpl; [by rewrite app_nil_r|done].
Qed.

Lemma push_results_from n result results :
  2 * (n + length result) ≤ length results →
  ∃ results', ofold push_result (imap (λ i r, (n + i, r)) result) results = Val results' ∧
    length results' = length results ∧
    ∀ i, results' !! i = (λ l, l ++ if n <=? i / 2 then cell result (i - 2 * n) else []) <$> results !! i.
Proof.
  revert n results. induction result as [|r result IH]; intros n results H.
  - exists results. split; [done|]. split; [done|]. intros i. unfold cell. rewrite lookup_nil.
    destruct (results !! i); cbn [fmap option_fmap option_map]; [|done]. destruct (n <=? i / 2); by rewrite app_nil_r.
  - rewrite imap_cons. cbn [ofold]. simpl in H.
    destruct (push_result_spec results (n + 0, r)) as (r1 & -> & Hl1 & Hr1); [simpl; lia|]. cbn [obind fst snd] in *.
    rewrite (imap_ext _ (λ i r, (S n + i, r))) by (intros; unfold compose; f_equal; lia).
    destruct (IH (S n) r1 ltac:(lia)) as (r2 & -> & Hl2 & Hr2).
    exists r2. split; [done|]. split; [lia|]. intros i. rewrite Hr2, Hr1. rewrite Nat.add_0_r.
    destruct (results !! i) as [l|]; [|done]. cbn [fmap option_fmap option_map]. f_equal. rewrite <- app_assoc. f_equal.
    assert ((i - 2 * n) / 2 = i / 2 - n) as Hdiv.
    { destruct (decide (2 * n ≤ i)).
      - replace i with (i - 2 * n + n * 2) at 2 by lia. rewrite Nat.div_add by done. lia.
      - rewrite (Nat.div_small (i - 2 * n)) by lia. enough (i / 2 < n) by lia. apply Nat.div_lt_upper_bound; lia. }
    assert (Nat.even (i - 2 * n) = Nat.even i ∨ i < 2 * n) as Hev.
    { destruct (decide (2 * n ≤ i)); [left|right; lia]. rewrite Nat.even_sub by done.
      replace (Nat.even (2 * n)) with true by (symmetry; apply Nat.even_spec; by exists n).
      by destruct (Nat.even i). }
    assert (i / 2 < n ↔ i < 2 * n) as Hlt.
    { split; intros Hi; [|apply Nat.div_lt_upper_bound; lia].
      pose proof (Nat.div_mod i 2 ltac:(done)). pose proof (Nat.mod_upper_bound i 2 ltac:(done)). lia. }
    destruct (Nat.leb_spec n (i / 2)), (Nat.eqb_spec (i / 2) n), (Nat.leb_spec (S n) (i / 2)); try lia.
    + unfold cell. rewrite Hdiv. replace (i / 2 - n) with 0 by lia.
      destruct Hev as [->|?]; [|lia]. done.
    + unfold cell. rewrite Hdiv. replace (i / 2 - n) with (S (i / 2 - S n)) by lia.
      assert (2 ≤ i - 2 * n) as H2.
      { pose proof (Nat.div_mod i 2 ltac:(done)). pose proof (Nat.mod_upper_bound i 2 ltac:(done)). lia. }
      assert ((i - 2 * S n) / 2 = i / 2 - S n) as ->.
      { replace (i - 2 * n) with (i - 2 * S n + 1 * 2) in Hdiv by lia. rewrite Nat.div_add in Hdiv by done. lia. }
      assert ((r :: result) !! S (i / 2 - S n) = result !! (i / 2 - S n)) as -> by done.
      cbn [app]. destruct (result !! (i / 2 - S n)); [|done]. f_equal.
      destruct Hev as [Hev|?]; [|lia].
      replace (i - 2 * S n) with (i - 2 * n - 2) by lia. rewrite Nat.even_sub by lia.
      rewrite Hev. by destruct (Nat.even i).
    + done.
Qed.

Lemma push_results_spec result results :
  2 * length result ≤ length results →
  ∃ results', push_results results result = Val results' ∧ length results' = length results ∧
    ∀ i, results' !! i = (λ l, l ++ cell result i) <$> results !! i.
Proof.
  intros H. destruct (push_results_from 0 result results ltac:(lia)) as (r & H1 & H2 & H3).
  exists r. split; [exact H1|]. split; [done|]. intros i. rewrite H3. simpl. by rewrite Nat.sub_0_r.
Qed.

(** Mean and deviation of every column of the recorded data. *)
Definition summary (get_full : bool) (rs : list Sample) : list (f64 * f64) :=
  map (λ col, (mean_of col, deviation_of col)) (columns get_full rs).

(** The output arrays of a sweep: [data] are the sizes or densities, [rs a] the
    samples for [a]. *)
Definition sweep_arrays {A} (n : nat) (data : list A) (get_full : A → bool) (rs : A → list Sample) : list (list f64) :=
  map (λ i, List.concat (map (λ a, cell (summary (get_full a) (rs a)) i) data)) (seq 0 n).

Lemma sweep_arrays_snoc {A} `{EqDecision A} n (data : list A) a get_full rs result results :
  a ∉ data → 2 * length result ≤ n → results = sweep_arrays n data get_full rs →
  ∀ rs1, result = summary (get_full a) rs1 →
  push_results results result = Val (sweep_arrays n (data ++ [a]) get_full (λ b, if decide (b = a) then rs1 else rs b)).
Proof.
  intros Ha Hn -> rs1 ->.
  destruct (push_results_spec (summary (get_full a) rs1) (sweep_arrays n data get_full rs)) as (r & -> & Hl & Hr).
  { unfold sweep_arrays. by rewrite map_length, seq_length. }
  f_equal. apply list_eq. intros i. rewrite Hr. unfold sweep_arrays.
  destruct (decide (i < n)) as [Hi|Hi].
  - rewrite !list_lookup_fmap, !lookup_seq_lt by done. simpl. rewrite map_app, concat_app. simpl.
    rewrite decide_True by done. rewrite app_nil_r. do 3 f_equal. apply map_ext_in.
    intros b Hb. rewrite decide_False; [done|]. intros ->. apply Ha. by apply elem_of_list_In.
  - rewrite !lookup_ge_None_2; [done|rewrite map_length, seq_length; lia..].
Qed.

Lemma sweep_arrays_nil {A} n (get_full : A → bool) rs : replicate n [] = sweep_arrays n [] get_full rs.
Proof.
  unfold sweep_arrays. cbn [map List.concat]. generalize 0. induction n as [|n IH]; intros k; [done|].
  cbn [replicate seq map]. f_equal. apply IH.
Qed.

Lemma summary_length get_full rs : length (summary get_full rs) = if get_full then 8 else 4.
Proof. unfold summary. rewrite map_length. by destruct get_full. Qed.

(** ** Sweep over the number of nodes *)

Lemma density_ok_large d size : 1 < size → density_ok d size.
Proof.
  intros H. left. lia.
Qed.

Definition node_timeouts_check : bool :=
  match node_timeouts with
  | Val ts =>
      (length ts =? 46) &&
      forallb (λ size, match ts !! size with Some t => (t =? node_timeout size)%N | None => false end) (seq 2 44) &&
      forallb (λ size, (node_timeout size <? node_timeout (S size))%N) (seq 2 43) &&
      (N.of_nat NUM_AVERAGE * (foldr N.add 0 ts + TIMEOUT_PER_SINGLE_SHOT_EXACT_SWEEP)
       <=? (192 * 3600 - 120 * 60) * 1000000000)%N
  | Panic => false
  end.

Lemma node_timeouts_checked : node_timeouts_check = true.
Proof. vm_compute. reflexivity. Qed.

Lemma node_timeouts_Val :
  ∃ ts, node_timeouts = Val ts ∧ length ts = 46 ∧ (∀ size, 2 ≤ size ≤ 45 → ts !! size = Some (node_timeout size)) ∧
    (∀ size, 2 ≤ size < 45 → (node_timeout size < node_timeout (S size))%N) ∧
    (N.of_nat NUM_AVERAGE * (foldr N.add 0 ts + TIMEOUT_PER_SINGLE_SHOT_EXACT_SWEEP)
     ≤ (192 * 3600 - 120 * 60) * 1000000000)%N.
Proof.
  pose proof node_timeouts_checked as H. unfold node_timeouts_check in H.
  destruct node_timeouts as [ts|]; [|done]. exists ts. split; [done|].
  apply andb_true_iff in H as [H H4]. apply andb_true_iff in H as [H H3]. apply andb_true_iff in H as [H1 H2].
  split; [by apply Nat.eqb_eq|]. split; [|split; [|by apply N.leb_le]].
  - intros size Hs. rewrite forallb_forall in H2. specialize (H2 size). rewrite in_seq in H2.
    destruct (ts !! size) as [t|].
    + f_equal. apply N.eqb_eq, H2. lia.
    + discriminate H2. lia.
  - intros size Hs. rewrite forallb_forall in H3. apply N.ltb_lt, H3, in_seq. lia.
Qed.

Lemma small_size size : size ≤ 45 → (N.of_nat size < 2 ^ 64 - 1)%N.
Proof. lia. Qed.
Lemma max_exact_size : MAX_EXACT_SIZE = 20.
Proof. done. Qed.

Lemma node_run_result :
  ∀ bd fuel induced rng args shots o,
  induces_orders induced → (∀ k n, 0 < n → r_range rng k n < n) → (∀ size i, shot_ok (shots size i)) →
  node_run bd fuel induced rng args shots = Some o →
  (o = Panic ∧ (density_new (n_edge_density_type args) (n_edge_density args) = Panic ∨
                density_new (n_correction_density_type args) (n_correction_density args) = Panic)) ∨
  ∃ ed cd ts rs times ks,
    density_new (n_edge_density_type args) (n_edge_density args) = Val ed ∧
    density_new (n_correction_density_type args) (n_correction_density args) = Val cd ∧ node_timeouts = Val ts ∧
    o = Val (sweep_arrays 16 (seq 2 44) (λ size, size <=? 20) rs, times) ∧ length times = 44 ∧
    (* the samples are drawn one after the other *)
    ks 2 = 0 ∧
    ∀ size, 2 ≤ size ≤ 45 → ∃ timeout tm, ts !! size = Some timeout ∧ times !! (size - 2) = Some tm ∧
      measured bd fuel induced rng size ed cd timeout (size <=? 20) (shots size) (ks size) (rs size) tm (ks (S size)).
Proof.
  intros bd fuel induced rng args shots o Hind Hrng Hsh H. unfold node_run in H.
  destruct (density_new (n_edge_density_type args) (n_edge_density args)) as [ed|] eqn:E1; cbn [rbind] in H;
    [|injection H as <-; by left; auto].
  destruct (density_new (n_correction_density_type args) (n_correction_density args)) as [cd|] eqn:E2; cbn [rbind] in H;
    [|injection H as <-; by left; auto].
  destruct node_timeouts_Val as (ts & Ets & _ & Hts & _). rewrite Ets in H. cbn [rbind] in H.
  pose (good := λ (ks : nat → nat) (rs : nat → list Sample) (times : list Times) (size : nat), ∃ timeout tm, ts !! size = Some timeout ∧ times !! (size - 2) = Some tm ∧
      measured bd fuel induced rng size ed cd timeout (size <=? 20) (shots size) (ks size) (rs size) tm (ks (S size))).
  assert (∀ todo data ks rs times o, data ++ todo = seq 2 44 → length times = length data → ks 2 = 0 →
    (∀ size, size ∈ data → good ks rs times size) →
    rfold (node_body bd fuel induced rng ed cd ts shots) todo
      (sweep_arrays 16 data (λ size, size <=? 20) rs, times, ks (2 + length data)) = Some o →
    ∃ rs' times' ks', o = Val (sweep_arrays 16 (seq 2 44) (λ size, size <=? 20) rs', times', ks' 46) ∧ length times' = 44 ∧
      ks' 2 = 0 ∧ ∀ size, size ∈ seq 2 44 → good ks' rs' times' size) as Hloop.
  { clear H o. induction todo as [|size todo IH]; intros data ks rs times o Hd Htl Hk0 Hdata H.
    - injection H as <-. rewrite app_nil_r in Hd. subst data. exists rs, times, ks. split; [done|]. split; [done|done].
    - assert (size = 2 + length data) as Hsz2.
      { assert ((data ++ size :: todo) !! length data = Some size) as Hlk by (by apply list_lookup_middle).
        rewrite Hd in Hlk. apply lookup_seq in Hlk as [? _]. lia. }
      rewrite <- Hsz2 in H. assert (size ∈ seq 2 44) as Hs by (rewrite <- Hd; apply elem_of_app; right; left). apply elem_of_seq in Hs.
      assert (size ∉ data) as Hnot.
      { intros Hin. pose proof (NoDup_seq 2 44) as Hnd. rewrite <- Hd in Hnd. apply NoDup_app in Hnd as (_ & Hnd & _).
        apply (Hnd size Hin). by left. }
      cbn [rfold] in H. unfold node_body at 1 in H. unfold index in H. rewrite Hts in H by lia. cbn [rbind] in H.
      pose proof (small_size size ltac:(lia)) as Hsz. rewrite max_exact_size in H.
      destruct (do_it _ _ _ _ _ _ _ _ _ _ _) as [r|] eqn:Ed; [|done].
      destruct (do_it_spec _ _ _ _ _ _ _ _ _ _ _ _ Hind Hrng Hsz (density_ok_large ed size ltac:(lia))
        (density_ok_large cd size ltac:(lia)) (Hsh size) Ed) as (rs1 & tms & k1 & -> & Hm).
      cbn [rbind] in H.
      erewrite (sweep_arrays_snoc 16 data size (λ size, size <=? 20) rs) in H;
        [|done| |reflexivity|reflexivity].
      2: { fold (summary (size <=? 20) rs1). rewrite summary_length. destruct (size <=? 20); lia. }
      cbn [rbind] in H.
      assert (∀ s, s ∈ data → s < size) as Hlt.
      { intros s (i & Hi)%elem_of_list_lookup_1. apply lookup_lt_Some in Hi as Hil.
        assert ((data ++ size :: todo) !! i = Some s) as Hs' by (by apply lookup_app_l_Some).
        rewrite Hd in Hs'. apply lookup_seq in Hs' as [-> _]. lia. }
      apply (IH (data ++ [size]) (λ s, if decide (s = S size) then k1 else ks s)
        (λ b, if decide (b = size) then rs1 else rs b) (times ++ [tms])).
      + by rewrite <- app_assoc.
      + rewrite !app_length. simpl. lia.
      + destruct (decide (2 = S size)); [lia|done].
      + intros s Hin. unfold good. destruct (decide (s = S size)) as [Heq|Hne1].
        { exfalso. apply elem_of_app in Hin as [Hin%Hlt|Hin%elem_of_list_singleton]; lia. }
        destruct (decide (s = size)) as [->|Hne].
        * rewrite decide_True by done. eexists _, tms. split; [apply Hts; lia|]. split; [|exact Hm].
          rewrite lookup_app_r by lia. replace (size - 2 - length times) with 0 by lia. done.
        * rewrite decide_False by lia. apply elem_of_app in Hin as [Hin|Hin%elem_of_list_singleton]; [|done].
          destruct (Hdata s Hin) as (tmo & tm & H1 & H2 & H3). exists tmo, tm. split; [done|]. split; [|done].
          by apply lookup_app_l_Some.
      + rewrite app_length. cbn [length]. rewrite decide_True by lia. exact H. }
  right. assert (node_RANGE = seq 2 44) as Er by reflexivity. rewrite Er in H. clear Er.
  rewrite (sweep_arrays_nil 16 (λ size, size <=? 20) (λ _ : nat, [])) in H.
  assert (∀ x, x ∈ @nil nat → good (λ _, 0) (λ _, []) [] x) as Hnil by (intros ? Hn; destruct (proj1 (elem_of_nil _) Hn)).
  apply rbind_Some in H as [[H _]|(s & H1 & H)].
  - destruct (Hloop (seq 2 44) [] (λ _, 0) (λ _, []) [] Panic eq_refl eq_refl eq_refl Hnil H) as (? & ? & ? & ? & _). discriminate.
  - destruct (Hloop (seq 2 44) [] (λ _, 0) (λ _, []) [] (Val s) eq_refl eq_refl eq_refl Hnil H1) as (rs & times & ks & Es & Ht & Hk & Hrs).
    injection Es as ->.
    cbv beta iota in H. injection H as <-. exists ed, cd, ts, rs, times, ks.
    split; [done|]. split; [done|]. split; [done|]. split; [done|]. split; [done|]. split; [done|].
    intros size Hs. apply Hrs, elem_of_seq. lia.
Qed.

(** When are the arguments rejected? *)
Lemma density_new_panics :
  ∀ ty f, density_new ty f = Panic ↔
  ty ∉ ["constant"; "reziprocal_linear"; "reziprocal_square_root"]%string ∨
  ¬ (SFleb f64_zero f = true ∧ SFleb f f64_one = true).
Proof.
  intros ty f. unfold density_new, check_factor.
  rewrite <- andb_true_iff, !not_elem_of_cons.
  destruct (String.eqb_spec ty "constant") as [->|H1];
    [|destruct (String.eqb_spec ty "reziprocal_linear") as [->|H2];
      [|destruct (String.eqb_spec ty "reziprocal_square_root") as [->|H3]]].
  1-3: destruct (SFleb f64_zero f && SFleb f f64_one); cbn [obind]; split; try done;
    [intros [(? & ? & ? & _)|?]; done|by right].
  split; [|done]. intros _. left. split; [done|]. split; [done|]. split; [done|]. apply not_elem_of_nil.
Qed.

Lemma density_new_value :
  ∀ ty f d, density_new ty f = Val d ↔
  SFleb f64_zero f = true ∧ SFleb f f64_one = true ∧
  (ty = "constant"%string ∧ d = Constant f ∨
   ty = "reziprocal_linear"%string ∧ d = ReziprocalLinear f ∨
   ty = "reziprocal_square_root"%string ∧ d = ReziprocalSquareRoot f).
Proof.
  intros ty f d. unfold density_new, check_factor.
  destruct (String.eqb_spec ty "constant") as [->|H1];
    [|destruct (String.eqb_spec ty "reziprocal_linear") as [->|H2];
      [|destruct (String.eqb_spec ty "reziprocal_square_root") as [->|H3]]].
  1-3: destruct (SFleb f64_zero f), (SFleb f f64_one); cbn [andb obind]; (split; [|intros (? & ? & H)]); try done;
    try (intros [= <-]; tauto);
    destruct H as [[? ->]|[[? ->]|[? ->]]]; done.
  split; [done|]. intros (_ & _ & H). destruct H as [[? ->]|[[? ->]|[? ->]]]; done.
Qed.

(** The time limits of all shots together, and the time reserved for the exact
    searches, stay within the wall time minus the buffer (in nano seconds). *)
Lemma node_timeouts_budget :
  ∃ ts, node_timeouts = Val ts ∧
  (N.of_nat NUM_AVERAGE * (foldr N.add 0 ts + TIMEOUT_PER_SINGLE_SHOT_EXACT_SWEEP)
   ≤ (192 * 3600 - 120 * 60) * 1000000000)%N ∧
  (* increasing with the size *)
  ∀ i j a b, 2 ≤ i → i < j → ts !! i = Some a → ts !! j = Some b → (a < b)%N.
Proof.
  destruct node_timeouts_Val as (ts & E & Hl & Hts & Hstep & Hsum). exists ts. split; [done|]. split; [done|].
  intros i j a b Hi Hij Ha Hb. apply lookup_lt_Some in Hb as Hj. rewrite Hts in Ha, Hb by (clear -Hi Hij Hj Hl; lia).
  apply (inj Some) in Ha, Hb. subst a b.
  clear -Hi Hij Hj Hl Hstep. induction Hij as [|j Hij IH]; [apply Hstep; clear -Hi Hj Hl; lia|].
  etransitivity; [apply IH; clear -Hj Hl; lia|]. apply Hstep; clear -Hi Hij Hj Hl; lia.
Qed.

(** ** Sweep over the densities *)

Lemma density_constant multiplier d :
  density multiplier = Val d → d = Constant (f64_div multiplier (f64_of_usize 22)).
Proof.
  unfold density. assert (f64_add (f64_of_usize (N.of_nat NUM_DENSITIES)) f64_one = f64_of_usize 22) as -> by (by vm_compute).
  generalize (f64_div multiplier (f64_of_usize 22)). intros x. unfold check_factor.
  destruct (_ && _); cbn [obind]; [|discriminate]. by intros [= <-].
Qed.

Lemma density_rejected multiplier :
  density multiplier = Panic → let x := f64_div multiplier (f64_of_usize 22) in
  ¬ (SFleb f64_zero x = true ∧ SFleb x f64_one = true).
Proof.
  unfold density. assert (f64_add (f64_of_usize (N.of_nat NUM_DENSITIES)) f64_one = f64_of_usize 22) as -> by (by vm_compute).
  cbv zeta. generalize (f64_div multiplier (f64_of_usize 22)). intros x. unfold check_factor.
  rewrite <- andb_true_iff. by destruct (_ && _).
Qed.

Lemma density_Val multiplier :
  1 ≤ multiplier ≤ 21 →
  density (f64_of_usize (N.of_nat multiplier)) = Val (Constant (f64_div (f64_of_usize (N.of_nat multiplier)) (f64_of_usize 22))).
Proof.
  intros H. assert (∃ d, density (f64_of_usize (N.of_nat multiplier)) = Val d) as [d Hd].
  { do 22 (destruct multiplier as [|multiplier]; [first [lia|eexists; vm_compute; reflexivity]|]). lia. }
  rewrite Hd. f_equal. by apply density_constant.
Qed.

Lemma density_ok_constant f size : density_ok (Constant f) size.
Proof. right. by exists f. Qed.

Lemma density_run_result :
  ∀ bd fuel induced rng args shots o,
  induces_orders induced → (∀ k n, 0 < n → r_range rng k n < n) → (∀ m i, shot_ok (shots m i)) →
  (N.of_nat (d_num_nodes args) < 2 ^ 64 - 1)%N →
  density_run bd fuel induced rng args shots = Some o →
  (o = Panic ∧ let x := f64_div (d_edge_density_multiplier args) (f64_of_usize 22) in
     ¬ (SFleb f64_zero x = true ∧ SFleb x f64_one = true)) ∨
  ∃ rs times ks,
    o = Val (sweep_arrays 8 (seq 1 21) (λ _, false) rs, times) ∧ length times = 21 ∧ ks 1 = 0 ∧
    ∀ m, 1 ≤ m ≤ 21 → ∃ timeout tm, density_timeouts !! m = Some timeout ∧ times !! (m - 1) = Some tm ∧
      measured bd fuel induced rng (d_num_nodes args)
        (Constant (f64_div (d_edge_density_multiplier args) (f64_of_usize 22)))
        (Constant (f64_div (f64_of_usize (N.of_nat m)) (f64_of_usize 22)))
        timeout false (shots m) (ks m) (rs m) tm (ks (S m)).
Proof.
  intros bd fuel induced rng args shots o Hind Hrng Hsh Hsize H. unfold density_run in H.
  destruct (density (d_edge_density_multiplier args)) as [ed|] eqn:E1; cbn [rbind] in H;
    [|injection H as <-; left; split; [done|by apply density_rejected]].
  apply density_constant in E1 as ->. set (fe := f64_div (d_edge_density_multiplier args) (f64_of_usize 22)) in *.
  pose (good := λ (ks : nat → nat) (rs : nat → list Sample) (times : list Times) (m : nat), ∃ timeout tm, density_timeouts !! m = Some timeout ∧ times !! (m - 1) = Some tm ∧
      measured bd fuel induced rng (d_num_nodes args) (Constant fe)
        (Constant (f64_div (f64_of_usize (N.of_nat m)) (f64_of_usize 22)))
        timeout false (shots m) (ks m) (rs m) tm (ks (S m))).
  assert (∀ todo data ks rs times o, data ++ todo = seq 1 21 → length times = length data → ks 1 = 0 →
    (∀ m, m ∈ data → good ks rs times m) →
    rfold (density_body bd fuel induced rng (d_num_nodes args) (Constant fe) shots) todo
      (sweep_arrays 8 data (λ _, false) rs, times, ks (1 + length data)) = Some o →
    ∃ rs' times' ks', o = Val (sweep_arrays 8 (seq 1 21) (λ _, false) rs', times', ks' 22) ∧ length times' = 21 ∧
      ks' 1 = 0 ∧ ∀ m, m ∈ seq 1 21 → good ks' rs' times' m) as Hloop.
  { clear H o. induction todo as [|m todo IH]; intros data ks rs times o Hd Htl Hk0 Hdata H.
    - injection H as <-. rewrite app_nil_r in Hd. subst data. exists rs, times, ks. split; [done|]. split; [done|done].
    - assert (m = 1 + length data) as Hsz2.
      { assert ((data ++ m :: todo) !! length data = Some m) as Hlk by (by apply list_lookup_middle).
        rewrite Hd in Hlk. apply lookup_seq in Hlk as [? _]. lia. }
      rewrite <- Hsz2 in H. assert (m ∈ seq 1 21) as Hs by (rewrite <- Hd; apply elem_of_app; right; left). apply elem_of_seq in Hs.
      assert (m ∉ data) as Hnot.
      { intros Hin. pose proof (NoDup_seq 1 21) as Hnd. rewrite <- Hd in Hnd. apply NoDup_app in Hnd as (_ & Hnd & _).
        apply (Hnd m Hin). by left. }
      cbn [rfold] in H. unfold density_body at 1 in H.
      rewrite (density_Val m ltac:(lia)) in H. cbn [rbind] in H.
      destruct (index density_timeouts m) as [timeout|] eqn:Et; unfold index in Et.
      2: { exfalso. destruct (lookup_lt_is_Some_2 density_timeouts m) as [t Ht].
           - unfold density_timeouts. simpl length. unfold NUM_DENSITIES. lia.
           - by rewrite Ht in Et. }
      destruct (density_timeouts !! m) as [tmo|] eqn:Et'; [injection Et as ->; rename Et' into Et|discriminate].
      cbn [rbind] in H.
      destruct (do_it _ _ _ _ _ _ _ _ _ _ _) as [r|] eqn:Ed; [|done].
      destruct (do_it_spec _ _ _ _ _ _ _ _ _ _ _ _ Hind Hrng Hsize (density_ok_constant fe _)
        (density_ok_constant _ _) (Hsh m) Ed) as (rs1 & tms & k1 & -> & Hm).
      cbn [rbind] in H.
      erewrite (sweep_arrays_snoc 8 data m (λ _, false) rs) in H;
        [|done| |reflexivity|reflexivity].
      2: { fold (summary false rs1). rewrite summary_length. lia. }
      cbn [rbind] in H.
      assert (∀ s, s ∈ data → s < m) as Hlt.
      { intros s (i & Hi)%elem_of_list_lookup_1. apply lookup_lt_Some in Hi as Hil.
        assert ((data ++ m :: todo) !! i = Some s) as Hs' by (by apply lookup_app_l_Some).
        rewrite Hd in Hs'. apply lookup_seq in Hs' as [-> _]. lia. }
      apply (IH (data ++ [m]) (λ s, if decide (s = S m) then k1 else ks s)
        (λ b, if decide (b = m) then rs1 else rs b) (times ++ [tms])).
      + by rewrite <- app_assoc.
      + rewrite !app_length. simpl. lia.
      + destruct (decide (1 = S m)); [lia|done].
      + intros s Hin. unfold good. destruct (decide (s = S m)) as [Heq|Hne1].
        { exfalso. apply elem_of_app in Hin as [Hin%Hlt|Hin%elem_of_list_singleton]; lia. }
        destruct (decide (s = m)) as [->|Hne].
        * rewrite decide_True by done. eexists _, tms. split; [exact Et|]. split; [|exact Hm].
          rewrite lookup_app_r by lia. replace (m - 1 - length times) with 0 by lia. done.
        * rewrite decide_False by lia. apply elem_of_app in Hin as [Hin|Hin%elem_of_list_singleton]; [|done].
          destruct (Hdata s Hin) as (tmo & tm & H1 & H2 & H3). exists tmo, tm. split; [done|]. split; [|done].
          by apply lookup_app_l_Some.
      + rewrite app_length. cbn [length]. rewrite decide_True by lia. exact H. }
  right. assert (density_RANGE = seq 1 21) as Er by reflexivity. rewrite Er in H. clear Er.
  rewrite (sweep_arrays_nil 8 (λ _, false) (λ _ : nat, [])) in H.
  assert (∀ x, x ∈ @nil nat → good (λ _, 0) (λ _, []) [] x) as Hnil by (intros ? Hn; destruct (proj1 (elem_of_nil _) Hn)).
  apply rbind_Some in H as [[H _]|(s & H1 & H)].
  - destruct (Hloop (seq 1 21) [] (λ _, 0) (λ _, []) [] Panic eq_refl eq_refl eq_refl Hnil H) as (? & ? & ? & ? & _). discriminate.
  - destruct (Hloop (seq 1 21) [] (λ _, 0) (λ _, []) [] (Val s) eq_refl eq_refl eq_refl Hnil H1) as (rs & times & ks & Es & Ht & Hk & Hrs).
    injection Es as ->.
    cbv beta iota in H. injection H as <-. exists rs, times, ks.
    split; [done|]. split; [done|]. split; [done|].
    intros m Hs. apply Hrs, elem_of_seq. lia.
Qed.

Lemma density_timeouts_budget :
  (N.of_nat NUM_AVERAGE * foldr N.add 0 density_timeouts ≤ (10 * 3600 - 30 * 60) * 1000000000)%N.
Proof. by vm_compute. Qed.

(** The lengths of the output arrays. *)
Lemma columns_lookup get_full rs i :
  i < 16 → length (cell (summary get_full rs) i) = if get_full then 1 else if i <? 8 then 1 else 0.
Proof.
  intros Hi. unfold cell. destruct (summary get_full rs !! (i / 2)) as [r|] eqn:E.
  - apply lookup_lt_Some in E. rewrite summary_length in E. destruct get_full; [done|].
    destruct (Nat.ltb_spec i 8); [done|]. pose proof (Nat.div_le_mono 8 i 2 ltac:(done) ltac:(lia)).
    change (8 / 2) with 4 in *. lia.
  - apply lookup_ge_None in E. rewrite summary_length in E.
    assert (i / 2 < 8) by (apply Nat.div_lt_upper_bound; lia). destruct get_full; [lia|].
    destruct (Nat.ltb_spec i 8); [|done]. assert (i / 2 < 4) by (apply Nat.div_lt_upper_bound; lia). lia.
Qed.

Lemma node_arrays_shape :
  ∀ rs i l, sweep_arrays 16 (seq 2 44) (λ size, size <=? 20) rs !! i = Some l →
  length l = if i <? 8 then 44 else 19.
Proof.
  intros rs i l H. unfold sweep_arrays in H. rewrite list_lookup_fmap in H.
  destruct (decide (i < 16)) as [Hi|Hi]; [|by rewrite lookup_seq_ge in H by lia].
  rewrite lookup_seq_lt in H by done. injection H as <-.
  cbn [seq map List.concat Nat.leb]. rewrite !app_length, !columns_lookup by done.
  destruct (i <? 8); reflexivity.
Qed.

Lemma density_arrays_shape :
  ∀ rs i l, sweep_arrays 8 (seq 1 21) (λ _, false) rs !! i = Some l → length l = 21.
Proof.
  intros rs i l H. unfold sweep_arrays in H. rewrite list_lookup_fmap in H.
  destruct (decide (i < 8)) as [Hi|Hi]; [|by rewrite lookup_seq_ge in H by lia].
  rewrite lookup_seq_lt in H by done. injection H as <-.
  cbn [seq map List.concat Nat.leb]. rewrite !app_length, !columns_lookup by lia.
  apply Nat.ltb_lt in Hi as ->. reflexivity.
Qed.
