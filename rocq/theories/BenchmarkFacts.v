(** * The benchmark: recorded data, statistics, shapes of the output *)
From stdpp Require Import strings.
From Verif Require Export MainResults.
From Verif Require Import Spec.

(** What one shot contributes: the instance, the time optimal path, the last path of
    the approximate search, the first and the last path of the full search. *)
Record Sample := mkSample {
  s_adj : spacial;
  s_order : order;
  s_fast : path;
  s_approx : option path;
  s_full_first : option path;
  s_full_last : option path
}.

(** The recorded times and spaces of one kind of path. *)
Definition times_of (f : Sample → option path) (rs : list Sample) : list N :=
  omap (λ r, match f r with Some p => Some (N.of_nat (time p)) | None => None end) rs.
Definition spaces_of (f : Sample → option path) (rs : list Sample) : list N :=
  omap (λ r, match f r with Some p => Some (space p) | None => None end) rs.
Definition columns (get_full : bool) (rs : list Sample) : list (list N) :=
  [times_of (λ r, Some (s_fast r)) rs; spaces_of (λ r, Some (s_fast r)) rs;
   times_of s_approx rs; spaces_of s_approx rs] ++
  if get_full then
    [times_of s_full_first rs; spaces_of s_full_first rs;
     times_of s_full_last rs; spaces_of s_full_last rs]
  else [].

(** The sum, the mean and the standard deviation of a column, in floating point
    arithmetic. *)
Definition float_sum (col : list N) : f64 :=
  foldl (λ s e, f64_add s (f64_of_usize e)) f64_zero col.
Definition mean_of (col : list N) : f64 :=
  f64_div (float_sum col) (f64_of_usize (N.of_nat (length col))).
Definition deviation_of (col : list N) : f64 :=
  let squares := map (λ e, let d := f64_sub (f64_of_usize e) (mean_of col) in f64_mul d d) col in
  f64_sqrt (f64_div (foldl f64_add f64_zero squares) (f64_of_usize (N.of_nat (length col)))).

(** Instance and paths of a shot are as they should be. *)
Record sample_ok (size : nat) (get_full : bool) (r : Sample) : Prop := {
  so_simple : simple_graph size (s_adj r);
  so_order : wf_order size (s_order r);
  so_listed : ∀ b, listed (s_order r) b ↔ b < size;
  so_fast : path_ok (s_adj r) (s_order r) (s_fast r);
  so_fastest : ∀ σ, valid_schedule (s_order r) σ → time (s_fast r) ≤ time_cost σ;
  so_approx : ∀ p, s_approx r = Some p → path_ok (s_adj r) (s_order r) p;
  so_full : get_full = true → 1 ≤ size → ∃ p q,
    s_full_first r = Some p ∧ s_full_last r = Some q ∧
    path_ok (s_adj r) (s_order r) p ∧ path_ok (s_adj r) (s_order r) q ∧
    time p = time (s_fast r) ∧ (space q ≤ space p)%N
}.

Lemma times_of_app f rs r :
  times_of f (rs ++ [r]) = times_of f rs ++ match f r with Some p => [N.of_nat (time p)] | None => [] end.
Proof. unfold times_of. rewrite omap_app. simpl. by destruct (f r). Qed.
Lemma spaces_of_app f rs r :
  spaces_of f (rs ++ [r]) = spaces_of f rs ++ match f r with Some p => [space p] | None => [] end.
Proof. unfold spaces_of. rewrite omap_app. simpl. by destruct (f r). Qed.
Lemma float_sum_app col e : float_sum (col ++ [e]) = f64_add (float_sum col) (f64_of_usize e).
Proof. unfold float_sum. by rewrite foldl_app. Qed.

Definition recorded (get_full : bool) (rs : list Sample) : list (list N) * list f64 :=
  (columns get_full rs, map float_sum (columns get_full rs)).

Lemma record_shot get_full rs r :
  (get_full = false → s_full_first r = None ∧ s_full_last r = None) →
  (let* rm := push_path 0 (s_fast r) (recorded get_full rs) in
   let* rm := push_opt 1 (s_approx r) rm in
   if get_full then
     let* rm := push_opt 2 (s_full_first r) rm in push_opt 3 (s_full_last r) rm
   else Val rm) = Val (recorded get_full (rs ++ [r])).
Proof.
  intros Hf. destruct get_full.
  - unfold recorded, columns. rewrite !times_of_app, !spaces_of_app.
    destruct (s_approx r) as [p|], (s_full_first r) as [p1|], (s_full_last r) as [p2|];
      rewrite ?app_nil_r; cbn [map app push_opt]; rewrite ?float_sum_app; reflexivity.
  - unfold recorded, columns. rewrite !times_of_app, !spaces_of_app.
    destruct (s_approx r) as [p|];
      rewrite ?app_nil_r; cbn [map app push_opt]; rewrite ?float_sum_app; reflexivity.
Qed.

Lemma tradeoff_head_last ps p q :
  tradeoff ps → head ps = Some p → last ps = Some q → (space q ≤ space p)%N.
Proof.
  intros Ht Hp Hq. rewrite last_lookup in Hq. destruct ps as [|p0 ps]; [done|]. simpl in Hp. injection Hp as ->.
  simpl in Hq. destruct ps as [|p1 ps]; simpl in *; [injection Hq as ->; lia|].
  destruct (Ht 0 (S (length ps)) p q) as [_ ?]; [lia|done|done|]. lia.
Qed.

(** Well behaved shot: hash map iterations are permutations, elapsed times fit into
    64 bits of nano seconds (584 years). *)
Definition shot_ok (shot : Shot) : Prop :=
  (∀ l, e_hash_order (sh_approx shot) l ≡ₚ l) ∧ (∀ l, e_hash_order (sh_full shot) l ≡ₚ l) ∧
  ((sh_elapsed shot).1.1 < 2 ^ 64 ∧ (sh_elapsed shot).1.2 < 2 ^ 64 ∧ (sh_elapsed shot).2 < 2 ^ 64)%N.

(** Densities that can be evaluated for this size. *)
Definition density_ok (d : Density) (size : nat) : Prop := size ≠ 1 ∨ ∃ f, d = Constant f.

Lemma density_ok_get d size : density_ok d size → size = 0 ∨ ∃ x, density_get d size = Val x.
Proof.
  intros [H|[f ->]]; [|right; by eexists]. destruct (decide (size = 0)) as [|Hs]; [by left|right].
  destruct (density_get d size) as [x|] eqn:E; [by exists x|]. apply density_get_panics in E as [? _]. lia.
Qed.

(** Sample [r] comes from a shot: draw the instance, starting at position [k] of the
    random number generator, then the seed, and run the searches. *)
Definition from_shot (bd : build) (fuel : nat) (induced : Frames → list nat → PartialOrderGraph)
    (rng : Rng) (size : nat) (ed cd : Density) (timeout : N) (get_full : bool)
    (k : nat) (shot : Shot) (r : Sample) (k' : nat) : Prop :=
  ∃ k1 k2 ps2,
    get_graph rng ed size k = Val (s_adj r, k1) ∧
    get_order fuel induced rng cd size k1 = Some (Val (s_order r, k2)) ∧ k' = S k2 ∧
    run bd fuel (sh_time_optimal shot) (s_adj r) (s_order r) false None 1 None None = Some (Val [s_fast r]) ∧
    run bd fuel (sh_approx shot) (s_adj r) (s_order r) true (Some (N.to_nat timeout)) NCPUS None
      (Some (BuiltinHeavyside, Some (r_u64 rng k2))) = Some (Val ps2) ∧ s_approx r = last ps2 ∧
    if get_full then
      ∃ ps3, run bd fuel (sh_full shot) (s_adj r) (s_order r) true None NCPUS None None = Some (Val ps3) ∧
        s_full_first r = head ps3 ∧ s_full_last r = last ps3
    else s_full_first r = None ∧ s_full_last r = None.

(** The samples [rs] come from [shots], one after the other. *)
Fixpoint series (one : nat → Shot → Sample → nat → Prop) (k : nat) (shots : list Shot) (rs : list Sample) (k' : nat) : Prop :=
  match shots, rs with
  | [], [] => k = k'
  | shot :: shots, r :: rs => ∃ k1, one k shot r k1 ∧ series one k1 shots rs k'
  | _, _ => False
  end.

(** Total of the elapsed times, average over 3000 shots, rounded down. *)
Definition total (f : N * N * N → N) (shots : list Shot) : N := foldr (λ shot t, f (sh_elapsed shot) + t)%N 0%N shots.
Definition average_times (get_full : bool) (shots : list Shot) : Times :=
  mkTimes (total (λ e, e.1.1) shots / 3000) (total (λ e, e.1.2) shots / 3000)
    (if get_full then Some (total snd shots / 3000)%N else None).

(** The samples and times of one call of [do_it]. *)
Definition measured (bd : build) (fuel : nat) (induced : Frames → list nat → PartialOrderGraph)
    (rng : Rng) (size : nat) (ed cd : Density) (timeout : N) (get_full : bool)
    (shots : nat → Shot) (k : nat) (rs : list Sample) (times : Times) (k' : nat) : Prop :=
  N.of_nat (length rs) = 3000%N ∧ Forall (sample_ok size get_full) rs ∧
  series (from_shot bd fuel induced rng size ed cd timeout get_full) k (map shots (seq 0 (N.to_nat 3000))) rs k' ∧
  times = average_times get_full (map shots (seq 0 (N.to_nat 3000))).

Lemma series_snoc one k shots rs k1 shot r k2 :
  series one k shots rs k1 → one k1 shot r k2 → series one k (shots ++ [shot]) (rs ++ [r]) k2.
Proof.
  revert k rs. induction shots as [|sh shots IH]; intros k [|r0 rs] H H1; simpl in *; try done.
  - subst k1. by exists k2.
  - destruct H as (k0 & H0 & H). exists k0. split; [done|]. by apply IH.
Qed.

Lemma total_snoc f shots shot : total f (shots ++ [shot]) = (total f shots + f (sh_elapsed shot))%N.
Proof. induction shots as [|sh shots IH]; simpl; [lia|]. rewrite IH. lia. Qed.

Lemma total_bound f shots : Forall (λ shot, f (sh_elapsed shot) < 2 ^ 64)%N shots →
  (total f shots ≤ N.of_nat (length shots) * (2 ^ 64 - 1))%N.
Proof. induction 1 as [|shot shots H _ IH]; simpl length; cbn [total foldr]; [lia|]. fold (total f shots). lia. Qed.

Lemma rbind_Some {A B} (m : option (out A)) (f : A → option (out B)) o :
  rbind m f = Some o → (m = Some Panic ∧ o = Panic) ∨ ∃ a, m = Some (Val a) ∧ f a = Some o.
Proof. destruct m as [[a|]|]; simpl; [right; eauto|intros [= <-]; by left|done]. Qed.

(** The state of the loop. *)
Definition totals (get_full : bool) (shots : list Shot) : N * N * N :=
  (total (λ e, e.1.1) shots, total (λ e, e.1.2) shots, if get_full then total snd shots else 0%N).

Lemma do_it_body_spec bd fuel induced rng size ed cd timeout get_full rs shots k shot o :
  induces_orders induced → (∀ k n, 0 < n → r_range rng k n < n) → (N.of_nat size < 2 ^ 64 - 1)%N →
  density_ok ed size → density_ok cd size → shot_ok shot →
  do_it_body bd fuel induced rng size ed cd timeout get_full (recorded get_full rs, totals get_full shots, k) shot = Some o →
  ∃ r k', o = Val (recorded get_full (rs ++ [r]), totals get_full (shots ++ [shot]), k') ∧ sample_ok size get_full r ∧
    from_shot bd fuel induced rng size ed cd timeout get_full k shot r k'.
Proof.
  intros Hind Hrng Hsize Hed Hcd (Hh1 & Hh2 & _) H. unfold do_it_body, totals at 1 in H.
  apply density_ok_get in Hed, Hcd.
  assert (∃ x, size = 0 ∨ density_value ed size x) as [x Hx].
  { destruct Hed as [->|[x ?]]; [exists f64_zero; by left|exists x; right; by apply density_get_value]. }
  destruct (random_graph rng ed x size k Hx) as (adj & Eg & Hsimple & _).
  rewrite Eg in H. cbn [rbind] in H.
  apply rbind_Some in H as [[H _]|([g k1] & H1 & H)].
  { destruct (get_order_some _ _ _ _ _ _ _ Hind Hrng Hcd H) as (? & ? & ? & _). done. }
  destruct (get_order_some _ _ _ _ _ _ _ Hind Hrng Hcd H1) as (g' & k' & [= <- <-] & Hg & Hl).
  assert (wf_input adj g) as Hin.
  { split; [by eapply simple_wf|]. destruct Hsimple as (-> & _). done. }
  apply rbind_Some in H as [[H _]|(ps1 & H2 & H)].
  { destruct (run_time_optimal adj g Hin) as (p & _ & _ & Hr).
    destruct (Hr bd (sh_time_optimal shot) None 1 None None) as (f0 & Hf). specialize (Hf (f0 + fuel) ltac:(lia)).
    unfold run in H, Hf. simpl in H, Hf. eapply get_time_optimal_mono in H; [|apply (Nat.le_add_l fuel f0)]. congruence. }
  assert (∃ p, ps1 = [p] ∧ path_ok adj g p ∧ ∀ σ, valid_schedule g σ → time p ≤ time_cost σ) as (p & -> & Hp & Hmin).
  { destruct (run_time_optimal adj g Hin) as (p & Hp & Hmin & Hr).
    destruct (Hr bd (sh_time_optimal shot) None 1 None None) as (f0 & Hf). specialize (Hf (f0 + fuel) ltac:(lia)).
    unfold run in H2, Hf. simpl in H2, Hf. eapply get_time_optimal_mono in H2; [|apply (Nat.le_add_l fuel f0)].
    exists p. split; [congruence|done]. }
  apply rbind_Some in H as [[H _]|(ps2 & H3 & H)].
  { destruct (run_calm_valid _ _ _ _ _ _ _ _ _ _ _ Hin Hh1 (builtin_calm _) H) as (? & ? & _). done. }
  destruct (run_calm_valid _ _ _ _ _ _ _ _ _ _ _ Hin Hh1 (builtin_calm _) H3) as (? & [= <-] & Hps2 & _).
  apply rbind_Some in H as [[H _]|(full & H4 & H)].
  { destruct get_full; [|done]. apply rbind_Some in H as [[H _]|(ps3 & _ & H)]; [|done].
    destruct (run_calm_valid _ _ _ _ _ _ _ _ _ _ _ Hin Hh2 none_calm H) as (? & ? & _). done. }
  assert (∃ q1 q2, (get_full = false → full = None ∧ q1 = None ∧ q2 = None) ∧
    (get_full = true → ∃ ps3, full = Some ps3 ∧ q1 = head ps3 ∧ q2 = last ps3 ∧
      run bd fuel (sh_full shot) adj g true None NCPUS None None = Some (Val ps3)) ∧
    (get_full = true → 1 ≤ size → ∃ p' q, q1 = Some p' ∧ q2 = Some q ∧
      path_ok adj g p' ∧ path_ok adj g q ∧ time p' = time p ∧ (space q ≤ space p')%N)) as (q1 & q2 & Hq1 & Hq2 & Hq3).
  { destruct get_full.
    - apply rbind_Some in H4 as [[H4 ?]|(ps3 & H4 & [= <-])]; [done|].
      exists (head ps3), (last ps3). split; [done|]. split; [by exists ps3|]. intros _ Hs.
      destruct (run_calm_valid _ _ _ _ _ _ _ _ _ _ _ Hin Hh2 none_calm H4) as (? & [= <-] & Hps3 & Htr).
      assert (∃ b, listed g b) as Hb' by (exists 0; apply Hl; lia).
      assert (2 ≤ NCPUS) as Hcpu by (unfold NCPUS; lia).
      destruct (run_threaded_time_optimal adj g _ None NCPUS None bd fuel (Val ps3) Hin Hh2 Hb' Hcpu (or_introl eq_refl) H4)
        as (p' & ps & [= ->] & Hmin').
      destruct (last (p' :: ps)) as [q|] eqn:Eq; [|by apply last_None in Eq].
      exists p', q. split; [done|]. split; [done|]. inversion_clear Hps3 as [|? ? Hp' Hps].
      split; [done|]. split.
      + apply last_Some_elem_of in Eq. rewrite Forall_forall in Hps. apply elem_of_cons in Eq as [->|Eq]; [done|by apply Hps].
      + split; [|by eapply tradeoff_head_last].
        destruct Hp as (Hv & Ht & _), Hp' as (Hv' & Ht' & _).
        apply Hmin' in Hv. apply Hmin in Hv'. lia.
    - injection H4 as <-. by exists None, None. }
  pose (r := mkSample adj g p (last ps2) q1 q2). exists r.
  pose proof (record_shot get_full rs r (λ E, proj2 (Hq1 E))) as Hrec.
  assert ((let* time_optimal := match head [p] with Some p => Val p | None => Panic end in
     let* rm := push_path 0 time_optimal (recorded get_full rs) in
     let* rm := push_opt 1 (last ps2) rm in
     match full with
     | Some full => let* rm := push_opt 2 (head full) rm in push_opt 3 (last full) rm
     | None => Val rm
     end) = Val (recorded get_full (rs ++ [r]))) as Hrec'.
  { rewrite <- Hrec. cbn [head obind r s_fast s_approx s_full_first s_full_last].
    destruct get_full.
    - destruct (Hq2 eq_refl) as (ps3 & -> & -> & -> & _). done.
    - destruct (Hq1 eq_refl) as (-> & _ & _). done. }
  rewrite Hrec' in H. cbn [rbind] in H. destruct (sh_elapsed shot) as [[e1 e2] e3] eqn:Eel. injection H as <-.
  eexists. split; [|split].
  - unfold totals. rewrite !total_snoc, Eel. cbn [fst snd]. by destruct get_full.
  - split; cbn [r s_adj s_order s_fast s_approx s_full_first s_full_last]; try done.
    intros p' Hlast. apply last_Some_elem_of in Hlast. rewrite Forall_forall in Hps2. by apply Hps2.
  - eexists _, k1, ps2. split; [exact Eg|]. split; [exact H1|]. split; [done|]. split; [exact H2|].
    split; [exact H3|]. split; [done|]. cbn [r s_adj s_order s_full_first s_full_last]. destruct get_full.
    + destruct (Hq2 eq_refl) as (ps3 & _ & -> & -> & Hr). by exists ps3.
    + destruct (Hq1 eq_refl) as (_ & -> & ->). done.
Qed.

Lemma do_it_loop bd fuel induced rng size ed cd timeout get_full shots rs shots0 k0 k o :
  induces_orders induced → (∀ k n, 0 < n → r_range rng k n < n) → (N.of_nat size < 2 ^ 64 - 1)%N →
  density_ok ed size → density_ok cd size → Forall shot_ok shots →
  Forall (sample_ok size get_full) rs →
  series (from_shot bd fuel induced rng size ed cd timeout get_full) k0 shots0 rs k →
  rfold (do_it_body bd fuel induced rng size ed cd timeout get_full) shots (recorded get_full rs, totals get_full shots0, k) = Some o →
  ∃ rs' k', o = Val (recorded get_full rs', totals get_full (shots0 ++ shots), k') ∧ Forall (sample_ok size get_full) rs' ∧
    length rs' = length rs + length shots ∧
    series (from_shot bd fuel induced rng size ed cd timeout get_full) k0 (shots0 ++ shots) rs' k'.
Proof.
  intros Hind Hrng Hsize Hed Hcd Hsh. revert rs shots0 k.
  induction Hsh as [|shot shots Hs Hsh IH]; intros rs shots0 k Hrs Hser H.
  - injection H as <-. exists rs, k. rewrite app_nil_r. split; [done|]. split; [done|]. split; [simpl; lia|done].
  - cbn [rfold] in H. apply rbind_Some in H as [[H _]|(s' & H1 & H)].
    + eapply do_it_body_spec in H; [|done..]. destruct H as (? & ? & ? & _). done.
    + eapply do_it_body_spec in H1; [|done..]. destruct H1 as (r & k' & [= ->] & Hr & Hfrom).
      edestruct (IH (rs ++ [r]) (shots0 ++ [shot])) as (rs' & k'' & -> & H1 & H2 & H3); [| |exact H|].
      * apply Forall_app. split; [done|by constructor].
      * by eapply series_snoc.
      * rewrite <- app_assoc in H3 |- *. exists rs', k''. split; [done|]. split; [done|]. split; [|done].
        rewrite H2, app_length. simpl. lia.
Qed.

Lemma average_Val t : (t ≤ 3000 * (2 ^ 64 - 1))%N → average t = Val (t / 3000)%N.
Proof.
  intros H. unfold average. assert (N.of_nat NUM_AVERAGE = 3000%N) as -> by (by vm_compute).
  destruct (N.ltb_spec (t / 3000) (2 ^ 64)) as [Hlt|Hge]; [done|]. exfalso.
  assert (t / 3000 < 2 ^ 64)%N as Hlt; [|lia]. apply N.div_lt_upper_bound; [done|]. lia.
Qed.

Lemma statistics_spec col : statistics col (float_sum col) = (mean_of col, deviation_of col).
Proof.
  unfold statistics, deviation_of. fold (mean_of col). cbv zeta. do 3 f_equal. generalize f64_zero (mean_of col).
  intros z m. revert z. induction col as [|e col IH]; intros z; [done|]. cbn [map foldl]. apply IH.
Qed.
Lemma zip_statistics cols : zip_with statistics cols (map float_sum cols) = map (λ col, (mean_of col, deviation_of col)) cols.
Proof. induction cols as [|c cols IH]; simpl; [done|]. by rewrite statistics_spec, IH. Qed.

Lemma num_average : NUM_AVERAGE = N.to_nat 3000.
Proof. by vm_compute. Qed.

(** The statistics and times that [do_it] returns are those of 3000 correct shots. *)
Lemma do_it_spec :
  ∀ bd fuel induced rng size ed cd timeout get_full shots k o,
  induces_orders induced → (∀ k n, 0 < n → r_range rng k n < n) → (N.of_nat size < 2 ^ 64 - 1)%N →
  density_ok ed size → density_ok cd size → (∀ i, shot_ok (shots i)) →
  do_it bd fuel induced rng size ed cd timeout get_full shots k = Some o →
  ∃ rs times k', o = Val (map (λ col, (mean_of col, deviation_of col)) (columns get_full rs), times, k') ∧
    measured bd fuel induced rng size ed cd timeout get_full shots k rs times k'.
Proof.
  intros bd fuel induced rng size ed cd timeout get_full shots k o Hind Hrng Hsize Hed Hcd Hsh H. unfold do_it in H.
  assert (((replicate (if get_full then 8 else 4) [], replicate (if get_full then 8 else 4) f64_zero) : list (list N) * list f64)
    = recorded get_full []) as Einit by (by destruct get_full).
  rewrite Einit in H. clear Einit. rewrite num_average in H.
  assert ((0, 0, 0)%N = totals get_full []) as Et by (by destruct get_full). rewrite Et in H. clear Et.
  assert (length (seq 0 (N.to_nat 3000)) = N.to_nat 3000) as Hl by apply seq_length. revert Hl H.
  unfold measured. generalize (seq 0 (N.to_nat 3000)). intros l Hl H.
  assert (Forall shot_ok (map shots l)) as Hshots.
  { apply Forall_map, Forall_forall. intros i _. apply Hsh. }
  apply rbind_Some in H as [[H _]|(s & H1 & H)].
  { eapply (do_it_loop _ _ _ _ _ _ _ _ _ _ [] [] k) in H; [|done..]. destruct H as (? & ? & ? & _). done. }
  eapply (do_it_loop _ _ _ _ _ _ _ _ _ _ [] [] k) in H1; [|done..].
  destruct H1 as (rs & k' & [= ->] & Hrs & Hlen & Hser). cbn [app] in *.
  rewrite map_length, Hl in Hlen. cbn [length Nat.add] in Hlen.
  assert (∀ f, Forall (λ shot, f (sh_elapsed shot) < 2 ^ 64)%N (map shots l) → (total f (map shots l) ≤ 3000 * (2 ^ 64 - 1))%N) as Hb.
  { intros f Hf. apply total_bound in Hf. rewrite map_length, Hl, N2Nat.id in Hf. exact Hf. }
  unfold totals in H. cbv beta iota in H.
  rewrite (average_Val (total (λ e, e.1.1) _)), (average_Val (total (λ e, e.1.2) _)) in H
    by (apply Hb; eapply Forall_impl; [exact Hshots|intros ? (_ & _ & ? & ? & ?); done]).
  cbn [obind] in H. unfold recorded in H. cbn [fst snd] in H. rewrite zip_statistics in H.
  exists rs, (average_times get_full (map shots l)), k'. split; [|split; [by rewrite Hlen, N2Nat.id|done]].
  destruct get_full.
  - rewrite (average_Val (total snd _)) in H
      by (apply Hb; eapply Forall_impl; [exact Hshots|intros ? (_ & _ & ? & ? & ?); done]).
    cbn [obind rbind] in H. by injection H as <-.
  - cbn [obind rbind] in H. by injection H as <-.
Qed.
