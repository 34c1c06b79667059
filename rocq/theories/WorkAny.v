(** * The amount of work for arbitrary inputs *)
From Verif Require Export MainWork.

(** A bound for the calls of [next] below a state. *)
Definition calls_below (s : Scheduler (Partition nat)) : nat :=
  2 * sum_list (map (step_weight (sweight s)) (items s)) + 1.

Lemma splits_subtree {A} (l : list A) u :
  length l ≤ u → sum_list (map (step_weight u) (all_splits l)) + 1 ≤ subtree u.
Proof.
  intros Hu. destruct l as [|x l]; [simpl; apply subtree_pos|]. by apply all_splits_subtree.
Qed.

Lemma fresh_calls s : SchedulerFacts.fresh s → calls_below s + 1 ≤ 2 * subtree (sweight s).
Proof.
  intros Hf. unfold calls_below. rewrite Hf.
  pose proof (splits_subtree (mset s) (sweight s)) as H.
  assert (length (mset s) ≤ sweight s) by (unfold mset, sweight, weight; lia). specialize (H ltac:(done)). lia.
Qed.

Lemma next_calls bd s s' r :
  scheduler_next_and_focus bd s = Val (s', r) →
  match r with
  | Some (c, _) => calls_below c + calls_below s' < calls_below s
  | None => calls_below s' ≤ calls_below s
  end.
Proof.
  intros E. pose proof E as E0. apply scheduler_next_measure in E0 as (Hw & _).
  unfold scheduler_next_and_focus in E.
  destruct (time_next_and_focus bd (s_time s)) as [[t rt]|] eqn:Et; [|done]. cbn [obind] in E.
  pose proof Et as Et'. unfold time_next_and_focus, partition_next in Et'.
  destruct (piter (measurable (s_time s))) as [|sub rest] eqn:Ei.
  - injection Et' as <- <-. injection E as <- <-. unfold calls_below. rewrite Hw.
    unfold items, mset. simpl. lia.
  - destruct (partition_map 0 sub (pset (measurable (s_time s)))) as [a b] eqn:Ep.
    destruct b as [|x b].
    + injection Et' as <- <-. injection E as <- <-. unfold calls_below. rewrite Hw.
      unfold items, mset. simpl. rewrite Ei. simpl. unfold id. lia.
    + destruct (time_focus_unchecked _ _ _ _) as [nt|] eqn:Ef; [|done]. cbn [obind] in Et'.
      injection Et' as Et1 Et2. subst rt. cbn [obind] in E.
      destruct (space_focus_inplace _ _ _) as [[gr [|]]|]; [|done..]. cbn [obind] in E.
      injection E as <- <-.
      apply time_next_weight in Et as [Hwt _].
      set (c := mkScheduler nt gr).
      assert (SchedulerFacts.fresh c) as Hfresh.
      { unfold time_focus_unchecked in Ef. destruct (update_unchecked _ _ _ _ _) as [[dc nw]|]; [|done].
        cbn [obind] in Ef. injection Ef as <-. unfold SchedulerFacts.fresh, items, mset, c. simpl.
        by rewrite powerset_all_splits. }
      apply fresh_calls in Hfresh.
      assert (sweight c = sweight s - length (x :: b)) as Hc by (unfold sweight, c; simpl in *; lia).
      rewrite Hc in Hfresh. subst t.
      assert (items s = (a, x :: b) :: items (mkScheduler
        (mkPathGenerator (mkPartition (pset (measurable (s_time s))) rest) (deps_counter (s_time s))
          (dependents (s_time s))) (s_space s))) as Hi.
      { unfold items, mset. simpl. rewrite Ei. simpl. by rewrite Ep. }
      assert (step_weight (sweight s) (a, x :: b) = subtree (sweight s - length (x :: b))) as Hsw by done.
      unfold calls_below at 2 3. rewrite Hw, Hi. cbn [map sum_list_with foldr]. simpl in *. unfold id in *. lia.
Qed.

Definition calls_bound (sw : Sweep (Scheduler (Partition nat))) : nat :=
  calls_below (current sw) + sum_list (map calls_below (stack sw)).

Lemma calls_bound_left bd : calls_left bd (λ sw m, m = calls_bound sw).
Proof.
  split.
  - intros sw m ->. unfold calls_bound, calls_below. lia.
  - intros sw m sw' st -> E. exists (calls_bound sw'). split; [|done]. revert E. unfold sweep_next.
    cbn [next_and_focus scheduler_focus_iterator].
    destruct (scheduler_next_and_focus bd (current sw)) as [[cur r]|] eqn:E; [|done]. cbn [obind].
    apply next_calls in E. destruct r as [[c M]|].
    + intros [= <- <-]. unfold calls_bound. simpl. unfold id. lia.
    + destruct (stack sw) as [|t ts] eqn:Es; [done|]. intros [= <- <-].
      unfold calls_bound. rewrite Es. simpl. unfold id. unfold calls_below at 3. lia.
  - intros sw m sw' r ->. unfold skip_current. destruct (stack sw) as [|t ts] eqn:Es; intros [= <- <-].
    + by exists (calls_bound sw).
    + exists (calls_bound (mkSweep t ts)). split; [|done]. unfold calls_bound. rewrite Es. simpl. unfold id. lia.
Qed.

Lemma spawn_calls bd bound fuel s jobs k js :
  loop (spawn_body bd bound) fuel (s, jobs, k) = Some (Val js) →
  ∃ new, js = jobs ++ new ∧ sum_list (map (λ x, calls_bound (sweep_new (job_scheduler x))) new) ≤ calls_below s.
Proof.
  assert (∀ t, calls_bound (sweep_new t) = calls_below t) as Hb.
  { intros t. unfold calls_bound, sweep_new. simpl. lia. }
  revert s jobs k. induction fuel as [|fuel IH]; intros s jobs k; [done|].
  cbn [loop]. unfold spawn_body at 1.
  destruct (scheduler_next_and_focus bd s) as [[s' r]|] eqn:E; [|done]. cbn [obind].
  apply next_calls in E. destruct r as [[c b]|].
  - destruct (_ =? _)%Z.
    + intros [= <-]. exists [mkJob c (Some b); mkJob s' None]. split; [by rewrite <- app_assoc|].
      simpl. unfold id. rewrite !Hb. lia.
    + intros Hl. apply IH in Hl as (new & -> & Hs). exists (mkJob c (Some b) :: new).
      split; [by rewrite <- app_assoc|]. simpl. unfold id in *. rewrite Hb. lia.
  - intros [= <-]. exists [mkJob s' None]. split; [done|]. simpl. unfold id. rewrite Hb. lia.
Qed.

Lemma root_calls adj g s :
  search_scheduler adj g = Val s → calls_below s ≤ 4 * ordered_bell (length (qubits g)) - 1.
Proof.
  unfold search_scheduler.
  destruct (from_dependency_graph g (dependency_buffer_new (length adj)) None) as [t|] eqn:E; [|done].
  cbn [obind]. intros [= <-]. pose proof (root_weight _ _ _ E) as Hw.
  assert (SchedulerFacts.fresh (mkScheduler t (graph_new adj))) as Hf.
  { rewrite from_dependency_graph_eq in E. destruct (decide _); [|done]. injection E as <-.
    unfold SchedulerFacts.fresh, items, mset. simpl. by rewrite powerset_all_splits. }
  apply fresh_calls in Hf. change (sweight (mkScheduler t (graph_new adj))) with (weight t) in Hf.
  assert (∀ a b, a ≤ b → ordered_bell a ≤ ordered_bell b) as Hmono.
  { intros a b Hab. induction Hab as [|b Hab IH]; [done|]. etrans; [exact IH|].
    rewrite (ordered_bell_S (S b)) by done. rewrite sum_seq_S. rewrite Nat.add_0_l, choose_pred. nia. }
  specialize (Hmono _ _ Hw). unfold subtree in Hf. pose proof (ordered_bell_pos (weight t)).
  destruct (weight t =? 0); lia.
Qed.

Lemma any_single :
  ∀ adj g bd fuel env timeout nthreads bound prob,
  nthreads < 2 → 4 * ordered_bell (length (qubits g)) - 1 ≤ fuel →
  ∃ o, run bd fuel env adj g true timeout nthreads bound prob = Some o.
Proof.
  intros adj g bd fuel env timeout nthreads bound prob Hn Hf.
  unfold run. cbn [negb]. unfold search. rewrite (proj2 (Nat.ltb_lt _ _) Hn).
  unfold world_of. cbn [w_fuel w_timer w_hash_order].
  destruct (search_scheduler adj g) as [s|] eqn:Es.
  - eapply single_within; [apply calls_bound_left|done|done|].
    unfold calls_bound, sweep_new. simpl. apply root_calls in Es. lia.
  - unfold search_single. rewrite Es. by eexists.
Qed.

Lemma any_threaded :
  ∀ adj g bd fuel env timeout nthreads bound prob ps,
  2 ≤ nthreads → run bd fuel env adj g true timeout nthreads bound prob = Some (Val ps) →
  observed_iterations (e_events env) ≤ 4 * ordered_bell (length (qubits g)) - 1.
Proof.
  intros adj g bd fuel env timeout nthreads bound prob ps Hn.
  unfold run. cbn [negb]. unfold search.
  assert (nthreads <? 2 = false) as -> by (apply Nat.ltb_ge; lia).
  destruct (search_scheduler adj g) as [s|] eqn:Es; [|done].
  destruct (threaded_search _ _ _ _ _ _ _ _) as [[res|]|] eqn:E; [|done..]. intros _.
  apply (threaded_within bd _ (calls_bound_left bd) _ _ _ _ _ _ _ (calls_below s) res) in E.
  - unfold world_of in E. cbn [w_events] in E. rewrite timed_iterations in E. apply root_calls in Es. lia.
  - intros js Hjs. unfold spawn in Hjs. apply spawn_calls in Hjs as (new & -> & Hs).
    exists (map (λ x, calls_bound (sweep_new (job_scheduler x))) new). split; [|done].
    apply Forall2_fmap_r. by apply Forall_Forall2_diag, Forall_true.
Qed.

(** Without a search. *)
Lemma any_time_optimal :
  ∀ adj g bd fuel env timeout nthreads bound prob,
  length (qubits g) < fuel → ∃ o, run bd fuel env adj g false timeout nthreads bound prob = Some o.
Proof.
  intros adj g bd fuel env timeout nthreads bound prob Hf. unfold run. cbn [negb]. unfold get_time_optimal.
  destruct (from_dependency_graph g (dependency_buffer_new (length adj)) None) as [t|] eqn:E; [|by eexists].
  destruct (time_optimal_terminates bd (mkScheduler t (graph_new adj), [], 0%N) fuel) as [r ->].
  - simpl. rewrite from_dependency_graph_eq in E. destruct (decide _); [|done]. injection E as <-. simpl.
    pose proof (counters_size (concat (tail g)) ∅) as H. rewrite map_size_empty in H.
    unfold qubits in Hf. rewrite map_length in *. destruct g as [|layer g]; simpl in *; [lia|].
    rewrite app_length in Hf. lia.
  - destruct r as [[p m]|]; by eexists.
Qed.

Lemma estimates :
  ∀ n, fact n ≤ ordered_bell n ≤ n ^ n ∧ (n ≠ 0 → 4 * n ^ n ≤ 2 ^ (2 ^ n)).
Proof.
  intros n. split; [split; [apply ordered_bell_fact|apply ordered_bell_power]|]. apply power_bound.
Qed.
