(** * Termination of the loops, for every input *)
From Verif Require Export Search Threaded SchedulerFacts.

(** ** Loops with fuel *)

Lemma loop_mono {S R} (body : S → out (S + R)) fuel fuel' s r :
  loop body fuel s = Some r → fuel ≤ fuel' → loop body fuel' s = Some r.
Proof.
  revert fuel' s. induction fuel as [|fuel IH]; intros fuel' s; [done|].
  destruct fuel' as [|fuel']; [lia|]. simpl.
  destruct (body s) as [[s'|r']|]; [|done..]. intros. apply IH; [done|lia].
Qed.

Lemma loop_det {S R} (body : S → out (S + R)) fuel fuel' s r r' :
  loop body fuel s = Some r → loop body fuel' s = Some r' → r = r'.
Proof.
  intros H1 H2. destruct (decide (fuel ≤ fuel')).
  - eapply loop_mono in H1; [|done]. congruence.
  - eapply (loop_mono _ fuel' fuel) in H2; [|lia]. congruence.
Qed.

Lemma loop_terminates {S R} (body : S → out (S + R)) (μ : S → nat) :
  (∀ s s', body s = Val (inl s') → μ s' < μ s) →
  ∀ s fuel, μ s < fuel → ∃ r, loop body fuel s = Some r.
Proof.
  intros Hμ s. remember (μ s) as k eqn:Ek. revert s Ek.
  induction (lt_wf k) as [k _ IH]. intros s -> fuel Hf.
  destruct fuel as [|fuel]; [lia|]. simpl.
  destruct (body s) as [[s'|r]|] eqn:E; [|by eexists..].
  apply Hμ in E. eapply IH; [exact E|done|lia].
Qed.

Lemma loop_inv {S R} (body : S → out (S + R)) (P : S → Prop) (Q : out R → Prop) :
  (∀ s, P s → match body s with
              | Val (inl s') => P s'
              | Val (inr r) => Q (Val r)
              | Panic => Q Panic
              end) →
  ∀ fuel s r, P s → loop body fuel s = Some r → Q r.
Proof.
  intros H fuel. induction fuel as [|fuel IH]; intros s r Hs; [done|]. simpl.
  specialize (H s Hs). destruct (body s) as [[s'|r']|].
  - by apply IH.
  - by intros [= <-].
  - by intros [= <-].
Qed.

(** ** The size of the remaining search tree *)

(** [tree_bound w k]: bound for the iterations below a node of weight [w] with
    [k] remaining items. *)
Fixpoint full_bound (w : nat) : nat :=
  S (2 ^ w * S (match w with 0 => 0 | S w' => full_bound w' end)).
Definition tree_bound (w k : nat) : nat :=
  S (k * S (match w with 0 => 0 | S w' => full_bound w' end)).

Lemma full_bound_mono w : full_bound w ≤ full_bound (S w).
Proof.
  induction w as [|w IH]; [simpl; lia|].
  change (S (2 ^ S w * S (full_bound w)) ≤ S (2 ^ S (S w) * S (full_bound (S w)))).
  apply le_n_S, Nat.mul_le_mono; [|lia]. apply Nat.pow_le_mono_r; lia.
Qed.

Lemma full_bound_le w w' : w ≤ w' → full_bound w ≤ full_bound w'.
Proof. induction 1; [done|]. etrans; [done|]. apply full_bound_mono. Qed.

Definition sweight (s : Scheduler (Partition nat)) : nat := weight (s_time s).
Definition nitems (s : Scheduler (Partition nat)) : nat := length (piter (measurable (s_time s))).
Definition node_bound (s : Scheduler (Partition nat)) : nat := tree_bound (sweight s) (nitems s).

Lemma combinations_length_powerset n : length (powerset n) = 2 ^ n.
Proof.
  rewrite <- (seq_length n 0) at 2. rewrite <- (splits_count (seq 0 n)), <- powerset_all_splits.
  by rewrite map_length, seq_length.
Qed.

Lemma scheduler_next_measure bd s s' r :
  scheduler_next_and_focus bd s = Val (s', r) →
  sweight s' = sweight s ∧
  match r with
  | Some (child, M) => nitems s = S (nitems s') ∧ M ≠ [] ∧
      sweight child < sweight s ∧ nitems child ≤ 2 ^ sweight child
  | None => nitems s' ≤ nitems s
  end ∧
  scheduler_at_leaf s' = scheduler_at_leaf s.
Proof.
  unfold scheduler_next_and_focus.
  destruct (time_next_and_focus bd (s_time s)) as [[t r']|] eqn:E; [|done]. cbn [obind].
  pose proof E as E'. unfold time_next_and_focus, partition_next in E'.
  destruct r' as [[new mess]|].
  - apply time_next_weight in E as [Hw Hne].
    destruct (piter (measurable (s_time s))) as [|sub rest] eqn:Eit; [done|].
    destruct (partition_map _ _ _) as [a b]. destruct b as [|x b]; [done|].
    unfold time_focus_unchecked in E'. cbn [deps_counter dependents] in E'.
    destruct (update_unchecked _ _ _ _ _) as [[dc nw]|]; [|done]. injection E' as <- <- <-.
    destruct (space_focus_inplace _ _ _) as [[gr [|]]|]; [|done..]. cbn [obind].
    intros [= <- <-]. unfold sweight, nitems, weight, scheduler_at_leaf in *. simpl in *.
    split; [done|]. split; [|done]. split; [by rewrite Eit|]. split; [done|]. split; [lia|].
    rewrite combinations_length_powerset. apply Nat.pow_le_mono_r; lia.
  - intros [= <- <-].
    destruct (piter (measurable (s_time s))) as [|sub rest] eqn:Eit.
    + injection E' as <-. destruct s as [[[set it] dc look] sp]. done.
    + destruct (partition_map _ _ _) as [a b]. destruct b as [|x b]; [|].
      * injection E' as <-. unfold sweight, nitems, weight, scheduler_at_leaf. simpl.
        rewrite Eit. simpl. split; [done|]. split; [lia|done].
      * destruct (time_focus_unchecked _ _ _ _); done.
Qed.

Definition sweep_bound (sw : Sweep (Scheduler (Partition nat))) : nat :=
  node_bound (current sw) + sum_list (map node_bound (stack sw)).

Lemma sweep_next_bound bd sw sw' st :
  sweep_next (H := scheduler_focus_iterator bd) sw = Val (sw', Some st) →
  sweep_bound sw' < sweep_bound sw.
Proof.
  unfold sweep_next. cbn [next_and_focus scheduler_focus_iterator].
  destruct (scheduler_next_and_focus bd (current sw)) as [[cur r]|] eqn:E; [|done]. cbn [obind].
  apply scheduler_next_measure in E as (Hw & Hr & _).
  destruct r as [[child M]|].
  - intros [= <- <-]. unfold sweep_bound. simpl.
    destruct Hr as (Hk & _ & Hlt & Hc). unfold node_bound.
    destruct (sweight (current sw)) as [|w] eqn:Ew; [lia|].
    rewrite Hw, Hk.
    assert (tree_bound (sweight child) (nitems child) ≤ full_bound w).
    { etrans; [|apply (full_bound_le (sweight child)); lia].
      destruct (sweight child) as [|w']; [unfold tree_bound; simpl in *; lia|].
      change (full_bound (S w')) with (S (2 ^ S w' * S (full_bound w'))).
      unfold tree_bound. apply le_n_S, Nat.mul_le_mono; lia. }
    unfold tree_bound in *. simpl. lia.
  - destruct (stack sw) as [|t ts] eqn:Es; [done|]. intros [= <- <-].
    unfold sweep_bound. simpl. rewrite Es. simpl. unfold node_bound, tree_bound. lia.
Qed.

Lemma skip_current_bound (sw sw' : Sweep (Scheduler (Partition nat))) r :
  skip_current sw = (sw', r) → sweep_bound sw' ≤ sweep_bound sw.
Proof.
  unfold skip_current. destruct (stack sw) as [|t ts] eqn:Es; intros [= <- <-].
  - done.
  - unfold sweep_bound. rewrite Es. simpl. lia.
Qed.

Definition state_bound (s : SearchState) : nat := sweep_bound (ss_scheduler s).

Lemma search_iteration_bound bd s s' :
  search_iteration bd s = Val (inl s') → state_bound s' < state_bound s.
Proof.
  unfold search_iteration, state_bound.
  destruct (sweep_next _) as [[sw st]|] eqn:E; [|done]. cbn [obind].
  destruct st as [[M|leaf]|]; [| |done]; apply sweep_next_bound in E.
  - unfold forward. destruct (index _ _) as [b|]; [|done]. cbn [obind].
    destruct (b <=? _)%N.
    + destruct (skip_current sw) as [sw' []] eqn:Es; apply skip_current_bound in Es;
        cbn [obind]; intros [= <-]; simpl; lia.
    + cbn [obind]. intros [= <-]. done.
  - destruct (backward _ _ _ _) as [[[p b] r]|]; [|done]. cbn [obind]. by intros [= <-].
Qed.

Lemma probabilistic_iteration_bound bd acc smp s s' :
  probabilistic_iteration bd acc smp s = Val (inl s') → state_bound s'.2 < state_bound s.2.
Proof.
  destruct s as [drawn s]. unfold probabilistic_iteration, state_bound.
  destruct (sweep_next _) as [[sw st]|] eqn:E; [|done]. cbn [obind].
  destruct st as [[M|leaf]|]; [| |done]; apply sweep_next_bound in E.
  - unfold probabilistic_forward. destruct (index _ _) as [b|]; [|done]. cbn [obind].
    destruct (b <=? _)%N; [|destruct (last _); [cbn [obind]; destruct (acc _ _ _ _ _ _ _ _) as [x|]; [|done];
      cbn [obind]; destruct (SFleb _ _); [|destruct (SFltb _ _)]|done]].
    + destruct (skip_current sw) as [sw' []] eqn:Es; apply skip_current_bound in Es;
        cbn [obind]; intros [= <-]; simpl; lia.
    + cbn [obind]. intros [= <-]. done.
    + cbn [obind]. intros [= <-]. done.
    + destruct (skip_current sw) as [sw' []] eqn:Es; apply skip_current_bound in Es;
        cbn [obind]; intros [= <-]; simpl; lia.
  - destruct (backward _ _ _ _) as [[[p b] r]|]; [|done]. cbn [obind]. by intros [= <-].
Qed.

(** ** The loops *)

Lemma do_search_terminates bd timer sch num_bits fuel :
  sweep_bound sch < fuel → ∃ r, do_search bd fuel timer sch num_bits = Some r.
Proof.
  intros Hf. unfold do_search.
  apply (loop_terminates _ (λ s, state_bound s.2)); [|done].
  intros [k s] s'. unfold do_search_body. simpl.
  destruct (search_iteration bd s) as [[s1|s1]|] eqn:E; cbn [obind]; [|done..].
  apply search_iteration_bound in E. destruct (timer k); [done|]. by intros [= <-].
Qed.

Lemma do_probabilistic_search_terminates bd timer sch num_bits acc smp fuel :
  sweep_bound sch < fuel →
  ∃ r, do_probabilistic_search bd fuel timer sch num_bits acc smp = Some r.
Proof.
  intros Hf. unfold do_probabilistic_search.
  apply (loop_terminates _ (λ s, state_bound s.2.2)); [|done].
  intros [k s] s'. unfold do_probabilistic_search_body. cbn [fst snd].
  destruct (probabilistic_iteration bd acc smp s) as [[s1|s1]|] eqn:E; cbn [obind]; [|done..].
  apply probabilistic_iteration_bound in E. destruct (timer k); [done|]. by intros [= <-].
Qed.

Lemma time_optimal_terminates bd s fuel :
  length (measurable (s_time s.1.1)) + size (deps_counter (s_time s.1.1)) < fuel →
  ∃ r, loop (time_optimal_body bd) fuel s = Some r.
Proof.
  apply (loop_terminates _ (λ s, length (measurable (s_time s.1.1))
                                 + size (deps_counter (s_time s.1.1)))).
  clear. intros [[sch p] mx] s'. unfold time_optimal_body.
  destruct (measurable (s_time sch)) as [|b l] eqn:Em; [done|].
  unfold scheduler_focus_inplace, time_focus_inplace. rewrite Em. simpl ms_set.
  rewrite time_partition_unfold.
  destruct (length (b :: l) <? length (b :: l)) eqn:El; [done|].
  destruct (part_fold (b :: l) (b :: l)).1 eqn:E1; cbn [obind]; [|done].
  destruct (update_unchecked _ _ _ _ _) as [[dc nw]|] eqn:E2; cbn [obind]; [|done].
  apply update_unchecked_weight in E2.
  destruct (space_focus_inplace _ _ _) as [[gr [|]]|]; cbn [obind]; [|done..].
  intros [= <-]. simpl. rewrite Em. simpl.
  (* the measured elements are gone *)
  assert (length (part_fold (b :: l) (b :: l)).2 < S (length l)); [|lia].
  assert (∀ S m, length (part_fold S m).1 + length m = length S + length (part_fold S m).2) as Hlen.
  { clear. intros S m. unfold part_fold. induction m as [|e m IH] using rev_ind; [done|].
    rewrite foldl_app. simpl. destruct (foldl _ _ m) as [c n]. simpl in *. rewrite app_length. simpl.
    destruct (position e c) as [q|] eqn:Eq; simpl.
    - apply position_Some in Eq. apply swap_remove_perm, Permutation_length in Eq. simpl in Eq. lia.
    - rewrite app_length. simpl. lia. }
  specialize (Hlen (b :: l) (b :: l)). rewrite E1 in Hlen. simpl in Hlen. lia.
Qed.
