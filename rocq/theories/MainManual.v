(** * The properties of partitions, graphs, generators and schedulers *)
From Verif Require Export PartitionFacts GraphFacts ManualFacts.

(** ** Partition *)

Lemma partition_exhaustive :
  ∀ (A : Type) (set : list A),
  ∃ positions : list (list nat),
    (* the k-th call of [next] *)
    (∀ k, (partition_next
             (Nat.iter k (λ p, (partition_next p).1) (partition_new set (length set)))).2
          = (λ s : list nat, (pick (λ i, bool_decide (i ∈ s)) set,
                              pick (λ i, bool_decide (i ∉ s)) set)) <$> positions !! k) ∧
    (* every selection of positions is visited exactly once *)
    NoDup positions ∧
    (∀ s, s ∈ positions ↔ s `sublist_of` seq 0 (length set)) ∧
    length positions = 2 ^ length set ∧
    (* order of the visits *)
    positions !! 0 = Some [] ∧
    last positions = Some (seq 0 (length set)) ∧
    (∀ i j s t, i < j → positions !! i = Some s → positions !! j = Some t → length s ≤ length t).
Proof.
  intros A l. exists (powerset (length l)).
  split; [apply partition_items|]. split; [apply NoDup_powerset|]. split; [apply powerset_spec|].
  split; [apply powerset_length|]. split; [apply powerset_first|]. split; [apply powerset_last|].
  apply powerset_sorted.
Qed.

Lemma partition_first_last :
  ∀ (A : Type) (set : list A) (call : nat → option (list A * list A)),
  (∀ k, call k = (partition_next
             (Nat.iter k (λ p, (partition_next p).1) (partition_new set (length set)))).2) →
  call 0 = Some ([], set) ∧ call (2 ^ length set - 1) = Some (set, []) ∧
  ∀ k, 2 ^ length set ≤ k → call k = None.
Proof.
  intros A l call Hc. rewrite !Hc, !partition_items. rewrite powerset_first. split.
  { simpl. f_equal. f_equal.
    - by apply pick_from_none.
    - by apply pick_from_all. }
  split.
  - pose proof (powerset_last (length l)) as Hl. rewrite last_lookup, powerset_length in Hl.
    replace (2 ^ length l - 1) with (pred (2 ^ length l)) by lia. rewrite Hl. simpl. f_equal.
    assert (∀ (Q Q' : nat → bool) i (l : list A), (∀ k, i ≤ k < i + length l → Q k = Q' k) →
      pick_from i Q l = pick_from i Q' l) as Hext.
    { clear. intros Q Q' i l. revert i. induction l as [|x l IH]; intros i HQ; [done|]. simpl.
      rewrite (HQ i) by (simpl; lia). rewrite (IH (S i)); [done|]. intros. apply HQ. simpl. lia. }
    f_equal.
    + etrans; [apply (Hext _ (λ _, true))|by apply pick_from_all].
      intros k Hk. apply bool_decide_eq_true_2, elem_of_seq. lia.
    + etrans; [apply (Hext _ (λ _, false))|by apply pick_from_none].
      intros k Hk. apply bool_decide_eq_false_2. intros Hn. apply Hn, elem_of_seq. lia.
  - intros k Hk. rewrite Hc, partition_items, (lookup_ge_None_2 (powerset _)); [done|].
    by rewrite powerset_length.
Qed.

(** ** Graph *)

Lemma memory_counters :
  ∀ adj σ gr, wf_spacial adj → graph_reached adj σ gr →
  current_memory gr = N.of_nat (nodes_in_memory gr) ∧
  (current_memory gr <= max_memory gr)%N ∧
  ∀ bd M gr', graph_focus_inplace bd gr M = Val (gr', Ok tt) →
    (max_memory gr <= max_memory gr')%N.
Proof.
  intros adj σ gr Hwf Hr. destruct (graph_reached_spec adj Hwf σ gr Hr) as (-> & Hnd & Hlt).
  split; [|split].
  - rewrite graph_at_in_memory. simpl. by rewrite app_nil_r.
  - by apply current_le_max.
  - intros bd M gr' E. destruct (graph_reached_spec adj Hwf (σ ++ [M]) gr') as (-> & _ & _).
    { by eapply reached_inplace. }
    simpl. pose proof (space_cost_prefix adj (proj2 Hwf) σ [M]). lia.
Qed.

Lemma reported_memory :
  ∀ adj σ gr, wf_spacial adj → graph_reached adj σ gr →
  max_memory gr = N.of_nat (space_cost adj σ).
Proof.
  intros adj σ gr Hwf Hr. by destruct (graph_reached_spec adj Hwf σ gr Hr) as (-> & _ & _).
Qed.

Lemma reported_memory_invariant :
  ∀ adj adj' σ τ gr gr', wf_spacial adj → wf_spacial adj' →
  length adj' = length adj →
  (* same neighbours up to order, repetition and self loops *)
  (∀ u v, u ≠ v → v ∈ neighbours adj u ↔ v ∈ neighbours adj' u) →
  (* same sets in the same order *)
  same_schedule σ τ →
  graph_reached adj σ gr → graph_reached adj' τ gr' →
  max_memory gr = max_memory gr'.
Proof.
  intros adj adj' σ τ gr gr' Hwf Hwf' Hl Hn Hs Hr Hr'.
  rewrite (reported_memory adj σ gr) by done. rewrite (reported_memory adj' τ gr') by done.
  f_equal. rewrite (space_cost_same adj σ τ) by done. by apply space_cost_graph.
Qed.

Lemma memory_is_minimal :
  ∀ adj σ gr, wf_spacial adj → graph_reached adj σ gr →
  (∀ ops, obeys adj [] [] ops → steps_of ops = σ → (max_memory gr <= N.of_nat (peak [] ops))%N) ∧
  (∃ ops, obeys adj [] [] ops ∧ steps_of ops = σ ∧ max_memory gr = N.of_nat (peak [] ops)).
Proof.
  intros adj σ gr Hwf Hr. rewrite (reported_memory adj σ gr) by done.
  destruct (graph_reached_spec adj Hwf σ gr Hr) as (_ & Hnd & Hlt). split.
  - intros ops Hob <-. pose proof (execution_lower adj ops Hob). lia.
  - destruct (execution_attained adj (proj1 Hwf) σ Hnd Hlt) as (ops & H1 & H2 & H3).
    exists ops. split; [done|]. split; [done|]. by rewrite H3.
Qed.

Lemma focus_graph :
  ∀ adj σ gr bd M, wf_spacial adj → graph_reached adj σ gr →
  (∀ v, v ∈ M → v < length adj) →
  (* distinct unmeasured nodes are accepted *)
  (NoDup M ∧ (∀ v, v ∈ M → v ∉ concat σ) ∧
   ∃ gr', graph_focus bd gr M = Val (gr, Ok gr') ∧
          graph_focus_inplace bd gr M = Val (gr', Ok tt)) ∨
  (* otherwise the first node that is measured or repeated is reported *)
  (∃ M1 b M2 gr', M = M1 ++ b :: M2 ∧ NoDup M1 ∧ (∀ v, v ∈ M1 → v ∉ concat σ) ∧
     b ∈ concat σ ++ M1 ∧
     graph_focus bd gr M = Val (gr, Err (mkAlreadyMeasured b)) ∧
     graph_focus_inplace bd gr M = Val (gr', Err (mkAlreadyMeasured b))).
Proof.
  intros adj σ gr bd M Hwf Hr Hlt.
  destruct (graph_reached_spec adj Hwf σ gr Hr) as (-> & _ & _). unfold graph_focus.
  destruct (focus_inplace_cases adj Hwf bd σ M)
    as [(H1 & H2 & H3 & E)|[[(v & Hv & Hv') _]|(M1 & b & M2 & -> & H1 & _ & H3 & H4 & H5 & E)]].
  - left. split; [done|]. split; [done|]. eexists. by rewrite E.
  - exfalso. specialize (Hlt v Hv). lia.
  - right. exists M1, b, M2. eexists. rewrite E. done.
Qed.

Lemma focus_inplace_not_atomic :
  ¬ (∀ adj σ gr M gr' e, wf_spacial adj → graph_reached adj σ gr →
       graph_focus_inplace Debug gr M = Val (gr', Err e) →
       current_memory gr' = N.of_nat (nodes_in_memory gr')).
Proof.
  intros H.
  set (adj := [[1]; [0]; []]).
  set (gr := mkGraph [(Sleeping, [1]); (Sleeping, [0]); (Measured, [])] 0 1).
  assert (wf_spacial adj) as Hwf.
  { split; [|simpl; lia]. intros ns v Hns Hv. unfold adj in *.
    repeat (apply elem_of_cons in Hns as [->|Hns]; [repeat (apply elem_of_cons in Hv as [->|Hv]; [simpl; lia|]); by apply elem_of_nil in Hv|]).
    by apply elem_of_nil in Hns. }
  assert (graph_reached adj [[2]] gr) as Hr.
  { apply (reached_inplace adj Debug [] (graph_new adj) [2] gr); [apply reached_new|]. by vm_compute. }
  specialize (H adj [[2]] gr [0; 2]
    (mkGraph [(Measured, [1]); (InMemory, [0]); (Measured, [])] 2 1) (mkAlreadyMeasured 2) Hwf Hr eq_refl).
  vm_compute in H. discriminate.
Qed.

(** ** Path generator *)

Lemma manual_accepts :
  ∀ T (mT : MeasurableSet T) (lT : LawfulMeasurableSet T) n g σ (t : PathGenerator T) M,
  wf_order n g → generator_reached n g σ t →
  length M ≤ length (ms_set (measurable t)) →
  ((NoDup M ∧ ∀ b, b ∈ M → b ∈ ms_set (measurable t)) →
   ∃ t', ∀ bd, time_focus_inplace bd t M = Val (t', Ok tt) ∧ time_focus bd t M = Val (Ok t')) ∧
  (¬ (NoDup M ∧ ∀ b, b ∈ M → b ∈ ms_set (measurable t)) →
   ∃ left, left ≠ [] ∧
     (* [M] is the measurable part followed by what is reported *)
     M ≡ₚ filter (λ b, b ∈ M) (ms_set (measurable t)) ++ left ∧
     ∀ bd, time_focus_inplace bd t M = Val (t, Err (mkNotMeasurable left)) ∧
           time_focus bd t M = Val (Err (mkNotMeasurable left))).
Proof.
  intros T mT lT n g σ t M Hg Hr Hl.
  destruct (time_focus_cases n g Hg σ t M (generator_inv n g Hg σ t Hr))
    as [(Hl' & _)|[(_ & H1 & H2 & t' & E & _)|(_ & Hno & left & E)]].
  - lia.
  - split; [|tauto]. intros _. by exists t'.
  - split; [tauto|]. intros _. by exists left.
Qed.

Lemma manual_too_long :
  ∀ T (mT : MeasurableSet T) (t : PathGenerator T) M,
  length (ms_set (measurable t)) < length M →
  ∀ bd, time_focus_inplace bd t M = Panic ∧ time_focus bd t M = Panic.
Proof.
  intros T mT t M Hl bd. unfold time_focus_inplace, time_focus. rewrite time_partition_unfold.
  by rewrite (proj2 (Nat.ltb_lt _ _) Hl).
Qed.

Lemma measurable_is_enabled :
  ∀ T (mT : MeasurableSet T) (lT : LawfulMeasurableSet T) n g σ (t : PathGenerator T),
  wf_order n g → generator_reached n g σ t →
  NoDup (ms_set (measurable t)) ∧
  (∀ b, b ∈ ms_set (measurable t) ↔
        listed g b ∧ b ∉ concat σ ∧ ∀ d, depends g b d → d ∈ concat σ) ∧
  (has_unmeasureable t = true ↔
     ∃ b, listed g b ∧ b ∉ concat σ ∧ ∃ d, depends g b d ∧ d ∉ concat σ).
Proof.
  intros T mT lT n g σ t Hg Hr. pose proof (generator_inv n g Hg σ t Hr) as Hi.
  pose proof Hi as [H1 H2 H3 Hti]. split; [apply Hti|]. split; [apply Hti|].
  rewrite (has_unmeasureable_spec n g Hg σ t Hi). split.
  - intros (b & Hl & Hb & Hm). exists b. split; [done|]. split; [done|].
    assert (¬ Forall (λ d, d ∈ concat σ) (deps_of g b)) as Hno.
    { intros Hall. rewrite Forall_forall in Hall. apply Hm, (ti_set _ _ _ _ _ Hti).
      split; [done|]. split; [done|]. intros d Hd. by apply Hall, (depends_deps_of n g Hg). }
    apply not_Forall_Exists in Hno; [|apply _]. apply Exists_exists in Hno as (d & Hd & Hd').
    exists d. split; [by apply (depends_deps_of n g Hg)|done].
  - intros (b & Hl & Hb & d & Hd & Hd'). exists b. split; [done|]. split; [done|].
    intros Hm. apply (ti_set _ _ _ _ _ Hti) in Hm as (_ & _ & Hm). by apply Hd', Hm.
Qed.

Lemma remaining_nodes :
  ∀ T (mT : MeasurableSet T) (lT : LawfulMeasurableSet T) n g σ (t : PathGenerator T),
  wf_order n g → generator_reached n g σ t →
  num_remaining_nodes t
  = length (filter (λ b, b ∉ concat σ ∧ b ∉ ms_set (measurable t)) (qubits g)) ∧
  length (filter (λ b, b ∉ concat σ) (qubits g))
  = num_remaining_nodes t + length (ms_set (measurable t)).
Proof.
  intros T mT lT n g σ t Hg Hr. pose proof (generator_inv n g Hg σ t Hr) as Hi.
  split; [by apply (remaining_count n g Hg)|by apply (unmeasured_count n g Hg)].
Qed.

(** ** Scheduler *)

Lemma scheduler_consistent :
  ∀ T (mT : MeasurableSet T) (lT : LawfulMeasurableSet T) adj g σ (s : Scheduler T),
  wf_input adj g → scheduler_reached adj g σ s →
  (∀ v st, v < length adj → nodes (s_space s) !! v = Some st →
     (st.1 = Measured ↔ v ∈ concat σ)) ∧
  length (nodes (s_space s)) = length adj ∧
  max_memory (s_space s) = N.of_nat (space_cost adj σ) ∧
  current_memory (s_space s) = N.of_nat (nodes_in_memory (s_space s)) ∧
  (* accepted exactly if the path generator accepts it *)
  (∀ bd M, (∃ s', scheduler_focus_inplace bd s M = Val (s', Ok tt)) ↔
           (∃ t', time_focus_inplace bd (s_time s) M = Val (t', Ok tt))) ∧
  (∀ bd M s', scheduler_focus_inplace bd s M = Val (s', Ok tt) ↔
              scheduler_focus bd s M = Val (Ok s')) ∧
  (* a rejected instruction changes nothing and is never [AlreadyMeasured] *)
  (∀ bd M s' e, scheduler_focus_inplace bd s M = Val (s', Err e) →
     s' = s ∧ (∃ left, e = ENotMeasurable left ∧
       time_focus_inplace bd (s_time s) M = Val (s_time s, Err left))).
Proof.
  intros T mT lT adj g σ s Hin Hr. pose proof (scheduler_reached_inv adj g Hin σ s Hr) as Hi.
  pose proof Hi as [_ _ _ _ Hsp]. rewrite Hsp. split; [|split; [|split; [done|split; [|split; [|split]]]]].
  - intros v st Hv. rewrite graph_at_states by done. intros [= <-]. apply state_of_measured.
  - unfold graph_at, graph_mid. simpl. apply rep_length.
  - rewrite graph_at_in_memory. simpl. by rewrite app_nil_r.
  - intros bd M.
    destruct (scheduler_focus_cases adj g Hin σ s M Hi)
      as [(Hl & E)|[(_ & _ & _ & s1 & E & Et & ?)|(_ & _ & l & _ & _ & Et & E)]];
      destruct (E bd) as [-> E2]; rewrite ?Et.
    + unfold time_focus_inplace. rewrite time_partition_unfold, (proj2 (Nat.ltb_lt _ _) Hl).
      split; by intros [? ?].
    + split; intros _; by eexists.
    + split; by intros [? ?].
  - intros bd M s'.
    destruct (scheduler_focus_cases adj g Hin σ s M Hi)
      as [(_ & E)|[(_ & _ & _ & s1 & E & Et & ?)|(_ & _ & l & _ & _ & Et & E)]];
      destruct (E bd) as [-> ->]; [done| |done]. split; by intros [= ->].
  - intros bd M s' e.
    destruct (scheduler_focus_cases adj g Hin σ s M Hi)
      as [(_ & E)|[(_ & _ & _ & s1 & E & Et & ?)|(_ & _ & l & _ & _ & Et & E)]];
      destruct (E bd) as [-> E2]; [done..|]. intros [= <- <-]. split; [done|].
    eexists. split; [done|]. apply Et.
Qed.
