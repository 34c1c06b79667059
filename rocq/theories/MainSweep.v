(** * Final statements about sweeps *)
From Verif Require Export EnumFacts MainSearch Check.
From Verif Require Export Spec.

(** ** C04: the protocol of a sweep *)

Lemma sweep_balanced :
  ∀ (T Item Leaf : Type) (FI : FocusIterator T Item Leaf) (t : T) d s,
  sweep_history (sweep_new t) d s → d = Z.of_nat (length (stack s)).
Proof. intros T Item Leaf FI t d s H%sweep_history_depth. simpl in H. lia. Qed.

Lemma sweep_skip :
  ∀ (T Item Leaf : Type) (FI : FocusIterator T Item Leaf) s s1 i,
  sweep_next s = Val (s1, Some (Forward i)) →
  ∃ s', skip_current s1 = (s', Ok tt) ∧
    (* the child is dropped, the parent is what the iterator left behind *)
    (∃ child, next_and_focus (current s) = Val (current s', Some (child, i)) ∧ current s1 = child) ∧
    stack s' = stack s ∧
    (* visiting the child completely leads to the same state *)
    ∀ tr s2 s3, sweep_run (sweep_new (current s1)) tr s2 → sweep_next s2 = Val (s3, None) →
      sweep_run s1 (tr ++ [Backward (at_leaf (current s3))]) s'.
Proof.
  intros T Item Leaf FI s s1 i E. pose proof E as E'.
  apply sweep_next_forward in E' as (cur & c & Ec & Es1).
  exists (mkSweep cur (stack s)). subst s1. split; [done|]. split; [by exists c|]. split; [done|].
  intros tr s2 s3 Hr E3. destruct (sweep_subtree _ _ _ _ _ _ E Hr E3) as (s' & Hs & _ & Hrun).
  simpl in Hs. by injection Hs as <-.
Qed.

Lemma sweep_skip_empty :
  ∀ (T : Type) (s : Sweep T),
  (stack s = [] → skip_current s = (s, Err tt)) ∧
  (stack s ≠ [] → ∃ s', skip_current s = (s', Ok tt)).
Proof. intros T [t [|u st]]; simpl; split; try done. by eexists. Qed.

(** A partition iterator that was built by [Partition::new] for its set. *)
Definition proper (t : PathGenerator (Partition nat)) : Prop :=
  ∃ k, piter (measurable t) = drop k (powerset (length (pset (measurable t)))).

Lemma proper_next_none bd t t' :
  proper t → time_next_and_focus bd t = Val (t', None) →
  proper t' ∧ ∃ t'', time_next_and_focus bd t' = Val (t'', None).
Proof.
  intros [k Hk] E. assert (proper t' ∧ piter (measurable t') = []) as [Ht' Hp].
  { revert E. unfold time_next_and_focus, partition_next.
    destruct (piter (measurable t)) as [|sub rest] eqn:Ep.
    - intros [= <-]. split; [|done]. exists k. simpl. by rewrite Ep.
    - destruct (partition_map 0 sub (pset (measurable t))) as [a b] eqn:Em.
      destruct b as [|x b]; [|by destruct (time_focus_unchecked _ _ _ _)].
      intros [= <-]. simpl. set (l := pset (measurable t)) in *.
      assert (rest = []) as ->.
      { assert (all_splits l = take k (all_splits l) ++ drop k (all_splits l)) as Ha by (by rewrite take_drop).
        assert (drop k (all_splits l) = (a, []) :: map (λ s, partition_map 0 s l) rest) as Hd.
        { rewrite <- powerset_all_splits, <- fmap_drop, <- Hk. simpl. by rewrite Em. }
        rewrite Hd, all_splits_last in Ha.
        destruct (map (λ s, partition_map 0 s l) rest) as [|y r _] eqn:Er using rev_ind;
          [by apply map_eq_nil in Er|].
        exfalso. rewrite app_comm_cons, app_assoc in Ha. apply app_inj_tail in Ha as [Ha _].
        eapply (elem_before_last l a []); [|done]. rewrite Ha. apply elem_of_app. right. left. }
      split; [|done]. exists (S k). simpl. fold l.
      by rewrite <- Nat.add_1_r, <- drop_drop, <- Hk. }
  split; [done|]. unfold time_next_and_focus, partition_next. rewrite Hp. by eexists.
Qed.

Lemma proper_next_some bd t t' c i :
  proper t → time_next_and_focus bd t = Val (t', Some (c, i)) → proper t' ∧ proper c.
Proof.
  intros [k Hk]. unfold time_next_and_focus, partition_next.
  destruct (piter (measurable t)) as [|sub rest] eqn:Ep; [done|].
  destruct (partition_map 0 sub (pset (measurable t))) as [a b].
  destruct b as [|x b]; [done|]. unfold time_focus_unchecked.
  destruct (update_unchecked _ _ _ _ _) as [[dc nw]|]; [|done]. cbn [obind]. intros [= <- <- <-]. split.
  - exists (S k). simpl. symmetry in Hk. rewrite <- Nat.add_1_r, <- drop_drop, Hk. done.
  - exists 0. done.
Qed.

Lemma proper_new g buf mapping (t : PathGenerator (Partition nat)) :
  from_dependency_graph g buf mapping = Val t → proper t.
Proof.
  unfold from_dependency_graph. destruct g as [|layer g].
  - intros [= <-]. exists 0. done.
  - destruct (match mapping with Some m => map_graph m (layer :: g) | None => layer :: g end)
      as [|first rest]; [done|].
    destruct (first_loop _ _ _) as [[look m]|]; [|done]. cbn [obind].
    destruct (rest_loop _ _) as [[look' deps]|]; [|done]. cbn [obind]. intros [= <-].
    exists 0. done.
Qed.

Lemma generator_sweep_fused :
  ∀ bd g buf mapping (t : PathGenerator (Partition nat)) d s s',
  from_dependency_graph g buf mapping = Val t →
  sweep_history (H := time_focus_iterator bd) (sweep_new t) d s →
  sweep_next (H := time_focus_iterator bd) s = Val (s', None) →
  ∃ s'', sweep_next (H := time_focus_iterator bd) s' = Val (s'', None).
Proof.
  intros bd g buf mapping t d s s' Hnew Hh E.
  destruct (sweep_fused (FI := time_focus_iterator bd) proper (sweep_new t) d s) as (_ & _ & Hf).
  - intros u u'. apply proper_next_none.
  - intros u u' c i. apply proper_next_some.
  - by eapply proper_new.
  - constructor.
  - done.
  - by apply Hf.
Qed.

Lemma scheduler_sweep_fused :
  ∀ bd g buf mapping (t : PathGenerator (Partition nat)) graph d s s',
  from_dependency_graph g buf mapping = Val t →
  sweep_history (H := scheduler_focus_iterator bd) (sweep_new (mkScheduler t graph)) d s →
  sweep_next (H := scheduler_focus_iterator bd) s = Val (s', None) →
  ∃ s'', sweep_next (H := scheduler_focus_iterator bd) s' = Val (s'', None).
Proof.
  intros bd g buf mapping t graph d s s' Hnew Hh E.
  destruct (sweep_fused (FI := scheduler_focus_iterator bd) (λ u, proper (s_time u))
    (sweep_new (mkScheduler t graph)) d s) as (_ & _ & Hf).
  - intros u u' Hu. simpl. unfold scheduler_next_and_focus.
    destruct (time_next_and_focus bd (s_time u)) as [[v r]|] eqn:Ev; [|done]. cbn [obind].
    destruct r as [[nt M]|].
    { destruct (space_focus_inplace _ _ _) as [[gr r]|]; [|done]. by destruct r. }
    intros [= <-]. destruct (proper_next_none bd _ _ Hu Ev) as [Hp (v' & Hv')].
    split; [done|]. simpl. rewrite Hv'. by eexists.
  - intros u u' c i Hu. simpl. unfold scheduler_next_and_focus.
    destruct (time_next_and_focus bd (s_time u)) as [[v r]|] eqn:Ev; [|done]. cbn [obind].
    destruct r as [[nt M]|]; [|done].
    destruct (space_focus_inplace _ _ _) as [[gr r]|]; [|done]. destruct r; [|done]. intros [= <- <- <-].
    exact (proper_next_some bd _ _ _ _ Hu Ev).
  - by eapply proper_new.
  - constructor.
  - done.
  - by apply Hf.
Qed.

(** ** C02: every schedule exactly once *)

(** A sweep of a generator follows the sweep of a scheduler around it. *)
Lemma visits_generator bd p s ps :
  visits (FI := scheduler_focus_iterator bd) p s ps →
  visits (FI := time_focus_iterator bd) p (s_time s) (map (λ q, (q.1, tt)) ps).
Proof.
  induction 1 as [p s s' E|p s s' c i ps qs E _ IH1 _ IH2].
  - simpl in *. unfold scheduler_next_and_focus in E.
    destruct (time_next_and_focus bd (s_time s)) as [[t r]|] eqn:Et; [|done]. cbn [obind] in E.
    destruct r as [[nt M]|].
    { destruct (space_focus_inplace _ _ _) as [[gr r]|]; [|done]. by destruct r. }
    injection E as <-.
    replace (map _ _) with (match at_leaf (FocusIterator := time_focus_iterator bd) t with
      Some l => [(p, l)] | None => [] end).
    + by constructor.
    + simpl. unfold time_at_leaf, scheduler_at_leaf. simpl. by destruct (pset (measurable t)).
  - rewrite map_app. simpl in E. unfold scheduler_next_and_focus in E.
    destruct (time_next_and_focus bd (s_time s)) as [[t r]|] eqn:Et; [|done]. cbn [obind] in E.
    destruct r as [[nt M]|]; [|done].
    destruct (space_focus_inplace _ _ _) as [[gr r]|]; [|done]. destruct r; [|done].
    injection E as <- <- <-. by apply (visits_child (FI := time_focus_iterator bd) p _ t nt M).
Qed.

(** The root of a sweep is never recorded itself. *)
Lemma visits_split bd p s ps :
  visits (FI := scheduler_focus_iterator bd) p s ps → mset s ≠ [] →
  visits_root (FI := scheduler_focus_iterator bd) p s ps.
Proof.
  induction 1 as [p s s' E|p s s' c i ps qs E Hc _ _ IH]; intros Hne.
  - pose proof E as E'. apply scheduler_next_measure in E' as (_ & _ & Hl). simpl. rewrite Hl.
    unfold scheduler_at_leaf. unfold mset in Hne. destruct (pset _); [done|].
    by apply (root_end (FI := scheduler_focus_iterator bd) p _ s').
  - apply (root_child (FI := scheduler_focus_iterator bd) p _ s' c i); [done..|]. apply IH.
    apply scheduler_next_measure in E as (_ & _ & Hl). intros Hn. apply Hne. unfold mset in *.
    unfold scheduler_at_leaf in Hl. by destruct (pset (measurable (s_time s))), (pset (measurable (s_time s'))).
Qed.

Lemma visits_root_generator bd p s ps :
  visits_root (FI := scheduler_focus_iterator bd) p s ps →
  visits_root (FI := time_focus_iterator bd) p (s_time s) (map (λ q, (q.1, tt)) ps).
Proof.
  induction 1 as [s s' E|s s' c i ps qs E Hc _ IH].
  - simpl in *. unfold scheduler_next_and_focus in E.
    destruct (time_next_and_focus bd (s_time s)) as [[t r]|] eqn:Et; [|done]. cbn [obind] in E.
    destruct r as [[nt M]|].
    { destruct (space_focus_inplace _ _ _) as [[gr r]|]; [|done]. by destruct r. }
    injection E as <-. by apply (root_end (FI := time_focus_iterator bd) p _ t).
  - rewrite map_app. apply visits_generator in Hc. simpl in E. unfold scheduler_next_and_focus in E.
    destruct (time_next_and_focus bd (s_time s)) as [[t r]|] eqn:Et; [|done]. cbn [obind] in E.
    destruct r as [[nt M]|]; [|done].
    destruct (space_focus_inplace _ _ _) as [[gr r]|]; [|done]. destruct r; [|done].
    injection E as <- <- <-. by apply (root_child (FI := time_focus_iterator bd) p _ t nt M).
Qed.

Lemma collect_returns {T Item Leaf} (FI : FocusIterator T Item Leaf) p t ps :
  visits_root (FI := FI) p t ps → returns (λ fuel, get_all_paths fuel p t) ps.
Proof.
  intros Hv. destruct (visits_root_collect p t ps Hv []) as [k Hk]. exists (S k). intros fuel Hf.
  unfold get_all_paths. replace fuel with (S k + (fuel - S k)) by lia. by rewrite Hk.
Qed.

Lemma times_one {L} σ (ps : list (schedule * L)) :
  times σ ps = 1 →
  ∃ i q l, ps !! i = Some (q, l) ∧ same_schedule q σ ∧
    ∀ j q' l', ps !! j = Some (q', l') → same_schedule q' σ → j = i.
Proof.
  unfold times. induction ps as [|[q l] ps IH]; [done|].
  destruct (decide (same_schedule q σ)) as [Hs|Hs].
  - rewrite filter_cons_True by done. simpl. intros [= H0]. exists 0, q, l. split; [done|]. split; [done|].
    intros [|j] q' l' Hj Hs'; [done|]. simpl in Hj. exfalso.
    apply length_zero_iff_nil in H0. apply elem_of_list_lookup_2 in Hj.
    assert ((q', l') ∈ filter (λ q : schedule * L, same_schedule q.1 σ) ps) as H
      by (by apply elem_of_list_filter).
    rewrite H0 in H. by apply elem_of_nil in H.
  - rewrite filter_cons_False by done. intros (i & q1 & l1 & H1 & H2 & H3)%IH.
    exists (S i), q1, l1. split; [done|]. split; [done|].
    intros [|j] q' l' Hj Hs'; simpl in Hj; [by simplify_eq|]. f_equal. eauto.
Qed.

(** What a full sweep over the scheduler around a generator records. *)
Lemma scheduler_sweep adj g buf :
  wf_input adj g → length adj ≤ length buf →
  ∃ t ps, from_dependency_graph (T := Partition nat) g buf None = Val t ∧
    (∀ bd, visits_root (FI := scheduler_focus_iterator bd) [] (mkScheduler t (graph_new adj)) ps) ∧
    (∀ q m, (q, m) ∈ ps → valid_schedule g q ∧ m = cost adj q) ∧
    (qubits g ≠ [] → ∀ σ, valid_schedule g σ → times σ ps = 1) ∧
    (qubits g = [] → ps = []) ∧
    length ps ≤ ordered_bell (length (qubits g)) ∧
    (qubits g ≠ [] → (∀ b d, ¬ depends g b d) → length ps = ordered_bell (length (qubits g))).
Proof.
  intros Hin Hb. pose proof (proj2 Hin) as Hg.
  destruct (from_dependency_graph_spec (T := Partition nat) (length adj) g buf Hg Hb)
    as (m & dc & look & E & -> & Hlen & Hinv).
  set (t := mkPathGenerator (ms_init (map fst (default [] (head g)))) dc look : PathGenerator (Partition nat)).
  set (s := mkScheduler t (graph_new adj)).
  assert (node adj g [] s ∧ SchedulerFacts.fresh s) as [Hn Hf].
  { apply (fresh_root adj g t (map fst (default [] (head g)))); [done|]. split.
    - apply NoDup_nil_2.
    - by intros ? ?%elem_of_nil.
    - by intros ? ? ?%elem_of_nil.
    - simpl. done.
    - exact (graph_at_new adj (proj2 (proj1 Hin))). }
  destruct (enumerate adj g Hin [] s Hn) as (ps & Hps).
  assert (mset s = [] ↔ qubits g = []) as Hm.
  { split.
    - intros Hm. apply (leaf_valid adj g Hin [] s Hn) in Hm as [_ Hc].
      destruct (qubits g) as [|x l] eqn:Eq; [done|]. exfalso.
      assert (listed g x) as Hx by (apply listed_qubits; rewrite Eq; left).
      apply Hc in Hx. by apply elem_of_nil in Hx.
    - intros Hq. destruct (mset s) as [|x l] eqn:Em; [done|]. exfalso.
      assert (x ∈ mset s) as Hx by (rewrite Em; left).
      apply (node_enabled _ _ _ _ x Hn) in Hx as [Hx _]. apply listed_qubits in Hx. rewrite Hq in Hx.
      by apply elem_of_nil in Hx. }
  destruct (fresh_weight adj g Hin [] s Hn Hf) as [Hle Heq].
  assert (unmeasured g [] = length (qubits g)) as Hu by (unfold unmeasured; simpl; lia). rewrite Hu in *.
  destruct (decide (qubits g = [])) as [Hq|Hq].
  - exists t, []. split; [done|]. split; [|split; [by intros ? ? ?%elem_of_nil|split; [done|
      split; [done|split; [simpl; lia|done]]]]].
    + intros bd. apply Hm in Hq.
      assert (items s = [([], [])]) as Hi by (rewrite Hf, Hq; done).
      pose proof (scheduler_next_spec adj g Hin [] s Hn) as Hs. rewrite Hi in Hs.
      apply (root_end (FI := scheduler_focus_iterator bd) [] s (advance s)), Hs.
  - exists t, ps. split; [done|]. split; [|split; [|split; [|split; [|split]]]]; try done.
    + intros bd. apply visits_split; [apply Hps|]. tauto.
    + apply Hps.
    + intros _ σ Hv. rewrite (en_times _ _ _ _ _ Hps σ Hv), (hits_fresh adj g [] s σ Hn Hf Hv).
      rewrite decide_True; [done|]. constructor.
    + pose proof (en_bound _ _ _ _ _ Hps). rewrite Hu in *. lia.
    + intros _ Hd. rewrite (en_exact _ _ _ _ _ Hps Hd), Hu. by apply Heq.
Qed.

Lemma qubits_listed g : qubits g ≠ [] ↔ ∃ b, listed g b.
Proof.
  split.
  - destruct (qubits g) as [|x l] eqn:E; [done|]. intros _. exists x. apply listed_qubits. rewrite E. left.
  - intros [b Hb%listed_qubits] H. rewrite H in Hb. by apply elem_of_nil in Hb.
Qed.

Lemma scheduler_paths :
  ∀ adj g buf, wf_input adj g → length adj ≤ length buf →
  ∃ t ps, from_dependency_graph (T := Partition nat) g buf None = Val t ∧
    (∀ bd, returns (λ fuel, get_all_paths (H := scheduler_focus_iterator bd) fuel []
                              (mkScheduler t (graph_new adj))) ps) ∧
    (∀ q m, (q, m) ∈ ps → valid_schedule g q ∧ m = cost adj q) ∧
    ((∃ b, listed g b) → ∀ σ, valid_schedule g σ →
       ∃ i q m, ps !! i = Some (q, m) ∧ same_schedule q σ ∧
         ∀ j q' m', ps !! j = Some (q', m') → same_schedule q' σ → j = i) ∧
    ((∀ b, ¬ listed g b) → ps = []).
Proof.
  intros adj g buf Hin Hb. destruct (scheduler_sweep adj g buf Hin) as (t & ps & E & Hv & Hp & Ht & H0 & _); [done|].
  exists t, ps. split; [done|]. split; [|split; [done|split]].
  - intros bd. apply collect_returns, Hv.
  - intros Hl%qubits_listed σ Hσ. apply times_one. by apply Ht.
  - intros Hl. apply H0. destruct (qubits g) as [|x l] eqn:Eq; [done|].
    exfalso. apply (Hl x), listed_qubits. rewrite Eq. left.
Qed.

Lemma wf_no_edges n g : wf_order n g → (N.of_nat n < 2 ^ 64 - 1)%N → wf_input (replicate n []) g.
Proof.
  intros Hg Hn. split.
  - split.
    + intros ns v Hns Hv. apply elem_of_replicate in Hns as [-> _]. by apply elem_of_nil in Hv.
    + by rewrite replicate_length.
  - by rewrite replicate_length.
Qed.

Lemma generator_paths :
  ∀ n g buf, wf_order n g → n ≤ length buf → (N.of_nat n < 2 ^ 64 - 1)%N →
  ∃ t ps, from_dependency_graph (T := Partition nat) g buf None = Val t ∧
    (∀ bd, returns (λ fuel, get_all_paths (H := time_focus_iterator bd) fuel [] t) ps) ∧
    (∀ q l, (q, l) ∈ ps → valid_schedule g q) ∧
    ((∃ b, listed g b) → ∀ σ, valid_schedule g σ →
       ∃ i q, ps !! i = Some (q, tt) ∧ same_schedule q σ ∧
         ∀ j q', ps !! j = Some (q', tt) → same_schedule q' σ → j = i) ∧
    ((∀ b, ¬ listed g b) → ps = []).
Proof.
  intros n g buf Hg Hb Hn. pose proof (wf_no_edges n g Hg Hn) as Hin.
  destruct (scheduler_sweep _ g buf Hin) as (t & ps & E & Hv & Hp & Ht & H0 & _).
  { rewrite replicate_length. lia. }
  exists t, (map (λ q, (q.1, tt)) ps). split; [done|]. split; [|split; [|split]].
  - intros bd. apply collect_returns. exact (visits_root_generator bd [] _ ps (Hv bd)).
  - intros q l Hq. apply elem_of_list_fmap in Hq as ([q' m] & [= -> _] & Hq). by apply Hp in Hq as [? _].
  - intros Hl%qubits_listed σ Hσ. destruct (times_one σ ps) as (i & q & m & H1 & H2 & H3); [by apply Ht|].
    exists i, q. split; [by rewrite list_lookup_fmap, H1|]. split; [done|].
    intros j q' Hj Hq'. rewrite list_lookup_fmap in Hj. destruct (ps !! j) as [[q2 m2]|] eqn:Ej; [|done].
    simpl in Hj. injection Hj as ->. by eapply H3.
  - intros Hl. rewrite H0; [done|]. destruct (qubits g) as [|x l] eqn:Eq; [done|].
    exfalso. apply (Hl x), listed_qubits. rewrite Eq. left.
Qed.

(** ** C03: how many schedules there are *)

Lemma number_of_paths :
  ∀ n g buf, wf_order n g → n ≤ length buf → (N.of_nat n < 2 ^ 64 - 1)%N →
  ∃ t ps, from_dependency_graph (T := Partition nat) g buf None = Val t ∧
    (∀ bd, returns (λ fuel, get_all_paths (H := time_focus_iterator bd) fuel [] t) ps) ∧
    length ps ≤ ordered_bell (length (qubits g)) ∧
    ((∃ b, listed g b) → (∀ b d, ¬ depends g b d) → length ps = ordered_bell (length (qubits g))).
Proof.
  intros n g buf Hg Hb Hn. pose proof (wf_no_edges n g Hg Hn) as Hin.
  destruct (scheduler_sweep _ g buf Hin) as (t & ps & E & Hv & _ & _ & _ & Hle & Heq).
  { rewrite replicate_length. lia. }
  exists t, (map (λ q, (q.1, tt)) ps). split; [done|]. rewrite map_length. split; [|split; [done|]].
  - intros bd. apply collect_returns. exact (visits_root_generator bd [] _ ps (Hv bd)).
  - intros Hl%qubits_listed Hd. by apply Heq.
Qed.
