(** * Final statements about the amount of work *)
From Verif Require Export WorkCount BufferFacts.

Lemma root_explored adj g buf :
  wf_input adj g → length adj ≤ length buf →
  ∃ t qs, from_dependency_graph (T := Partition nat) g buf None = Val t ∧
    node adj g [] (mkScheduler t (graph_new adj)) ∧
    (∀ bd, explores (FI := scheduler_focus_iterator bd) [] (mkScheduler t (graph_new adj)) qs) ∧
    beginnings g (length qs) ∧
    length qs + 1 ≤ subtree (length (qubits g)) ∧
    ((∀ b d, ¬ depends g b d) → length qs + 1 = subtree (length (qubits g))).
Proof.
  intros Hin Hb. pose proof (proj2 Hin) as Hg.
  destruct (from_dependency_graph_spec (T := Partition nat) (length adj) g buf Hg Hb)
    as (m & dc & look & E & -> & Hlen & Hinv).
  set (t := mkPathGenerator (ms_init (map fst (default [] (head g)))) dc look : PathGenerator (Partition nat)).
  assert (node adj g [] (mkScheduler t (graph_new adj)) ∧ SchedulerFacts.fresh (mkScheduler t (graph_new adj)))
    as [Hn Hf].
  { apply (fresh_root adj g t (map fst (default [] (head g)))); [done|]. split.
    - apply NoDup_nil_2.
    - by intros ? ?%elem_of_nil.
    - by intros ? ? ?%elem_of_nil.
    - simpl. done.
    - exact (graph_at_new adj (proj2 (proj1 Hin))). }
  destruct (explore_root adj g Hin _ Hn Hf) as (qs & H1 & H2 & H3 & H4 & H5).
  exists t, qs. split; [done|]. split; [done|]. split; [done|]. split; [by exists qs|done].
Qed.

Lemma search_root_explored adj g k :
  wf_input adj g → beginnings g k →
  ∃ s, search_scheduler adj g = Val s ∧ node adj g [] s ∧
    ∀ bd, nodes_left (FI := scheduler_focus_iterator bd) s k.
Proof.
  intros Hin Hk. destruct (root_explored adj g (dependency_buffer_new (length adj)) Hin)
    as (t & qs & E & Hn & Hx & Hqs & _).
  { unfold dependency_buffer_new. by rewrite replicate_length. }
  exists (mkScheduler t (graph_new adj)). unfold search_scheduler. rewrite E. split; [done|]. split; [done|].
  intros bd. rewrite (beginnings_unique g k (length qs) Hk Hqs). by eapply explores_nodes.
Qed.

Lemma number_of_beginnings :
  ∀ n g, wf_order n g → (N.of_nat n < 2 ^ 64 - 1)%N →
  ∃ k, beginnings g k ∧ (∀ k', beginnings g k' → k' = k) ∧
    k ≤ 2 * ordered_bell (length (qubits g)) - 1 ∧
    ((∃ b, listed g b) → (∀ b d, ¬ depends g b d) → k = 2 * ordered_bell (length (qubits g)) - 1).
Proof.
  intros n g Hg Hn. pose proof (wf_no_edges n g Hg Hn) as Hin.
  destruct (root_explored _ g (replicate n []) Hin) as (t & qs & _ & _ & _ & Hk & Hle & Heq).
  { by rewrite !replicate_length. }
  exists (length qs). split; [done|]. split; [intros k' Hk'; by apply (beginnings_unique g)|].
  unfold subtree in *. split; [destruct (_ =? _); lia|].
  intros Hl%qubits_listed Hd. specialize (Heq Hd).
  destruct (Nat.eqb_spec (length (qubits g)) 0) as [E|_]; [by apply nil_length_inv in E|lia].
Qed.

Lemma collect_work {T Item Leaf} (FI : FocusIterator T Item Leaf) t k fuel p :
  nodes_left t k → get_all_paths fuel p t = None ↔ fuel ≤ 2 * k.
Proof.
  intros Hk. destruct (nodes_collect_root t k Hk p []) as [H1 (ps & H2)]. unfold get_all_paths. split.
  - intros H. destruct (decide (fuel ≤ 2 * k)) as [|Hlt]; [done|]. exfalso.
    pose proof (loop_mono collect_body (2 * k + 1) fuel (mkSweep t [], p, []) _ H2) as Hm.
    unfold sweep_new in H. rewrite Hm in H; [done|lia].
  - intros Hle. destruct (loop collect_body fuel (sweep_new t, p, [])) as [r|] eqn:E; [|done]. exfalso.
    pose proof (loop_mono collect_body fuel (2 * k) _ _ E Hle) as Hm. unfold sweep_new in Hm.
    by rewrite Hm in H1.
Qed.

Lemma sweep_work :
  ∀ adj g buf k bd fuel, wf_input adj g → length adj ≤ length buf → beginnings g k →
  ∃ t, from_dependency_graph (T := Partition nat) g buf None = Val t ∧
    (get_all_paths (H := scheduler_focus_iterator bd) fuel [] (mkScheduler t (graph_new adj)) = None
     ↔ fuel ≤ 2 * k) ∧
    (get_all_paths (H := time_focus_iterator bd) fuel [] t = None ↔ fuel ≤ 2 * k).
Proof.
  intros adj g buf k bd fuel Hin Hb Hk.
  destruct (root_explored adj g buf Hin Hb) as (t & qs & E & Hn & Hx & Hqs & _).
  exists t. split; [done|]. rewrite (beginnings_unique g k (length qs) Hk Hqs). split.
  - apply collect_work. by eapply explores_nodes.
  - apply collect_work. pose proof (explores_generator bd _ _ _ (Hx bd)) as Hx'.
    by apply explores_nodes in Hx'.
Qed.

Lemma single_work :
  ∀ adj g k bd fuel env timeout prob, wf_input adj g → beginnings g k → 2 * k + 1 ≤ fuel →
  ∀ nthreads bound, nthreads < 2 → ∃ o, run bd fuel env adj g true timeout nthreads bound prob = Some o.
Proof.
  intros adj g k bd fuel env timeout prob Hin Hk Hf nthreads bound Hn.
  destruct (search_root_explored adj g k Hin Hk) as (s & Es & _ & Hs).
  unfold run. cbn [negb]. unfold search. rewrite (proj2 (Nat.ltb_lt _ _) Hn).
  unfold world_of. cbn [w_fuel w_timer w_hash_order]. 
  eapply single_within; [apply todo_left|done|by apply todo_new|done].
Qed.

Lemma timed_iterations t es : iterations (timed_events t es) = observed_iterations es.
Proof.
  unfold iterations, observed_iterations. revert t. induction es as [|[e|[i|i b|i]] es IH]; intros t; simpl; auto.
Qed.

Lemma threaded_work :
  ∀ adj g k bd fuel env timeout prob nthreads bound ps,
  wf_input adj g → beginnings g k → 2 ≤ nthreads →
  run bd fuel env adj g true timeout nthreads bound prob = Some (Val ps) →
  observed_iterations (e_events env) ≤ 2 * k + 1.
Proof.
  intros adj g k bd fuel env timeout prob nthreads bound ps Hin Hk Hn.
  destruct (search_root_explored adj g k Hin Hk) as (s & Es & Hns & Hs).
  unfold run. cbn [negb]. unfold search.
  assert (nthreads <? 2 = false) as -> by (apply Nat.ltb_ge; lia). rewrite Es.
  destruct (threaded_search _ _ _ _ _ _ _ _) as [[res|]|] eqn:E; [|done..]. intros _.
  pose proof (threaded_within bd _ (todo_left bd) _ _ _ _ _ _ _ (2 * k + 1) res
    (λ js, spawn_todo adj g Hin bd _ _ _ k js Hns (Hs bd)) E) as H.
  unfold world_of in H. cbn [w_events] in H. by rewrite timed_iterations in H.
Qed.

(** ** Memory *)

Section memory.
  Context {T Item Leaf : Type} `{FI : FocusIterator T Item Leaf} (size_ : T → nat).
  Context (Hsize : ∀ t t' r, next_and_focus t = Val (t', r) →
    size_ t' = size_ t ∧ match r with Some (c, _) => size_ c < size_ t | None => True end).

  Fixpoint stacked (w : nat) (st : list T) : Prop :=
    match st with [] => True | t :: st' => size_ t + length st' ≤ w ∧ stacked w st' end.

  Lemma history_stacked s d s' w :
    sweep_history s d s' → stacked w (current s :: stack s) → stacked w (current s' :: stack s').
  Proof.
    intros Hh Hs. induction Hh as [s|s d s' i s'' _ IH E|s d s' l s'' _ IH E|s d s' s'' _ IH E|s d s' s'' _ IH E].
    - done.
    - apply sweep_next_forward in E as (cur & c & E & ->). apply Hsize in E as [E1 E2]. specialize (IH Hs).
      simpl in *. lia || (destruct IH as [IH1 IH2]; split; [lia|split; [lia|done]]).
    - apply sweep_next_backward in E as (cur & t & st & E & _ & Est & ->). specialize (IH Hs).
      rewrite Est in IH. simpl in *. tauto.
    - apply sweep_next_none in E as (cur & E & Est & ->). apply Hsize in E as [E1 _]. specialize (IH Hs).
      rewrite Est in IH. simpl in *. rewrite E1. done.
    - specialize (IH Hs). unfold skip_current in E. destruct (stack s') as [|t st]; [done|].
      injection E as <-. simpl in *. tauto.
  Qed.

  Lemma history_depth t d s : sweep_history (sweep_new t) d s → length (stack s) ≤ size_ t.
  Proof.
    intros H. eapply (history_stacked _ _ _ (size_ t)) in H; [|simpl; split; [lia|done]].
    simpl in H. destruct H as [H _]. lia.
  Qed.
End memory.

Lemma counters_size layer dc : size (counters layer dc) ≤ size dc + length layer.
Proof.
  unfold counters. revert dc. induction layer as [|e l IH]; intros dc; simpl; [lia|].
  etrans; [apply IH|]. rewrite map_size_insert. destruct (dc !! e.1); simpl; lia.
Qed.

Lemma root_weight g buf t :
  from_dependency_graph (T := Partition nat) g buf None = Val t → weight t ≤ length (qubits g).
Proof.
  rewrite from_dependency_graph_eq. destruct (decide _); [|done]. intros [= <-]. unfold weight. simpl.
  pose proof (counters_size (concat (tail g)) ∅) as H. rewrite map_size_empty in H.
  rewrite map_length. unfold qubits. rewrite map_length. destruct g as [|layer g]; simpl in *; [lia|].
  rewrite app_length. lia.
Qed.

Lemma sweep_memory :
  ∀ bd g buf t, from_dependency_graph (T := Partition nat) g buf None = Val t →
  (∀ d s, sweep_history (H := time_focus_iterator bd) (sweep_new t) d s → length (stack s) ≤ length (qubits g)) ∧
  (∀ graph d s, sweep_history (H := scheduler_focus_iterator bd) (sweep_new (mkScheduler t graph)) d s →
     length (stack s) ≤ length (qubits g)).
Proof.
  intros bd g buf t Ht. pose proof (root_weight g buf t Ht) as Hw. split.
  - intros d s Hs. etrans; [|exact Hw].
    apply (history_depth (FI := time_focus_iterator bd) weight) with (d := d); [|done].
    intros u u' r E. simpl in E. pose proof E as E'. unfold time_next_and_focus, partition_next in E'.
    assert (weight u' = weight u) as Hu.
    { destruct (piter (measurable u)) as [|sub rest]; [by injection E' as <- _|].
      destruct (partition_map _ _ _) as [a b]. destruct b as [|x b]; [by injection E' as <- _|].
      destruct (time_focus_unchecked _ _ _ _); [|done]. by injection E' as <- _. }
    split; [done|]. destruct r as [[c i]|]; [|done]. apply time_next_weight in E as [E1 E2].
    destruct i; [done|simpl in *; lia].
  - intros graph d s Hs. etrans; [|exact Hw]. change (weight t) with (sweight (mkScheduler t graph)).
    apply (history_depth (FI := scheduler_focus_iterator bd) sweight) with (d := d); [|done].
    intros u u' r E. apply scheduler_next_measure in E as (E1 & E2 & _). split; [done|].
    destruct r as [[c i]|]; [|done]. tauto.
Qed.

(** ** Growth *)

Lemma power_bound n : n ≠ 0 → 4 * n ^ n ≤ 2 ^ (2 ^ n).
Proof.
  intros Hn. assert (n ≤ 2 ^ (n - 1)) as H1.
  { destruct n as [|n]; [done|]. simpl. rewrite Nat.sub_0_r. clear Hn.
    induction n as [|n IH]; [done|]. simpl. lia. }
  assert (n * (n - 1) + 2 ≤ 2 ^ n) as H2.
  { clear H1. destruct n as [|n]; [done|]. clear Hn. rewrite Nat.sub_succ, Nat.sub_0_r.
    induction n as [|n IH]; [done|].
    assert (2 * S n ≤ 2 ^ S n) as H3.
    { clear IH. induction n as [|n IH]; [done|]. cbn [Nat.pow] in *. lia. }
    change (2 ^ S (S n)) with (2 * 2 ^ S n). nia. }
  etrans; [|apply Nat.pow_le_mono_r; [done|exact H2]]. rewrite Nat.pow_add_r, Nat.mul_comm.
  change (2 ^ 2) with 4. apply Nat.mul_le_mono_r. rewrite Nat.mul_comm, Nat.pow_mul_r.
  by apply Nat.pow_le_mono_l.
Qed.

Lemma growth :
  ∀ n g k, wf_order n g → (N.of_nat n < 2 ^ 64 - 1)%N → beginnings g k →
  (2 * k + 1 < 4 * length (qubits g) ^ length (qubits g)) ∧
  ((∃ b, listed g b) → 4 * length (qubits g) ^ length (qubits g) ≤ 2 ^ (2 ^ length (qubits g))) ∧
  ((∃ b, listed g b) → (∀ b d, ¬ depends g b d) → fact (length (qubits g)) ≤ k).
Proof.
  intros n g k Hg Hn Hk. destruct (number_of_beginnings n g Hg Hn) as (k' & _ & Hu & Hle & Heq).
  rewrite (Hu k Hk) in *. pose proof (ordered_bell_power (length (qubits g))) as H1.
  pose proof (ordered_bell_fact (length (qubits g))) as H2.
  pose proof (ordered_bell_pos (length (qubits g))) as H3. split; [lia|]. split.
  - intros Hl%qubits_listed. apply power_bound. intros E. by apply nil_length_inv in E.
  - intros Hl Hd. rewrite (Heq Hl Hd). lia.
Qed.
