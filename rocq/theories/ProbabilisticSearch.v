(** * The randomized search with an accept function that lets the first descent pass *)
From Verif Require Export MainSearch ProbabilisticFacts.

(** As long as no path is known, a step that measures a node is accepted. *)
Definition eager (n : nat) (acc : Accept) : Prop :=
  ∀ k bound last_max last_cur cur remaining,
    (last_max <= N.of_nat n)%N → (cur <= N.of_nat n)%N → (remaining < N.of_nat n)%N →
    ∃ x, acc k (f64_of_usize bound) (f64_of_usize usize_max) (f64_of_usize last_max)
      (f64_of_usize last_cur) (f64_of_usize cur) (f64_of_usize remaining)
      (f64_of_usize (N.of_nat n)) = Val x ∧ SFleb f64_one x = true.

Lemma builtin_eager exp n :
  exp_function exp → exp_near_zero exp → (N.of_nat n < 2 ^ 53)%N → eager n (stateless (builtin_heavyside exp)).
Proof.
  intros H1 H2 Hn k bound last_max last_cur cur remaining H3 H4 H5. eexists. split; [reflexivity|].
  apply (builtin_accepts_first exp bound last_max last_cur cur remaining (N.of_nat n)); [done|done|lia..].
Qed.

Lemma timed_inv {X} (it : X → out (X + SearchState)) (st : X → SearchState) timer
    (I : nat → X → Prop) (F : SearchState → Prop) fuel k x o :
  (∀ k x, I k x → ∃ r, it x = Val r ∧ match r with inl x' => I (S k) x' | inr s' => F s' end) →
  I k x → loop (timed it st timer) fuel (k, x) = Some o →
  ∃ fin, o = Val (ss_results fin, ss_best fin) ∧
    (F fin ∨ ∃ j x', fin = st x' ∧ I (S j) x' ∧ timer j = true).
Proof.
  intros Hit. revert k x. induction fuel as [|fuel IH]; intros k x HI; [done|].
  simpl. unfold timed at 1. destruct (Hit k x HI) as (r & E & Hr). cbn [snd fst]. rewrite E. cbn [obind].
  destruct r as [x'|s'].
  - destruct (timer k) eqn:Et.
    + intros [= <-]. exists (st x'). split; [done|]. right. by exists k, x'.
    + intros Hl. by apply (IH (S k) x').
  - intros [= <-]. exists s'. split; [done|]. by left.
Qed.

Section eager.
  Context (adj : spacial) (g : order) (Hin : wf_input adj g).
  Notation n := (length adj).
  Notation iter_rel := (iter_rel adj g).
  Notation ok := (ok adj g).

  Lemma child_remaining p b child :
    node adj g (p ++ [b]) child → b ≠ [] → num_remaining_nodes (s_time child) < n.
  Proof.
    intros Hn Hb. pose proof (sched_gen_inv adj g _ _ (nd_inv _ _ _ _ Hn)) as Hgi.
    rewrite (remaining_count n g (proj2 Hin) _ _ Hgi).
    pose proof (node_bound_list adj g Hin (p ++ [b]) child
      (filter (λ x, x ∉ concat (p ++ [b]) ∧ x ∉ ms_set (measurable (s_time child))) (qubits g)) Hn) as H.
    rewrite app_length in H. simpl in H. cut (length p + 1 + length (filter (λ x, x ∉ concat (p ++ [b]) ∧
      x ∉ ms_set (measurable (s_time child))) (qubits g)) ≤ n); [lia|]. apply H.
    - apply NoDup_filter, (proj2 Hin).
    - intros x. rewrite elem_of_list_filter, <- listed_qubits. tauto.
  Qed.

  Lemma node_memory p s :
    node adj g p s → (max_memory (s_space s) <= N.of_nat n)%N ∧ (current_memory (s_space s) <= N.of_nat n)%N ∧
      length (nodes (s_space s)) = n.
  Proof.
    intros Hn. rewrite (node_space adj g p s Hn).
    pose proof (space_cost_le adj (proj2 (proj1 Hin)) p) as Hc.
    assert (max_memory (graph_at adj p) <= N.of_nat n)%N as Hm.
    { change (max_memory (graph_at adj p)) with (cost adj p). unfold cost. lia. }
    split; [done|]. split.
    - etrans; [apply (current_le_max adj (proj1 Hin) p)|done].
      + apply Hn.
      + intros v Hv. apply (listed_range n g (proj2 Hin)). eapply lp_listed; [apply Hn|done].
    - unfold graph_at, graph_mid. simpl. apply rep_length.
  Qed.

  (** As long as no path is known the randomized search behaves like the deterministic one. *)
  Lemma eager_iteration base acc smp drawn s :
    eager n acc → ok base s → ss_best s = replicate (n + 1) usize_max →
    ∃ drawn' r, (∀ bd, probabilistic_iteration bd acc smp (drawn, s) = Val (with_drawn drawn' r)) ∧
      iter_rel false s r.
  Proof.
    intros Hacc Hok Hbest. destruct (search_iteration_rel adj g Hin base s Hok) as (r & Er & Hr).
    cut (∃ drawn', ∀ bd, probabilistic_iteration bd acc smp (drawn, s) = Val (with_drawn drawn' r)).
    { intros [d Hd']. by exists d, r. }
    pose proof (Er Debug) as Er1. revert Er1.
    destruct Hok as [Hch Hb].
    destruct s as [[cur st] p best res]. simpl in *.
    pose proof (chain_node _ _ _ _ _ _ Hch) as Hn. unfold probabilistic_iteration, search_iteration, sweep_next. simpl.
    destruct (items_cases adj g Hin p cur Hn) as [[Hno E]|(a & b & l & child & Ei & Hbne & Hcn & Hcf & E)];
      rewrite E; cbn [obind].
    - destruct st as [|t ts]; cbn [obind].
      { intros [= <-]. exists drawn. intros bd. by rewrite E. }
      destruct (backward _ _ _ _) as [[[p' b'] r']|] eqn:Eb; cbn [obind]; [|done].
      intros [= <-]. exists drawn. intros bd. rewrite E. cbn [obind]. by rewrite Eb.
    - unfold forward, probabilistic_forward, index. cbn [current].
      destruct (best !! minimum_path_length _ _) as [m|] eqn:Em; [|done]. cbn [obind].
      destruct (m <=? _)%N eqn:Hm.
      { intros [= <-]. exists drawn. intros bd. rewrite E. cbn [obind current]. rewrite Em.
        cbn [obind]. by rewrite Hm. }
      assert (last best = Some usize_max) as Hl.
      { rewrite Hbest, last_lookup, replicate_length. apply lookup_replicate. lia. }
      destruct (node_memory _ _ Hn) as (Hm1 & _ & _). destruct (node_memory _ _ Hcn) as (_ & Hm2 & Hlen).
      destruct (Hacc drawn.2 m (max_memory (s_space cur)) (current_memory (s_space cur))
        (current_memory (s_space child)) (N.of_nat (num_remaining_nodes (s_time child)))) as (x & Hx & Hx1);
        [done|done|pose proof (child_remaining p b child Hcn Hbne); lia|].
      intros [= <-]. eexists. intros bd. rewrite E. cbn [obind current]. rewrite Em. cbn [obind].
      rewrite Hm, Hl. cbn [obind]. rewrite Hlen, Hx. cbn [obind]. rewrite Hx1. reflexivity.
  Qed.
End eager.

Lemma eager_first :
  ∀ adj g timer ho acc smp, wf_input adj g → (∀ l, ho l ≡ₚ l) → never_panics acc →
  eager (length adj) acc →
  ∃ ps, (∀ bd, returns (λ fuel, search_single bd fuel timer ho adj g (Some (acc, smp))) ps) ∧
    (ps = [] ∨ ∃ p, head ps = Some p ∧ ∀ σ, valid_schedule g σ → time p ≤ time_cost σ) ∧
    (∀ σ, valid_schedule g σ → σ ≠ [] → (∀ k, k < length σ → timer k = false) → ps ≠ []).
Proof.
  intros adj g timer ho acc smp Hin Hho Hcalm Hacc.
  destruct (search_root adj g Hin) as (root & E & Hn & Hf).
  assert (ok adj g [] (start_state (length adj) root)) as Hok.
  { split; [by constructor|]. apply replicate_length. }
  destruct (search_finishes Debug timer ho adj g (Some (acc, smp))) as (o & f0 & Ho).
  destruct (search_valid adj g timer ho (Some (acc, smp)) Hin Hho Hcalm) as (ps & Hret & Hvalid & Htr).
  assert (o = Val ps) as -> by (apply (finishes_det _ _ _ (ex_intro _ f0 Ho) (Hret Debug))).
  specialize (Ho f0 (le_n _)). unfold search_single in Ho. rewrite E in Ho.
  unfold do_probabilistic_search in Ho. rewrite do_probabilistic_search_timed in Ho.
  destruct (loop _ f0 _) as [o'|] eqn:El; [|done].
  set (I := λ k (x : Draws * SearchState), ok adj g [] x.2 ∧ sound adj g (ss_results x.2) ∧
    (descent adj g k x.2 ∨ has_key g (ss_results x.2))).
  set (F := λ s : SearchState, sound adj g (ss_results s) ∧
    (has_key g (ss_results s) ∨ ss_results s = ∅ ∧ ∀ b, ¬ listed g b)).
  apply (timed_inv _ _ _ I F) in El.
  2:{ intros k [d s] (Hs & Hsnd & Hd). cbn [snd] in *. destruct Hd as [Hd|Hk].
      - destruct (eager_iteration adj g Hin [] acc smp d s Hacc Hs (ds_best _ _ _ _ Hd)) as (d' & r & Er & Hr).
        exists (with_drawn d' r). split; [done|].
        pose proof (iter_rel_ok _ _ _ _ _ _ Hs Hr) as Hs'. pose proof (iter_rel_sound adj g Hin [] _ _ _ Hs Hsnd Hr) as Hsnd'.
        pose proof (descent_step adj g Hin _ _ _ Hs Hd Hr) as Hd'.
        destruct r as [s'|s']; cbn [with_drawn].
        + split; [done|]. split; [done|]. destruct Hd' as [?|[? _]]; [by left|by right].
        + split; [done|]. by right.
      - destruct (probabilistic_iteration_rel adj g Hin [] acc smp d s Hcalm Hs) as (d' & r & Er & Hr).
        exists (with_drawn d' r). split; [done|].
        pose proof (iter_rel_ok _ _ _ _ _ _ Hs Hr) as Hs'. pose proof (iter_rel_sound adj g Hin [] _ _ _ Hs Hsnd Hr) as Hsnd'.
        pose proof (iter_rel_has_key adj g _ _ _ Hr Hk) as Hk'.
        destruct r as [s'|s']; cbn [with_drawn].
        + split; [done|]. split; [done|]. by right.
        + split; [done|]. by left. }
  2:{ split; [done|]. split; [apply sound_empty|]. left. by split. }
  destruct El as (fin & -> & Hfin). injection Ho as Eps'. exists ps. split; [done|].
  destruct (finish_spec ho Hho (length adj) (ss_results fin)) as (ps' & Eps & _ & _ & Hps).
  rewrite Eps in Eps'. injection Eps' as ->.
  assert (sound adj g (ss_results fin)) as Hsound.
  { destruct Hfin as [[? _]|(j & [d s] & -> & (_ & ? & _) & _)]; done. }
  assert (has_key g (ss_results fin) ∨ (ss_results fin = ∅ ∧ ∀ b, ¬ listed g b) ∨
    (ss_results fin = ∅ ∧ ∃ j, timer j = true ∧ ∀ σ, valid_schedule g σ → S j ≤ length σ)) as Hcase.
  { destruct Hfin as [[_ [?|?]]|(j & [d s] & -> & (Hs & _ & [Hd|?]) & Ht)]; [by left|by right; left| |by left].
    right; right. cbn [snd] in *. split; [apply Hd|]. exists j. split; [done|]. intros σ Hσ.
    rewrite <- (ds_length _ _ _ _ Hd). apply (greedy_optimal g); [apply Hd| |done].
    eapply nd_legal, chain_node, Hs. }
  clear Hfin. split.
  - destruct Hcase as [(p & [m q] & Hv & Hg & Hk)|[(He & _)|(He & _)]].
    + right. destruct (Hsound _ _ _ Hk) as (Hvq & Hlq & Hmq).
      destruct (finish_matches ho Hho _ _ _ (length p) m q Eps Hk) as (r & Hr & Hr1 & _).
      { apply (valid_length adj g Hin). done. }
      { rewrite Hmq. apply (cost_lt_max adj g Hin). }
      destruct ps as [|p0 ps0]; [by apply elem_of_nil in Hr|]. exists p0. split; [done|].
      intros σ Hσ. pose proof (greedy_optimal g p σ Hg (vs_legal _ _ Hv) Hσ) as Hle. unfold time_cost.
      apply elem_of_list_lookup in Hr as [[|i] Hi].
      * simpl in Hi. injection Hi as ->. lia.
      * destruct (Htr 0 (S i) p0 r) as [? _]; [lia|done|done|]. lia.
    + left. destruct ps as [|p0 ps0]; [done|]. exfalso.
      assert (p0 ∈ p0 :: ps0) as Hp by left. apply Hps in Hp as (_ & Hp & _).
      rewrite He, lookup_empty in Hp. done.
    + left. destruct ps as [|p0 ps0]; [done|]. exfalso.
      assert (p0 ∈ p0 :: ps0) as Hp by left. apply Hps in Hp as (_ & Hp & _).
      rewrite He, lookup_empty in Hp. done.
  - intros σ Hσ Hne Ht. destruct Hcase as [(p & [m q] & Hv & Hg & Hk)|[(_ & Hno)|(_ & j & Hj & Hlen)]].
    + destruct (Hsound _ _ _ Hk) as (Hvq & Hlq & Hmq).
      destruct (finish_matches ho Hho _ _ _ (length p) m q Eps Hk) as (r & Hr & Hr1 & _).
      { apply (valid_length adj g Hin). done. }
      { rewrite Hmq. apply (cost_lt_max adj g Hin). }
      intros ->. by apply elem_of_nil in Hr.
    + exfalso. destruct σ as [|M σ]; [done|].
      pose proof (lp_nonempty _ _ (vs_legal _ _ Hσ) M ltac:(left)) as HM. destruct M as [|b M]; [done|].
      apply (Hno b), (lp_listed _ _ (vs_legal _ _ Hσ)). left.
    + specialize (Hlen σ Hσ). rewrite Ht in Hj by lia. done.
Qed.

Lemma builtin_first :
  ∀ adj g timer ho exp smp, wf_input adj g → (∀ l, ho l ≡ₚ l) →
  exp_function exp → exp_near_zero exp → (N.of_nat (length adj) < 2 ^ 53)%N →
  ∃ ps,
    (∀ bd, returns (λ fuel, search_single bd fuel timer ho adj g
                              (Some (get_accept_func exp accept_func_default 0, smp))) ps) ∧
    (ps = [] ∨ ∃ p, head ps = Some p ∧ ∀ σ, valid_schedule g σ → time p ≤ time_cost σ) ∧
    (* the timer answered "not finished" for as many iterations as some schedule has steps *)
    (∀ σ, valid_schedule g σ → σ ≠ [] → (∀ k, k < length σ → timer k = false) → ps ≠ []).
Proof.
  intros adj g timer ho exp smp Hin Hho H1 H2 Hn. apply eager_first; [done|done|done|].
  by apply builtin_eager.
Qed.
