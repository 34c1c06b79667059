(** * One iteration of the search loops *)
From Verif Require Export Search Callbacks ManualFacts.

(** ** Lengths of schedules *)

Lemma concat_length_ge {A} (σ : list (list A)) :
  (∀ M, M ∈ σ → M ≠ []) → length σ ≤ length (concat σ).
Proof.
  induction σ as [|M σ IH]; intros H; [done|]. simpl. rewrite app_length.
  assert (M ≠ []) by (apply H; left). destruct M; [done|]. simpl.
  assert (length σ ≤ length (concat σ)); [|lia]. apply IH. intros. apply H. by right.
Qed.

Lemma bounded_length (l : list nat) n : NoDup l → (∀ v, v ∈ l → v < n) → length l ≤ n.
Proof.
  intros Hnd Hlt. rewrite <- (seq_length n 0). apply submseteq_length, NoDup_submseteq; [done|].
  intros v Hv. apply elem_of_seq. specialize (Hlt v Hv). lia.
Qed.

Lemma same_schedule_length σ τ : same_schedule σ τ → length σ = length τ.
Proof. apply Forall2_length. Qed.

Lemma same_schedule_sym σ τ : same_schedule σ τ → same_schedule τ σ.
Proof. intros H. apply Forall2_flip. eapply Forall2_impl; [done|]. by intros ?? ->. Qed.

Lemma same_schedule_trans σ τ υ : same_schedule σ τ → same_schedule τ υ → same_schedule σ υ.
Proof. intros. eapply Forall2_transitive; [|done..]. by intros ??? -> ->. Qed.

Lemma same_schedule_refl σ : same_schedule σ σ.
Proof. induction σ; constructor; [done|]. done. Qed.

Lemma same_schedule_app σ σ' τ τ' :
  same_schedule σ σ' → same_schedule τ τ' → same_schedule (σ ++ τ) (σ' ++ τ').
Proof. apply Forall2_app. Qed.

Lemma legal_same g σ τ : same_schedule σ τ → legal_prefix g σ → legal_prefix g τ.
Proof.
  intros Hs [H1 H2 H3 H4]. pose proof (same_schedule_concat σ τ Hs) as Hc. split.
  - intros M HM. apply elem_of_list_lookup in HM as [k Hk].
    eapply Forall2_lookup_r in Hs as (M' & Hk' & Hp); [|done].
    intros ->. apply Permutation_nil_r in Hp. subst. eapply H1; [by eapply elem_of_list_lookup_2|done].
  - by rewrite <- Hc.
  - intros b. rewrite <- Hc. apply H3.
  - intros k M b d Hk Hb Hd. pose proof Hs as Hs'.
    eapply Forall2_lookup_r in Hs as (M' & Hk' & Hp); [|done].
    rewrite <- (same_schedule_concat _ _ (same_schedule_take σ τ k Hs')).
    eapply H4; [done| |done]. by rewrite Hp.
Qed.

Lemma valid_same g σ τ : same_schedule σ τ → valid_schedule g σ → valid_schedule g τ.
Proof.
  intros Hs [H1 H2]. split; [by eapply legal_same|].
  intros b Hb. rewrite <- (same_schedule_concat σ τ Hs). by apply H2.
Qed.

Section search.
  Context (adj : spacial) (g : order) (Hin : wf_input adj g).
  Notation n := (length adj).
  Notation node := (node adj g).
  Let Hg : wf_order n g := proj2 Hin.

  Lemma legal_bound p : legal_prefix g p → length (concat p) ≤ n.
  Proof.
    intros [H1 H2 H3 _]. apply bounded_length; [done|].
    intros v Hv. apply (listed_range n g Hg). by apply H3.
  Qed.

  Lemma legal_length p : legal_prefix g p → length p ≤ n.
  Proof.
    intros Hl. etrans; [apply concat_length_ge, Hl|]. by apply legal_bound.
  Qed.

  (** ** The lower bound used for pruning *)

  Definition min_length (c : Scheduler (Partition nat)) (p : schedule) : nat :=
    minimum_path_length (s_time c) p.

  Lemma min_length_cases p M c :
    node (p ++ [M]) c →
    (mset c = [] ∧ valid_schedule g (p ++ [M]) ∧ min_length c p = length p + 1) ∨
    (mset c ≠ [] ∧ (∀ b, listed g b → b ∈ concat (p ++ [M]) ++ mset c) ∧
       min_length c p = length p + 2) ∨
    (mset c ≠ [] ∧ (∃ b, listed g b ∧ b ∉ concat (p ++ [M]) ∧ b ∉ mset c) ∧
       min_length c p = length p + 3).
  Proof.
    intros Hn. unfold min_length, minimum_path_length, time_at_leaf.
    fold (mset c). destruct (mset c) as [|x l] eqn:Em.
    - left. split; [done|]. split; [|done]. by eapply leaf_valid.
    - right. pose proof (sched_gen_inv adj g (p ++ [M]) c (nd_inv _ _ _ _ Hn)) as Hgi.
      pose proof (has_unmeasureable_spec n g Hg _ _ Hgi) as Hu.
      change (ms_set (measurable (s_time c))) with (mset c) in Hu. rewrite Em in Hu.
      destruct (has_unmeasureable (s_time c)).
      + right. split; [done|]. split; [|done]. by apply Hu.
      + left. split; [done|]. split; [|done]. intros b Hb. rewrite elem_of_app.
        destruct (decide (b ∈ concat (p ++ [M]))); [by left|].
        destruct (decide (b ∈ x :: l)); [by right|]. exfalso.
        assert (false = true); [|done]. apply Hu. by exists b.
  Qed.

  Lemma node_bound_list p c (l : list nat) :
    node p c → NoDup l → (∀ b, b ∈ l → listed g b ∧ b ∉ concat p) →
    length p + length l ≤ n.
  Proof.
    intros Hn Hl Hlist. etrans; [apply Nat.add_le_mono_r, concat_length_ge, Hn|].
    rewrite <- app_length. apply bounded_length.
    - apply NoDup_app. split; [apply Hn|]. split; [|done]. intros x Hx Hx'. by apply (Hlist x).
    - intros v. rewrite elem_of_app. intros [Hv|Hv]; apply (listed_range n g Hg).
      + eapply lp_listed; [apply Hn|done].
      + by apply Hlist.
  Qed.

  Lemma min_length_le p M c : node (p ++ [M]) c → min_length c p ≤ n.
  Proof.
    intros Hn.
    assert (∀ x, x ∈ mset c → listed g x ∧ x ∉ concat (p ++ [M])) as Hm.
    { intros x Hx. apply (node_enabled adj g _ _ x Hn) in Hx. split; apply Hx. }
    destruct (min_length_cases p M c Hn) as [(_ & _ & ->)|[(He & _ & ->)|(He & (b & Hb) & ->)]].
    - pose proof (legal_length _ (nd_legal _ _ _ _ Hn)) as H. rewrite app_length in H. done.
    - destruct (mset c) as [|x l] eqn:Em; [done|].
      pose proof (node_bound_list _ c [x] Hn (NoDup_singleton x)) as H.
      rewrite app_length in H. simpl in H. cut (length p + 1 + 1 ≤ n); [lia|]. apply H.
      intros y ->%elem_of_list_singleton. apply Hm. left.
    - destruct (mset c) as [|x l] eqn:Em; [done|].
      pose proof (node_bound_list _ c [b; x] Hn) as H.
      rewrite app_length in H. simpl in H. cut (length p + 1 + 2 ≤ n); [lia|]. apply H.
      + apply NoDup_cons. split; [|apply NoDup_singleton]. intros ->%elem_of_list_singleton.
        apply Hb. left.
      + intros y. rewrite elem_of_cons, elem_of_list_singleton. intros [->| ->]; [tauto|].
        apply Hm. left.
  Qed.

  (** Every complete schedule below the child is at least that long. *)
  Lemma min_length_lower p M c τ :
    node (p ++ [M]) c → valid_schedule g (p ++ [M] ++ τ) →
    min_length c p ≤ length (p ++ [M] ++ τ).
  Proof.
    intros Hn [Hl Hc]. rewrite !app_length. simpl. rewrite app_assoc in Hl, Hc.
    destruct (min_length_cases p M c Hn) as [(_ & _ & ->)|[(He & _ & ->)|(He & (b & Hb1 & Hb2 & Hb3) & ->)]].
    - lia.
    - destruct τ; [|simpl; lia]. exfalso. apply He.
      rewrite app_nil_r in Hl, Hc. apply (valid_leaf adj g _ _ Hn). by split.
    - assert (b ∈ concat τ) as Hbτ.
      { specialize (Hc b Hb1). rewrite concat_app, elem_of_app in Hc. tauto. }
      apply elem_of_concat in Hbτ as (B & HB & HbB). apply elem_of_list_lookup in HB as [k Hk].
      assert (¬ Forall (λ d, d ∈ concat (p ++ [M])) (deps_of g b)) as Hno.
      { intros Hall. rewrite Forall_forall in Hall. apply Hb3, (node_enabled adj g _ _ b Hn).
        split; [done|]. split; [done|]. intros d Hd. by apply Hall, (depends_deps_of n g Hg). }
      apply not_Forall_Exists in Hno; [|apply _]. apply Exists_exists in Hno as (d & Hd & Hd').
      apply (depends_deps_of n g Hg) in Hd.
      assert (d ∈ concat (take (length (p ++ [M]) + k) ((p ++ [M]) ++ τ))) as Hin'.
      { eapply (lp_order _ _ Hl); [|exact HbB|exact Hd].
        rewrite lookup_app_r by lia. by rewrite Nat.add_comm, Nat.add_sub. }
      rewrite take_add_app in Hin' by done. rewrite concat_app, elem_of_app in Hin'.
      destruct Hin' as [?|Hin']; [done|].
      destruct k as [|k]; [by apply elem_of_nil in Hin'|].
      apply lookup_lt_Some in Hk. lia.
  Qed.

  (** ** The nodes on the stack *)

  Section base.
  Context (base : schedule).

  Inductive chain : schedule → list (Scheduler (Partition nat)) → Prop :=
  | chain_base s : node base s → chain base [s]
  | chain_step p M s cs : node (p ++ [M]) s → chain p cs → chain (p ++ [M]) (s :: cs).

  Lemma chain_node p s cs : chain p (s :: cs) → node p s.
  Proof. by inversion 1. Qed.

  Lemma chain_single p s : chain p [s] → p = base.
  Proof. inversion 1 as [|? ? ? ? _ Hc]; subst; [done|]. inversion Hc. Qed.

  Lemma chain_replace p s s' cs : chain p (s :: cs) → node p s' → chain p (s' :: cs).
  Proof. inversion 1; subst; intros Hn; by constructor. Qed.

  Lemma pop_snoc {A} (l : list A) x : pop (l ++ [x]) = l.
  Proof. unfold pop. rewrite app_length. simpl. rewrite Nat.add_sub. apply take_app. Qed.

  Lemma chain_pop p s t ts : chain p (s :: t :: ts) → ∃ q M, p = q ++ [M] ∧ pop p = q ∧ chain q (t :: ts).
  Proof.
    inversion 1; subst. eexists _, _. split; [done|]. split; [apply pop_snoc|done].
  Qed.

  Lemma chain_prefix p cs : chain p cs → ∃ q, p = base ++ q.
  Proof.
    induction 1 as [s|p M s cs _ _ [q ->]]; [exists []; by rewrite app_nil_r|].
    exists (q ++ [M]). by rewrite app_assoc.
  Qed.
  End base.

  (** ** The iteration as a relation *)

  Definition no_more (s : Scheduler (Partition nat)) : Prop := ∀ a b, (a, b) ∈ items s → b = [].

  Definition cost (p : schedule) : N := N.of_nat (space_cost adj p).

  (** What a leaf at path [p] does to the bookkeeping. *)
  Definition best_leaf (p : schedule) (best : list N) : list N :=
    lower_from (length p + 1) (cost p) (<[length p := cost p]> best).

  Inductive iter_rel (rand : bool) : SearchState → SearchState + SearchState → Prop :=
  | it_done cur p best res :
      no_more cur →
      iter_rel rand (mkSearchState (mkSweep cur []) p best res)
        (inr (mkSearchState (mkSweep (advance cur) []) p best res))
  | it_back cur t ts p best res :
      no_more cur → mset cur ≠ [] →
      iter_rel rand (mkSearchState (mkSweep cur (t :: ts)) p best res)
        (inl (mkSearchState (mkSweep t ts) (pop p) best res))
  | it_leaf cur t ts p best res :
      no_more cur → mset cur = [] →
      iter_rel rand (mkSearchState (mkSweep cur (t :: ts)) p best res)
        (inl (mkSearchState (mkSweep t ts) (pop p) (best_leaf p best)
                (<[length p := (cost p, p)]> res)))
  | it_push cur st p best res a b l child m :
      items cur = (a, b) :: l → b ≠ [] → node (p ++ [b]) child → SchedulerFacts.fresh child →
      best !! min_length child p = Some m → (cost (p ++ [b]) < m)%N →
      (∀ bd, scheduler_next_and_focus bd cur = Val (advance cur, Some (child, b))) →
      iter_rel rand (mkSearchState (mkSweep cur st) p best res)
        (inl (mkSearchState (mkSweep child (advance cur :: st)) (p ++ [b]) best res))
  | it_prune cur st p best res a b l child m :
      items cur = (a, b) :: l → b ≠ [] → node (p ++ [b]) child →
      best !! min_length child p = Some m → (m <= cost (p ++ [b]))%N →
      (∀ bd, scheduler_next_and_focus bd cur = Val (advance cur, Some (child, b))) →
      iter_rel rand (mkSearchState (mkSweep cur st) p best res)
        (inl (mkSearchState (mkSweep (advance cur) st) p best res))
  | it_skip cur st p best res a b l child m :
      rand = true →
      items cur = (a, b) :: l → b ≠ [] → node (p ++ [b]) child →
      best !! min_length child p = Some m → (cost (p ++ [b]) < m)%N →
      (∀ bd, scheduler_next_and_focus bd cur = Val (advance cur, Some (child, b))) →
      iter_rel rand (mkSearchState (mkSweep cur st) p best res)
        (inl (mkSearchState (mkSweep (advance cur) st) p best res)).

  (** The structural invariant. *)
  Record ok (base : schedule) (s : SearchState) : Prop := {
    ok_chain : chain base (ss_path s) (current (ss_scheduler s) :: stack (ss_scheduler s));
    ok_best : length (ss_best s) = n + 1
  }.

  Lemma node_space p s : node p s → s_space s = graph_at adj p.
  Proof. intros Hn. apply Hn. Qed.

  Lemma items_cases p cur :
    node p cur →
    (no_more cur ∧ ∀ bd, scheduler_next_and_focus bd cur = Val (advance cur, None)) ∨
    (∃ a b l child, items cur = (a, b) :: l ∧ b ≠ [] ∧ node (p ++ [b]) child ∧ SchedulerFacts.fresh child ∧
       ∀ bd, scheduler_next_and_focus bd cur = Val (advance cur, Some (child, b))).
  Proof.
    intros Hn. pose proof (scheduler_next_spec adj g Hin p cur Hn) as Hs.
    destruct (items cur) as [|[a [|x b]] l] eqn:E.
    - left. split; [|done]. intros a b Hi. rewrite E in Hi. by apply elem_of_nil in Hi.
    - left. split; [|done]. pose proof (items_last adj g p cur a l Hn E) as ->.
      intros a' b' Hi. rewrite E in Hi. apply elem_of_list_singleton in Hi. congruence.
    - right. destruct Hs as (child & E' & H1 & H2). by exists a, (x :: b), l, child.
  Qed.

  Lemma leaf_some p s : node p s → mset s = [] → scheduler_at_leaf s = Some (cost p).
  Proof.
    intros Hn Hs. unfold scheduler_at_leaf. fold (mset s). rewrite Hs.
    by rewrite (node_space p s Hn).
  Qed.

  Lemma leaf_none s : mset s ≠ [] → scheduler_at_leaf s = None.
  Proof. intros Hs. unfold scheduler_at_leaf. fold (mset s). by destruct (mset s). Qed.

  Lemma backward_leaf p best res :
    length best = n + 1 → length p ≤ n →
    backward (Some (cost p)) p best res
    = Val (pop p, best_leaf p best, <[length p := (cost p, p)]> res).
  Proof.
    intros Hb Hp. unfold backward, index_set.
    destruct (lookup_lt_is_Some_2 best (length p)) as [m Hm]; [lia|]. by rewrite Hm.
  Qed.

  Lemma forward_prune p b child par st best m :
    node (p ++ [b]) child → best !! min_length child p = Some m → (m <=? cost (p ++ [b]))%N = true →
    forward b (mkSweep child (par :: st)) best p = Val (mkSweep par st, p, false).
  Proof.
    intros Hcn Hm El. unfold forward, index. cbn [current]. unfold min_length in Hm.
    rewrite Hm. cbn [obind]. rewrite (node_space _ _ Hcn).
    change (max_memory (graph_at adj (p ++ [b]))) with (cost (p ++ [b])). by rewrite El.
  Qed.

  Lemma forward_push p b child par st best m :
    node (p ++ [b]) child → best !! min_length child p = Some m → (m <=? cost (p ++ [b]))%N = false →
    forward b (mkSweep child (par :: st)) best p = Val (mkSweep child (par :: st), p ++ [b], false).
  Proof.
    intros Hcn Hm El. unfold forward, index. cbn [current]. unfold min_length in Hm.
    rewrite Hm. cbn [obind]. rewrite (node_space _ _ Hcn).
    change (max_memory (graph_at adj (p ++ [b]))) with (cost (p ++ [b])). by rewrite El.
  Qed.

  Lemma probabilistic_forward_cases acc smp drawn p b child par st best m lcm lmm :
    length best = n + 1 →
    node (p ++ [b]) child → best !! min_length child p = Some m →
    (probabilistic_forward b (mkSweep child (par :: st)) best p lcm lmm smp drawn acc
       = Val (mkSweep par st, p, drawn, false) ∧ (m <= cost (p ++ [b]))%N) ∨
    (∃ drawn', probabilistic_forward b (mkSweep child (par :: st)) best p lcm lmm smp drawn acc
       = Val (mkSweep child (par :: st), p ++ [b], drawn', false) ∧ (cost (p ++ [b]) < m)%N) ∨
    (∃ drawn', probabilistic_forward b (mkSweep child (par :: st)) best p lcm lmm smp drawn acc
       = Val (mkSweep par st, p, drawn', false) ∧ (cost (p ++ [b]) < m)%N) ∨
    (probabilistic_forward b (mkSweep child (par :: st)) best p lcm lmm smp drawn acc = Panic ∧
     ¬ never_panics acc).
  Proof.
    intros Hb Hcn Hm. unfold probabilistic_forward, index. cbn [current]. unfold min_length in Hm.
    rewrite Hm. cbn [obind]. rewrite (node_space _ _ Hcn).
    change (max_memory (graph_at adj (p ++ [b]))) with (cost (p ++ [b])).
    destruct (N.leb_spec m (cost (p ++ [b]))) as [Hle|Hlt]; [left; done|right].
    destruct (lookup_lt_is_Some_2 best n) as [lb Hlb]; [lia|].
    assert (last best = Some lb) as ->.
    { rewrite last_lookup, Hb. by replace (pred (n + 1)) with n by lia. }
    cbn [obind].
    destruct (acc _ _ _ _ _ _ _ _) as [acc'|] eqn:Ea;
      [|right; right; split; [done|]; intros Ha; by apply Ha in Ea]. cbn [obind].
    destruct (SFleb f64_one acc'); [left; by eexists|].
    destruct (SFltb (smp drawn.1) acc'); [left; by eexists|right; left; by eexists].
  Qed.

  Lemma search_iteration_rel base s :
    ok base s → ∃ r, (∀ bd, search_iteration bd s = Val r) ∧ iter_rel false s r.
  Proof.
    intros [Hch Hb]. destruct s as [[cur st] p best res]. simpl in *.
    pose proof (chain_node _ _ _ _ Hch) as Hn. unfold search_iteration, sweep_next. simpl.
    destruct (items_cases p cur Hn) as [[Hno E]|(a & b & l & child & Ei & Hbne & Hcn & Hcf & E)].
    - destruct st as [|t ts].
      + eexists. split; [intros bd; by rewrite E|]. by constructor.
      + destruct (mset cur) as [|x m] eqn:Em.
        * eexists. split.
          { intros bd. rewrite E. cbn [obind].
            rewrite (leaf_some p (advance cur)); [|by apply advance_node|done].
            rewrite backward_leaf; [reflexivity|done|]. apply legal_length, Hn. }
          by apply it_leaf.
        * eexists. split.
          { intros bd. rewrite E. cbn [obind].
            rewrite (leaf_none (advance cur)); [reflexivity|].
            change (mset (advance cur)) with (mset cur). by rewrite Em. }
          apply it_back; [done|by rewrite Em].
    - destruct (lookup_lt_is_Some_2 best (min_length child p)) as [m Hm].
      { pose proof (min_length_le p b child Hcn). lia. }
      destruct (m <=? cost (p ++ [b]))%N eqn:El.
      + eexists. split.
        { intros bd. rewrite E. cbn [obind].
          rewrite (forward_prune p b child (advance cur) st best m Hcn Hm El). reflexivity. }
        eapply it_prune; [done..| |done]. by apply N.leb_le.
      + eexists. split.
        { intros bd. rewrite E. cbn [obind].
          rewrite (forward_push p b child (advance cur) st best m Hcn Hm El). reflexivity. }
        eapply it_push; [done..| |done]. by apply N.leb_gt.
  Qed.

  (** The counters do not influence anything else. *)
  Definition with_drawn (drawn : Draws) (r : SearchState + SearchState)
      : (Draws * SearchState) + SearchState :=
    match r with inl s => inl (drawn, s) | inr s => inr s end.

  Lemma probabilistic_iteration_any base acc smp drawn s :
    ok base s →
    (∃ drawn' r, (∀ bd, probabilistic_iteration bd acc smp (drawn, s) = Val (with_drawn drawn' r)) ∧
      iter_rel true s r) ∨
    (∀ bd, probabilistic_iteration bd acc smp (drawn, s) = Panic) ∧ ¬ never_panics acc.
  Proof.
    intros [Hch Hb]. destruct s as [[cur st] p best res]. simpl in *.
    pose proof (chain_node _ _ _ _ Hch) as Hn. unfold probabilistic_iteration, sweep_next. simpl.
    destruct (items_cases p cur Hn) as [[Hno E]|(a & b & l & child & Ei & Hbne & Hcn & Hcf & E)].
    - destruct st as [|t ts].
      + left. exists drawn. eexists (inr _). split; [intros bd; by rewrite E|]. by constructor.
      + destruct (mset cur) as [|x m] eqn:Em.
        * left. exists drawn. eexists (inl _). split.
          { intros bd. rewrite E. cbn [obind].
            rewrite (leaf_some p (advance cur)); [|by apply advance_node|done].
            rewrite backward_leaf; [reflexivity|done|]. apply legal_length, Hn. }
          by apply it_leaf.
        * left. exists drawn. eexists (inl _). split.
          { intros bd. rewrite E. cbn [obind].
            rewrite (leaf_none (advance cur)); [reflexivity|].
            change (mset (advance cur)) with (mset cur). by rewrite Em. }
          apply it_back; [done|by rewrite Em].
    - destruct (lookup_lt_is_Some_2 best (min_length child p)) as [m Hm].
      { pose proof (min_length_le p b child Hcn). lia. }
      destruct (probabilistic_forward_cases acc smp drawn p b child (advance cur) st best m
        (current_memory (s_space cur)) (max_memory (s_space cur)) Hb Hcn Hm)
        as [[E' Hle]|[(drawn' & E' & Hlt)|[(drawn' & E' & Hlt)|[E' Hnp]]]].
      + left. exists drawn. eexists (inl _). split.
        { intros bd. rewrite E. cbn [obind]. rewrite E'. reflexivity. }
        by eapply it_prune.
      + left. exists drawn'. eexists (inl _). split.
        { intros bd. rewrite E. cbn [obind]. rewrite E'. reflexivity. }
        by eapply it_push.
      + left. exists drawn'. eexists (inl _). split.
        { intros bd. rewrite E. cbn [obind]. rewrite E'. reflexivity. }
        by eapply it_skip.
      + right. split; [|done]. intros bd. rewrite E. cbn [obind]. by rewrite E'.
  Qed.

  Lemma probabilistic_iteration_rel base acc smp drawn s :
    never_panics acc → ok base s →
    ∃ drawn' r, (∀ bd, probabilistic_iteration bd acc smp (drawn, s) = Val (with_drawn drawn' r)) ∧
      iter_rel true s r.
  Proof.
    intros Ha Hok. by destruct (probabilistic_iteration_any base acc smp drawn s Hok) as [?|[_ ?]].
  Qed.

  Lemma best_leaf_length p best : length (best_leaf p best) = length best.
  Proof.
    unfold best_leaf, lower_from. rewrite app_length, map_length, take_length, drop_length, insert_length. lia.
  Qed.

  Lemma iter_rel_ok base rand s r :
    ok base s → iter_rel rand s r → ok base (match r with inl s' | inr s' => s' end).
  Proof.
    intros [Hch Hb]. destruct 1; simpl in *; (split; simpl; [|done || (by rewrite best_leaf_length)]).
    - eapply chain_replace; [done|]. eapply advance_node, chain_node, Hch.
    - apply chain_pop in Hch as (q & M & -> & -> & ?). done.
    - apply chain_pop in Hch as (q & M & -> & -> & ?). done.
    - apply chain_step; [done|]. eapply chain_replace; [done|]. eapply advance_node, chain_node, Hch.
    - eapply chain_replace; [done|]. eapply advance_node, chain_node, Hch.
    - eapply chain_replace; [done|]. eapply advance_node, chain_node, Hch.
  Qed.

  (** ** Soundness of the results *)

  Definition sound (res : MappedPaths) : Prop :=
    ∀ t m q, res !! t = Some (m, q) → valid_schedule g q ∧ length q = t ∧ m = cost q.

  Lemma sound_empty : sound ∅.
  Proof. intros t m q H. by rewrite lookup_empty in H. Qed.

  Lemma sound_insert res p :
    sound res → valid_schedule g p → sound (<[length p := (cost p, p)]> res).
  Proof.
    intros Hs Hp t m q. rewrite lookup_insert_Some. intros [[<- [= <- <-]]|[_ H]]; [done|].
    by apply Hs.
  Qed.

  Lemma iter_rel_sound base rand s r :
    ok base s → sound (ss_results s) → iter_rel rand s r →
    sound (ss_results (match r with inl s' | inr s' => s' end)).
  Proof.
    intros [Hch Hb] Hs. destruct 1; simpl in *; try done.
    apply sound_insert; [done|]. eapply leaf_valid; [done| |done]. by eapply chain_node.
  Qed.
End search.
