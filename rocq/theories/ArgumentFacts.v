(** * The arguments of the accept function *)
From Verif Require Export MainSearch.

(** ** Blocked qubits *)

Definition deps_of (g : order) (b : nat) : list nat :=
  concat (map (λ e, if decide (e.1 = b) then e.2 else []) (concat g)).

Lemma deps_of_spec g b d : d ∈ deps_of g b ↔ depends g b d.
Proof.
  unfold deps_of, depends. rewrite elem_of_concat. split.
  - intros (ds & ([b' ds'] & -> & He)%elem_of_list_fmap & Hd). simpl in *.
    destruct (decide (b' = b)) as [->|]; [|by apply elem_of_nil in Hd].
    apply elem_of_concat in He as (layer & Hl & He). by exists layer, ds'.
  - intros (layer & ds & Hl & He & Hd). exists ds. split; [|done].
    apply elem_of_list_fmap. exists (b, ds). simpl. rewrite decide_True by done. split; [done|].
    apply elem_of_concat. by exists layer.
Qed.

Lemma enabled_or_blocked g σ b :
  listed g b → b ∉ concat σ → enabled g (concat σ) b ∨ blocked g σ b.
Proof.
  intros Hl Hb. destruct (decide (Forall (λ d, d ∈ concat σ) (deps_of g b))) as [H|H].
  - left. rewrite Forall_forall in H. split; [done|]. split; [done|].
    intros d Hd. apply H. by apply deps_of_spec.
  - right. split; [done|]. split; [done|]. apply not_Forall_Exists in H; [|apply _].
    apply Exists_exists in H as (d & Hd & Hn). exists d. by rewrite <- deps_of_spec.
Qed.

Lemma enabled_not_blocked g σ b : enabled g (concat σ) b → ¬ blocked g σ b.
Proof. intros (_ & _ & H) (_ & _ & d & Hd & Hn). by apply Hn, H. Qed.

(** To compute them. *)
Definition blocked_list (g : order) (σ : schedule) : list nat :=
  filter (λ b, b ∉ concat σ ∧ ¬ Forall (λ d, d ∈ concat σ) (deps_of g b)) (qubits g).

Lemma blocked_list_spec g σ b : b ∈ blocked_list g σ ↔ blocked g σ b.
Proof.
  unfold blocked_list, blocked. rewrite elem_of_list_filter, <- listed_qubits. split.
  - intros [[H1 H2] H3]. split; [done|]. split; [done|]. apply not_Forall_Exists in H2; [|apply _].
    apply Exists_exists in H2 as (d & Hd & Hn). exists d. by rewrite <- deps_of_spec.
  - intros (H1 & H2 & d & Hd & Hn). split; [|done]. split; [done|]. rewrite Forall_forall.
    intros H. apply Hn, H. by apply deps_of_spec.
Qed.

(** ** The lowest space *)

Lemma lowest_space_le ps k p : p ∈ ps → time p ≤ k → (lowest_space ps k <= space p)%N.
Proof.
  induction ps as [|q ps IH]; [by intros ?%elem_of_nil|]. simpl.
  rewrite elem_of_cons. intros [<-|Hp] Ht.
  - rewrite (proj2 (Nat.leb_le _ _) Ht). lia.
  - specialize (IH Hp Ht). destruct (time q <=? k); lia.
Qed.

Lemma lowest_space_max ps k : (lowest_space ps k <= usize_max)%N.
Proof. induction ps as [|q ps IH]; simpl; [lia|]. destruct (time q <=? k); lia. Qed.

Lemma lowest_space_witness ps k :
  lowest_space ps k = usize_max ∨ ∃ p, p ∈ ps ∧ time p ≤ k ∧ space p = lowest_space ps k.
Proof.
  induction ps as [|q ps IH]; [by left|]. simpl. destruct (Nat.leb_spec (time q) k) as [Hq|Hq].
  - destruct (N.min_spec (space q) (lowest_space ps k)) as [[_ ->]|[_ ->]].
    + right. exists q. split; [left|done].
    + destruct IH as [?|(p & Hp & ?)]; [by left|]. right. exists p. split; [by right|done].
  - destruct IH as [?|(p & Hp & ?)]; [by left|]. right. exists p. split; [by right|done].
Qed.

Section arguments.
  Context (adj : spacial) (g : order) (Hin : wf_input adj g).
  Notation n := (length adj).
  Notation node := (node adj g).
  Notation cost := (cost adj).
  Notation ok := (ok adj g []).
  Notation books := (books adj (replicate (n + 1) usize_max)).
  Notation sound := (sound adj g).
  (** [best_memory] holds the lowest space of what would be returned now. *)
  Lemma known_best ho s ps t :
    (∀ l, ho l ≡ₚ l) → ok s → books s → sound (ss_results s) → finish ho n (ss_results s) = Val ps → t ≤ n →
    ss_best s !! t = Some (lowest_space ps t).
  Proof.
    intros Hho [_ Hlen] [Ha Hs Hw Hr _] Hsnd Hps Ht.
    destruct (lookup_lt_is_Some_2 (ss_best s) t) as [a E]; [lia|]. rewrite E. f_equal.
    destruct (finish_spec ho Hho n (ss_results s)) as (ps' & E' & _ & _ & Hps').
    rewrite E' in Hps. injection Hps as ->.
    assert (∀ p, p ∈ ps → time p ≤ t → (a <= space p)%N) as Hle.
    { intros p Hp Hpt. apply Hps' in Hp as (_ & Hp & _).
      destruct (lookup_lt_is_Some_2 (ss_best s) (time p)) as [a' Ea']; [lia|].
      etrans; [exact (Ha _ _ _ _ Hpt Ea' E)|]. by eapply Hr. }
    apply N.le_antisymm.
    - destruct (lowest_space_witness ps t) as [->|(p & Hp & Hpt & <-)]; [|by apply Hle].
      eapply Hs; [done|]. apply lookup_replicate. split; [done|lia].
    - destruct (Hw t a E) as [[-> _]%lookup_replicate|(t' & q & Ht' & Hq)]; [apply lowest_space_max|].
      destruct (Hsnd _ _ _ Hq) as (_ & _ & Hm).
      destruct (finish_matches ho Hho n _ ps t' a q E' Hq) as (p & Hp & Hpt & Hpa).
      { lia. } { rewrite Hm. apply (cost_lt_max adj g Hin). }
      etrans; [apply (lowest_space_le ps t p Hp); lia|done].
  Qed.

  Lemma kept_current p s : node p s → current_memory (s_space s) = N.of_nat (kept adj p).
  Proof.
    intros Hn. rewrite (node_space _ _ _ _ Hn). unfold graph_at, graph_mid. cbn [current_memory].
    f_equal. unfold occ, kept. f_equal. apply filter_length_ext_in. intros v _. rewrite app_nil_r.
    split; intros [H1 H2]; (split; [done|]).
    - destruct (decide (needed adj (concat p) v)) as [?|Hno]; [done|]. exfalso. apply H2.
      by apply state_of_sleeping.
    - intros H. apply state_of_sleeping in H as [_ H]. by apply H.
  Qed.

  Lemma blocked_unmeasurable p c b :
    node p c → blocked g p b ↔ listed g b ∧ b ∉ concat p ∧ b ∉ mset c.
  Proof.
    intros Hn. split.
    - intros Hb. split; [apply Hb|]. split; [apply Hb|]. intros Hm.
      apply (node_enabled _ _ _ _ _ Hn) in Hm. by eapply enabled_not_blocked.
    - intros (H1 & H2 & H3). destruct (enabled_or_blocked g p b H1 H2) as [He|?]; [|done].
      exfalso. apply H3. by apply (node_enabled _ _ _ _ _ Hn).
  Qed.

  Lemma min_length_at_least p M c :
    node (p ++ [M]) c → steps_at_least g (p ++ [M]) (min_length c p).
  Proof.
    intros Hn. pose proof blocked_unmeasurable as Hbl. unfold steps_at_least. rewrite app_length. cbn [length].
    destruct (min_length_cases adj g Hin p M c Hn) as [(_ & Hv & ->)|[(He & Hall & ->)|(_ & (b & H1 & H2 & H3) & ->)]].
    - left. split; [apply Hv|lia].
    - right. left. split; [|split; [|lia]].
      + destruct (mset c) as [|x l] eqn:Em; [done|]. exists x.
        assert (x ∈ mset c) as Hx by (rewrite Em; left).
        apply (node_enabled _ _ _ _ _ Hn) in Hx. split; apply Hx.
      + intros b Hb. apply (Hbl _ c b Hn) in Hb as (H1 & H2 & H3).
        apply Hall, elem_of_app in H1 as [?|?]; done.
    - right. right. split; [|lia]. exists b. by apply (Hbl _ c b Hn).
  Qed.

  Lemma question_asked (limit : nat → N → Prop) best p cur b child m :
    length best = n + 1 → (∀ k m, best !! k = Some m → limit k m) →
    node p cur → node (p ++ [b]) child → best !! min_length child p = Some m →
    (cost (p ++ [b]) < m)%N →
    ∃ lb, last best = Some lb ∧
    question adj g limit p b (f64_of_usize m) (f64_of_usize lb)
      (f64_of_usize (max_memory (s_space cur))) (f64_of_usize (current_memory (s_space cur)))
      (f64_of_usize (current_memory (s_space child)))
      (f64_of_usize (N.of_nat (num_remaining_nodes (s_time child))))
      (f64_of_usize (N.of_nat (length (nodes (s_space child))))).
  Proof.
    intros Hlen Hlim Hn Hc Hm Hlt.
    destruct (lookup_lt_is_Some_2 best n) as [lb Hlb]; [lia|]. exists lb. split.
    { rewrite last_lookup, Hlen. by replace (pred (n + 1)) with n by lia. }
    split.
    - apply Hc.
    - exists (min_length child p), m. split; [by apply min_length_at_least|].
      split; [by apply Hlim|]. split; [done|]. exact Hlt.
    - exists lb. split; [by apply Hlim|done].
    - by rewrite (node_space _ _ _ _ Hn).
    - by rewrite (kept_current _ _ Hn).
    - by rewrite (kept_current _ _ Hc).
    - pose proof (sched_gen_inv adj g _ _ (nd_inv _ _ _ _ Hc)) as Hgi.
      rewrite (remaining_count n g (proj2 Hin) _ _ Hgi). eexists. split; [|split; [|reflexivity]].
      + apply NoDup_filter, (proj2 Hin).
      + intros x. rewrite elem_of_list_filter, (blocked_unmeasurable _ _ _ Hc).
        change (ms_set (measurable (s_time child))) with (mset child).
        rewrite (listed_qubits g x). tauto.
    - rewrite (node_space _ _ _ _ Hc). unfold graph_at, graph_mid. cbn [nodes]. by rewrite rep_length.
  Qed.

  (** Two accept functions that give the same answer to the question at hand. *)
  Lemma iteration_agree base (limit : nat → N → Prop) bd acc acc' smp d s :
    SearchFacts.ok adj g base s → (∀ k m, ss_best s !! k = Some m → limit k m) →
    (∀ σ M a b c e f r t, question adj g limit σ M a b c e f r t →
       acc d.2 a b c e f r t = acc' d.2 a b c e f r t) →
    probabilistic_iteration bd acc smp (d, s) = probabilistic_iteration bd acc' smp (d, s).
  Proof.
    intros Hok Hlim Hag. pose proof (question_asked limit (ss_best s)) as Hq.
    destruct s as [[cur st] p best res]. pose proof (ok_chain _ _ _ _ Hok) as Hch. simpl in Hch.
    pose proof (chain_node _ _ _ _ _ _ Hch) as Hn. unfold probabilistic_iteration, sweep_next.
    cbn [ss_scheduler ss_path ss_best ss_results current stack] in *. simpl next_and_focus.
    destruct (items_cases adj g Hin p cur Hn) as [[Hno E]|(a & b & l & child & Ei & Hbne & Hcn & Hcf & E)];
      rewrite E; cbn [obind].
    - by destruct st.
    - unfold probabilistic_forward, index. cbn [current].
      fold (min_length child p). destruct (best !! min_length child p) as [m|] eqn:Em; [|done]. cbn [obind].
      destruct (N.leb_spec m (max_memory (s_space child))) as [?|Hlt]; [done|].
      destruct (Hq p cur b child m (ok_best _ _ _ _ Hok) Hlim Hn Hcn Em) as (lb & -> & Hq').
      { by rewrite (node_space _ _ _ _ Hcn) in Hlt. }
      cbn [obind]. by rewrite (Hag _ _ _ _ _ _ _ _ _ Hq').
  Qed.

  (** ** States reached while the timer answers "not finished" *)
  Inductive reaches (acc : Accept) (smp : nat → f64) (root : Scheduler Partitioner)
      : nat → Draws * SearchState → Prop :=
  | reaches_0 : reaches acc smp root 0 ((0, 0), search_init (sweep_new root) n)
  | reaches_S i x x' : reaches acc smp root i x →
      probabilistic_iteration Debug acc smp x = Val (inl x') → reaches acc smp root (S i) x'.

  (** Stopping after the iteration that leads to a state returns its results. *)
  Lemma reaches_stop acc smp root i x :
    reaches acc smp root (S i) x → ∀ fuel, S i ≤ fuel →
    do_probabilistic_search Debug fuel (λ k, i <=? k) (sweep_new root) n acc smp
    = Some (Val (ss_results x.2, ss_best x.2)).
  Proof.
    intros Hr fuel Hf. unfold do_probabilistic_search. rewrite do_probabilistic_search_timed.
    assert (∀ j y, reaches acc smp root j y → j ≤ i →
      loop (timed (probabilistic_iteration Debug acc smp) snd (λ k, i <=? k)) fuel
        (0, ((0, 0), search_init (sweep_new root) n))
      = loop (timed (probabilistic_iteration Debug acc smp) snd (λ k, i <=? k)) (fuel - j) (j, y)) as H.
    { induction 1 as [|j y y' Hy IH Ey]; intros Hj; [by rewrite Nat.sub_0_r|].
      rewrite IH by lia. replace (fuel - j) with (S (fuel - S j)) by lia. cbn [loop].
      unfold timed at 1. cbn [fst snd]. rewrite Ey. cbn [obind].
      rewrite (proj2 (Nat.leb_gt _ _)) by lia. done. }
    inversion Hr as [|i' y y' Hy Ey]; subst. rewrite (H i y Hy) by lia.
    replace (fuel - i) with (S (fuel - S i)) by lia. cbn [loop].
    unfold timed at 1. cbn [fst snd]. rewrite Ey. cbn [obind]. by rewrite (proj2 (Nat.leb_le _ _)) by lia.
  Qed.

  Lemma iteration_calls bd acc smp x x' :
    probabilistic_iteration bd acc smp x = Val (inl x') → x'.1.2 ≤ S x.1.2.
  Proof.
    destruct x as [d s]. unfold probabilistic_iteration.
    destruct (sweep_next _) as [[sw [[M|leaf]|]]|]; cbn [obind]; [| |done|done].
    - unfold probabilistic_forward. destruct (index _ _) as [m|]; [|done]. cbn [obind].
      destruct (m <=? _)%N.
      { destruct (skip_current _) as [? []]; cbn [obind]; [|done]. intros [= <-]. simpl. lia. }
      destruct (last _) as [lb|]; [|done]. cbn [obind]. destruct (acc _ _ _ _ _ _ _ _) as [v|]; [|done]. cbn [obind].
      destruct (SFleb _ _); [intros [= <-]; simpl; lia|].
      destruct (SFltb _ _); [intros [= <-]; simpl; lia|].
      destruct (skip_current _) as [? []]; cbn [obind]; [|done]. intros [= <-]. simpl. lia.
    - destruct (backward _ _ _ _) as [[[? ?] ?]|]; cbn [obind]; [|done]. intros [= <-]. simpl. lia.
  Qed.

  Lemma reaches_calls acc smp root i x : reaches acc smp root i x → x.1.2 ≤ i.
  Proof.
    induction 1 as [|i x x' _ IH E]; [done|]. pose proof (iteration_calls _ _ _ _ _ E). lia.
  Qed.
End arguments.

(** The search does not depend on the answers to questions it does not ask. *)
Lemma accept_arguments :
  ∀ adj g ho acc acc' smp, wf_input adj g → (∀ l, ho l ≡ₚ l) →
  (* the answers agree, for the call number [k], when the paths [ps] are known *)
  (∀ k ps σ M a b c d e r n,
     (k = 0 ∧ ps = [] ∨
      ∃ i, k ≤ S i ∧ returns (λ fuel, search_single Debug fuel (λ j, i <=? j) ho adj g
                                        (Some (acc, smp))) ps) →
     question adj g (known_limit ps) σ M a b c d e r n →
     acc k a b c d e r n = acc' k a b c d e r n) →
  ∀ bd fuel timer,
    search_single bd fuel timer ho adj g (Some (acc, smp))
    = search_single bd fuel timer ho adj g (Some (acc', smp)).
Proof.
  intros adj g ho acc acc' smp Hin Hho Hag bd fuel timer.
  rewrite (search_build adj g Hin timer ho (Some (acc, smp)) bd Debug).
  rewrite (search_build adj g Hin timer ho (Some (acc', smp)) bd Debug).
  destruct (search_root adj g Hin) as (root & E & Hn & Hf).
  assert (∀ i x, reaches adj acc smp root (S i) x →
    returns (λ fuel, search_single Debug fuel (λ j, i <=? j) ho adj g (Some (acc, smp)))
      (default [] (match finish ho (length adj) (ss_results x.2) with Val ps => Some ps | _ => None end))) as Hstop.
  { intros i x Hr. exists (S i). intros f Hfu. unfold search_single. rewrite E.
    rewrite (reaches_stop adj acc smp root i x Hr f Hfu).
    destruct (finish_spec ho Hho (length adj) (ss_results x.2)) as (ps & -> & _). done. }
  unfold search_single. rewrite E. unfold do_probabilistic_search. rewrite !do_probabilistic_search_timed.
  set (P := λ y : nat * (Draws * SearchState),
    reaches adj acc smp root y.1 y.2 ∧ ok adj g [] y.2.2 ∧
    books adj (replicate (length adj + 1) usize_max) y.2.2 ∧ sound adj g (ss_results y.2.2)).
  rewrite (loop_ext _ (timed (probabilistic_iteration Debug acc' smp) snd timer) P).
  - done.
  - intros [i [d s]] (Hr & Hok & Hbk & Hsnd). cbn [fst snd] in *. unfold timed. cbn [fst snd].
    destruct (finish_spec ho Hho (length adj) (ss_results s)) as (ps & Eps & _ & _ & Hps).
    rewrite (iteration_agree adj g Hin [] (known_limit ps) Debug acc acc' smp d s Hok); [done| |].
    { intros k m Hm. pose proof (lookup_lt_Some _ _ _ Hm) as Hk. rewrite (ok_best _ _ _ _ Hok) in Hk.
      rewrite (known_best adj g Hin ho s ps k Hho Hok Hbk Hsnd Eps) in Hm by lia. by injection Hm. }
    intros σ M a b c e f r t Hq. apply (Hag d.2 ps σ M); [|done].
    pose proof (reaches_calls _ _ _ _ _ _ Hr) as Hk. cbn [fst snd] in Hk. destruct i as [|i].
    + left. split; [lia|]. inversion Hr as [H1 H2|]; subst. cbn [search_init ss_results] in *.
      destruct ps as [|p ps]; [done|]. exfalso. assert (p ∈ p :: ps) as Hp by left.
      apply Hps in Hp as (_ & Hp & _). by rewrite lookup_empty in Hp.
    + right. exists i. split; [done|]. pose proof (Hstop i _ Hr) as H. cbn [snd] in H. by rewrite Eps in H.
  - intros [i [d s]] [i' [d' s']] (Hr & Hok & Hbk & Hsnd). cbn [fst snd] in *. unfold timed. cbn [fst snd].
    destruct (probabilistic_iteration_any adj g Hin [] acc smp d s Hok) as [(d1 & r & Er & Hrel)|[Er _]];
      rewrite Er; [|done]. cbn [obind].
    destruct r as [s1|s1]; cbn [with_drawn]; [|done]. destruct (timer i); [done|].
    intros [= <- <- <-]. unfold P. cbn [fst snd]. split; [|split; [|split]].
    + eapply reaches_S; [exact Hr|]. by rewrite Er.
    + exact (iter_rel_ok _ _ _ _ _ _ Hok Hrel).
    + exact (iter_rel_books adj g Hin [] _ _ _ _ Hok Hbk Hrel).
    + exact (iter_rel_sound adj g Hin [] _ _ _ Hok Hsnd Hrel).
  - split; [constructor|]. split; [|split].
    + split; [by constructor|]. apply replicate_length.
    + apply books_start, antitone_replicate.
    + apply sound_empty.
Qed.
