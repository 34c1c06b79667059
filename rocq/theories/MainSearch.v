(** * Final statements about the single threaded search *)
From Verif Require Export GreedyFacts CallbackFacts Histories.
From Verif Require Export Spec.

(** ** The loops and the fuel *)

Lemma finishes_of {A} (f : nat → option (out A)) (o : out A) fuel0 :
  (∀ fuel fuel' r, f fuel = Some r → fuel ≤ fuel' → f fuel' = Some r) →
  f fuel0 = Some o → finishes f o.
Proof. intros Hm H. exists fuel0. intros fuel Hf. by eapply Hm. Qed.

Lemma finishes_det {A} (f : nat → option (out A)) o o' : finishes f o → finishes f o' → o = o'.
Proof.
  intros [f1 H1] [f2 H2]. specialize (H1 (f1 + f2) ltac:(lia)). specialize (H2 (f1 + f2) ltac:(lia)).
  congruence.
Qed.

Lemma get_time_optimal_mono bd adj g fuel fuel' r :
  get_time_optimal bd fuel adj g = Some r → fuel ≤ fuel' → get_time_optimal bd fuel' adj g = Some r.
Proof.
  unfold get_time_optimal. destruct (from_dependency_graph _ _ _) as [t|]; [|done].
  destruct (loop _ fuel _) as [o|] eqn:E; [|done]. intros H Hf.
  by rewrite (loop_mono _ _ fuel' _ _ E Hf).
Qed.

Lemma search_single_mono bd timer ho adj g prob fuel fuel' r :
  search_single bd fuel timer ho adj g prob = Some r → fuel ≤ fuel' →
  search_single bd fuel' timer ho adj g prob = Some r.
Proof.
  unfold search_single. destruct (search_scheduler adj g) as [s|]; [|done].
  destruct prob as [[acc smp]|].
  - unfold do_probabilistic_search. destruct (loop _ fuel _) as [o|] eqn:E; [|done]. intros H Hf.
    by rewrite (loop_mono _ _ fuel' _ _ E Hf).
  - unfold do_search. destruct (loop _ fuel _) as [o|] eqn:E; [|done]. intros H Hf.
    by rewrite (loop_mono _ _ fuel' _ _ E Hf).
Qed.

(** ** Termination for every input *)

Lemma time_optimal_finishes :
  ∀ bd adj g, ∃ o, finishes (λ fuel, get_time_optimal bd fuel adj g) o.
Proof.
  intros bd adj g.
  assert (∃ fuel o, get_time_optimal bd fuel adj g = Some o) as (fuel & o & E).
  { unfold get_time_optimal. destruct (from_dependency_graph _ _ _) as [t|]; [|by exists 0, Panic].
    match goal with |- context [loop ?b _ ?s] =>
      destruct (time_optimal_terminates bd s (S (length (measurable (s_time s.1.1))
        + size (deps_counter (s_time s.1.1))))) as [r Hr]; [lia|];
      exists (S (length (measurable (s_time s.1.1)) + size (deps_counter (s_time s.1.1)))) end.
    rewrite Hr. destruct r as [[p m]|]; by eexists. }
  exists o. eapply finishes_of; [|exact E]. intros. by eapply get_time_optimal_mono.
Qed.

Lemma search_finishes :
  ∀ bd timer ho adj g prob, ∃ o, finishes (λ fuel, search_single bd fuel timer ho adj g prob) o.
Proof.
  intros bd timer ho adj g prob.
  assert (∃ fuel o, search_single bd fuel timer ho adj g prob = Some o) as (fuel & o & E).
  { unfold search_single. destruct (search_scheduler adj g) as [s|]; [|by exists 0, Panic].
    exists (S (sweep_bound (sweep_new s))). destruct prob as [[acc smp]|].
    - destruct (do_probabilistic_search_terminates bd timer (sweep_new s) (length adj) acc smp
        (S (sweep_bound (sweep_new s)))) as [r ->]; [lia|]. destruct r as [[p m]|]; by eexists.
    - destruct (do_search_terminates bd timer (sweep_new s) (length adj)
        (S (sweep_bound (sweep_new s)))) as [r ->]; [lia|]. destruct r as [[p m]|]; by eexists. }
  exists o. eapply finishes_of; [|exact E]. intros. by eapply search_single_mono.
Qed.

(** ** The search as iterations *)

Definition is_rand (prob : option (Accept * (nat → f64))) : bool :=
  match prob with Some _ => true | None => false end.

Definition start_state (n : nat) (root : Scheduler (Partition nat)) : SearchState :=
  mkSearchState (mkSweep root []) [] (replicate (n + 1) usize_max) ∅.

Lemma search_core_root adj g :
  wf_input adj g →
  ∃ root, search_scheduler adj g = Val root ∧ node adj g [] root ∧ SchedulerFacts.fresh root ∧ ok adj g [] (start_state (length adj) root) ∧
    books adj (replicate (length adj + 1) usize_max) (start_state (length adj) root) ∧
    ∀ timer ho prob bd fuel o,
      search_single bd fuel timer ho adj g prob = Some o → calm prob ∨ o ≠ Panic →
      ∃ j timeout s fin, o = finish ho (length adj) (ss_results fin) ∧
        iters adj g (is_rand prob) j (start_state (length adj) root) s ∧
        last_iter adj g (is_rand prob) timeout s fin ∧
        (∀ i, i < j → timer i = false) ∧ (timeout = true → timer j = true).
Proof.
  intros Hin. destruct (search_root adj g Hin) as (root & E & Hn & Hf).
  assert (ok adj g [] (start_state (length adj) root)) as Hok.
  { split; [by constructor|]. apply replicate_length. }
  exists root. split; [done|]. split; [done|]. split; [done|]. split; [done|].
  split; [apply books_start, antitone_replicate|].
  intros timer ho prob bd fuel o Ho Hcalm. revert Ho.
  assert (∃ prob', search_single bd fuel timer ho adj g prob = Some o →
    calm prob' ∧ is_rand prob' = is_rand prob ∧
    search_single bd fuel timer ho adj g prob' = Some o) as (prob' & Hp).
  { destruct Hcalm as [?|Ho]; [by exists prob|]. exists (calm_single prob). intros H.
    split; [apply calm_single_calm|]. split; [by destruct prob as [[]|]|].
    destruct (search_single_calmed bd fuel timer ho adj g prob) as [Ep|Ep]; congruence. }
  intros Ho. destruct (Hp Ho) as (Hcalm' & <- & Ho'). clear Ho Hp Hcalm. revert Ho'. rename prob' into prob0.
  clear prob. rename prob0 into prob. unfold search_single. rewrite E.
  destruct prob as [[acc smp]|]; simpl is_rand.
  - unfold do_probabilistic_search. rewrite do_probabilistic_search_timed.
    destruct (loop _ fuel _) as [o'|] eqn:El; [|done].
    eapply (timed_run adj g [] _ _ true) in El as (j & to & s & fin & -> & H1 & H2 & H3 & H4).
    + intros [= <-]. exists j, to, s, fin. done.
    + intros [drawn s] Hs.
      destruct (probabilistic_iteration_rel adj g Hin [] acc smp drawn s Hcalm' Hs) as (d' & r & Er & Hr).
      exists (with_drawn d' r). split; [done|]. by destruct r.
    + done.
  - unfold do_search. rewrite do_search_timed.
    destruct (loop _ fuel _) as [o'|] eqn:El; [|done].
    eapply (timed_run adj g [] _ _ false) in El as (j & to & s & fin & -> & H1 & H2 & H3 & H4).
    + intros [= <-]. exists j, to, s, fin. done.
    + intros s Hs. destruct (search_iteration_rel adj g Hin [] s Hs) as (r & Er & Hr).
      exists r. split; [done|]. by destruct r.
    + done.
Qed.

Lemma search_core adj g :
  wf_input adj g →
  ∃ root, node adj g [] root ∧ SchedulerFacts.fresh root ∧ ok adj g [] (start_state (length adj) root) ∧
    books adj (replicate (length adj + 1) usize_max) (start_state (length adj) root) ∧
    ∀ timer ho prob bd fuel o,
      search_single bd fuel timer ho adj g prob = Some o → calm prob ∨ o ≠ Panic →
      ∃ j timeout s fin, o = finish ho (length adj) (ss_results fin) ∧
        iters adj g (is_rand prob) j (start_state (length adj) root) s ∧
        last_iter adj g (is_rand prob) timeout s fin ∧
        (∀ i, i < j → timer i = false) ∧ (timeout = true → timer j = true).
Proof.
  intros Hin. destruct (search_core_root adj g Hin) as (root & _ & H). by exists root.
Qed.

(** In both build profiles the same happens. *)
Lemma search_build adj g :
  wf_input adj g → ∀ timer ho prob bd bd' fuel,
  search_single bd fuel timer ho adj g prob = search_single bd' fuel timer ho adj g prob.
Proof.
  intros Hin timer ho prob bd bd' fuel. destruct (search_root adj g Hin) as (root & E & Hn & Hf).
  assert (ok adj g [] (start_state (length adj) root)) as Hok.
  { split; [by constructor|]. apply replicate_length. }
  unfold search_single. rewrite E. destruct prob as [[acc smp]|].
  - unfold do_probabilistic_search. rewrite !do_probabilistic_search_timed.
    erewrite (loop_ext _ (timed (probabilistic_iteration bd' acc smp) snd timer)
      (λ s, ok adj g [] s.2.2)); [done| | |done].
    + intros [k [drawn s]] Hs. simpl in Hs. unfold timed. cbn [fst snd].
      by destruct (probabilistic_iteration_any adj g Hin [] acc smp drawn s Hs)
        as [(d' & r & Er & Hr)|[Er _]]; rewrite !Er.
    + intros [k [drawn s]] [k' [drawn' s']]. simpl. unfold timed. cbn [fst snd]. intros Hs.
      destruct (probabilistic_iteration_any adj g Hin [] acc smp drawn s Hs)
        as [(d' & r & Er & Hr)|[Er _]]; rewrite Er; [|done]. cbn [obind]. destruct r as [s1|s1]; simpl; [|done]. destruct (timer k); [done|].
      intros [= <- <- <-]. apply (iter_rel_ok _ _ _ _ _ _ Hs Hr).
  - unfold do_search. rewrite !do_search_timed.
    erewrite (loop_ext _ (timed (search_iteration bd') id timer) (λ s, ok adj g [] s.2)); [done| | |done].
    + intros [k s] Hs. simpl in Hs. unfold timed. cbn [fst snd].
      destruct (search_iteration_rel adj g Hin [] s Hs) as (r & Er & Hr). by rewrite !Er.
    + intros [k s] [k' s']. simpl. unfold timed. cbn [fst snd]. intros Hs.
      destruct (search_iteration_rel adj g Hin [] s Hs) as (r & Er & Hr).
      rewrite Er. cbn [obind]. destruct r as [s1|s1]; simpl; [|done]. destruct (timer k); [done|].
      intros [= <- <-]. apply (iter_rel_ok _ _ _ _ _ _ Hs Hr).
Qed.

(** ** Without search *)

Lemma time_optimal_valid :
  ∀ adj g, wf_input adj g →
  ∃ p, (∀ bd, returns (λ fuel, get_time_optimal bd fuel adj g) [p]) ∧
    path_ok adj g p ∧
    (* nothing is faster *)
    (∀ σ, valid_schedule g σ → time p ≤ time_cost σ) ∧
    (* the time is the length of a longest dependency chain *)
    (∃ l, chained g l ∧ (∀ b, b ∈ l → listed g b) ∧ length l = time p) ∧
    (∀ l, chained g l → (∀ b, b ∈ l → listed g b) → length l ≤ time p) ∧
    (* the layers of a canonical dependency graph *)
    (canonical g → same_schedule (steps p) (filter (λ M : step, M ≠ []) (layers g))).
Proof.
  intros adj g Hin.
  assert (∀ bd, ∃ p, returns (λ fuel, get_time_optimal bd fuel adj g)
      [MkPath (length p) (cost adj p) p] ∧ valid_schedule g p ∧ greedy g p) as Hall.
  { intros bd. destruct (time_optimal_finishes bd adj g) as (o & f0 & Ho).
    destruct (time_optimal_spec adj g Hin bd f0 o (Ho f0 (le_n _))) as (p & -> & Hv & Hp).
    exists p. split; [|done]. exists f0. apply Ho. }
  destruct (Hall Debug) as (p & Hr & Hv & Hp).
  exists (MkPath (length p) (cost adj p) p). split; [|split; [|split; [|split; [|split]]]].
  - intros bd.
    (* both builds do the same *)
    assert (∀ fuel, get_time_optimal bd fuel adj g = get_time_optimal Debug fuel adj g) as Heq.
    { intros fuel. unfold get_time_optimal.
      destruct (search_scheduler_spec adj g Hin (T := list nat)) as (t & -> & _ & Hinv).
      erewrite (loop_ext _ (time_optimal_body Debug)
        (λ s : Scheduler (list nat) * Steps * N, sched_inv adj g s.1.2 s.1.1)); [done| | |exact Hinv].
      - intros [[sch q] mm] Hs. unfold time_optimal_body.
        destruct (measurable (s_time sch)) as [|x M] eqn:Em; [done|].
        destruct (scheduler_focus_inplace_ok adj g Hin q sch (x :: M)) as (s' & E & _); [done| | |].
        + pose proof (ti_nodup _ _ _ _ _ (si_time _ _ _ _ Hs)) as Hnd. simpl in Hnd. by rewrite Em in Hnd.
        + intros b Hb. simpl. by rewrite Em.
        + by rewrite !E.
      - intros [[sch q] mm] [[sch' q'] mm'] Hs. unfold time_optimal_body.
        destruct (measurable (s_time sch)) as [|x M] eqn:Em; [done|].
        destruct (scheduler_focus_inplace_ok adj g Hin q sch (x :: M)) as (s' & E & _ & Hs'); [done| | |].
        + pose proof (ti_nodup _ _ _ _ _ (si_time _ _ _ _ Hs)) as Hnd. simpl in Hnd. by rewrite Em in Hnd.
        + intros b Hb. simpl. by rewrite Em.
        + rewrite E. cbn [obind]. by intros [= <- <- _]. }
    destruct Hr as [f0 Hr]. exists f0. intros fuel Hf. rewrite Heq. by apply Hr.
  - by split.
  - intros σ Hσ. simpl. apply (greedy_optimal g); [done|apply Hv|done].
  - simpl. destruct p as [|M p] using rev_ind.
    { exists []. split; [done|]. split; [|done]. by intros ? ?%elem_of_nil. }
    clear IHp. rewrite app_length. simpl.
    assert (M ≠ []) as Hne.
    { eapply (lp_nonempty _ _ (vs_legal _ _ Hv)). apply elem_of_app. right. left. }
    destruct M as [|b M]; [done|].
    destruct (greedy_chain (length adj) g (p ++ [b :: M]) (proj2 Hin) Hp (length p) (b :: M) b)
      as (l & Hl & Hc & Hls).
    { by rewrite lookup_app_r, Nat.sub_diag by lia. }
    { left. }
    exists (l ++ [b]). split; [done|]. split; [|rewrite app_length; simpl; lia].
    intros c. rewrite elem_of_app, elem_of_list_singleton. intros [?| ->]; [by apply Hls|].
    apply (lp_listed _ _ (vs_legal _ _ Hv)). rewrite concat_app. apply elem_of_app. right. simpl. left.
  - intros l Hc Hl. simpl. by eapply chained_length.
  - intros Hcan. simpl. by apply (greedy_layers (length adj)); [apply Hin|..].
Qed.

(** ** Every path returned by a search *)

Lemma search_valid :
  ∀ adj g timer ho prob, wf_input adj g → (∀ l, ho l ≡ₚ l) → calm prob →
  ∃ ps, (∀ bd, returns (λ fuel, search_single bd fuel timer ho adj g prob) ps) ∧
    Forall (path_ok adj g) ps ∧ tradeoff ps.
Proof.
  intros adj g timer ho prob Hin Hho Hcalm.
  destruct (search_core adj g Hin) as (root & Hn & Hf & Hok & Hbk & Hcore).
  destruct (search_finishes Debug timer ho adj g prob) as (o & f0 & Ho).
  destruct (Hcore _ _ _ _ _ _ (Ho f0 (le_n _)) (or_introl Hcalm)) as (j & to & s & fin & Eo & H1 & H2 & _).
  destruct (finish_spec ho Hho (length adj) (ss_results fin)) as (ps & Eps & _ & _ & Hps).
  rewrite Eps in Eo. exists ps. split; [|split].
  - intros bd. exists f0. intros fuel Hfu. rewrite (search_build adj g Hin _ _ _ bd Debug).
    rewrite Ho by done. by rewrite Eo.
  - apply Forall_forall. intros p Hp. apply Hps in Hp as (_ & Hp & _).
    assert (sound adj g (ss_results fin)) as Hs.
    { eapply last_sound; [done| | |exact H2]; [by eapply iters_ok|].
      eapply iters_sound; [done|exact Hok| |exact H1]. apply sound_empty. }
    apply Hs in Hp as (Hv & Ht & Hc). by split.
  - by eapply finish_tradeoff.
Qed.

(** Any two runs to completion agree, whatever the build and the order in which
    the hash map is iterated. *)
Lemma search_hash_order :
  ∀ adj g timer ho ho' prob bd fuel, (∀ l, ho l ≡ₚ l) → (∀ l, ho' l ≡ₚ l) →
  search_single bd fuel timer ho adj g prob = search_single bd fuel timer ho' adj g prob.
Proof.
  intros adj g timer ho ho' prob bd fuel H1 H2. unfold search_single.
  destruct (search_scheduler adj g) as [s|]; [|done].
  match goal with |- match ?m with _ => _ end = _ => destruct m as [[[res b]|]|] end; [|done..].
  f_equal. by apply finish_hash_order.
Qed.

(** ** Optimality *)

Lemma search_optimal :
  ∀ adj g ho, wf_input adj g → (∀ l, ho l ≡ₚ l) → (∃ b, listed g b) →
  ∃ ps, (∀ bd, returns (λ fuel, search_single bd fuel (λ _, false) ho adj g None) ps) ∧
    pareto_front adj g ps ∧
    (* every returned path is Pareto optimal *)
    (∀ p σ, p ∈ ps → valid_schedule g σ → time_cost σ ≤ time p →
       (N.of_nat (space_cost adj σ) <= space p)%N →
       time_cost σ = time p ∧ N.of_nat (space_cost adj σ) = space p) ∧
    (* the first one is time optimal, the last one space optimal *)
    (∃ p, head ps = Some p ∧ ∀ σ, valid_schedule g σ → time p ≤ time_cost σ) ∧
    (∃ p, last ps = Some p ∧ ∀ σ, valid_schedule g σ → (space p <= N.of_nat (space_cost adj σ))%N).
Proof.
  intros adj g ho Hin Hho [b0 Hb0].
  destruct (search_core adj g Hin) as (root & Hn & Hf & Hok & Hbk & Hcore).
  destruct (search_finishes Debug (λ _, false) ho adj g None) as (o & f0 & Ho).
  destruct (Hcore _ _ _ _ _ _ (Ho f0 (le_n _)) (or_introl I)) as (j & to & s & fin & Eo & H1 & H2 & _ & Hto).
  destruct to; [by specialize (Hto eq_refl)|]. clear Hto. simpl in H1, H2.
  destruct (search_valid adj g (λ _, false) ho None Hin Hho I) as (ps & Hret & Hvalid & Htr).
  assert (o = Val ps) as -> by (apply (finishes_det _ _ _ (ex_intro _ f0 Ho) (Hret Debug))).
  symmetry in Eo.
  assert (covers adj g ps) as Hcov.
  { intros σ Hσ. assert (covered adj σ (ss_best fin)) as Hc.
    { pose proof (iters_ok _ _ _ _ _ _ _ Hok H1) as Hoks.
      pose proof (iters_books adj g Hin [] _ _ _ _ _ Hok Hbk H1) as Hbks.
      refine (iter_rel_cover adj g Hin [] _ s (inr fin) σ Hoks Hbks Hσ _ H2).
      eapply (iters_cover adj g Hin []); [exact Hok|exact Hbk|done| |exact H1].
      eapply (coverage_start adj g [] _ _ σ σ); [done|done|done|apply same_schedule_refl|].
      intros ->. apply (vs_complete _ _ Hσ) in Hb0. simpl in Hb0. by apply elem_of_nil in Hb0. }
    assert (books adj (replicate (length adj + 1) usize_max) fin) as Hbf.
    { eapply last_books; [done| | |exact H2]; [by eapply iters_ok|]. eapply iters_books; done. }
    assert (ok adj g [] fin) as Hokf.
    { eapply last_ok; [|exact H2]. by eapply iters_ok. }
    pose proof (valid_length adj g Hin σ Hσ) as Hlen.
    destruct (lookup_lt_is_Some_2 (ss_best fin) (length σ)) as [a Ha].
    { rewrite (ok_best _ _ _ _ Hokf). lia. }
    specialize (Hc a Ha). pose proof (cost_lt_max adj g Hin σ) as Hmax.
    destruct (bk_wit _ _ _ Hbf _ _ Ha) as [Hst|(t & q & Ht & Hr)].
    { apply lookup_replicate in Hst as [-> _]. lia. }
    destruct (finish_matches ho Hho _ _ _ t a q Eo Hr) as (p & Hp & Hp1 & Hp2); [lia|lia|].
    exists p. split; [done|]. split; [unfold time_cost; lia|]. unfold cost in Hc. lia. }
  assert (∀ p q, p ∈ ps → q ∈ ps → time q ≤ time p → (space q <= space p)%N → q = p) as Huniq.
  { intros p q Hp Hq Ht Hs. apply elem_of_list_lookup in Hp as [i Hi].
    apply elem_of_list_lookup in Hq as [k Hk].
    destruct (lt_eq_lt_dec i k) as [[Hlt| ->]|Hlt]; [|congruence|].
    - destruct (Htr i k p q Hlt Hi Hk). lia.
    - destruct (Htr k i q p Hlt Hk Hi). lia. }
  assert (ps ≠ []) as Hne.
  { (* some schedule exists *)
    destruct (time_optimal_valid adj g Hin) as (p & _ & Hp & _).
    destruct (Hcov (steps p)) as (q & Hq & _); [apply Hp|]. intros ->. by apply elem_of_nil in Hq. }
  exists ps. split; [done|]. split; [by split|]. split; [|split].
  - intros p σ Hp Hσ Ht Hs. destruct (Hcov σ Hσ) as (q & Hq & Hq1 & Hq2).
    assert (q = p) as -> by (apply Huniq; [done..|lia|lia]). lia.
  - destruct ps as [|p ps']; [done|]. exists p. split; [done|]. intros σ Hσ.
    destruct (Hcov σ Hσ) as (q & Hq & Hq1 & _). apply elem_of_list_lookup in Hq as [[|i] Hi].
    + simpl in Hi. injection Hi as ->. done.
    + destruct (Htr 0 (S i) p q) as [? _]; [lia|done|done|]. lia.
  - destruct ps as [|p ps'] using rev_ind; [done|]. exists p. split; [apply last_snoc|]. intros σ Hσ.
    destruct (Hcov σ Hσ) as (q & Hq & _ & Hq2).
    apply elem_of_app in Hq as [Hq|Hq]; [|apply elem_of_list_singleton in Hq as ->; done].
    apply elem_of_list_lookup in Hq as [i Hi].
    pose proof (lookup_lt_Some _ _ _ Hi) as Hlt.
    destruct (Htr i (length ps') q p) as [_ ?]; [done| | |].
    + by rewrite lookup_app_l.
    + by rewrite lookup_app_r, Nat.sub_diag by lia.
    + lia.
Qed.

(** ** Stopping a deterministic search *)

Lemma search_first :
  ∀ adj g timer ho, wf_input adj g → (∀ l, ho l ≡ₚ l) →
  ∃ ps, (∀ bd, returns (λ fuel, search_single bd fuel timer ho adj g None) ps) ∧
    (ps = [] ∨ ∃ p, head ps = Some p ∧ ∀ σ, valid_schedule g σ → time p ≤ time_cost σ) ∧
    (* the timer answered "not finished" for as many iterations as some schedule has steps *)
    (∀ σ, valid_schedule g σ → σ ≠ [] → (∀ k, k < length σ → timer k = false) → ps ≠ []).
Proof.
  intros adj g timer ho Hin Hho.
  destruct (search_core adj g Hin) as (root & Hn & Hf & Hok & Hbk & Hcore).
  destruct (search_finishes Debug timer ho adj g None) as (o & f0 & Ho).
  destruct (Hcore _ _ _ _ _ _ (Ho f0 (le_n _)) (or_introl I)) as (j & to & s & fin & Eo & H1 & H2 & Ht1 & Ht2).
  destruct (search_valid adj g timer ho None Hin Hho I) as (ps & Hret & Hvalid & Htr).
  assert (o = Val ps) as -> by (apply (finishes_det _ _ _ (ex_intro _ f0 Ho) (Hret Debug))).
  symmetry in Eo. exists ps. split; [done|]. simpl in H1, H2.
  assert (descent adj g j s ∨ has_key g (ss_results s)) as Hs.
  { assert (descent adj g 0 (start_state (length adj) root)) as Hd.
    { split; done. }
    clear Ht1 Ht2 H2 Eo.
    assert (∀ k j a b, ok adj g [] a → iters adj g false j a b → (descent adj g k a ∨ has_key g (ss_results a)) →
      descent adj g (k + j) b ∨ has_key g (ss_results b)) as Hgen.
    { clear -Hin. intros k j a b Hok Hi. revert k. induction Hi as [a|j a b c Hab _ IH]; intros k Hd.
      - by rewrite Nat.add_0_r.
      - pose proof (iter_rel_ok _ _ _ _ _ _ Hok Hab) as Hok'.
        replace (k + S j) with (S k + j) by lia. apply IH; [done|].
        destruct Hd as [Hd|Hk].
        + destruct (descent_step adj g Hin _ _ _ Hok Hd Hab) as [?|[? _]]; [by left|by right].
        + right. by apply (iter_rel_has_key adj g _ _ _ Hab). }
    by apply (Hgen 0 j _ s Hok H1); left. }
  pose proof (iters_ok _ _ _ _ _ _ _ Hok H1) as Hoks.
  assert (has_key g (ss_results fin) ∨
    (to = true ∧ ss_results fin = ∅ ∧ ∀ σ, valid_schedule g σ → S j ≤ length σ) ∨
    (ss_results fin = ∅ ∧ ∀ b, ¬ listed g b)) as Hfin.
  { destruct Hs as [Hd|Hk].
    - pose proof (descent_step adj g Hin _ _ _ Hoks Hd H2) as Hd'. destruct to.
      + destruct Hd' as [Hd'|[? _]]; [|by left]. right; left. split; [done|]. split; [apply Hd'|].
        intros σ Hσ. rewrite <- (ds_length _ _ _ _ Hd').
        apply (greedy_optimal g); [apply Hd'| |done].
        pose proof (last_ok _ _ _ _ _ _ _ Hoks H2) as Hokf.
        eapply nd_legal, chain_node, Hokf.
      + by right; right.
    - left. pose proof (iter_rel_has_key adj g _ _ _ H2 Hk) as H. by destruct to. }
  assert (sound adj g (ss_results fin)) as Hsound.
  { eapply last_sound; [done|exact Hoks| |exact H2].
    eapply iters_sound; [done|exact Hok| |exact H1]. apply sound_empty. }
  destruct (finish_spec ho Hho (length adj) (ss_results fin)) as (ps' & Eps & _ & _ & Hps).
  rewrite Eps in Eo. injection Eo as ->.
  split.
  - destruct Hfin as [(p & [m q] & Hv & Hg & Hk)|[(_ & He & _)|(He & _)]].
    + right. destruct (Hsound _ _ _ Hk) as (Hvq & Hlq & Hmq).
      destruct (finish_matches ho Hho _ _ _ (length p) m q Eps Hk) as (r & Hr & Hr1 & _).
      { apply (valid_length adj g Hin). done. }
      { rewrite Hmq. apply (cost_lt_max adj g Hin). }
      destruct ps as [|p0 ps0]; [by apply elem_of_nil in Hr|]. exists p0. split; [done|].
      intros σ Hσ. pose proof (greedy_optimal g p σ Hg (vs_legal _ _ Hv) Hσ) as Hle. unfold time_cost.
      apply elem_of_list_lookup in Hr as [[|i] Hi].
      * simpl in Hi. injection Hi as ->. lia.
      * destruct (Htr 0 (S i) p0 r) as [? _]; [lia|done|done|]. lia.
    + left. destruct ps as [|p0 ps0]; [done|]. exfalso.
      assert (p0 ∈ p0 :: ps0) as Hp by left. apply Hps in Hp as (_ & Hp & _).
      rewrite He, lookup_empty in Hp. done.
    + left. destruct ps as [|p0 ps0]; [done|]. exfalso.
      assert (p0 ∈ p0 :: ps0) as Hp by left. apply Hps in Hp as (_ & Hp & _).
      rewrite He, lookup_empty in Hp. done.
  - intros σ Hσ Hne Ht. destruct Hfin as [(p & [m q] & Hv & Hg & Hk)|[(-> & _ & Hlen)|(_ & Hno)]].
    + destruct (Hsound _ _ _ Hk) as (Hvq & Hlq & Hmq).
      destruct (finish_matches ho Hho _ _ _ (length p) m q Eps Hk) as (r & Hr & Hr1 & _).
      { apply (valid_length adj g Hin). done. }
      { rewrite Hmq. apply (cost_lt_max adj g Hin). }
      intros ->. by apply elem_of_nil in Hr.
    + specialize (Hlen σ Hσ). specialize (Ht2 eq_refl). rewrite Ht in Ht2 by lia. done.
    + exfalso. destruct σ as [|M σ]; [done|].
      pose proof (lp_nonempty _ _ (vs_legal _ _ Hσ) M ltac:(left)) as HM. destruct M as [|b M]; [done|].
      apply (Hno b), (lp_listed _ _ (vs_legal _ _ Hσ)). left.
Qed.

(** ** Searching longer *)

Lemma search_longer :
  ∀ adj g timer timer' ho ho' prob ps ps' bd bd', wf_input adj g → (∀ l, ho l ≡ₚ l) → (∀ l, ho' l ≡ₚ l) →
  (* the second timer does not finish earlier *)
  (∀ i, timer' i = true → ∃ j, j ≤ i ∧ timer j = true) →
  returns (λ fuel, search_single bd fuel timer ho adj g prob) ps →
  returns (λ fuel, search_single bd' fuel timer' ho' adj g prob) ps' →
  ∀ p, p ∈ ps → ∃ p', p' ∈ ps' ∧ time p' ≤ time p ∧ (space p' <= space p)%N.
Proof.
  intros adj g timer timer' ho ho' prob ps ps' bd bd' Hin Hho Hho' Htm [f1 H1] [f2 H2] p Hp.
  specialize (H1 f1 (le_n _)). specialize (H2 f2 (le_n _)).
  rewrite (search_build adj g Hin _ _ _ bd Debug) in H1.
  rewrite (search_build adj g Hin _ _ _ bd' Debug) in H2.
  assert (∃ prob', calm prob' ∧ search_single Debug f1 timer ho adj g prob' = Some (Val ps) ∧
    search_single Debug f2 timer' ho' adj g prob' = Some (Val ps')) as (prob' & Hcalm & H1' & H2').
  { exists (calm_single prob). split; [apply calm_single_calm|].
    destruct (search_single_calmed Debug f1 timer ho adj g prob) as [Ep|Ep]; [congruence|].
    destruct (search_single_calmed Debug f2 timer' ho' adj g prob) as [Ep'|Ep']; [congruence|].
    by rewrite <- Ep, <- Ep'. }
  clear H1 H2 prob. rename prob' into prob, H1' into H1, H2' into H2.
  destruct (search_root adj g Hin) as (root & E & Hn & Hf).
  assert (ok adj g [] (start_state (length adj) root)) as Hok.
  { split; [by constructor|]. apply replicate_length. }
  assert (books adj (replicate (length adj + 1) usize_max) (start_state (length adj) root)) as Hbk.
  { apply books_start, antitone_replicate. }
  assert (∃ res res',
    finish ho (length adj) res = Val ps ∧ finish ho' (length adj) res' = Val ps' ∧
    (∀ t m q, res !! t = Some (m, q) → ∃ m' q', res' !! t = Some (m', q') ∧ (m' <= m)%N) ∧
    sound adj g res') as (res & res' & E1 & E2 & Hle & Hs).
  { unfold search_single in H1, H2. rewrite E in H1, H2.
    assert (∀ i, 0 ≤ i → timer' i = true → ∃ j, 0 ≤ j ≤ i ∧ timer j = true) as Htm'.
    { intros i _ Hi. destruct (Htm i Hi) as (j & Hj & ?). exists j. split; [lia|done]. }
    assert (∀ j to s fin, iters adj g (is_rand prob) j (start_state (length adj) root) s →
      last_iter adj g (is_rand prob) to s fin → sound adj g (ss_results fin)) as Hsnd.
    { intros j to s fin Hi Hl. eapply last_sound; [done| | |exact Hl]; [by eapply iters_ok|].
      eapply iters_sound; [done|exact Hok| |exact Hi]. apply sound_empty. }
    destruct prob as [[acc smp]|].
    - unfold do_probabilistic_search in H1, H2. rewrite do_probabilistic_search_timed in H1, H2.
      destruct (loop _ f1 _) as [[[res best]|]|] eqn:L1; [|done..].
      destruct (loop _ f2 _) as [[[res' best']|]|] eqn:L2; [|done..].
      assert (∀ x, ok adj g [] (snd x) → ∃ r, probabilistic_iteration Debug acc smp x = Val r ∧
        iter_rel adj g true (snd x) (match r with inl x' => inl (snd x') | inr s' => inr s' end)) as Hit.
      { intros [drawn s] Hs. simpl in Hs.
        destruct (probabilistic_iteration_rel adj g Hin [] acc smp drawn s Hcalm Hs) as (d' & r & Er & Hr).
        exists (with_drawn d' r). split; [done|]. by destruct r. }
      exists res, res'. split; [by injection H1|]. split; [by injection H2|]. split.
      + exact (timed_longer adj g Hin [] _ _ true Hit timer timer' _ f1 f2 0 ((0, 0), search_init (sweep_new root) (length adj)) _ _ _ _ Hok Hbk Htm' L1 L2).
      + eapply (timed_run adj g [] _ _ true Hit) in L2 as (j & to & s & fin & [= -> ->] & ? & ? & _); [|exact Hok].
        by eapply Hsnd.
    - unfold do_search in H1, H2. rewrite do_search_timed in H1, H2.
      destruct (loop _ f1 _) as [[[res best]|]|] eqn:L1; [|done..].
      destruct (loop _ f2 _) as [[[res' best']|]|] eqn:L2; [|done..].
      assert (∀ x, ok adj g [] (id x) → ∃ r, search_iteration Debug x = Val r ∧
        iter_rel adj g false (id x) (match r with inl x' => inl (id x') | inr s' => inr s' end)) as Hit.
      { intros s Hs. destruct (search_iteration_rel adj g Hin [] s Hs) as (r & Er & Hr).
        exists r. split; [done|]. by destruct r. }
      exists res, res'. split; [by injection H1|]. split; [by injection H2|]. split.
      + exact (timed_longer adj g Hin [] _ _ false Hit timer timer' _ f1 f2 0 (search_init (sweep_new root) (length adj)) _ _ _ _ Hok Hbk Htm' L1 L2).
      + eapply (timed_run adj g [] _ _ false Hit) in L2 as (j & to & s & fin & [= -> ->] & ? & ? & _); [|exact Hok].
        by eapply Hsnd. }
  destruct (finish_spec ho Hho (length adj) res) as (ps1 & Eps & _ & _ & Hps).
  rewrite Eps in E1. injection E1 as ->. apply Hps in Hp as (Hp1 & Hp2 & Hp3 & _).
  destruct (Hle _ _ _ Hp2) as (m' & q' & Hr' & Hm').
  destruct (finish_matches ho' Hho' _ _ _ _ _ _ E2 Hr' Hp1) as (p' & ? & ? & ?); [lia|].
  exists p'. split; [done|]. lia.
Qed.

(** ** Accept functions *)

Lemma accept_everything :
  ∀ adj g bd fuel timer ho acc smp,
  (∀ k a b c d e r n, ∃ x, acc k a b c d e r n = Val x ∧ SFleb f64_one x = true) →
  search_single bd fuel timer ho adj g (Some (acc, smp)) = search_single bd fuel timer ho adj g None.
Proof.
  intros adj g bd fuel timer ho acc smp Hacc. unfold search_single.
  destruct (search_scheduler adj g) as [root|]; [|done].
  assert (∀ fuel k d s, loop (do_probabilistic_search_body bd timer acc smp) fuel (k, (d, s))
    = loop (do_search_body bd timer) fuel (k, s)) as Hloop.
  { clear fuel. intros fuel. induction fuel as [|fuel IH]; intros k d s; [done|]. simpl.
    unfold do_probabilistic_search_body at 1, do_search_body at 1. cbn [fst snd].
    assert (∃ d', probabilistic_iteration bd acc smp (d, s)
      = (let* r := search_iteration bd s in
         Val (match r with inl s' => inl (d', s') | inr s' => inr s' end))) as [d' ->].
    { unfold probabilistic_iteration, search_iteration.
      destruct (sweep_next _) as [[sw [[M|leaf]|]]|]; cbn [obind]; [| |by exists d|by exists d].
      - unfold probabilistic_forward, forward, index.
        destruct (ss_best s !! minimum_path_length _ _) as [m|] eqn:Em; [|by exists d]. cbn [obind].
        destruct (m <=? _)%N.
        + exists d. by destruct (skip_current sw) as [sw' []].
        + destruct (last (ss_best s)) as [lb|] eqn:El.
          * cbn [obind]. destruct (Hacc d.2 (f64_of_usize m) (f64_of_usize lb)
              (f64_of_usize (max_memory (s_space (current (ss_scheduler s)))))
              (f64_of_usize (current_memory (s_space (current (ss_scheduler s)))))
              (f64_of_usize (current_memory (s_space (current sw))))
              (f64_of_usize (N.of_nat (num_remaining_nodes (s_time (current sw)))))
              (f64_of_usize (N.of_nat (length (nodes (s_space (current sw)))))))
              as (x & -> & Hx). cbn [obind]. rewrite Hx. by eexists.
          * apply last_None in El. rewrite El in Em. done.
      - exists d. by destruct (backward _ _ _ _) as [[[p b] r]|]. }
    destruct (search_iteration bd s) as [[s'|s']|]; cbn [obind]; [|done..].
    destruct (timer k); [done|]. apply IH. }
  unfold do_probabilistic_search, do_search. by rewrite Hloop.
Qed.

Lemma accept_nothing :
  ∀ adj g bd fuel timer ho acc smp o, (∀ l, ho l ≡ₚ l) →
  (* the function returns 0 or NaN and the samples are not negative *)
  (∀ k a b c d e r n, ∃ x, acc k a b c d e r n = Val x ∧ (x = S754_nan ∨ ∃ sg, x = S754_zero sg)) →
  (∀ k, SFleb (S754_zero false) (smp k) = true) →
  search_single bd fuel timer ho adj g (Some (acc, smp)) = Some o → o = Panic ∨ o = Val [].
Proof.
  intros adj g bd fuel timer ho acc smp o Hho Hacc Hsmp. unfold search_single.
  destruct (search_scheduler adj g) as [root|]; [|intros [= <-]; by left].
  unfold do_probabilistic_search. destruct (loop _ fuel _) as [o'|] eqn:El; [|done].
  set (Q := λ o : out (MappedPaths * list N), match o with Val r => r.1 = ∅ | Panic => True end).
  assert (Q o') as HQ.
  { eapply (loop_inv _ (λ s : nat * (Draws * SearchState),
      stack (ss_scheduler s.2.2) = [] ∧ ss_results s.2.2 = ∅) Q); [| |exact El]; [|done].
    clear El. intros [k [d s]]. cbn [fst snd]. intros [Hst Hres].
    unfold do_probabilistic_search_body. cbn [fst snd].
    unfold probabilistic_iteration, sweep_next. rewrite Hst.
    destruct (next_and_focus _) as [[cur [[new mess]|]]|]; cbn [obind]; [| |done].
    - unfold probabilistic_forward. cbn [current].
      destruct (index _ _) as [m|]; [|done]. cbn [obind].
      destruct (m <=? _)%N.
      + simpl. by destruct (timer k).
      + destruct (last (ss_best s)) as [lb|]; [|done]. cbn [obind].
        match goal with |- context [acc ?k ?a ?b ?c ?d ?e ?r ?n] =>
          destruct (Hacc k a b c d e r n) as (acc' & -> & Ha) end. cbn [obind].
        assert (SFleb f64_one acc' = false) as ->.
        { destruct Ha as [->|[sg ->]]; [done|]. by destruct sg. }
        assert (SFltb (smp d.1) acc' = false) as ->.
        { specialize (Hsmp d.1). destruct Ha as [->|[sg ->]].
          - by destruct (smp d.1).
          - unfold SFleb, SFltb in *. destruct (smp d.1) as [s1|[|]| |[|] ? ?]; done. }
        simpl. by destruct (timer k).
    - done. }
  destruct o' as [[res best]|]; [|intros [= <-]; by left]. unfold Q in HQ. simpl in HQ. subst res.
  intros [= <-]. right. destruct (finish_spec ho Hho (length adj) ∅) as (ps & -> & _ & _ & Hps).
  f_equal. destruct ps as [|p ps]; [done|]. assert (p ∈ p :: ps) as Hp by left.
  apply Hps in Hp as (_ & Hp & _). by rewrite lookup_empty in Hp.
Qed.

(** ** No nodes *)

Lemma no_nodes :
  ∀ adj g timer ho prob bd, wf_input adj g → (∀ l, ho l ≡ₚ l) → (∀ b, ¬ listed g b) →
  returns (λ fuel, get_time_optimal bd fuel adj g) [MkPath 0 0 []] ∧
  returns (λ fuel, search_single bd fuel timer ho adj g prob) [].
Proof.
  intros adj g timer ho prob bd Hin Hho Hno. split.
  - destruct (time_optimal_valid adj g Hin) as (p & Hr & Hok & _). specialize (Hr bd).
    assert (p = MkPath 0 0 []) as ->; [|done].
    destruct p as [t m σ]. destruct Hok as (Hv & Ht & Hm). simpl in *.
    assert (σ = []) as ->.
    { destruct σ as [|M σ]; [done|].
      pose proof (lp_nonempty _ _ (vs_legal _ _ Hv) M ltac:(left)) as HM. destruct M as [|b M]; [done|].
      destruct (Hno b). apply (lp_listed _ _ (vs_legal _ _ Hv)). left. }
    by subst.
  - destruct (search_root adj g Hin) as (root & Er & Hn & Hf).
    assert (mset root = []) as Em.
    { destruct (mset root) as [|b l] eqn:E; [done|]. destruct (Hno b).
      assert (b ∈ mset root) as Hb by (rewrite E; left).
      apply (node_enabled adj g [] root b Hn) in Hb. apply Hb. }
    assert (items root = [([], [])]) as Ei by (rewrite Hf, Em; done).
    exists 1. intros [|fuel] Hfu; [lia|]. unfold search_single. rewrite Er.
    destruct (items_cases adj g Hin [] root Hn) as [[_ En]|(a & b & l & child & Ei' & Hb & _)].
    2:{ rewrite Ei in Ei'. by injection Ei' as <- <- <-. }
    destruct (finish_spec ho Hho (length adj) ∅) as (ps & Eps & _ & _ & Hps).
    assert (ps = []) as ->.
    { destruct ps as [|p ps]; [done|]. assert (p ∈ p :: ps) as Hp by left.
      apply Hps in Hp as (_ & Hp & _). by rewrite lookup_empty in Hp. }
    destruct prob as [[acc smp]|].
    + unfold do_probabilistic_search. cbn [loop]. unfold do_probabilistic_search_body at 1. cbn [fst snd].
      unfold probabilistic_iteration, sweep_next. cbn [search_init ss_scheduler sweep_new current stack].
      cbn [next_and_focus scheduler_focus_iterator]. rewrite En. cbn. by rewrite Eps.
    + unfold do_search. cbn [loop]. unfold do_search_body at 1. cbn [fst snd].
      unfold search_iteration, sweep_next. cbn [search_init ss_scheduler sweep_new current stack].
      cbn [next_and_focus scheduler_focus_iterator]. rewrite En. cbn. by rewrite Eps.
Qed.

(** ** Reaction to the timeout *)

(** If the [k]-th look at the timer (the first one has number 0) finds it
    finished, the search performs at most [k + 1] iterations. *)
Lemma search_timeout :
  ∀ adj g bd timer ho prob k, timer k = true →
  ∃ o, search_single bd (S k) timer ho adj g prob = Some o.
Proof.
  intros adj g bd timer ho prob k Hk. unfold search_single.
  destruct (search_scheduler adj g) as [root|]; [|by eexists].
  assert (∀ X (it : X → out (X + SearchState)) st m x, ∃ o,
    m ≤ k → loop (timed it st timer) (S k - m) (m, x) = Some o) as Hgen.
  { intros X it st. cut (∀ d m x, ∃ o, m + d = k → loop (timed it st timer) (S d) (m, x) = Some o).
    { intros H m x. destruct (H (k - m) m x) as [o Ho]. exists o. intros Hm.
      replace (S k - m) with (S (k - m)) by lia. apply Ho. lia. }
    induction d as [|d IH]; intros m x.
    - simpl. unfold timed. simpl. destruct (it x) as [[x'|s']|]; cbn [obind].
      + destruct (timer m) eqn:E; [by eexists|]. exists Panic. intros Hm.
        replace m with k in E by lia. congruence.
      + by eexists.
      + by eexists.
    - change (∃ o, m + S d = k → match timed it st timer (m, x) with
        | Panic => Some Panic | Val (inr r) => Some (Val r)
        | Val (inl s') => loop (timed it st timer) (S d) s' end = Some o).
      unfold timed at 1. simpl fst. simpl snd. destruct (it x) as [[x'|s']|]; cbn [obind].
      + destruct (timer m) eqn:E; [by eexists|]. destruct (IH (S m) x') as [o Ho].
        exists o. intros Hm. apply Ho. lia.
      + by eexists.
      + by eexists. }
  destruct prob as [[acc smp]|].
  - unfold do_probabilistic_search. rewrite do_probabilistic_search_timed.
    destruct (Hgen _ (probabilistic_iteration bd acc smp) snd 0 ((0, 0), search_init (sweep_new root) (length adj))) as [o Ho].
    rewrite Nat.sub_0_r in Ho. rewrite Ho by lia. destruct o as [[r b]|]; by eexists.
  - unfold do_search. rewrite do_search_timed.
    destruct (Hgen _ (search_iteration bd) id 0 (search_init (sweep_new root) (length adj))) as [o Ho].
    rewrite Nat.sub_0_r in Ho. rewrite Ho by lia. destruct o as [[r b]|]; by eexists.
Qed.

(** ** Build profiles and manual scheduling *)

Lemma build_manual :
  ∀ T (mT : MeasurableSet T) (lT : LawfulMeasurableSet T) adj g σ (s : Scheduler T) M,
  wf_input adj g → scheduler_reached adj g σ s →
  scheduler_focus_inplace Debug s M = scheduler_focus_inplace Release s M ∧
  scheduler_focus Debug s M = scheduler_focus Release s M ∧
  time_focus_inplace Debug (s_time s) M = time_focus_inplace Release (s_time s) M ∧
  time_focus Debug (s_time s) M = time_focus Release (s_time s) M ∧
  (length M ≤ length (ms_set (measurable (s_time s))) →
     ∀ bd, scheduler_focus_inplace bd s M ≠ Panic ∧ scheduler_focus bd s M ≠ Panic).
Proof.
  intros T mT lT adj g σ s M Hin Hr. pose proof (scheduler_reached_inv adj g Hin σ s Hr) as Hi.
  assert (time_focus_inplace Debug (s_time s) M = time_focus_inplace Release (s_time s) M ∧
    time_focus Debug (s_time s) M = time_focus Release (s_time s) M) as [Et1 Et2].
  { destruct (time_focus_cases (length adj) g (proj2 Hin) σ (s_time s) M (sched_gen_inv adj g σ s Hi))
      as [(_ & E)|[(_ & _ & _ & t' & E & _)|(_ & _ & l & _ & _ & E)]];
    destruct (E Debug) as [-> ->]; by destruct (E Release) as [-> ->]. }
  destruct (scheduler_focus_cases adj g Hin σ s M Hi)
    as [(Hl & E)|[(_ & _ & _ & s1 & E & Et & _)|(_ & _ & l & _ & _ & Et & E)]];
    pose proof (E Debug) as [E1 E2]; pose proof (E Release) as [E3 E4];
    rewrite E1, E2, E3, E4; (split; [done|]); (split; [done|]); (split; [done|]); (split; [done|]).
  - lia.
  - intros _ bd. by destruct (E bd) as [-> ->].
  - intros _ bd. by destruct (E bd) as [-> ->].
Qed.

Lemma build_graph :
  ∀ adj σ gr M, wf_spacial adj → graph_reached adj σ gr →
  graph_focus_inplace Debug gr M = graph_focus_inplace Release gr M ∧
  graph_focus Debug gr M = graph_focus Release gr M ∧
  ((∀ v, v ∈ M → v < length adj) →
     ∀ bd, graph_focus_inplace bd gr M ≠ Panic ∧ graph_focus bd gr M ≠ Panic).
Proof.
  intros adj σ gr M Hs Hr. destruct (graph_reached_spec adj Hs σ gr Hr) as (-> & Hnd & Hlt).
  assert (graph_focus_inplace Debug (graph_at adj σ) M = graph_focus_inplace Release (graph_at adj σ) M ∧
    ((∀ v, v ∈ M → v < length adj) → ∀ bd, graph_focus_inplace bd (graph_at adj σ) M ≠ Panic)) as [E1 E2].
  { destruct (first_bad adj Hs (concat σ) M) as [(H1 & H2 & H3)|(M1 & b & M2 & -> & (H1 & H2 & H3) & Hb)].
    - assert (∀ bd, graph_focus_inplace bd (graph_at adj σ) M = Val (graph_at adj (σ ++ [M]), Ok tt)) as E.
      { intros bd. apply graph_focus_inplace_spec; try done; apply Hs. }
      rewrite !E. split; [done|]. intros _ bd. by rewrite E.
    - destruct Hb as [Hb|[Hb1 Hb2]]; unfold graph_focus_inplace, graph_at.
      + rewrite !(measure_all_panic adj Hs) by done. split; [done|]. intros H. exfalso.
        specialize (H b). rewrite elem_of_app in H. specialize (H ltac:(right; left)). lia.
      + assert (∀ bd mx, measure_all bd (graph_mid adj (concat σ) [] mx) (M1 ++ b :: M2)
          = Val (graph_mid adj (concat σ) M1 mx, Err (mkAlreadyMeasured b))) as E.
        { intros bd mx. apply measure_all_error; try done; apply Hs. }
        rewrite !E. split; [done|]. intros _ bd. by rewrite E. }
  unfold graph_focus. rewrite E1. split; [done|]. split; [done|]. intros H bd.
  split; [by apply E2|]. specialize (E2 H bd).
  by destruct (graph_focus_inplace bd (graph_at adj σ) M) as [[? []]|].
Qed.

Lemma build_search :
  ∀ adj g timer ho prob fuel, wf_input adj g →
  search_single Debug fuel timer ho adj g prob = search_single Release fuel timer ho adj g prob ∧
  (calm prob → ∀ bd, search_single bd fuel timer ho adj g prob ≠ Some Panic).
Proof.
  intros adj g timer ho prob fuel Hin. split; [by apply search_build|].
  intros Hcalm bd Hp. destruct (search_core adj g Hin) as (root & Hn & Hf & Hok & Hbk & Hcore).
  destruct (Hcore _ _ _ _ _ _ Hp (or_introl Hcalm)) as (j & to & s & fin & E & Hrest). unfold finish in E.
  destruct (filter_results_spec (length adj) (ss_results fin)) as (f & Ef & _).
  by rewrite Ef in E.
Qed.

(** ** The shape of the result, for all inputs *)

Lemma search_tradeoff :
  ∀ adj g timer ho prob bd fuel ps, (∀ l, ho l ≡ₚ l) →
  search_single bd fuel timer ho adj g prob = Some (Val ps) → tradeoff ps.
Proof.
  intros adj g timer ho prob bd fuel ps Hho. unfold search_single.
  destruct (search_scheduler adj g) as [s|]; [|done].
  match goal with |- match ?m with _ => _ end = _ → _ => destruct m as [[[res b]|]|] end; [|done..].
  intros [= E]. by eapply finish_tradeoff.
Qed.

(** ** The properties one by one *)

Lemma time_optimal_path :
  ∀ adj g, wf_input adj g →
  ∃ p, (∀ bd, returns (λ fuel, get_time_optimal bd fuel adj g) [p]) ∧ path_ok adj g p.
Proof. intros adj g H. destruct (time_optimal_valid adj g H) as (p & ? & ? & _). by exists p. Qed.

Lemma time_optimal_fastest :
  ∀ adj g p bd, wf_input adj g → returns (λ fuel, get_time_optimal bd fuel adj g) [p] →
  (∀ σ, valid_schedule g σ → time p ≤ time_cost σ) ∧
  (* the time is the length of a longest dependency chain *)
  (∃ l, chained g l ∧ (∀ b, b ∈ l → listed g b) ∧ length l = time p) ∧
  (∀ l, chained g l → (∀ b, b ∈ l → listed g b) → length l ≤ time p).
Proof.
  intros adj g p bd H Hr. destruct (time_optimal_valid adj g H) as (p' & Hr' & _ & H1 & H2 & H3 & _).
  pose proof (finishes_det _ _ _ Hr (Hr' bd)) as [= ->]. done.
Qed.

Lemma time_optimal_layers :
  ∀ adj g p bd, wf_input adj g → returns (λ fuel, get_time_optimal bd fuel adj g) [p] → canonical g →
  same_schedule (steps p) (filter (λ M : step, M ≠ []) (layers g)).
Proof.
  intros adj g p bd H Hr. destruct (time_optimal_valid adj g H) as (p' & Hr' & _ & _ & _ & _ & H1).
  by pose proof (finishes_det _ _ _ Hr (Hr' bd)) as [= ->].
Qed.

Lemma returns_calmed bd timer ho adj g prob ps :
  returns (λ fuel, search_single bd fuel timer ho adj g prob) ps →
  returns (λ fuel, search_single bd fuel timer ho adj g (calm_single prob)) ps.
Proof.
  intros [f0 Hr]. exists f0. intros fuel Hf. specialize (Hr fuel Hf).
  destruct (search_single_calmed bd fuel timer ho adj g prob) as [E|E]; congruence.
Qed.

Lemma search_paths :
  ∀ adj g timer ho prob bd ps, wf_input adj g → (∀ l, ho l ≡ₚ l) →
  returns (λ fuel, search_single bd fuel timer ho adj g prob) ps → Forall (path_ok adj g) ps.
Proof.
  intros adj g timer ho prob bd ps H Hho Hr.
  destruct (search_valid adj g timer ho (calm_single prob) H Hho (calm_single_calm prob)) as (ps' & Hr' & H1 & _).
  by pose proof (finishes_det _ _ _ (returns_calmed bd timer ho adj g prob ps Hr) (Hr' bd)) as [= ->].
Qed.

Lemma search_returns :
  ∀ adj g timer ho prob, wf_input adj g → (∀ l, ho l ≡ₚ l) → calm prob →
  ∃ ps, ∀ bd, returns (λ fuel, search_single bd fuel timer ho adj g prob) ps.
Proof.
  intros adj g timer ho prob H Hho Hc. destruct (search_valid adj g timer ho prob H Hho Hc) as (ps & Hr & _).
  by exists ps.
Qed.
