(** * Searching graphs with neighbours that are not nodes *)
From Verif Require Export DanglingFacts FilterFacts.

Section search.
  Context (adj : spacial) (P : nat → Prop).
  Notation n := (length adj).
  Notation fine b := (¬ dangling adj b).
  Notation fines := (Forall (λ b, ¬ dangling adj b)).
  Notation H := (∀ b, P b → ¬ dangling adj b).

  Lemma all_fine M : Forall P M → H → fines M.
  Proof. intros HM HH. eapply Forall_impl; [exact HM|]. auto. Qed.

  Definition same_scheduler {T} `{LawfulMeasurableSet T} (s s' : Scheduler T) : Prop :=
    s_time s' = s_time s ∧ alike P (s_time s) (s_time s) ∧ in_step adj (s_space s) (s_space s').

  (** ** The time optimal path *)

  Definition same_greedy (x y : Scheduler (list nat) * Steps * N) : Prop :=
    same_scheduler x.1.1 y.1.1 ∧ x.1.2 = y.1.2 ∧ x.2 = y.2 ∧ fines (concat x.1.2).

  Definition same_answer (x y : Steps * N) : Prop := x = y ∧ fines (concat x.1).

  Lemma time_optimal_body_step bd x y :
    same_greedy x y → lock H (either same_greedy same_answer) (time_optimal_body bd x) (time_optimal_body bd y).
  Proof.
    destruct x as [[s p] m], y as [[s' p'] m']. intros ((Ht & Hal & Hs) & E1 & E2 & Hp).
    cbn [fst snd] in *. subst p' m'. unfold time_optimal_body. rewrite Ht.
    destruct (measurable (s_time s)) as [|b M] eqn:EM; [by apply lock_val|].
    set (S := b :: M) in *. unfold scheduler_focus_inplace. rewrite Ht.
    unfold time_focus_inplace.
    destruct (time_partition (ms_set (measurable (s_time s))) S) as [r|] eqn:Ep; cbn [obind]; [|done].
    destruct r as [new|e]; cbn [obind]; [|done].
    apply (time_partition_sub P) in Ep as [Ep1 Ep2].
    pose proof (proj1 (Forall_forall _ _) (al_set _ _ _ Hal)) as Hset.
    assert (Forall P S) as HS by (apply Forall_forall; auto).
    assert (Forall P new) as Hn by (apply Forall_forall; auto).
    pose proof (focus_unchecked_alike P bd (s_time s) (s_time s) S new Hal HS Hn) as Hf.
    unfold time_focus_unchecked in Hf.
    destruct (update_unchecked bd (dependents (s_time s)) (deps_counter (s_time s)) S new) as [[dc nw]|];
      cbn [obind] in *; [|done].
    pose proof (space_focus_step adj bd S _ _ Hs) as Hsp.
    destruct (space_focus_inplace bd (s_space s) S) as [[g r]|]; cbn [obind lock] in *.
    - destruct Hsp as ([g' r'] & -> & HA & HB & HC). cbn [fst snd] in *. subst r'. cbn [obind].
      destruct r as [[]|e]; cbn [obind]; [|done]. apply lock_val. unfold either, same_greedy.
      cbn [fst snd]. split; [by split|]. split; [done|]. split.
      + cbn [s_space]. by rewrite (is_prune _ _ _ HA).
      + rewrite concat_app. apply Forall_app. split; [done|]. simpl. rewrite app_nil_r. by apply HC.
    - intros HH. rewrite (Hsp (all_fine _ HS HH)). done.
  Qed.

  (** ** The sweep *)

  Notation PScheduler := (Scheduler Partitioner).

  Definition same_next (x y : PScheduler * option (PScheduler * list nat)) : Prop :=
    same_scheduler x.1 y.1 ∧
    match x.2, y.2 with
    | None, None => True
    | Some (c, M), Some (c', M') => same_scheduler c c' ∧ M = M' ∧ fines M
    | _, _ => False
    end.

  Lemma next_and_focus_step bd s s' :
    same_scheduler s s' →
    lock H same_next (scheduler_next_and_focus bd s) (scheduler_next_and_focus bd s').
  Proof.
    intros (Ht & Hal & Hs). unfold scheduler_next_and_focus, time_next_and_focus. rewrite Ht.
    unfold partition_next.
    destruct (piter (measurable (s_time s))) as [|sub rest] eqn:Ep; cbn [obind].
    { apply lock_val. split; [|done]. split; [done|]. split; [|done].
      destruct Hal as [A1 A2 A3 A4 A5]. by split. }
    destruct (partition_map 0 sub (pset (measurable (s_time s)))) as [a b] eqn:Em.
    assert (shuffle (pset (measurable (s_time s))) a b) as Hsh.
    { pose proof (partition_map_shuffle 0 sub (pset (measurable (s_time s)))) as HH. by rewrite Em in HH. }
    apply shuffle_sublist in Hsh as [Ha Hb].
    pose proof (proj1 (Forall_forall _ _) (al_set _ _ _ Hal)) as Hset. simpl in Hset.
    set (u := mkPathGenerator _ (deps_counter (s_time s)) (dependents (s_time s))).
    assert (alike P u u) as Hu.
    { destruct Hal as [A1 A2 A3 A4 A5]. unfold u. split; simpl; done. }
    destruct b as [|x b]; cbn [obind]; [by apply lock_val|].
    assert (Forall P (x :: b)) as HB
      by (apply Forall_forall; intros y Hy; apply Hset; by eapply elem_of_submseteq; [|apply sublist_submseteq]).
    assert (Forall P a) as HA
      by (apply Forall_forall; intros y Hy; apply Hset; by eapply elem_of_submseteq; [|apply sublist_submseteq]).
    pose proof (focus_unchecked_alike P bd u u (x :: b) a Hu HB HA) as Hf.
    destruct (time_focus_unchecked bd u (x :: b) a) as [new|]; cbn [obind]; [|done].
    cbn [s_space].
    pose proof (space_focus_step adj bd (x :: b) _ _ Hs) as Hsp.
    destruct (space_focus_inplace bd (s_space s) (x :: b)) as [[g r]|]; cbn [obind lock] in *.
    - destruct Hsp as ([g' r'] & -> & HA' & HB' & HC'). cbn [fst snd] in *. subst r'. cbn [obind].
      destruct r as [[]|e]; [|done]. apply lock_val. split; [by split|]. cbn [snd].
      split; [by split|]. split; [done|]. by apply HC'.
    - intros HH. by rewrite (Hsp (all_fine _ HB HH)).
  Qed.

  Definition same_sweep (x y : Sweep PScheduler) : Prop :=
    same_scheduler (current x) (current y) ∧ Forall2 same_scheduler (stack x) (stack y).

  Definition same_move (x y : Sweep PScheduler * option (Step (list nat) (option N))) : Prop :=
    same_sweep x.1 y.1 ∧ x.2 = y.2 ∧ match x.2 with Some (Forward M) => fines M | _ => True end.

  Lemma same_leaf s s' : same_scheduler s s' → scheduler_at_leaf s' = scheduler_at_leaf s.
  Proof. intros (Ht & _ & Hs). unfold scheduler_at_leaf. rewrite Ht. by rewrite (is_prune _ _ _ Hs). Qed.

  Lemma sweep_next_step bd x y :
    same_sweep x y →
    lock H same_move (sweep_next (H := scheduler_focus_iterator bd) x)
      (sweep_next (H := scheduler_focus_iterator bd) y).
  Proof.
    intros [Hc Hst]. unfold sweep_next. cbn [next_and_focus scheduler_focus_iterator at_leaf].
    eapply lock_bind; [by apply next_and_focus_step|].
    intros [c r] [c' r'] [Hcc Hr]. cbn [fst snd] in *.
    destruct r as [[new M]|], r' as [[new' M']|]; try done.
    - destruct Hr as (Hn & <- & HM). apply lock_val. split; [|by split]. split; [done|].
      cbn [stack]. by constructor.
    - rewrite (same_leaf _ _ Hcc). destruct Hst as [|t t' st st' Ht Hst].
      + apply lock_val. split; [|by split]. by split; [|constructor].
      + apply lock_val. split; [|by split]. by split.
  Qed.

  Definition fine_results (res : MappedPaths) : Prop :=
    ∀ t m q, res !! t = Some (m, q) → fines (concat q).

  Record same_state (s s' : SearchState) : Prop := {
    sm_sweep : same_sweep (ss_scheduler s) (ss_scheduler s');
    sm_path : ss_path s' = ss_path s;
    sm_best : ss_best s' = ss_best s;
    sm_results : ss_results s' = ss_results s;
    sm_fine : fines (concat (ss_path s));
    sm_found : fine_results (ss_results s)
  }.

  Definition same_drawn (x y : Draws * SearchState) : Prop := x.1 = y.1 ∧ same_state x.2 y.2.

  Lemma fines_pop p : fines (concat p) → fines (concat (pop p)).
  Proof.
    intros Hp. unfold pop. rewrite <- (take_drop (length p - 1) p) in Hp at 1.
    rewrite concat_app in Hp. by apply Forall_app in Hp as [? _].
  Qed.

  Lemma fines_snoc p M : fines (concat p) → fines M → fines (concat (p ++ [M])).
  Proof. intros. rewrite concat_app. apply Forall_app. split; [done|]. simpl. by rewrite app_nil_r. Qed.

  Lemma backward_fine leaf p best res p' best' res' :
    fines (concat p) → fine_results res → backward leaf p best res = Val (p', best', res') →
    fines (concat p') ∧ fine_results res'.
  Proof.
    intros Hp Hr. unfold backward. destruct leaf as [m|].
    - destruct (index_set best (length p) m) as [b|]; cbn [obind]; [|done]. intros [= <- _ <-].
      split; [by apply fines_pop|]. intros t m' q. rewrite lookup_insert_Some.
      intros [[_ [= _ <-]]|[_ Hq]]; [done|by eapply Hr].
    - intros [= <- _ <-]. split; [by apply fines_pop|done].
  Qed.

  Lemma skip_step x y :
    same_sweep x y →
    same_sweep (skip_current x).1 (skip_current y).1 ∧ (skip_current x).2 = (skip_current y).2.
  Proof.
    intros Hxy. pose proof Hxy as [Hc Hst]. unfold skip_current.
    destruct (stack x) as [|t st], (stack y) as [|t' st']; [by split|by inversion Hst|by inversion Hst|].
    apply Forall2_cons in Hst as [Ht Hst]. split; [|done]. by split.
  Qed.

  Lemma min_length_step x y p :
    same_sweep x y → minimum_path_length (s_time (current y)) p = minimum_path_length (s_time (current x)) p.
  Proof. intros [(Ht & _) _]. by rewrite Ht. Qed.

  Lemma search_iteration_step bd s s' :
    same_state s s' →
    lock H (either same_state same_state) (search_iteration bd s) (search_iteration bd s').
  Proof.
    intros [H1 H2 H3 H4 H5 H6]. unfold search_iteration. rewrite H2, H3, H4.
    eapply lock_bind; [by apply sweep_next_step|].
    intros [x st] [y st'] (Hxy & Hst & HM). cbn [fst snd] in *. subst st'.
    destruct st as [[M|leaf]|].
    - unfold forward. rewrite (min_length_step _ _ _ Hxy).
      destruct (index (ss_best s) _) as [bound|]; cbn [obind]; [|done].
      assert (max_memory (s_space (current y)) = max_memory (s_space (current x))) as ->.
      { destruct Hxy as [(_ & _ & Hs) _]. by rewrite (is_prune _ _ _ Hs). }
      destruct (bound <=? _)%N.
      + destruct (skip_step _ _ Hxy) as [Hk1 Hk2].
        destruct (skip_current x) as [x' r], (skip_current y) as [y' r']. cbn [fst snd] in *. subst r'.
        destruct r; cbn [obind]; apply lock_val; by split.
      + cbn [obind]. apply lock_val. split; try done. by apply fines_snoc.
    - destruct (backward leaf (ss_path s) (ss_best s) (ss_results s)) as [[[p best] res]|] eqn:Eb; cbn [obind]; [|done].
      destruct (backward_fine _ _ _ _ _ _ _ H5 H6 Eb). apply lock_val. by split.
    - apply lock_val. by split.
  Qed.

  Lemma probabilistic_iteration_step bd acc smp x y :
    same_drawn x y →
    lock H (either same_drawn same_state) (probabilistic_iteration bd acc smp x) (probabilistic_iteration bd acc smp y).
  Proof.
    destruct x as [d s], y as [d' s']. intros [Ed [H1 H2 H3 H4 H5 H6]]. cbn [fst snd] in *. subst d'.
    unfold probabilistic_iteration. rewrite H2, H3, H4.
    assert (current_memory (s_space (current (ss_scheduler s'))) = current_memory (s_space (current (ss_scheduler s))))
      as -> by (destruct H1 as [(_ & _ & Hs) _]; by rewrite (is_prune _ _ _ Hs)).
    assert (max_memory (s_space (current (ss_scheduler s'))) = max_memory (s_space (current (ss_scheduler s))))
      as -> by (destruct H1 as [(_ & _ & Hs) _]; by rewrite (is_prune _ _ _ Hs)).
    eapply lock_bind; [by apply sweep_next_step|].
    intros [x st] [y st'] (Hxy & Hst & HM). cbn [fst snd] in *. subst st'.
    destruct st as [[M|leaf]|].
    - unfold probabilistic_forward. rewrite (min_length_step _ _ _ Hxy).
      destruct (index (ss_best s) _) as [bound|]; cbn [obind]; [|done].
      assert (max_memory (s_space (current y)) = max_memory (s_space (current x)) ∧
        current_memory (s_space (current y)) = current_memory (s_space (current x)) ∧
        s_time (current y) = s_time (current x) ∧
        length (nodes (s_space (current y))) = length (nodes (s_space (current x)))) as (-> & -> & -> & ->).
      { destruct Hxy as [(Ht & _ & Hs) _]. rewrite (is_prune _ _ _ Hs), Ht. cbn [prune max_memory current_memory nodes].
        by rewrite map_length. }
      destruct (skip_step _ _ Hxy) as [Hk1 Hk2].
      destruct (skip_current x) as [x' r], (skip_current y) as [y' r']. cbn [fst snd] in *. subst r'.
      assert (same_state (mkSearchState x (ss_path s ++ [M]) (ss_best s) (ss_results s))
        (mkSearchState y (ss_path s ++ [M]) (ss_best s) (ss_results s))) as Hgo.
      { split; try done. by apply fines_snoc. }
      assert (same_state (mkSearchState x' (ss_path s) (ss_best s) (ss_results s))
        (mkSearchState y' (ss_path s) (ss_best s) (ss_results s))) as Hskip by (by split).
      destruct (bound <=? _)%N.
      + destruct r; cbn [obind]; apply lock_val; by try split.
      + destruct (last (ss_best s)) as [lb|]; cbn [obind]; [|done].
        destruct (acc _ _ _ _ _ _ _ _) as [a|]; cbn [obind]; [|done].
        destruct (SFleb _ _); [|destruct (SFltb _ _)]; [..|destruct r]; cbn [obind]; apply lock_val; by try split.
    - destruct (backward leaf (ss_path s) (ss_best s) (ss_results s)) as [[[p best] res]|] eqn:Eb; cbn [obind]; [|done].
      destruct (backward_fine _ _ _ _ _ _ _ H5 H6 Eb). apply lock_val. split; [done|]. by split.
    - apply lock_val. by split.
  Qed.

  Definition same_found (x y : MappedPaths * list N) : Prop := x = y ∧ fine_results x.1.

  Lemma do_search_step bd timer fuel x y :
    x.1 = y.1 → same_state x.2 y.2 →
    locks H same_found (loop (do_search_body bd timer) fuel x) (loop (do_search_body bd timer) fuel y).
  Proof.
    intros Hk Hs.
    apply (lock_loop H (λ x y, x.1 = y.1 ∧ same_state x.2 y.2)); [|done]. clear.
    intros [k s] [k' s'] [Ek Hs]. cbn [fst snd] in *. subst k'. unfold do_search_body. cbn [fst snd].
    eapply lock_bind; [by apply search_iteration_step|]. intros [a|a] [b|b] Hab; try done.
    - destruct (timer k); apply lock_val; [|done]. destruct Hab. split; cbn [fst]; [congruence|done].
    - apply lock_val. destruct Hab. split; cbn [fst]; [congruence|done].
  Qed.

  Lemma do_probabilistic_search_step bd timer acc smp fuel x y :
    x.1 = y.1 → same_drawn x.2 y.2 →
    locks H same_found (loop (do_probabilistic_search_body bd timer acc smp) fuel x)
      (loop (do_probabilistic_search_body bd timer acc smp) fuel y).
  Proof.
    intros Hk Hs.
    apply (lock_loop H (λ x y, x.1 = y.1 ∧ same_drawn x.2 y.2)); [|done]. clear.
    intros [k s] [k' s'] [Ek Hs]. cbn [fst snd] in *. subst k'. unfold do_probabilistic_search_body. cbn [fst snd].
    eapply lock_bind; [by apply probabilistic_iteration_step|]. intros [a|a] [b|b] Hab; try done.
    - destruct (timer k); apply lock_val; [|done]. destruct Hab as [_ []]. split; cbn [fst]; [congruence|done].
    - apply lock_val. destruct Hab. split; cbn [fst]; [congruence|done].
  Qed.

  (** ** The multi threaded search *)

  Record same_job (j j' : Job) : Prop := {
    sj_scheduler : same_scheduler (job_scheduler j) (job_scheduler j');
    sj_measure : job_measure j' = job_measure j;
    sj_fine : fines (default [] (job_measure j))
  }.

  Record same_task (t t' : Task) : Prop := {
    st_search : same_state (t_search t) (t_search t');
    st_init : t_initialized t' = t_initialized t;
    st_counter : t_counter t' = t_counter t;
    st_drawn : t_drawn t' = t_drawn t
  }.

  Definition same_status (s s' : Status) : Prop :=
    match s, s' with
    | Waiting j, Waiting j' => same_job j j'
    | Running t, Running t' | Ending t, Ending t' => same_task t t'
    | Finished, Finished => True
    | _, _ => False
    end.

  Record same_system (x y : System) : Prop := {
    sy_tasks : Forall2 same_status (sys_tasks x) (sys_tasks y);
    sy_best : sys_best y = sys_best x;
    sy_results : sys_results y = sys_results x;
    sy_fine : fine_results (sys_results x)
  }.

  Lemma spawn_step bd bound fuel s s' jobs jobs' k :
    same_scheduler s s' → Forall2 same_job jobs jobs' →
    locks H (Forall2 same_job) (loop (spawn_body bd bound) fuel (s, jobs, k))
      (loop (spawn_body bd bound) fuel (s', jobs', k)).
  Proof.
    intros Hs Hj.
    apply (lock_loop H (λ x y, same_scheduler x.1.1 y.1.1 ∧ Forall2 same_job x.1.2 y.1.2 ∧ x.2 = y.2)); [|done].
    clear. intros [[s jobs] k] [[s' jobs'] k'] (Hs & Hj & Hk). cbn [fst snd] in *. subst k'.
    unfold spawn_body. eapply lock_bind; [by apply next_and_focus_step|].
    intros [c r] [c' r'] [Hc Hr]. cbn [fst snd] in *.
    assert (same_job (mkJob c None) (mkJob c' None)) as Hrest by (split; [done|done|constructor]).
    destruct r as [[new M]|], r' as [[new' M']|]; try done.
    - destruct Hr as (Hn & <- & HM).
      assert (same_job (mkJob new (Some M)) (mkJob new' (Some M))) as Hnew by (by split).
      destruct (_ =? _)%Z; apply lock_val; simpl.
      + apply Forall2_app; [|by constructor]. apply Forall2_app; [done|]. by constructor.
      + split; [done|]. split; [|done]. apply Forall2_app; [done|]. by constructor.
    - apply lock_val. apply Forall2_app; [done|]. by constructor.
  Qed.

  Lemma merge_from_fine t shared this new res :
    fine_results new → fine_results res → fine_results (merge_from t shared this new res).2.
  Proof.
    revert t this new res. induction shared as [|s shared IH]; intros t [|m this] new res Hn Hr; simpl; try done.
    destruct (m <=? s)%N; simpl; [|by apply IH].
    apply IH.
    - intros k m' q. rewrite lookup_delete_Some. intros [_ Hq]. by eapply Hn.
    - destruct (new !! t) as [[m' q]|] eqn:E; [|done].
      intros k m0 q0. rewrite lookup_insert_Some. intros [[_ [= _ <-]]|[_ Hq]]; [by eapply Hn|by eapply Hr].
  Qed.

  Lemma merge_fine shared res new this :
    fine_results new → fine_results res → fine_results (Threaded.merge shared res new this).2.
  Proof. intros. unfold Threaded.merge. destruct (_ =? _); [done|]. by apply merge_from_fine. Qed.

  Lemma task_end_step t t' :
    same_task t t' → task_end t' = task_end t ∧ ∀ x, task_end t = Val x → fine_results x.1.
  Proof.
    intros [[H1 H2 H3 H4 H5 H6] H7 H8 _]. unfold task_end. rewrite H2, H3, H4, H7, H8.
    assert (max_memory (s_space (current (ss_scheduler (t_search t'))))
      = max_memory (s_space (current (ss_scheduler (t_search t))))) as ->.
    { destruct H1 as [(_ & _ & Hs) _]. by rewrite (is_prune _ _ _ Hs). }
    split; [done|]. intros x. destruct (_ && _)%bool.
    - destruct (backward _ _ _ _) as [[[p best] res]|] eqn:Eb; cbn [obind]; [|done].
      intros [= <-]. by destruct (backward_fine _ _ _ _ _ _ _ H5 H6 Eb).
    - by intros [= <-].
  Qed.

  Definition same_round (x y : list N * Task * bool) : Prop :=
    x.1.1 = y.1.1 ∧ same_task x.1.2 y.1.2 ∧ x.2 = y.2.

  Lemma task_iteration_step bd prob shared fin t t' :
    same_task t t' →
    lock H same_round (task_iteration bd prob shared fin t) (task_iteration bd prob shared fin t').
  Proof.
    intros [H1 H2 H3 H4]. unfold task_iteration. rewrite H2, H3, H4.
    eapply (lock_bind _ (either same_drawn same_state)).
    - destruct prob as [[acc smp]|].
      + apply probabilistic_iteration_step. by split.
      + eapply lock_bind; [by apply search_iteration_step|]. intros [a|a] [b|b] Hab; try done.
        * apply lock_val. by split.
        * by apply lock_val.
    - intros [[d s]|s] [[d' s']|s'] Hab; try done.
      + destruct Hab as [Hd Hs]. cbn [fst snd] in *. subst d'.
        rewrite (sm_best _ _ Hs).
        destruct (update shared (ss_best s) (t_counter t) fin) as [[[sh this] counter] stop].
        apply lock_val. split; [done|]. split; [|done]. cbn [fst snd]. split; try done.
        cbn [t_search]. destruct Hs as [S1 S2 S3 S4 S5 S6]. by split.
      + apply lock_val. split; [done|]. split; [|done]. by split.
  Qed.

  Lemma status_insert i x y l l' :
    Forall2 same_status l l' → same_status x y → Forall2 same_status (<[i := x]> l) (<[i := y]> l').
  Proof. intros. by apply Forall2_insert. Qed.

  Lemma unfinished_step l l' : Forall2 same_status l l' → unfinished l' = unfinished l.
  Proof.
    unfold unfinished. induction 1 as [|s s' l l' Hs Hl IH]; [done|].
    rewrite !filter_cons. destruct s, s'; try done; simpl; by rewrite ?IH.
  Qed.

  Lemma exec_step bd nthreads prob x y e :
    same_system x y → locks H same_system (exec bd nthreads prob x e) (exec bd nthreads prob y e).
  Proof.
    intros [Ht Hb Hr Hf].
    assert (∀ i, match sys_tasks x !! i, sys_tasks y !! i with
      | Some s, Some s' => same_status s s' | None, None => True | _, _ => False end) as Hi.
    { intros i. pose proof (proj1 (Forall2_lookup _ _ _) Ht i) as Hl. by destruct Hl. }
    destruct e as [i|i fin|i]; cbn [exec]; specialize (Hi i);
      destruct (sys_tasks x !! i) as [[j|t|t|]|], (sys_tasks y !! i) as [[j'|t'|t'|]|]; try done; simpl in Hi.
    - rewrite (unfinished_step (take i (sys_tasks x)) (take i (sys_tasks y))) by (by apply Forall2_take).
      destruct (_ <? _); [|done]. eexists. split; [reflexivity|]. split; cbn [sys_tasks sys_best sys_results]; try done.
      apply status_insert; [done|]. simpl. destruct Hi as [J1 J2 J3]. rewrite Hb. unfold task_start. rewrite J2.
      split; try done. cbn [t_search]. split; try done; cbn [ss_path ss_results ss_scheduler].
      + by split; [|constructor].
      + destruct (job_measure j) as [M|]; [|constructor]. simpl in *. by rewrite app_nil_r.
    - rewrite Hb. set (pr := match prob with Some _ => _ | None => _ end).
      pose proof (task_iteration_step bd pr (sys_best x) fin t t' Hi) as Hk.
      destruct (task_iteration bd pr (sys_best x) fin t) as [[[sh a] stop]|]; cbn [obind lock locks] in *.
      + destruct Hk as ([[sh' a'] stop'] & -> & K1 & K2 & K3). cbn [fst snd] in *. subst sh' stop'. cbn [obind].
        eexists. split; [reflexivity|]. split; cbn [sys_tasks sys_best sys_results]; try done.
        apply status_insert; [done|]. by destruct stop.
      + intros HH. by rewrite (Hk HH).
    - destruct (task_end_step _ _ Hi) as [-> Hfine]. rewrite Hb, Hr.
      destruct (task_end t) as [[res best]|]; cbn [obind locks]; [|done].
      eexists. split; [reflexivity|]. split; cbn [sys_tasks sys_best sys_results]; try done.
      + by apply status_insert.
      + apply merge_fine; [|done]. by apply (Hfine (res, best)).
  Qed.

  Lemma run_events_step bd nthreads prob x y es :
    same_system x y → locks H same_system (run_events bd nthreads prob x es) (run_events bd nthreads prob y es).
  Proof.
    revert x y. induction es as [|e es IH]; intros x y Hs; simpl; [by exists y|].
    pose proof (exec_step bd nthreads prob x y e Hs) as He.
    destruct (exec bd nthreads prob x e) as [[x1|]|]; simpl in *.
    - destruct He as (y1 & -> & H1). by apply IH.
    - intros HH. by rewrite (He HH).
    - by rewrite He.
  Qed.

  Lemma all_finished_step x y : same_system x y → all_finished y = all_finished x.
  Proof.
    intros [Ht _ _ _]. unfold all_finished. induction Ht as [|s s' l l' Hs Hl IH]; [done|]. simpl.
    rewrite IH. by destruct s, s'.
  Qed.
End search.
