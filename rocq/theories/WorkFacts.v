(** * The number of iterations of sweeps and searches *)
From Verif Require Export EnumFacts Termination SpawnFacts PoolFacts MainSweep WorkSpec.

Section generic.
  Context {T Item Leaf : Type} `{FI : FocusIterator T Item Leaf}.

  (** The paths of all nodes that are still to be visited below a node. *)
  Inductive explores (p : list Item) : T → list (list Item) → Prop :=
  | ex_end t t' :
      next_and_focus t = Val (t', None) → explores p t []
  | ex_child t t' c i qs rs :
      next_and_focus t = Val (t', Some (c, i)) → explores (p ++ [i]) c qs → explores p t' rs →
      explores p t ((p ++ [i]) :: qs ++ rs).

  (** Their number. *)
  Inductive nodes_left : T → nat → Prop :=
  | nl_end t t' : next_and_focus t = Val (t', None) → nodes_left t 0
  | nl_child t t' c i a b :
      next_and_focus t = Val (t', Some (c, i)) → nodes_left c a → nodes_left t' b →
      nodes_left t (S (a + b)).

  Lemma explores_nodes p t qs : explores p t qs → nodes_left t (length qs).
  Proof.
    induction 1 as [p t t' E|p t t' c i qs rs E _ IH1 _ IH2]; [by eapply nl_end|].
    simpl. rewrite app_length. by eapply nl_child.
  Qed.

  Lemma nodes_collect t k :
    nodes_left t k → ∀ par st p results, ∃ p' results', ∀ fuel,
      loop collect_body (2 * k + 1 + fuel) (mkSweep t (par :: st), p, results)
      = loop collect_body fuel (mkSweep par st, p', results').
  Proof.
    induction 1 as [t t' E|t t' c i a b E _ IH1 _ IH2]; intros par st p results.
    - destruct (at_leaf t') as [l|] eqn:El.
      + exists (pop p), (results ++ [(p, l)]). intros fuel. simpl. unfold sweep_next. simpl.
        rewrite E. cbn [obind]. by rewrite El.
      + exists (pop p), results. intros fuel. simpl. unfold sweep_next. simpl.
        rewrite E. cbn [obind]. by rewrite El.
    - destruct (IH1 t' (par :: st) (p ++ [i]) results) as (p1 & r1 & H1).
      destruct (IH2 par st p1 r1) as (p2 & r2 & H2). exists p2, r2. intros fuel.
      replace (2 * S (a + b) + 1 + fuel) with (S (2 * a + 1 + (2 * b + 1 + fuel))) by lia.
      cbn [loop]. unfold collect_body at 1. unfold sweep_next. cbn [current stack]. rewrite E. cbn [obind].
      by rewrite H1, H2.
  Qed.

  Lemma nodes_collect_root t k :
    nodes_left t k → ∀ p results,
      loop collect_body (2 * k) (mkSweep t [], p, results) = None ∧
      ∃ ps, loop collect_body (2 * k + 1) (mkSweep t [], p, results) = Some (Val ps).
  Proof.
    induction 1 as [t t' E|t t' c i a b E Hc _ _ IH]; intros p results.
    - split; [done|]. exists results. simpl. unfold sweep_next. simpl. by rewrite E.
    - destruct (nodes_collect _ _ Hc t' [] (p ++ [i]) results) as (p1 & r1 & H1).
      destruct (IH p1 r1) as [H2 (ps & H3)].
      replace (2 * S (a + b)) with (S (2 * a + 1 + 2 * b)) by lia.
      replace (S (2 * a + 1 + 2 * b) + 1) with (S (2 * a + 1 + (2 * b + 1))) by lia.
      cbn [loop]. unfold collect_body at 1 3. unfold sweep_next. cbn [current stack]. rewrite E. cbn [obind].
      rewrite !H1. split; [done|]. by exists ps.
  Qed.

  (** ** Calls of [next] left in a sweep *)

  Inductive todo : Sweep T → nat → Prop :=
  | todo_intro s a bs :
      nodes_left (current s) a → Forall2 nodes_left (stack s) bs →
      todo s (2 * a + 1 + sum_list (map (λ b, 2 * b + 1) bs)).

  Lemma todo_next s m :
    todo s m →
    ∃ s' r, sweep_next s = Val (s', r) ∧
      match r with Some _ => ∃ m', m = S m' ∧ todo s' m' | None => m ≠ 0 end.
  Proof.
    destruct 1 as [s a bs Ha Hbs]. unfold sweep_next. inversion Ha as [t t' E|t t' c i x y E Hx Hy]; subst.
    - rewrite E. cbn [obind]. inversion Hbs as [|u b st bs' Hu Hst E1]; subst.
      + eexists _, _. split; [reflexivity|]. simpl. lia.
      + eexists _, _. split; [reflexivity|]. exists (2 * b + 1 + sum_list (map (λ b, 2 * b + 1) bs')).
        split; [simpl; lia|]. by apply (todo_intro (mkSweep u st)).
    - rewrite E. cbn [obind]. eexists _, _. split; [reflexivity|].
      eexists. split; [|apply (todo_intro (mkSweep c (t' :: stack s)) x (y :: bs)); [done|by constructor]].
      simpl. lia.
  Qed.

  Lemma todo_skip s m s' r :
    todo s m → skip_current s = (s', r) → ∃ m', m' ≤ m ∧ todo s' m'.
  Proof.
    intros Ht. pose proof Ht as Ht'. destruct Ht as [s a bs Ha Hbs]. unfold skip_current.
    inversion Hbs as [|u b st bs' Hu Hst E1]; subst.
    - intros [= <- <-]. by eexists.
    - intros [= <- <-]. eexists. split; [|by apply (todo_intro (mkSweep u st) b bs')]. simpl. lia.
  Qed.
End generic.

Lemma todo_pos {T Item Leaf} `{FI : FocusIterator T Item Leaf} s m : todo s m → m ≠ 0.
Proof. destruct 1. lia. Qed.

Lemma loop_within {S R} (body : S → out (S + R)) (left_ : S → nat → Prop) :
  (∀ s s' m, left_ s m → body s = Val (inl s') → ∃ m', m' < m ∧ left_ s' m') →
  (∀ s m, left_ s m → m ≠ 0) →
  ∀ s m fuel, left_ s m → m ≤ fuel → ∃ r, loop body fuel s = Some r.
Proof.
  intros H1 H2 s m fuel. revert s m. induction fuel as [|fuel IH]; intros s m Hs Hm.
  - apply H2 in Hs. lia.
  - simpl. destruct (body s) as [[s'|r]|] eqn:E; [|by eexists..].
    destruct (H1 _ _ _ Hs E) as (m' & Hlt & Hs'). eapply IH; [done|lia].
Qed.

Lemma sum_list_set (ms : list nat) i x y :
  ms !! i = Some x → sum_list (<[i := y]> ms) + x = sum_list ms + y.
Proof.
  revert i. induction ms as [|z ms IH]; intros [|i] Hi; simpl in *; [done|done| |].
  - injection Hi as ->. lia.
  - specialize (IH i Hi). lia.
Qed.

(** ** The iterations of a search *)

(** [left_of sw m]: at most [m] calls of [next] are left. *)
Record calls_left (bd : build) (left_of : Sweep (Scheduler (Partition nat)) → nat → Prop) : Prop := {
  cl_pos : ∀ sw m, left_of sw m → m ≠ 0;
  cl_next : ∀ sw m sw' st, left_of sw m →
    sweep_next (H := scheduler_focus_iterator bd) sw = Val (sw', Some st) → ∃ m', m' < m ∧ left_of sw' m';
  cl_skip : ∀ sw m sw' r, left_of sw m → skip_current sw = (sw', r) → ∃ m', m' ≤ m ∧ left_of sw' m'
}.

Lemma todo_left bd : calls_left bd (todo (FI := scheduler_focus_iterator bd)).
Proof.
  split.
  - intros sw m. apply todo_pos.
  - intros sw m sw' st Ht E. apply todo_next in Ht as (s' & r & E' & Ht). rewrite E in E'.
    injection E' as <- <-. destruct Ht as (m' & -> & Ht). exists m'. split; [lia|done].
  - intros sw m sw' r. apply todo_skip.
Qed.

Section calls.
  Context (bd : build) (left_of : Sweep (Scheduler (Partition nat)) → nat → Prop) (Hleft : calls_left bd left_of).

  Lemma search_iteration_left s s' m :
    left_of (ss_scheduler s) m → search_iteration bd s = Val (inl s') →
    ∃ m', m' < m ∧ left_of (ss_scheduler s') m'.
  Proof.
    intros Ht. unfold search_iteration.
    destruct (sweep_next (H := scheduler_focus_iterator bd) (ss_scheduler s)) as [[sw st]|] eqn:E; [|done].
    cbn [obind]. destruct st as [st|]; [|done].
    destruct (cl_next _ _ Hleft _ _ _ _ Ht E) as (m' & Hlt & Ht'). destruct st as [M|leaf].
    - unfold forward. destruct (index _ _) as [b|]; [|done]. cbn [obind].
      destruct (b <=? _)%N.
      + destruct (skip_current sw) as [sw' []] eqn:Es;
          destruct (cl_skip _ _ Hleft _ _ _ _ Ht' Es) as (m1 & Hle & H1);
          cbn [obind]; [|done]; intros [= <-]; simpl; exists m1; (split; [lia|done]).
      + cbn [obind]. intros [= <-]. by exists m'.
    - destruct (backward _ _ _ _) as [[[p b] r]|]; [|done]. cbn [obind]. intros [= <-]. by exists m'.
  Qed.

  Lemma probabilistic_iteration_left acc smp s s' m :
    left_of (ss_scheduler s.2) m → probabilistic_iteration bd acc smp s = Val (inl s') →
    ∃ m', m' < m ∧ left_of (ss_scheduler s'.2) m'.
  Proof.
    destruct s as [drawn s]. cbn [snd]. intros Ht. unfold probabilistic_iteration.
    destruct (sweep_next (H := scheduler_focus_iterator bd) (ss_scheduler s)) as [[sw st]|] eqn:E; [|done].
    cbn [obind]. destruct st as [st|]; [|done].
    destruct (cl_next _ _ Hleft _ _ _ _ Ht E) as (m' & Hlt & Ht'). destruct st as [M|leaf].
    - unfold probabilistic_forward. destruct (index _ _) as [b|]; [|done]. cbn [obind].
      destruct (b <=? _)%N; [|destruct (last _); [cbn [obind]; destruct (acc _ _ _ _ _ _ _ _) as [x|]; [|done];
        cbn [obind]; destruct (SFleb _ _); [|destruct (SFltb _ _)]|done]].
      1, 4: destruct (skip_current sw) as [sw' []] eqn:Es;
          destruct (cl_skip _ _ Hleft _ _ _ _ Ht' Es) as (m1 & Hle & H1);
          cbn [obind]; [|done]; intros [= <-]; simpl; exists m1; (split; [lia|done]).
      all: cbn [obind]; intros [= <-]; by exists m'.
    - destruct (backward _ _ _ _) as [[[p b] r]|]; [|done]. cbn [obind]. intros [= <-]. by exists m'.
  Qed.

  Lemma single_within timer ho adj g prob s m fuel :
    search_scheduler adj g = Val s → left_of (sweep_new s) m → m ≤ fuel →
    ∃ o, search_single bd fuel timer ho adj g prob = Some o.
  Proof.
    intros Es Hm Hf. unfold search_single. rewrite Es. destruct prob as [[acc smp]|].
    - unfold do_probabilistic_search.
      destruct (loop_within (do_probabilistic_search_body bd timer acc smp) (λ s m, left_of (ss_scheduler s.2.2) m))
        with (s := (0, ((0, 0), search_init (sweep_new s) (length adj)))) (m := m) (fuel := fuel)
        as [r ->]; [|intros ? ?; apply (cl_pos _ _ Hleft)|done|done|destruct r as [[p mm]|]; by eexists].
      intros [j x] x' k Hk. unfold do_probabilistic_search_body. cbn [fst snd].
      destruct (probabilistic_iteration bd acc smp x) as [[s1|s1]|] eqn:E; cbn [obind]; [|done..].
      destruct (timer j); [done|]. intros [= <-]. by eapply probabilistic_iteration_left.
    - unfold do_search.
      destruct (loop_within (do_search_body bd timer) (λ s m, left_of (ss_scheduler s.2) m))
        with (s := (0, search_init (sweep_new s) (length adj))) (m := m) (fuel := fuel)
        as [r ->]; [|intros ? ?; apply (cl_pos _ _ Hleft)|done|done|destruct r as [[p mm]|]; by eexists].
      intros [j x] x' k Hk. unfold do_search_body. cbn [fst snd].
      destruct (search_iteration bd x) as [[s1|s1]|] eqn:E; cbn [obind]; [|done..].
      destruct (timer j); [done|]. intros [= <-]. by eapply search_iteration_left.
  Qed.

  (** ** The iterations of all tasks together *)

  Definition status_left (st : Status) (m : nat) : Prop :=
    match st with
    | Waiting j => left_of (sweep_new (job_scheduler j)) m
    | Running t => left_of (ss_scheduler (t_search t)) m
    | Ending _ | Finished => m = 0
    end.

  Definition tasks_left (sys : System) (m : nat) : Prop :=
    ∃ ms, Forall2 status_left (sys_tasks sys) ms ∧ m = sum_list ms.

  Lemma tasks_left_insert l ms i st m m' st' :
    Forall2 status_left l ms → l !! i = Some st → ms !! i = Some m → status_left st' m' →
    Forall2 status_left (<[i := st']> l) (<[i := m']> ms).
  Proof. intros. by apply Forall2_insert. Qed.

  Lemma task_iteration_left prob shared fin t shared' t' stop m :
    left_of (ss_scheduler (t_search t)) m → task_iteration bd prob shared fin t = Val (shared', t', stop) →
    stop = true ∨ ∃ m', m' < m ∧ left_of (ss_scheduler (t_search t')) m'.
  Proof.
    intros Ht. unfold task_iteration. destruct prob as [[acc smp]|].
    - destruct (probabilistic_iteration _ _ _ _) as [[[d s]|s]|] eqn:E; cbn [obind]; [| |done].
      + apply (probabilistic_iteration_left acc smp (t_drawn t, t_search t) (d, s) m Ht) in E as (m' & Hm & Hs).
        destruct (update _ _ _ _) as [[[sh this] c] st]. intros [= <- <- <-]. right. by exists m'.
      + intros [= <- <- <-]. by left.
    - destruct (search_iteration _ _) as [[s|s]|] eqn:E; cbn [obind]; [| |done].
      + apply (search_iteration_left _ _ _ Ht) in E as (m' & Hm & Hs).
        destruct (update _ _ _ _) as [[[sh this] c] st]. intros [= <- <- <-]. right. by exists m'.
      + intros [= <- <- <-]. by left.
  Qed.

  Lemma exec_left nthreads prob sys e sys' m :
    tasks_left sys m → exec bd nthreads prob sys e = Some (Val sys') →
    ∃ m', tasks_left sys' m' ∧ m' + iterations [e] ≤ m.
  Proof.
    intros (ms & Hms & ->).
    destruct e as [i|i fin|i]; simpl;
      destruct (sys_tasks sys !! i) as [[j|t|t|]|] eqn:Ei; try done;
      destruct (Forall2_lookup_l _ _ _ _ _ Hms Ei) as (x & Ex & Hx);
      pose proof (λ y, sum_list_set ms i x y Ex) as Hsum.
    - destruct (_ <? _); [|done]. intros [= <-]. cbn [sys_tasks]. exists (sum_list (<[i := x]> ms)).
      specialize (Hsum x). split; [|unfold iterations; simpl; lia].
      eexists. split; [|reflexivity]. eapply tasks_left_insert; done.
    - destruct (task_iteration _ _ _ _ _) as [[[sh t'] stop]|] eqn:E; [|done]. cbn [obind].
      intros [= <-]. cbn [sys_tasks].
      pose proof (cl_pos _ _ Hleft _ _ Hx) as Hpos.
      destruct (task_iteration_left _ _ _ _ _ _ _ _ Hx E) as [-> |(x' & Hlt & Hx')].
      + specialize (Hsum 0). exists (sum_list (<[i := 0]> ms)). split; [|unfold iterations; simpl; lia].
        eexists. split; [|reflexivity]. eapply tasks_left_insert; done.
      + destruct stop.
        * specialize (Hsum 0). exists (sum_list (<[i := 0]> ms)). split; [|unfold iterations; simpl; lia].
          eexists. split; [|reflexivity]. eapply tasks_left_insert; done.
        * specialize (Hsum x'). exists (sum_list (<[i := x']> ms)). split; [|unfold iterations; simpl; lia].
          eexists. split; [|reflexivity]. eapply tasks_left_insert; done.
    - destruct (task_end t) as [[res this]|]; [|done]. cbn [obind]. intros [= <-]. cbn [sys_tasks].
      specialize (Hsum 0). exists (sum_list (<[i := 0]> ms)). split; [|unfold iterations; simpl; lia].
      eexists. split; [|reflexivity]. eapply tasks_left_insert; done.
  Qed.

  Lemma run_events_left nthreads prob sys es sys' m :
    tasks_left sys m → run_events bd nthreads prob sys es = Some (Val sys') → iterations es ≤ m.
  Proof.
    revert sys m. induction es as [|e es IH]; intros sys m Hm; [unfold iterations; simpl; lia|].
    simpl. destruct (exec bd nthreads prob sys e) as [[sys1|]|] eqn:E; [|done..]. intros H.
    destruct (exec_left _ _ _ _ _ _ Hm E) as (m' & Hm' & Hle). specialize (IH _ _ Hm' H).
    unfold iterations in *. cbn [List.filter] in *. destruct (is_iteration e); simpl in *; lia.
  Qed.

  (** If submitting the tasks does not add work. *)
  Lemma threaded_within fuel events nthreads num_bits s bound prob m res :
    (∀ js, spawn bd fuel bound s = Some (Val js) →
       ∃ ms, Forall2 (λ x m, left_of (sweep_new (job_scheduler x)) m) js ms ∧ sum_list ms ≤ m) →
    threaded_search bd fuel events nthreads num_bits s bound prob = Some (Val res) → iterations events ≤ m.
  Proof.
    intros Hspawn. unfold threaded_search.
    destruct (spawn bd fuel bound s) as [[jobs|]|] eqn:E; [|done..].
    destruct (run_events _ _ _ _ _) as [[sys|]|] eqn:Er; [|done..]. intros _.
    destruct (Hspawn jobs eq_refl) as (ms & Hf & Hs).
    eapply (run_events_left _ _ _ _ _ (sum_list ms)) in Er; [lia|].
    exists ms. split; [|done]. cbn [sys_tasks system_init]. apply Forall2_fmap_l. exact Hf.
  Qed.
End calls.

Lemma todo_new bd s a :
  nodes_left (FI := scheduler_focus_iterator bd) s a →
  todo (FI := scheduler_focus_iterator bd) (sweep_new s) (2 * a + 1).
Proof.
  intros Ha. pose proof (todo_intro (FI := scheduler_focus_iterator bd) (sweep_new s) a [] Ha
    ltac:(constructor)) as Ht. simpl in Ht. by replace (a + (a + 0) + 1 + 0) with (2 * a + 1) in Ht by lia.
Qed.

Section work.
  Context (adj : spacial) (g : order) (Hin : wf_input adj g).
  Notation n := (length adj).
  Notation node := (node adj g).

  Lemma no_more_advance s : no_more s → no_more (advance s).
  Proof.
    intros Hno a b Hi. apply (Hno a). rewrite advance_items in Hi.
    destruct (items s); [by apply elem_of_nil in Hi|by right].
  Qed.

  Lemma no_more_end p s bd :
    node p s → no_more s → nodes_left (FI := scheduler_focus_iterator bd) (advance s) 0.
  Proof.
    intros Hn Hno. pose proof (no_more_advance s Hno) as Hno'.
    destruct (items_cases adj g Hin p (advance s)) as [[_ E]|(a & b & l & child & Ei & Hb & _)].
    - by apply advance_node.
    - eapply nl_end. exact (E bd).
    - exfalso. apply Hb, (Hno' a). rewrite Ei. left.
  Qed.

  Lemma spawn_left bd bound fuel s jobs k js j :
    node [] s → nodes_left (FI := scheduler_focus_iterator bd) s j →
    loop (spawn_body bd bound) fuel (s, jobs, k) = Some (Val js) →
    ∃ new ms, js = jobs ++ new ∧
      Forall2 (λ x m, todo (FI := scheduler_focus_iterator bd) (sweep_new (job_scheduler x)) m) new ms ∧
      sum_list ms ≤ 2 * j + 1.
  Proof.
    pose proof (todo_new bd) as Hnew.
    revert s jobs k j. induction fuel as [|fuel IH]; intros s jobs k j Hn Hj; [done|].
    cbn [loop]. unfold spawn_body at 1.
    destruct (items_cases adj g Hin [] s Hn) as [[Hno E]|(a & b & l & child & Ei & Hb & Hcn & Hcf & E)];
      rewrite E; cbn [obind].
    - intros [= <-]. exists [mkJob (advance s) None], [2 * 0 + 1]. split; [done|]. split; [|simpl; lia].
      constructor; [|constructor]. apply Hnew. by eapply no_more_end.
    - inversion Hj as [t t' E'|t t' c i x y E' Hx Hy]; subst; cbn [next_and_focus scheduler_focus_iterator] in E';
        rewrite E in E'; [done|]. injection E' as <- <- <-.
      destruct (_ =? _)%Z.
      + intros [= <-]. exists [mkJob child (Some b); mkJob (advance s) None], [2 * x + 1; 2 * y + 1].
        split; [by rewrite <- app_assoc|]. split; [|simpl; lia].
        constructor; [by apply Hnew|]. constructor; [by apply Hnew|constructor].
      + intros Hl. apply IH with (j := y) in Hl as (new & ms & -> & Hf & Hs); [|by apply advance_node|done].
        exists (mkJob child (Some b) :: new), (2 * x + 1 :: ms). split; [by rewrite <- app_assoc|].
        split; [|simpl; lia]. constructor; [by apply Hnew|done].
  Qed.

  Lemma spawn_todo bd bound fuel s j js :
    node [] s → nodes_left (FI := scheduler_focus_iterator bd) s j → spawn bd fuel bound s = Some (Val js) →
    ∃ ms, Forall2 (λ x m, todo (FI := scheduler_focus_iterator bd) (sweep_new (job_scheduler x)) m) js ms ∧
      sum_list ms ≤ 2 * j + 1.
  Proof.
    intros Hn Hj E. destruct (spawn_left _ _ _ _ _ _ _ _ Hn Hj E) as (new & ms & -> & Hf & Hs). by exists ms.
  Qed.
End work.
