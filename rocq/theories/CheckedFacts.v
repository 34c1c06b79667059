(** * Debug builds, for all dependency graphs *)
From Verif Require Export ThreadedFacts Executions.
From Verif Require Export Spec.

Lemma obind_inv {A B} (o : out A) (f : A → out B) r :
  obind o f = Val r → ∃ a, o = Val a ∧ f a = Val r.
Proof. destruct o as [a|]; [|done]. intros H. by exists a. Qed.

Section checked.
  Context (adj : spacial) (Hsp : wf_spacial adj).
  Notation n := (length adj).
  Notation graph_at := (graph_at adj).
  Notation cost := (cost adj).

  (** What the space half of the scheduler checks. *)
  Record clean (σ : schedule) : Prop := {
    cl_once : NoDup (concat σ);
    cl_range : ∀ b, b ∈ concat σ → b < n;
    cl_nonempty : [] ∉ σ
  }.

  Lemma clean_nil : clean [].
  Proof. split; [constructor| |]; simpl; intros; by apply not_elem_of_nil in H || apply not_elem_of_nil. Qed.

  Lemma measure_all_inv P Q mx S g :
    NoDup (P ++ Q) → measure_all Debug (graph_mid adj P Q mx) S = Val (g, Ok tt) →
    g = graph_mid adj P (Q ++ S) mx ∧ (∀ v, v ∈ S → v < n) ∧ NoDup (P ++ Q ++ S).
  Proof.
    destruct Hsp as [Hrange Hsize].
    revert Q. induction S as [|v S IH]; intros Q Hnd H; cbn [measure_all] in H.
    - injection H as <-. rewrite app_nil_r. split; [done|]. split; [|done].
      intros v Hv. by apply elem_of_nil in Hv.
    - destruct (decide (v < n)) as [Hv|Hv].
      2:{ unfold measure in H. rewrite measure_raw_range in H by lia. done. }
      destruct (decide (v ∈ P ++ Q)) as [Hin|Hnew].
      { unfold measure in H. rewrite measure_raw_measured in H by done. done. }
      unfold measure in H. rewrite (measure_raw_spec adj Hsize Hrange) in H by done. cbn [obind] in H.
      apply IH in H as (-> & Hr & Hnd').
      + rewrite <- app_assoc. split; [done|]. split; [|by rewrite <- app_assoc in Hnd'].
        intros w [->|Hw]%elem_of_cons; auto.
      + rewrite app_assoc. apply NoDup_app. split; [done|]. split; [|apply NoDup_singleton].
        intros x Hx ->%elem_of_list_singleton. done.
  Qed.

  Lemma space_focus_inv σ M g :
    clean σ → M ≠ [] → space_focus_inplace Debug (graph_at σ) M = Val (g, Ok tt) →
    g = graph_at (σ ++ [M]) ∧ clean (σ ++ [M]).
  Proof.
    intros [H1 H2 H3] HM H. unfold space_focus_inplace, graph_focus_inplace in H.
    destruct (measure_all Debug (graph_at σ) M) as [[g' [[]|e]]|] eqn:E; cbn [obind] in H; [|done..].
    apply measure_all_inv in E as (-> & Hr & Hnd); [|by rewrite app_nil_r].
    simpl in Hnd. apply NoDup_app in Hnd as (_ & Hdis & HndM).
    rewrite app_nil_l in H.
    assert (∀ v, v ∈ M → v ∉ concat σ) as Hd by (intros v Hv Hc; by apply (Hdis v)).
    destruct Hsp as [_ Hsize].
    rewrite (update_memory_spec adj Hsize Debug σ M HndM Hr Hd) in H.
    cbn [obind] in H. injection H as <-. split; [done|]. split.
    - rewrite concat_app. simpl. rewrite app_nil_r. apply NoDup_app. done.
    - intros b. rewrite concat_app, elem_of_app. simpl. rewrite app_nil_r. intros [?|?]; auto.
    - rewrite elem_of_app, elem_of_list_singleton. intros [?|?]; [done|]. by subst M.
  Qed.

  (** ** The time optimal path *)

  Lemma time_optimal_checked fuel sch p mx q m :
    s_space sch = graph_at p → clean p → mx = cost p →
    loop (time_optimal_body Debug) fuel (sch, p, mx) = Some (Val (q, m)) →
    clean q ∧ m = cost q ∧
    p ++ (match measurable (s_time sch) with [] => [] | ms => [ms] end) `prefix_of` q.
  Proof.
    revert sch p mx. induction fuel as [|fuel IH]; intros sch p mx Hs Hc Hm; [done|].
    cbn [loop]. unfold time_optimal_body at 1.
    destruct (measurable (s_time sch)) as [|b M] eqn:EM.
    { intros [= <- <-]. by rewrite app_nil_r. }
    set (S := b :: M) in *.
    destruct (scheduler_focus_inplace Debug sch S) as [[sch' r]|] eqn:E; cbn [obind]; [|done].
    destruct r as [[]|e]; [|done]. intros H.
    unfold scheduler_focus_inplace in E.
    destruct (time_focus_inplace Debug (s_time sch) S) as [[t r]|]; cbn [obind] in E; [|done].
    destruct r as [[]|e]; [|done].
    destruct (space_focus_inplace Debug (s_space sch) S) as [[g r]|] eqn:Eg; cbn [obind] in E; [|done].
    destruct r as [[]|e]; [|done]. injection E as <-. rewrite Hs in Eg.
    apply space_focus_inv in Eg as [-> Hc']; [|done|done].
    cbn [s_space] in H. apply IH in H as (H1 & H2 & H3); [|done|done|].
    { split; [done|]. split; [done|]. etrans; [|exact H3]. by apply prefix_app_r. }
    subst mx. unfold graph_at. cbn [max_memory]. unfold SpaceFacts.graph_at, graph_mid. cbn [max_memory].
    unfold SearchFacts.cost. pose proof (space_cost_prefix adj (proj2 Hsp) p [S]). lia.
  Qed.

  (** ** The sweep *)

  Inductive spaces (base : schedule) : schedule → list (Scheduler Partitioner) → Prop :=
  | sps_base s : s_space s = graph_at base → clean base → spaces base base [s]
  | sps_push p M s t ts :
      spaces base p (t :: ts) → s_space s = graph_at (p ++ [M]) → clean (p ++ [M]) →
      spaces base (p ++ [M]) (s :: t :: ts).

  Lemma spaces_top base p s ts : spaces base p (s :: ts) → s_space s = graph_at p ∧ clean p.
  Proof. by inversion 1. Qed.

  Lemma spaces_head base p s s' ts :
    spaces base p (s :: ts) → s_space s' = s_space s → spaces base p (s' :: ts).
  Proof. inversion 1; subst; intros E; constructor; congruence. Qed.

  Lemma spaces_pop base p s t ts :
    spaces base p (s :: t :: ts) → spaces base (pop p) (t :: ts).
  Proof.
    inversion 1; subst. unfold pop. rewrite app_length. simpl.
    replace (length p0 + 1 - 1) with (length p0) by lia. by rewrite take_app.
  Qed.

  Definition right (res : MappedPaths) : Prop :=
    ∀ t m q, res !! t = Some (m, q) → length q = t ∧ clean q ∧ m = cost q.

  Record kept_right (base : schedule) (s : SearchState) : Prop := {
    kr_spaces : spaces base (ss_path s) (current (ss_scheduler s) :: stack (ss_scheduler s));
    kr_right : right (ss_results s)
  }.

  Lemma next_and_focus_inv s s' r :
    scheduler_next_and_focus Debug s = Val (s', r) →
    s_space s' = s_space s ∧
    match r with
    | None => True
    | Some (child, M) => ∀ σ, s_space s = graph_at σ → clean σ →
        s_space child = graph_at (σ ++ [M]) ∧ clean (σ ++ [M])
    end.
  Proof.
    unfold scheduler_next_and_focus, time_next_and_focus. intros H.
    destruct (partition_next (measurable (s_time s))) as [m r0].
    destruct r0 as [[new M]|]; [|cbn [obind] in H; by injection H as <- <-].
    destruct M as [|b M]; [cbn [obind] in H; by injection H as <- <-|].
    destruct (time_focus_unchecked Debug _ (b :: M) new) as [t|]; cbn [obind] in H; [|done].
    cbn [s_space] in H.
    destruct (space_focus_inplace Debug (s_space s) (b :: M)) as [[g r1]|] eqn:Eg; cbn [obind] in H; [|done].
    destruct r1 as [[]|e]; [|done]. injection H as <- <-. split; [done|].
    intros σ Es Hc. rewrite Es in Eg. by apply space_focus_inv in Eg.
  Qed.

  Lemma right_insert res p :
    right res → clean p → right (<[length p := (cost p, p)]> res).
  Proof.
    intros Hr Hc t m q. rewrite lookup_insert_Some. intros [[<- [= <- <-]]|[_ H]]; [done|by apply Hr].
  Qed.

  Lemma backward_right leaf p best res p' best' res' :
    right res → clean p → (∀ m, leaf = Some m → m = cost p) →
    backward leaf p best res = Val (p', best', res') → p' = pop p ∧ right res'.
  Proof.
    intros Hr Hc Hl H. unfold backward in H. destruct leaf as [m|].
    - rewrite (Hl m eq_refl) in H. destruct (index_set best (length p) (cost p)); cbn [obind] in H; [|done].
      injection H as <- _ <-. split; [done|]. by apply right_insert.
    - injection H as <- _ <-. done.
  Qed.

  Lemma leaf_cost s p m :
    s_space s = graph_at p → scheduler_at_leaf s = Some m → m = cost p.
  Proof.
    unfold scheduler_at_leaf. intros -> H. destruct (pset _); [|done]. by injection H as <-.
  Qed.

  (** One move of the sweep. *)
  Lemma sweep_next_inv base p sw sw' st :
    spaces base p (current sw :: stack sw) →
    sweep_next (H := scheduler_focus_iterator Debug) sw = Val (sw', st) →
    match st with
    | None => spaces base p (current sw' :: stack sw')
    | Some (Forward M) =>
        spaces base (p ++ [M]) (current sw' :: stack sw') ∧
        ∃ t ts, stack sw' = t :: ts ∧ spaces base p (t :: ts)
    | Some (Backward leaf) =>
        spaces base (pop p) (current sw' :: stack sw') ∧ ∀ m, leaf = Some m → m = cost p
    end.
  Proof.
    intros Hs. unfold sweep_next. cbn [next_and_focus scheduler_focus_iterator at_leaf].
    destruct (scheduler_next_and_focus Debug (current sw)) as [[cur r]|] eqn:E; cbn [obind]; [|done].
    apply next_and_focus_inv in E as [Ec Er].
    pose proof (spaces_top _ _ _ _ Hs) as [Et Hc].
    pose proof (spaces_head _ _ _ _ _ Hs Ec) as Hs'.
    destruct r as [[child M]|].
    - intros [= <- <-]. cbn [current stack]. destruct (Er p Et Hc) as [E1 E2].
      split; [by constructor|]. by exists cur, (stack sw).
    - destruct (stack sw) as [|t ts] eqn:Est.
      + intros [= <- <-]. cbn [current stack]. done.
      + intros [= <- <-]. cbn [current stack]. split; [by eapply spaces_pop|].
        intros m Hm. eapply leaf_cost; [|exact Hm]. congruence.
  Qed.

  Lemma skip_spaces base p (sw : Sweep (Scheduler Partitioner)) t ts :
    stack sw = t :: ts → spaces base p (t :: ts) →
    ∀ sw' r, skip_current sw = (sw', r) → r = Ok tt ∧ spaces base p (current sw' :: stack sw').
  Proof.
    intros E Hs sw' r. unfold skip_current. rewrite E. intros [= <- <-]. done.
  Qed.

  Lemma search_iteration_right base s r :
    kept_right base s → search_iteration Debug s = Val r →
    kept_right base (match r with inl s' | inr s' => s' end).
  Proof.
    intros [Hs Hr] H. unfold search_iteration in H.
    destruct (sweep_next (H := scheduler_focus_iterator Debug) (ss_scheduler s)) as [[sw st]|] eqn:E; cbn [obind] in H; [|done].
    apply (sweep_next_inv base (ss_path s)) in E; [|done].
    destruct st as [[M|leaf]|].
    - destruct E as [E (t & ts & Est & Ets)]. unfold forward in H.
      destruct (index (ss_best s) _) as [bound|]; cbn [obind] in H; [|done].
      destruct (bound <=? _)%N.
      + destruct (skip_current sw) as [sw' r0] eqn:Esk.
        destruct (skip_spaces base (ss_path s) sw t ts Est Ets _ _ Esk) as [-> Hsk].
        cbn [obind] in H. injection H as <-. by split.
      + cbn [obind] in H. injection H as <-. by split.
    - destruct E as [E Hl].
      destruct (backward leaf (ss_path s) (ss_best s) (ss_results s)) as [[[p best] res]|] eqn:Eb; cbn [obind] in H; [|done].
      injection H as <-. apply backward_right in Eb as [-> Hres]; [by split|done| |done].
      by eapply spaces_top.
    - injection H as <-. by split.
  Qed.

  Lemma probabilistic_iteration_right base acc smp d s r :
    kept_right base s → probabilistic_iteration Debug acc smp (d, s) = Val r →
    kept_right base (match r with inl s' => s'.2 | inr s' => s' end).
  Proof.
    intros [Hs Hr] H. unfold probabilistic_iteration in H.
    destruct (sweep_next (H := scheduler_focus_iterator Debug) (ss_scheduler s)) as [[sw st]|] eqn:E; cbn [obind] in H; [|done].
    apply (sweep_next_inv base (ss_path s)) in E; [|done].
    destruct st as [[M|leaf]|].
    - destruct E as [E (t & ts & Est & Ets)]. unfold probabilistic_forward in H.
      destruct (index (ss_best s) _) as [bound|]; cbn [obind] in H; [|done].
      destruct (skip_current sw) as [sw' r0] eqn:Esk.
      destruct (skip_spaces base (ss_path s) sw t ts Est Ets _ _ Esk) as [-> Hsk].
      destruct (bound <=? _)%N.
      + cbn [obind] in H. injection H as <-. by split.
      + destruct (last (ss_best s)) as [lb|]; cbn [obind] in H; [|done].
        destruct (acc _ _ _ _ _ _ _ _) as [a|]; cbn [obind] in H; [|done].
        destruct (SFleb _ _); [|destruct (SFltb _ _)]; cbn [obind] in H; injection H as <-; by split.
    - destruct E as [E Hl].
      destruct (backward leaf (ss_path s) (ss_best s) (ss_results s)) as [[[p best] res]|] eqn:Eb; cbn [obind] in H; [|done].
      injection H as <-. apply backward_right in Eb as [-> Hres]; [by split|done| |done].
      by eapply spaces_top.
    - injection H as <-. by split.
  Qed.

  Lemma root_right g root best :
    search_scheduler adj g = Val root →
    s_space root = graph_at [] ∧ kept_right [] (mkSearchState (sweep_new root) [] best ∅).
  Proof.
    intros H. unfold search_scheduler in H.
    destruct (from_dependency_graph g _ None) as [t|]; cbn [obind] in H; [|done]. injection H as <-.
    cbn [s_space]. rewrite (graph_at_new adj (proj2 Hsp)). split; [done|].
    split; simpl; [apply sps_base; [done|apply clean_nil]|].
    intros k m q Hq. by rewrite lookup_empty in Hq.
  Qed.

  Lemma single_right fuel timer ho g prob ps :
    search_single Debug fuel timer ho adj g prob = Some (Val ps) →
    ∃ res, right res ∧ finish ho n res = Val ps.
  Proof.
    unfold search_single. destruct (search_scheduler adj g) as [root|] eqn:E; [|done].
    destruct (root_right g root (replicate (n + 1) usize_max) E) as [_ Hroot].
    destruct prob as [[acc smp]|].
    - destruct (do_probabilistic_search _ _ _ _ _ _ _) as [[[res best]|]|] eqn:Ed; [|done|done].
      intros [= H]. exists res. split; [|done]. unfold do_probabilistic_search in Ed.
      assert (∀ fuel x, kept_right [] x.2.2 →
        loop (do_probabilistic_search_body Debug timer acc smp) fuel x = Some (Val (res, best)) → right res) as Hl.
      2:{ eapply Hl; [|exact Ed]. exact Hroot. }
      clear -Hsp. intros fuel. induction fuel as [|fuel IH]; intros [k [d s]] Hk; [done|].
      cbn [loop]. unfold do_probabilistic_search_body at 1. cbn [fst snd].
      destruct (probabilistic_iteration Debug acc smp (d, s)) as [r|] eqn:Er; cbn [obind]; [|done].
      pose proof (probabilistic_iteration_right [] _ _ _ _ _ Hk Er) as Hk'.
      destruct r as [s'|s'].
      + destruct (timer k); [intros [= <- _]; apply Hk'|]. by apply IH.
      + intros [= <- _]. apply Hk'.
    - destruct (do_search _ _ _ _ _) as [[[res best]|]|] eqn:Ed; [|done|done].
      intros [= H]. exists res. split; [|done]. unfold do_search in Ed.
      assert (∀ fuel x, kept_right [] x.2 →
        loop (do_search_body Debug timer) fuel x = Some (Val (res, best)) → right res) as Hl.
      2:{ eapply Hl; [|exact Ed]. exact Hroot. }
      clear -Hsp. intros fuel. induction fuel as [|fuel IH]; intros [k s] Hk; [done|].
      cbn [loop]. unfold do_search_body at 1. cbn [fst snd].
      destruct (search_iteration Debug s) as [r|] eqn:Er; cbn [obind]; [|done].
      pose proof (search_iteration_right [] _ _ Hk Er) as Hk'.
      destruct r as [s'|s'].
      + destruct (timer k); [intros [= <- _]; apply Hk'|]. by apply IH.
      + intros [= <- _]. apply Hk'.
  Qed.

  (** ** The multi threaded search *)

  Definition job_right (j : Job) : Prop :=
    s_space (job_scheduler j) = graph_at (jbase j) ∧ clean (jbase j).

  Definition status_right (st : Status) : Prop :=
    match st with
    | Waiting j => job_right j
    | Running t | Ending t => ∃ base, kept_right base (t_search t)
    | Finished => True
    end.

  Lemma spawn_right fuel bound s jobs k jobs' :
    s_space s = graph_at [] → Forall job_right jobs →
    loop (spawn_body Debug bound) fuel (s, jobs, k) = Some (Val jobs') → Forall job_right jobs'.
  Proof.
    revert s jobs k. induction fuel as [|fuel IH]; intros s jobs k Hs Hj; [done|].
    cbn [loop]. unfold spawn_body at 1.
    destruct (scheduler_next_and_focus Debug s) as [[s' r]|] eqn:E; cbn [obind]; [|done].
    apply next_and_focus_inv in E as [Es Er].
    assert (job_right (mkJob s' None)) as Hl.
    { split; cbn [job_scheduler]; [etrans; [exact Es|exact Hs]|apply clean_nil]. }
    destruct r as [[child M]|].
    - destruct (Er [] Hs clean_nil) as [E1 E2]. simpl in E1, E2.
      assert (Forall job_right (jobs ++ [mkJob child (Some M)])) as Hj'.
      { apply Forall_app. split; [done|]. constructor; [|constructor]. by split. }
      destruct (_ =? _)%Z.
      + intros [= <-]. apply Forall_app. split; [done|]. by constructor.
      + apply IH; [congruence|done].
    - intros [= <-]. apply Forall_app. split; [done|]. by constructor.
  Qed.

  Lemma merge_from_right t shared this new results :
    right new → right results → right (merge_from t shared this new results).2.
  Proof.
    revert t this new results. induction shared as [|s shared IH]; intros t [|m this] new results Hn Hr; simpl; try done.
    destruct (m <=? s)%N; simpl; [|by apply IH].
    apply IH.
    - intros k m' q. rewrite lookup_delete_Some. intros [_ H]. by apply Hn.
    - destruct (new !! t) as [[m' q]|] eqn:E; [|done].
      intros k m0 q0. rewrite lookup_insert_Some. intros [[<- [= <- <-]]|[_ H]]; [by apply Hn|by apply Hr].
  Qed.

  Lemma merge_right shared results new this :
    right new → right results → right (Threaded.merge shared results new this).2.
  Proof. intros. unfold Threaded.merge. destruct (_ =? _); [done|]. by apply merge_from_right. Qed.

  Lemma task_end_right base t res best :
    kept_right base (t_search t) → task_end t = Val (res, best) → right res.
  Proof.
    intros [Hs Hr]. unfold task_end. destruct (_ && _)%bool.
    - destruct (backward _ _ _ _) as [[[p best'] res']|] eqn:Eb; cbn [obind]; [|done].
      intros [= <- <-]. apply backward_right in Eb as [_ ?]; [done|done|by eapply spaces_top|].
      intros m [= <-]. pose proof (spaces_top _ _ _ _ Hs) as [-> _]. done.
    - by intros [= <- <-].
  Qed.

  Lemma task_iteration_right prob shared fin base t shared' t' stop :
    kept_right base (t_search t) →
    task_iteration Debug prob shared fin t = Val (shared', t', stop) → kept_right base (t_search t').
  Proof.
    intros Hk H. unfold task_iteration in H.
    assert (∀ r : (Draws * SearchState) + SearchState,
      kept_right base (match r with inl s' => s'.2 | inr s' => s' end) →
      match r with
      | inr s => Val (shared, mkTask s (t_initialized t) (t_counter t) (t_drawn t), true)
      | inl (drawn, s) =>
          let '(shared, this, counter, stop) := update shared (ss_best s) (t_counter t) fin in
          Val (shared,
               mkTask (mkSearchState (ss_scheduler s) (ss_path s) this (ss_results s))
                 (t_initialized t) counter drawn,
               stop)
      end = Val (shared', t', stop) → kept_right base (t_search t')) as Hgen.
    { intros [[d s]|s] Hr; cbn [snd] in Hr.
      - destruct (update _ _ _ _) as [[[? ?] ?] ?]. intros [= _ <- _]. destruct Hr. by split.
      - intros [= _ <- _]. done. }
    destruct prob as [[acc smp]|].
    - destruct (probabilistic_iteration Debug acc smp (t_drawn t, t_search t)) as [r|] eqn:Er; cbn [obind] in H; [|done].
      eapply Hgen; [|exact H]. by eapply probabilistic_iteration_right.
    - destruct (search_iteration Debug (t_search t)) as [r|] eqn:Er; cbn [obind] in H; [|done].
      eapply Hgen; [|exact H]. pose proof (search_iteration_right base _ _ Hk Er) as Hk'. by destruct r.
  Qed.

  Lemma exec_right nthreads prob sys e sys' :
    (∀ i st, sys_tasks sys !! i = Some st → status_right st) → right (sys_results sys) →
    exec Debug nthreads prob sys e = Some (Val sys') →
    (∀ i st, sys_tasks sys' !! i = Some st → status_right st) ∧ right (sys_results sys').
  Proof.
    intros Ht Hr H.
    assert (∀ i st', status_right st' →
      ∀ k st, <[i := st']> (sys_tasks sys) !! k = Some st → status_right st) as Hins.
    { intros i st' Hst' k st Hk. destruct (decide (i = k)) as [<-|Hne].
      - apply list_lookup_insert_Some in Hk as [(_ & -> & _)|[? _]]; done.
      - rewrite list_lookup_insert_ne in Hk by done. by eapply Ht. }
    destruct e as [i|i fin|i]; simpl in H;
      destruct (sys_tasks sys !! i) as [[j|t|t|]|] eqn:Ei; try done; specialize (Ht i _ Ei) as Hst; simpl in Hst.
    - destruct (_ <? _); [|done]. injection H as <-. cbn [sys_tasks sys_results]. split; [|done].
      apply Hins. simpl. exists (jbase j). split; simpl.
      + apply sps_base; apply Hst.
      + intros k m q Hq. by rewrite lookup_empty in Hq.
    - destruct Hst as [base Hk].
      destruct (task_iteration _ _ _ _ _) as [[[sh t'] stop]|] eqn:E; cbn [obind] in H; [|done].
      injection H as <-. cbn [sys_tasks sys_results]. split; [|done]. apply Hins.
      pose proof (task_iteration_right _ _ _ base _ _ _ _ Hk E). destruct stop; by exists base.
    - destruct Hst as [base Hk]. destruct (task_end t) as [[res best]|] eqn:E; cbn [obind] in H; [|done].
      injection H as <-. cbn [sys_tasks sys_results]. split; [by apply Hins|].
      apply merge_right; [by eapply task_end_right|done].
  Qed.

  Lemma run_events_right nthreads prob sys es sys' :
    (∀ i st, sys_tasks sys !! i = Some st → status_right st) → right (sys_results sys) →
    run_events Debug nthreads prob sys es = Some (Val sys') → right (sys_results sys').
  Proof.
    revert sys. induction es as [|e es IH]; intros sys Ht Hr; simpl.
    - by intros [= <-].
    - destruct (exec Debug nthreads prob sys e) as [[sys1|]|] eqn:E; [|done|done].
      destruct (exec_right _ _ _ _ _ Ht Hr E). by apply IH.
  Qed.

  Lemma any_right w g nthreads prob bound ps :
    search Debug w adj g nthreads prob bound = Some (Val ps) →
    ∃ res, right res ∧ finish (w_hash_order w) n res = Val ps.
  Proof.
    unfold search. destruct (nthreads <? 2).
    { apply single_right. }
    destruct (search_scheduler adj g) as [root|] eqn:E; [|done].
    unfold threaded_search.
    destruct (spawn Debug (w_fuel w) bound root) as [[jobs|]|] eqn:Es; [|done|done].
    destruct (run_events _ _ _ _ _) as [[sys|]|] eqn:Er; [|done|done].
    destruct (all_finished sys); [|done]. intros [= H]. exists (sys_results sys). split; [|done].
    destruct (root_right g root [] E) as [Hroot _].
    eapply run_events_right; [| |exact Er].
    - cbn [sys_tasks system_init]. intros i st Hi. rewrite list_lookup_fmap in Hi.
      destruct (jobs !! i) as [j|] eqn:Ej; [|done]. injection Hi as <-. simpl.
      pose proof (spawn_right _ _ _ [] _ _ Hroot ltac:(constructor) Es) as Hj.
      rewrite Forall_lookup in Hj. by eapply Hj.
    - intros k m q Hq. simpl in Hq. by rewrite lookup_empty in Hq.
  Qed.
End checked.
