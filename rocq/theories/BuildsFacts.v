(** * Release builds repeat what debug builds return *)
From Verif Require Export Interface.

(** The second outcome is the first one unless that is a panic. *)
Definition unless_panic {A} (o1 o2 : out A) : Prop := ∀ a, o1 = Val a → o2 = Val a.

Lemma unless_panic_refl {A} (o : out A) : unless_panic o o.
Proof. by intros a H. Qed.

Lemma unless_panic_bind {A B} (o1 o2 : out A) (f1 f2 : A → out B) :
  unless_panic o1 o2 → (∀ a, unless_panic (f1 a) (f2 a)) → unless_panic (obind o1 f1) (obind o2 f2).
Proof.
  intros H Hf b. destruct o1 as [a|]; [|done]. rewrite (H a eq_refl). cbn [obind]. apply Hf.
Qed.

Lemma unless_panic_ofold {A S} (f1 f2 : S → A → out S) l s :
  (∀ s a, unless_panic (f1 s a) (f2 s a)) → unless_panic (ofold f1 l s) (ofold f2 l s).
Proof.
  intros Hf. revert s. induction l as [|a l IH]; intros s; [apply unless_panic_refl|]. cbn [ofold].
  by apply unless_panic_bind.
Qed.

Definition unless_panics {A} (o1 o2 : option (out A)) : Prop := ∀ a, o1 = Some (Val a) → o2 = Some (Val a).

Lemma unless_panic_loop {S R} (f1 f2 : S → out (S + R)) fuel s :
  (∀ s, unless_panic (f1 s) (f2 s)) → unless_panics (loop f1 fuel s) (loop f2 fuel s).
Proof.
  intros Hf r. revert s. induction fuel as [|fuel IH]; intros s; [done|]. cbn [loop].
  destruct (f1 s) as [x|] eqn:E; [|done]. rewrite (Hf s x E). destruct x; [apply IH|done].
Qed.

Notation "o1 ⊑ₚ o2" := (unless_panic o1 o2) (at level 70).

Ltac up_bind := apply unless_panic_bind; [|intros ?].

Lemma add_builds a b : add_usize Debug a b ⊑ₚ add_usize Release a b.
Proof. unfold add_usize. intros c. by destruct (_ <=? _)%N || destruct (_ <? _)%N. Qed.

Lemma sub_builds a b : sub_usize Debug a b ⊑ₚ sub_usize Release a b.
Proof. unfold sub_usize. intros c. by destruct (_ <=? _)%N || destruct (_ <? _)%N. Qed.

Lemma initialize_builds g b : initialize Debug g b ⊑ₚ initialize Release g b.
Proof.
  unfold initialize. up_bind; [apply unless_panic_refl|].
  destruct a.1; try apply unless_panic_refl. up_bind; [apply add_builds|apply unless_panic_refl].
Qed.

Lemma measure_raw_builds g b : measure_raw Debug g b ⊑ₚ measure_raw Release g b.
Proof.
  unfold measure_raw. up_bind; [apply unless_panic_refl|].
  destruct a.1; try apply unless_panic_refl.
  - up_bind; [apply add_builds|]. up_bind; [apply unless_panic_ofold, initialize_builds|apply unless_panic_refl].
  - up_bind; [apply unless_panic_ofold, initialize_builds|apply unless_panic_refl].
Qed.

Lemma measure_all_builds g M g' :
  measure_all Debug g M = Val (g', Ok tt) → ofold (measure_unchecked Release) M g = Val g'.
Proof.
  revert g. induction M as [|b M IH]; intros g; cbn [measure_all ofold].
  - by intros [= <-].
  - unfold measure, measure_unchecked at 1. pose proof (measure_raw_builds g b) as Hm.
    destruct (measure_raw Debug g b) as [r|]; cbn [obind]; [|done]. rewrite (Hm r eq_refl). cbn [obind].
    destruct r as [g1|]; cbn [obind]; [apply IH|done].
Qed.

Lemma update_memory_builds g l : update_memory Debug g l ⊑ₚ update_memory Release g l.
Proof. unfold update_memory. up_bind; [apply sub_builds|apply unless_panic_refl]. Qed.

Lemma space_builds g M g' :
  space_focus_inplace Debug g M = Val (g', Ok tt) → space_focus_inplace Release g M = Val (g', Ok tt).
Proof.
  unfold space_focus_inplace, graph_focus_inplace, graph_focus_inplace_unchecked.
  destruct (measure_all Debug g M) as [[g1 [[]|e]]|] eqn:E; cbn [obind]; [|done..].
  rewrite (measure_all_builds _ _ _ E). cbn [obind].
  pose proof (update_memory_builds g1 (length M)) as Hu.
  destruct (update_memory Debug g1 (length M)) as [g2|]; cbn [obind]; [|done].
  by rewrite (Hu g2 eq_refl).
Qed.

Lemma update_builds look deps M new :
  update_unchecked Debug look deps M new ⊑ₚ update_unchecked Release look deps M new.
Proof.
  unfold update_unchecked. apply unless_panic_ofold. intros s m. up_bind; [apply unless_panic_refl|].
  apply unless_panic_ofold. intros s' b. unfold update_dependent. destruct (s'.1 !! b); [|apply unless_panic_refl].
  up_bind; [apply sub_builds|apply unless_panic_refl].
Qed.

Lemma time_focus_inplace_builds `{MeasurableSet T} (p : PathGenerator T) M :
  time_focus_inplace Debug p M ⊑ₚ time_focus_inplace Release p M.
Proof.
  unfold time_focus_inplace. up_bind; [apply unless_panic_refl|]. destruct a; [|apply unless_panic_refl].
  up_bind; [apply update_builds|apply unless_panic_refl].
Qed.

Lemma scheduler_focus_inplace_builds `{MeasurableSet T} (s : Scheduler T) M s' :
  scheduler_focus_inplace Debug s M = Val (s', Ok tt) →
  scheduler_focus_inplace Release s M = Val (s', Ok tt).
Proof.
  unfold scheduler_focus_inplace. pose proof (time_focus_inplace_builds (s_time s) M) as Ht.
  destruct (time_focus_inplace Debug (s_time s) M) as [[t r]|]; cbn [obind]; [|done].
  rewrite (Ht _ eq_refl). cbn [obind]. destruct r as [[]|e]; [|done].
  destruct (space_focus_inplace Debug (s_space s) M) as [[g [[]|e]]|] eqn:E; cbn [obind]; [|done..].
  by rewrite (space_builds _ _ _ E).
Qed.

Lemma next_and_focus_builds s : scheduler_next_and_focus Debug s ⊑ₚ scheduler_next_and_focus Release s.
Proof.
  unfold scheduler_next_and_focus. up_bind.
  - unfold time_next_and_focus. destruct (partition_next _) as [m [[new M]|]]; [|apply unless_panic_refl].
    destruct M; [apply unless_panic_refl|]. up_bind; [|apply unless_panic_refl].
    unfold time_focus_unchecked. up_bind; [apply update_builds|apply unless_panic_refl].
  - destruct a as [t [[new M]|]]; [|apply unless_panic_refl]. intros r. cbn [s_space].
    destruct (space_focus_inplace Debug (s_space s) M) as [[g [[]|e]]|] eqn:E; cbn [obind]; [|done..].
    by rewrite (space_builds _ _ _ E).
Qed.

Lemma sweep_next_builds sw :
  sweep_next (H := scheduler_focus_iterator Debug) sw ⊑ₚ sweep_next (H := scheduler_focus_iterator Release) sw.
Proof. unfold sweep_next. up_bind; [apply next_and_focus_builds|apply unless_panic_refl]. Qed.

Lemma search_iteration_builds s : search_iteration Debug s ⊑ₚ search_iteration Release s.
Proof. unfold search_iteration. up_bind; [apply sweep_next_builds|apply unless_panic_refl]. Qed.

Lemma probabilistic_iteration_builds acc smp s :
  probabilistic_iteration Debug acc smp s ⊑ₚ probabilistic_iteration Release acc smp s.
Proof.
  unfold probabilistic_iteration. destruct s as [d s].
  up_bind; [apply sweep_next_builds|apply unless_panic_refl].
Qed.

Lemma time_optimal_builds adj g fuel :
  unless_panics (get_time_optimal Debug fuel adj g) (get_time_optimal Release fuel adj g).
Proof.
  unfold get_time_optimal. destruct (from_dependency_graph _ _ _) as [t|]; [|done]. intros ps.
  destruct (loop (time_optimal_body Debug) _ _) as [[[p m]|]|] eqn:E; [|done|done].
  apply unless_panic_loop with (f2 := time_optimal_body Release) in E; [by rewrite E|].
  clear. intros [[sch p] m]. unfold time_optimal_body.
  destruct (measurable (s_time sch)) as [|b M]; [apply unless_panic_refl|]. intros r.
  destruct (scheduler_focus_inplace Debug sch (b :: M)) as [[s' [[]|e]]|] eqn:E; cbn [obind]; [|done..].
  by rewrite (scheduler_focus_inplace_builds _ _ _ E).
Qed.

Lemma single_builds fuel timer ho adj g prob :
  unless_panics (search_single Debug fuel timer ho adj g prob) (search_single Release fuel timer ho adj g prob).
Proof.
  unfold search_single. destruct (search_scheduler adj g) as [root|]; [|done]. intros ps.
  destruct prob as [[acc smp]|].
  - destruct (do_probabilistic_search Debug _ _ _ _ _ _) as [[r|]|] eqn:E; [|done|done].
    unfold do_probabilistic_search in *.
    apply unless_panic_loop with (f2 := do_probabilistic_search_body Release timer acc smp) in E; [by rewrite E|].
    intros x. unfold do_probabilistic_search_body. up_bind; [apply probabilistic_iteration_builds|apply unless_panic_refl].
  - destruct (do_search Debug _ _ _ _) as [[r|]|] eqn:E; [|done|done].
    unfold do_search in *.
    apply unless_panic_loop with (f2 := do_search_body Release timer) in E; [by rewrite E|].
    intros x. unfold do_search_body. up_bind; [apply search_iteration_builds|apply unless_panic_refl].
Qed.

Lemma exec_builds nthreads prob sys e :
  unless_panics (exec Debug nthreads prob sys e) (exec Release nthreads prob sys e).
Proof.
  intros sys'. destruct e as [i|i fin|i]; simpl; [done| |done].
  destruct (sys_tasks sys !! i) as [[j|t|t|]|]; try done.
  intros [= H]. f_equal. revert H. apply unless_panic_bind; [|intros; apply unless_panic_refl].
  unfold task_iteration. up_bind; [|apply unless_panic_refl].
  destruct prob as [[acc smp]|]; [apply probabilistic_iteration_builds|].
  up_bind; [apply search_iteration_builds|apply unless_panic_refl].
Qed.

Lemma run_events_builds nthreads prob sys es :
  unless_panics (run_events Debug nthreads prob sys es) (run_events Release nthreads prob sys es).
Proof.
  intros r. revert sys. induction es as [|e es IH]; intros sys; simpl; [done|].
  destruct (exec Debug nthreads prob sys e) as [[sys1|]|] eqn:E; [|done|done].
  rewrite (exec_builds _ _ _ _ _ E). apply IH.
Qed.

Lemma search_builds w adj g nthreads prob bound :
  unless_panics (search Debug w adj g nthreads prob bound) (search Release w adj g nthreads prob bound).
Proof.
  unfold search. destruct (nthreads <? 2); [apply single_builds|].
  destruct (search_scheduler adj g) as [root|]; [|done]. intros ps. unfold threaded_search, spawn.
  destruct (loop (spawn_body Debug bound) _ _) as [[jobs|]|] eqn:E; [|done|done].
  assert (loop (spawn_body Release bound) (w_fuel w) (root, [], 0%Z) = Some (Val jobs)) as ->.
  { eapply unless_panic_loop; [|exact E]. clear. intros [[s jobs] k]. unfold spawn_body.
    up_bind; [apply next_and_focus_builds|apply unless_panic_refl]. }
  destruct (run_events Debug _ _ _ _) as [[sys|]|] eqn:E'; [|done|done].
  by rewrite (run_events_builds _ _ _ _ _ E').
Qed.

(** No assumption on the graphs. *)
Lemma builds_agree :
  ∀ fuel env adj g do_search timeout nthreads bound prob ps,
  run Debug fuel env adj g do_search timeout nthreads bound prob = Some (Val ps) →
  run Release fuel env adj g do_search timeout nthreads bound prob = Some (Val ps).
Proof.
  intros fuel env adj g do_search timeout nthreads bound prob ps. unfold run.
  destruct do_search; simpl; [apply search_builds|apply time_optimal_builds].
Qed.
