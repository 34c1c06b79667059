(** * The finer model of the thread pool: the statements *)
From Verif Require Export LocksProgress MainThreaded ThreadedWitness.

Lemma fine_search_fine bd debug ms ho adj g nthreads prob bound o root :
  search_scheduler adj g = Val root →
  fine_search bd debug ms ho adj g nthreads prob bound = Some o ↔
  ∃ f r, fine_run bd debug nthreads bound prob (fine_init (length adj) root) ms = Some f ∧
    fine_result f = Some r ∧
    o = match r with Panic => Panic | Val results => finish ho (length adj) results end.
Proof.
  intros E. unfold fine_search. rewrite E. split.
  - destruct (fine_run _ _ _ _ _ _ _) as [f|] eqn:Er; [|done]. cbn [mbind option_bind].
    destruct (fine_result f) as [r|] eqn:Ef; [|done]. cbn [mbind option_bind].
    intros H. exists f, r. split; [done|]. split; [done|]. by destruct r; injection H as <-.
  - intros (f & r & -> & H & ->). cbn [mbind option_bind]. rewrite H. cbn [mbind option_bind].
    by destruct r.
Qed.

Lemma search_threaded bd w adj g nthreads prob bound o root :
  2 ≤ nthreads → search_scheduler adj g = Val root →
  search bd w adj g nthreads prob bound = Some o ↔
  ∃ r, threaded_search bd (w_fuel w) (w_events w) nthreads (length adj) root bound
         (match prob with Some a => Some (a, w_samples w) | None => None end) = Some r ∧
    o = match r with Panic => Panic | Val results => finish (w_hash_order w) (length adj) results end.
Proof.
  intros Hn E. unfold search. destruct (Nat.ltb_spec nthreads 2) as [?|_]; [lia|]. rewrite E. split.
  - destruct (threaded_search _ _ _ _ _ _ _ _) as [r|]; [|done]. intros H. exists r. split; [done|].
    by destruct r; injection H as <-.
  - intros (r & -> & ->). by destruct r.
Qed.

Lemma no_timeout_true es : no_timeout es ↔ ∀ i, EIter i true ∉ es.
Proof.
  split.
  - intros H i Hi. by specialize (H i true Hi).
  - intros H i fin Hi. destruct fin; [|done]. by destruct (H i).
Qed.

Lemma no_timeout_moves_true ms : no_timeout_moves ms ↔ ∀ i, TaskMove i true ∉ ms.
Proof.
  split.
  - intros H i Hi. by specialize (H i true Hi).
  - intros H i fin Hi. destruct fin; [|done]. by destruct (H i).
Qed.

Lemma fine_to_coarse bd debug ms w adj g nthreads prob bound o :
  2 ≤ nthreads →
  fine_search bd debug ms (w_hash_order w) adj g nthreads
    (match prob with Some a => Some (a, w_samples w) | None => None end) bound = Some o →
  ∃ fuel es, (no_timeout_moves ms → no_timeout es) ∧
    search bd (mkWorld fuel (w_timer w) es (w_hash_order w) (w_samples w)) adj g nthreads prob bound = Some o.
Proof.
  intros Hn H. destruct (search_scheduler adj g) as [root|] eqn:E.
  - destruct (proj1 (fine_search_fine _ _ _ _ _ _ _ _ _ _ _ E) H) as (f & r & Hrun & Hres & ->).
    apply refines_run in Hrun as [_ Href]. eapply refines_result in Href as (fuel & es & Hs & Ha); [|done].
    exists fuel, es. split.
    + rewrite no_timeout_true, no_timeout_moves_true. intros Hno i Hi%Ha. by apply (Hno i).
    + apply (search_threaded _ _ _ _ _ _ _ _ _ Hn E). by exists r.
  - unfold fine_search in H. rewrite E in H. injection H as <-. exists 0, []. split.
    + intros _ i fin Hi. by apply elem_of_nil in Hi.
    + unfold search. destruct (Nat.ltb_spec nthreads 2); [lia|]. by rewrite E.
Qed.

Lemma coarse_to_fine bd debug w adj g nthreads prob bound o :
  2 ≤ nthreads →
  search bd w adj g nthreads prob bound = Some o →
  ∃ ms, (no_timeout (w_events w) → no_timeout_moves ms) ∧
    fine_search bd debug ms (w_hash_order w) adj g nthreads
      (match prob with Some a => Some (a, w_samples w) | None => None end) bound = Some o.
Proof.
  intros Hn H. destruct (search_scheduler adj g) as [root|] eqn:E.
  - destruct (proj1 (search_threaded _ _ _ _ _ _ _ _ _ Hn E) H) as (r & Hs & ->).
    apply (realised bd debug) in Hs as (ms & f & Hrun & Hres & Ha). exists ms. split.
    + rewrite no_timeout_true, no_timeout_moves_true. intros Hno i Hi%Ha. by apply (Hno i).
    + apply (fine_search_fine _ _ _ _ _ _ _ _ _ _ _ E). by exists f, r.
  - unfold search in H. destruct (Nat.ltb_spec nthreads 2); [lia|]. rewrite E in H. injection H as <-.
    exists []. split.
    + intros _ i a Hi. by apply elem_of_nil in Hi.
    + unfold fine_search. by rewrite E.
Qed.

Lemma moves_same :
  ∀ bd debug adj g nthreads prob bound timer ho samples o, 2 ≤ nthreads →
  let prob' := match prob with Some a => Some (a, samples) | None => None end in
  ((∃ ms, fine_search bd debug ms ho adj g nthreads prob' bound = Some o) ↔
   (∃ fuel es, search bd (mkWorld fuel timer es ho samples) adj g nthreads prob bound = Some o)) ∧
  (* also if the time is never over *)
  ((∃ ms, no_timeout_moves ms ∧ fine_search bd debug ms ho adj g nthreads prob' bound = Some o) ↔
   (∃ fuel es, no_timeout es ∧
      search bd (mkWorld fuel timer es ho samples) adj g nthreads prob bound = Some o)).
Proof.
  intros bd debug adj g nthreads prob bound timer ho samples o Hn prob'. split; split.
  - intros [ms H]. apply (fine_to_coarse _ _ _ (mkWorld 0 timer [] ho samples)) in H as (fuel & es & _ & H); [|done].
    by exists fuel, es.
  - intros (fuel & es & H). apply (coarse_to_fine bd debug) in H as (ms & _ & H); [|done]. by exists ms.
  - intros (ms & Hno & H). apply (fine_to_coarse _ _ _ (mkWorld 0 timer [] ho samples)) in H as (fuel & es & Ht & H); [|done].
    exists fuel, es. split; [by apply Ht|done].
  - intros (fuel & es & Hno & H). apply (coarse_to_fine bd debug) in H as (ms & Ht & H); [|done].
    exists ms. split; [by apply Ht|done].
Qed.

Lemma moves_progress :
  ∀ bd debug nthreads bound prob num_bits root ms f answer, 1 ≤ nthreads →
  fine_run bd debug nthreads bound prob (fine_init num_bits root) ms = Some f →
  fine_result f = None →
  is_Some (fine_move bd debug nthreads bound prob f MainMove) ∨
  ∃ i, is_Some (fine_move bd debug nthreads bound prob f (TaskMove i answer)).
Proof.
  intros bd debug nthreads bound prob num_bits root ms f answer Hn Hrun Hres.
  apply refines_run in Hrun as [Hok _]. by apply no_deadlock.
Qed.

Lemma moves_terminate :
  ∀ bd debug nthreads bound prob num_bits root, ∃ k, ∀ ms f,
  fine_run bd debug nthreads bound prob (fine_init num_bits root) ms = Some f → length ms ≤ k.
Proof.
  intros bd debug nthreads bound prob num_bits root.
  eexists. intros ms f H. by eapply fine_run_bound in H.
Qed.

Lemma moves_locks :
  ∀ bd debug nthreads bound prob num_bits root ms f,
  fine_run bd debug nthreads bound prob (fine_init num_bits root) ms = Some f →
  (* a lock is held by exactly the task that is in a section for it *)
  (∀ i, f_best_lock f = Some i ↔ ∃ st, f_tasks f !! i = Some st ∧ holds_best st = true) ∧
  (∀ i, f_results_lock f = Some i ↔ ∃ st, f_tasks f !! i = Some st ∧ holds_results st = true) ∧
  (* a task that has panicked holds none *)
  (∀ i, f_tasks f !! i = Some FPanicked → f_best_lock f ≠ Some i ∧ f_results_lock f ≠ Some i) ∧
  (* the shared data is only written by the task that holds the lock *)
  (∀ m f', fine_move bd debug nthreads bound prob f m = Some f' →
     (f_best f' ≠ f_best f → ∃ i answer, m = TaskMove i answer ∧ f_best_lock f = Some i) ∧
     (f_results f' ≠ f_results f →
        ∃ i answer, m = TaskMove i answer ∧ f_best_lock f = Some i ∧ f_results_lock f = Some i)) ∧
  (* the pool never runs more tasks than it has workers *)
  length (List.filter occupied (f_tasks f)) ≤ nthreads.
Proof.
  intros bd debug nthreads bound prob num_bits root ms f H.
  apply refines_run in H as [[[Hb Hr] [_ Hq]] _].
  split; [exact Hb|]. split; [exact Hr|]. split; [|split; [|exact Hq]].
  - intros i Hi. split; intros E.
    + apply Hb in E as (st & Hst & Hh). simplify_eq.
    + apply Hr in E as (st & Hst & Hh). simplify_eq.
  - intros m f' H. destruct m as [|i ch]; simpl in H.
    { assert (f_best f' = f_best f ∧ f_results f' = f_results f) as [-> ->]; [|done].
      unfold main_move in H. destruct (f_main f); try done; [|by injection H as <-].
      destruct (scheduler_next_and_focus _ _) as [[? [[? ?]|]]|]; by injection H as <-. }
    apply task_move_cases in H as (st & st' & best & lock & results & lock' & Hi & -> & H).
    cbn [f_best f_results].
    assert (holds_best st = true → f_best_lock f = Some i) as H1 by (intros ?; apply Hb; by exists st).
    assert (holds_results st = true → f_results_lock f = Some i) as H2 by (intros ?; apply Hr; by exists st).
    assert (∀ P Q : Prop, best = f_best f → results = f_results f →
      (best ≠ f_best f → P) ∧ (results ≠ f_results f → Q)) as Hsame by (intros P Q -> ->; done).
    destruct st as [j|j|j|j|j|t|t|t k|t|t|new this|new this|new this k| | |]; try done;
      try (destruct_and? H; by apply Hsame).
    + destruct H as [H|H]; destruct_and? H; [|by apply Hsame]. split; [|done].
      intros _. exists i, ch. auto.
    + split; intros _; exists i, ch; auto.
Qed.

Lemma moves_valid :
  ∀ bd debug ms ho adj g nthreads prob samples bound o,
  wf_input adj g → 2 ≤ nthreads → (∀ l, ho l ≡ₚ l) →
  fine_search bd debug ms ho adj g nthreads
    (match prob with Some a => Some (a, samples) | None => None end) bound = Some o →
  (∃ ps, o = Val ps ∧ Forall (path_ok adj g) ps ∧ tradeoff ps) ∨ o = Panic ∧ ¬ calm_function prob.
Proof.
  intros bd debug ms ho adj g nthreads prob samples bound o Hin Hn Hho H.
  apply (fine_to_coarse _ _ _ (mkWorld 0 (λ _, false) [] ho samples)) in H as (fuel & es & _ & H); [|done].
  by eapply threaded_valid in H as [_ H].
Qed.

Lemma moves_first :
  ∀ bd debug ms ho adj g nthreads bound o,
  wf_input adj g → 2 ≤ nthreads → (∀ l, ho l ≡ₚ l) → (∃ b, listed g b) →
  no_timeout_moves ms →
  fine_search bd debug ms ho adj g nthreads None bound = Some o →
  ∃ p ps, o = Val (p :: ps) ∧ ∀ σ, valid_schedule g σ → time p ≤ time_cost σ.
Proof.
  intros bd debug ms ho adj g nthreads bound o Hin Hn Hho Hl Hno H.
  apply (fine_to_coarse _ _ _ (mkWorld 0 (λ _, false) [] ho (λ _ _, f64_one)) _ _ _ None)
    in H as (fuel & es & Ht & H); [|done].
  eapply threaded_first in H as (p & ps & -> & Hp & _); [|done..|by apply Ht].
  by exists p, ps.
Qed.

Lemma moves_not_optimal :
  ∃ adj g, wf_input adj g ∧ ∀ bd debug, ∃ ms ps,
  no_timeout_moves ms ∧ fine_search bd debug ms id adj g 2 None 100000 = Some (Val ps) ∧
  ¬ pareto_front adj g ps.
Proof.
  exists lossy, lossy_order. split; [exact lossy_wf|]. intros bd debug.
  destruct (coarse_to_fine bd debug lossy_world lossy lossy_order 2 None 100000 _ (le_n 2) (lossy_result bd))
    as (ms & Hno & Hms).
  exists ms, lossy_paths. split; [|split; [exact Hms|]].
  - apply Hno. apply no_timeout_checked. by vm_compute.
  - intros (_ & _ & Hc). by apply lossy_not_covers.
Qed.
