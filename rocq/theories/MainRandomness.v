(** * Which random numbers decide what: the whole search *)
From Verif Require Export RandomnessFacts.

Definition no_question : Question :=
  (f64_zero, f64_zero, f64_zero, f64_zero, f64_zero, f64_zero, f64_zero).

Lemma search_verdicts :
  ∀ bd fuel timer events ho smp adj g nthreads task_bound acc,
  ∃ q : nat → nat → Question,
    ∀ acc' smp',
      (∀ i k, verdict (acc' i) (smp' i) (q i) k = verdict (acc i) (smp i) (q i) k) →
      search bd (mkWorld fuel timer events ho smp') adj g nthreads (Some acc') task_bound
      = search bd (mkWorld fuel timer events ho smp) adj g nthreads (Some acc) task_bound.
Proof.
  intros bd fuel timer events ho smp adj g nthreads bound acc. unfold search. cbn [w_fuel w_timer w_events w_hash_order w_samples].
  destruct (nthreads <? 2).
  - unfold search_single. destruct (search_scheduler adj g) as [root|]; [|by exists (λ _ _, no_question)].
    unfold do_probabilistic_search.
    destruct (do_probabilistic_verdicts bd timer (acc 0) (smp 0) fuel (λ _, no_question) 0 0
                (search_init (sweep_new root) (length adj))) as (q & _ & H).
    exists (λ _, q). intros acc' smp' Hv. cbn [used] in H. by rewrite (H (acc' 0) (smp' 0) (Hv 0)).
  - destruct (search_scheduler adj g) as [root|]; [|by exists (λ _ _, no_question)].
    unfold threaded_search.
    destruct (spawn _ _ _ _) as [[jobs|]|]; [|by exists (λ _ _, no_question)..].
    assert (∀ acc' q, counted acc' q (λ _, 0) (system_init (length adj) jobs)) as H0.
    { intros acc' q i st E. cbn in E. rewrite list_lookup_fmap in E.
      destruct (jobs !! i); simplify_eq/=. done. }
    destruct (run_events_verdicts bd nthreads acc smp events (λ _ _, no_question) (λ _, 0)
                (system_init (length adj) jobs) (H0 _ _)) as (q & _ & H).
    exists q. intros acc' smp' Hv.
    specialize (H acc' smp' (system_init (length adj) jobs) Hv (conj eq_refl (conj eq_refl eq_refl)) (H0 _ _)).
    destruct (run_events bd nthreads (Some (acc, smp)) _ _) as [[sys|]|],
      (run_events bd nthreads (Some (acc', smp')) _ _) as [[sys'|]|]; try done.
    simpl in H. rewrite (alike_finished _ _ H). destruct H as (_ & _ & ->). done.
Qed.

Lemma numbers_samples gen nthreads seed i :
  task_samples gen nthreads seed i = numbers gen nthreads seed i.
Proof.
  unfold task_samples, numbers. destruct nthreads as [|[|n]]; simpl; by destruct seed.
Qed.

Lemma run_verdicts :
  ∀ bd fuel env adj g do_search timeout nthreads task_bound func seed,
  ∃ q : nat → nat → Question,
    ∀ gen' f' seed',
      (∀ i k, verdict (f' i) (numbers gen' nthreads seed' i) (q i) k
              = verdict (get_accept_func (e_exp env) func i)
                  (numbers (e_generators env) nthreads seed i) (q i) k) →
      run bd fuel (mkEnv (e_clock env) (e_events env) (e_hash_order env) gen' (e_exp env))
        adj g do_search timeout nthreads task_bound (Some (Custom f', seed'))
      = run bd fuel env adj g do_search timeout nthreads task_bound (Some (func, seed)).
Proof.
  intros bd fuel env adj g do_search timeout nthreads bound func seed.
  destruct do_search; [|by exists (λ _ _, no_question)].
  unfold run. simpl negb. cbv iota. unfold world_of.
  destruct (search_verdicts bd fuel (timer_answer timeout (e_clock env))
    (timed_events (search_timer timeout) (e_events env)) (e_hash_order env)
    (task_samples (e_generators env) nthreads seed) adj g nthreads
    (match bound with Some b => Z.of_N b | None => 100000%Z end)
    (get_accept_func (e_exp env) func)) as (q & H).
  exists q. intros gen' f' seed' Hv. apply H. intros i k. rewrite !numbers_samples. apply Hv.
Qed.

(** Every run is a run in which nothing is left to chance. *)
Lemma run_decided :
  ∀ bd fuel env adj g do_search timeout nthreads task_bound func seed,
  ∃ f' : nat → Accept,
    (∀ i k a b c d e r n,
       f' i k a b c d e r n = Val f64_one ∨ f' i k a b c d e r n = Val f64_zero ∨
       f' i k a b c d e r n = Panic ∧ ∃ q, answer (get_accept_func (e_exp env) func i) k q = Panic) ∧
    ∀ gen' seed',
      (∀ i k, SFltb (numbers gen' nthreads seed' i k) f64_zero = false) →
      run bd fuel (mkEnv (e_clock env) (e_events env) (e_hash_order env) gen' (e_exp env))
        adj g do_search timeout nthreads task_bound (Some (Custom f', seed'))
      = run bd fuel env adj g do_search timeout nthreads task_bound (Some (func, seed)).
Proof.
  intros bd fuel env adj g do_search timeout nthreads bound func seed.
  destruct (run_verdicts bd fuel env adj g do_search timeout nthreads bound func seed) as (q & H).
  exists (λ i k _ _ _ _ _ _ _,
    match verdict (get_accept_func (e_exp env) func i) (numbers (e_generators env) nthreads seed i) (q i) k with
    | Val true => Val f64_one | Val false => Val f64_zero | Panic => Panic end).
  split.
  - intros i k a b c d e r n. unfold verdict.
    destruct (answer _ k (q i k)) as [x|] eqn:E; simpl; [|by eauto].
    destruct (_ || _); auto.
  - intros gen' seed' Hpos. apply H. intros i k. unfold verdict at 1.
    destruct (q i k) as [[[[[[? ?] ?] ?] ?] ?] ?]. cbn [answer].
    set (v := verdict _ _ _ k).
    assert (SFleb f64_one f64_one = true) as E1 by by vm_compute.
    assert (SFleb f64_one f64_zero = false) as E0 by by vm_compute.
    destruct v as [[]|]; cbv beta iota delta [obind]; [by rewrite E1|by rewrite E0, Hpos|done].
Qed.
