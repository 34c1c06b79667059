(** * [run] on top of the finer model of the thread pool: the statements *)
From Verif Require Export LocksInterface MainLocks MainInterface.

Lemma finished_monotone t evs :
  timer_finished t = true → timer_finished (foldl timer_env t evs) = true.
Proof.
  intros H. destruct (timer_env_run t evs) as (es & H1 & _ & _). by eapply timer_run_monotone.
Qed.

(** ** Answers need a finished timer *)

Lemma timed_events_true t es i :
  EIter i true ∈ timed_events t es → timer_finished (foldl timer_env t (clock_events es)) = true.
Proof.
  revert t. induction es as [|[e|e] es IH]; intros t; simpl; [by intros ?%elem_of_nil|apply IH|].
  intros H. assert (EIter i true ∈ timed_events t es ∨ timer_finished t = true) as [Hin|Hf].
  { destruct e as [j|j s|j]; apply elem_of_cons in H as [H|H]; auto; try discriminate H.
    right. injection H as _ H. symmetry in H. by apply andb_prop in H as [_ ?]. }
  - by apply IH.
  - by apply finished_monotone.
Qed.

Lemma timed_moves_true t ms i :
  TaskMove i true ∈ timed_moves t ms → timer_finished (foldl timer_env t (clock_events ms)) = true.
Proof.
  revert t. induction ms as [|[e|e] ms IH]; intros t; simpl; [by intros ?%elem_of_nil|apply IH|].
  intros H. assert (TaskMove i true ∈ timed_moves t ms ∨ timer_finished t = true) as [Hin|Hf].
  { destruct e as [|j s]; apply elem_of_cons in H as [H|H]; auto; try discriminate H.
    right. injection H as _ H. symmetry in H. by apply andb_prop in H as [_ ?]. }
  - by apply IH.
  - by apply finished_monotone.
Qed.

(** ** First the clock, then the threads *)

Lemma clock_events_early {A} evs (xs : list A) : clock_events (map inl evs ++ map inr xs) = evs.
Proof.
  induction evs as [|e evs IH].
  - induction xs as [|x xs IH]; [done|]. exact IH.
  - change (e :: clock_events (map inl evs ++ map inr xs) = e :: evs). by rewrite IH.
Qed.

Lemma timed_events_early t evs es :
  (∀ i, EIter i true ∈ es → timer_finished (foldl timer_env t evs) = true) →
  timed_events t (map inl evs ++ map inr es) = es.
Proof.
  revert t. induction evs as [|e evs IH]; intros t H; [|by apply IH].
  cbn [map app foldl] in *. induction es as [|e es IH]; [done|]. cbn [map timed_events].
  rewrite IH by (intros i Hi; apply (H i), elem_of_cons; by right).
  destruct e as [j|j [|]|j]; [done| |done..]. rewrite (H j); [done|]. apply elem_of_cons. by left.
Qed.

Lemma timed_moves_early t evs ms :
  (∀ i, TaskMove i true ∈ ms → timer_finished (foldl timer_env t evs) = true) →
  timed_moves t (map inl evs ++ map inr ms) = ms.
Proof.
  revert t. induction evs as [|e evs IH]; intros t H; [|by apply IH].
  cbn [map app foldl] in *. induction ms as [|e ms IH]; [done|]. cbn [map timed_moves].
  rewrite IH by (intros i Hi; apply (H i), elem_of_cons; by right).
  destruct e as [|j [|]]; [done| |done]. rewrite (H j); [done|]. apply elem_of_cons. by left.
Qed.

(** ** The same results *)

Lemma fine_to_coarse_true bd debug ms w adj g nthreads prob bound o :
  2 ≤ nthreads →
  fine_search bd debug ms (w_hash_order w) adj g nthreads
    (match prob with Some a => Some (a, w_samples w) | None => None end) bound = Some o →
  ∃ fuel es, (∀ i, EIter i true ∈ es → TaskMove i true ∈ ms) ∧
    search bd (mkWorld fuel (w_timer w) es (w_hash_order w) (w_samples w)) adj g nthreads prob bound = Some o.
Proof.
  intros Hn H. destruct (search_scheduler adj g) as [root|] eqn:E.
  - destruct (proj1 (fine_search_fine _ _ _ _ _ _ _ _ _ _ _ E) H) as (f & r & Hrun & Hres & ->).
    apply refines_run in Hrun as [_ Href]. eapply refines_result in Href as (fuel & es & Hs & Ha); [|done].
    exists fuel, es. split; [done|]. apply (search_threaded _ _ _ _ _ _ _ _ _ Hn E). by exists r.
  - unfold fine_search in H. rewrite E in H. injection H as <-. exists 0, []. split.
    + by intros i ?%elem_of_nil.
    + unfold search. destruct (Nat.ltb_spec nthreads 2); [lia|]. by rewrite E.
Qed.

Lemma coarse_to_fine_true bd debug w adj g nthreads prob bound o :
  2 ≤ nthreads →
  search bd w adj g nthreads prob bound = Some o →
  ∃ ms, (∀ i, TaskMove i true ∈ ms → EIter i true ∈ w_events w) ∧
    fine_search bd debug ms (w_hash_order w) adj g nthreads
      (match prob with Some a => Some (a, w_samples w) | None => None end) bound = Some o.
Proof.
  intros Hn H. destruct (search_scheduler adj g) as [root|] eqn:E.
  - destruct (proj1 (search_threaded _ _ _ _ _ _ _ _ _ Hn E) H) as (r & Hs & ->).
    apply (realised bd debug) in Hs as (ms & f & Hrun & Hres & Ha). exists ms. split; [done|].
    apply (fine_search_fine _ _ _ _ _ _ _ _ _ _ _ E). by exists f, r.
  - unfold search in H. destruct (Nat.ltb_spec nthreads 2); [lia|]. rewrite E in H. injection H as <-.
    exists []. split.
    + by intros i ?%elem_of_nil.
    + unfold fine_search. by rewrite E.
Qed.

Lemma run_moves_same :
  ∀ bd debug env adj g timeout nthreads bound prob evs o, 2 ≤ nthreads →
  (∃ ms, clock_events ms = evs ∧
     run_moves bd debug ms env adj g timeout nthreads bound prob = Some o) ↔
  (∃ fuel es, clock_events es = evs ∧
     run bd fuel (with_events env es) adj g true timeout nthreads bound prob = Some o).
Proof.
  intros bd debug env adj g timeout nthreads bound prob evs o Hn.
  set (p := match prob with Some (f, _) => Some (get_accept_func (e_exp env) f) | None => None end).
  set (samples := task_samples (e_generators env) nthreads (match prob with Some (_, s) => s | None => None end)).
  set (b := match bound with Some b => Z.of_N b | None => 100000%Z end).
  assert (match prob with
          | Some (func, seed) => Some (get_accept_func (e_exp env) func, task_samples (e_generators env) nthreads seed)
          | None => None end = match p with Some a => Some (a, samples) | None => None end) as Hp
    by (by destruct prob as [[f s]|]).
  split.
  - intros (ms & <- & H). unfold run_moves in H. rewrite Hp in H.
    apply (fine_to_coarse_true _ _ _ (mkWorld 0 (timer_answer timeout (e_clock env)) [] (e_hash_order env) samples))
      in H as (fuel & es & Ha & H); [|done].
    exists fuel, (map inl (clock_events ms) ++ map inr es). split; [apply clock_events_early|].
    unfold run. cbn [negb]. unfold world_of. cbn [with_events e_clock e_events e_hash_order e_generators e_exp].
    rewrite timed_events_early; [exact H|]. intros i Hi%Ha. by eapply timed_moves_true.
  - intros (fuel & es & <- & H). unfold run in H. cbn [negb] in H. apply (coarse_to_fine_true bd debug) in H as (ms & Ha & H); [|done].
    unfold world_of in Ha, H. cbn [with_events e_clock e_events e_hash_order e_generators e_exp w_events w_hash_order w_samples] in Ha, H.
    exists (map inl (clock_events es) ++ map inr ms). split; [apply clock_events_early|].
    unfold run_moves. rewrite Hp. rewrite timed_moves_early; [exact H|].
    intros i Hi%Ha. by eapply timed_events_true.
Qed.

(** ** What follows for [run] *)

Lemma run_moves_valid :
  ∀ bd debug ms env adj g timeout nthreads bound prob o,
  wf_input adj g → 2 ≤ nthreads → (∀ l, e_hash_order env l ≡ₚ l) →
  run_moves bd debug ms env adj g timeout nthreads bound prob = Some o →
  (∃ ps, o = Val ps ∧ Forall (path_ok adj g) ps ∧ tradeoff ps) ∨
  o = Panic ∧ ¬ calm_function
    (match prob with Some (f, _) => Some (get_accept_func (e_exp env) f) | None => None end).
Proof.
  intros bd debug ms env adj g timeout nthreads bound prob o Hin Hn Hho H. unfold run_moves in H.
  destruct prob as [[f s]|]; [eapply (moves_valid _ _ _ _ _ _ _ (Some _)) in H; eauto|].
  eapply (moves_valid _ _ _ _ _ _ _ None (λ _ _, f64_one)) in H; eauto.
Qed.

Lemma run_moves_first :
  ∀ bd debug ms env adj g timeout nthreads bound o,
  wf_input adj g → 2 ≤ nthreads → (∀ l, e_hash_order env l ≡ₚ l) → (∃ b, listed g b) →
  (timeout = None ∨ ∃ d, timeout = Some d ∧ ticks (clock_events ms) ≤ d) →
  run_moves bd debug ms env adj g timeout nthreads bound None = Some o →
  ∃ p ps, o = Val (p :: ps) ∧ ∀ σ, valid_schedule g σ → time p ≤ time_cost σ.
Proof.
  intros bd debug ms env adj g timeout nthreads bound o Hin Hn Hho Hl Hto H. unfold run_moves in H.
  eapply moves_first in H; [exact H|done..|]. apply no_timeout_moves_true. intros i Hi.
  apply timed_moves_true in Hi. destruct Hto as [->|(d & -> & Hd)].
  - by rewrite idle_timer in Hi.
  - apply busy_timer in Hi. lia.
Qed.

(** ** A single threaded search with relaxed reads *)

(** The timer thread as late as the reads suggest. *)
Definition late_clock (clock : nat → list timer_event) (reads : nat → bool) (k : nat) : list timer_event :=
  if existsb reads (seq 0 k) then clock k
  else if reads k then List.concat (map clock (seq 0 (S k))) else [].

Lemma concat_seq_S {A} (f : nat → list A) k :
  List.concat (map f (seq 0 (S k))) = List.concat (map f (seq 0 k)) ++ f k.
Proof. rewrite seq_S, map_app, List.concat_app. simpl. by rewrite app_nil_r. Qed.

Lemma late_clock_prefix clock reads k :
  List.concat (map (late_clock clock reads) (seq 0 k)) =
  if existsb reads (seq 0 k) then List.concat (map clock (seq 0 k)) else [].
Proof.
  induction k as [|k IH]; [done|]. rewrite !concat_seq_S, IH. rewrite seq_S, existsb_app. simpl.
  rewrite orb_false_r. unfold late_clock. destruct (existsb reads (seq 0 k)); [done|].
  destruct (reads k); [by rewrite concat_seq_S|done].
Qed.

Lemma relaxed_answers :
  ∀ timeout clock reads, relaxed_reads (timer_answer timeout clock) reads →
  ∃ clock', (∀ k, timer_answer timeout clock' k = reads k) ∧
    (* no time is invented *)
    ∀ k, ticks (List.concat (map clock' (seq 0 k))) ≤ ticks (List.concat (map clock (seq 0 k))).
Proof.
  intros timeout clock reads [Hw Hm]. exists (late_clock clock reads). split.
  - intros k. unfold timer_answer. rewrite late_clock_prefix. destruct (existsb reads (seq 0 (S k))) eqn:E.
    + apply existsb_exists in E as (j & Hj & Hr). apply in_seq in Hj.
      assert (reads k = true) as Hk by (apply (Hm j); [lia|done]). rewrite Hk. by apply Hw.
    + destruct (reads k) eqn:Hk.
      * exfalso. assert (existsb reads (seq 0 (S k)) = true) as E'; [|congruence].
        apply existsb_exists. exists k. split; [|done]. apply in_seq. lia.
      * by destruct timeout.
  - intros k. rewrite late_clock_prefix. destruct (existsb _ _); [done|]. unfold ticks. simpl. lia.
Qed.

Lemma relaxed_search :
  ∀ bd fuel env adj g timeout nthreads bound prob reads, nthreads ≤ 1 →
  relaxed_reads (timer_answer timeout (e_clock env)) reads →
  ∃ clock', (∀ k, ticks (List.concat (map clock' (seq 0 k))) ≤ ticks (List.concat (map (e_clock env) (seq 0 k)))) ∧
  (* a search with the answers [reads] is a run with the clock [clock'] *)
  search bd
    (mkWorld fuel reads [] (e_hash_order env)
       (task_samples (e_generators env) nthreads (match prob with Some (_, seed) => seed | None => None end)))
    adj g nthreads (match prob with Some (f, _) => Some (get_accept_func (e_exp env) f) | None => None end)
    (match bound with Some b => Z.of_N b | None => 100000%Z end)
  = run bd fuel (mkEnv clock' (e_events env) (e_hash_order env) (e_generators env) (e_exp env))
      adj g true timeout nthreads bound prob.
Proof.
  intros bd fuel env adj g timeout nthreads bound prob reads Hn Hr.
  destruct (relaxed_answers _ _ _ Hr) as (clock' & Ha & Ht). exists clock'. split; [done|].
  unfold run, search. cbn [negb]. destruct (Nat.ltb_spec nthreads 2) as [_|?]; [|lia].
  unfold world_of. cbn [w_fuel w_timer w_hash_order w_samples e_clock e_events e_hash_order e_generators e_exp].
  rewrite (search_single_timer _ _ reads (timer_answer timeout clock')) by (intros k; by rewrite Ha).
  by destruct prob as [[f [s|]]|].
Qed.
