(** * The entry points: proofs of the properties in [Properties_Interface.v] *)
From stdpp Require Import strings.
From Verif Require Export MainSearch MainThreaded ThreadedWitness TimerFacts Interface Executions.
From Verif Require Export Spec.

(** ** The timer of a search *)

Lemma timer_env_run t evs :
  ∃ es, timer_run t es = Some (foldl timer_env t evs) ∧ ticks es = ticks evs ∧ ∀ d, UStart d ∉ es.
Proof.
  revert t. induction evs as [|e evs IH]; intros t; [exists []; split; [done|split; [done|]]; intros d ?%elem_of_nil; done|].
  cbn [foldl]. destruct (IH (timer_env t e)) as (es & H1 & H2 & H3).
  rewrite (ticks_app [e] evs : ticks (e :: evs) = _).
  destruct e as [d| | |i|]; [by exists es; simpl in *..| |].
  - cbn [timer_env] in *. destruct (timer_exec t (TStep i)) as [t'|] eqn:E; cbn [default from_option id] in *.
    + exists (TStep i :: es). split; [cbn [timer_run]; by rewrite E|].
      split; [by rewrite (ticks_app [TStep i] es : ticks (TStep i :: es) = _), H2|].
      intros d. rewrite not_elem_of_cons. by split.
    + exists es. split; [done|]. split; [done|]. done.
  - exists (Tick :: es). split; [done|].
    split; [by rewrite (ticks_app [Tick] es : ticks (Tick :: es) = _), H2|].
    intros d. rewrite not_elem_of_cons. by split.
Qed.

Lemma idle_timer evs : timer_finished (foldl timer_env (search_timer None) evs) = false.
Proof.
  destruct (timer_env_run (search_timer None) evs) as (es & H1 & _ & H3).
  by eapply timer_never_started.
Qed.

(** The timer of a search with timeout [d] does not finish within [d]. *)
Lemma busy_timer d evs :
  timer_finished (foldl timer_env (search_timer (Some d)) evs) = true → d < ticks evs.
Proof.
  intros Hf. destruct (timer_env_run (search_timer (Some d)) evs) as (es & H1 & H2 & H3).
  assert (timer_run (timer_new 0) (UStart d :: es) = Some (foldl timer_env (search_timer (Some d)) evs)) as H.
  { exact H1. }
  destruct (timer_not_early _ _ _ H Hf) as (d' & e1 & e2 & E & Hd).
  destruct e1 as [|e e1]; simpl in E.
  - injection E as <- <-. lia.
  - injection E as <- E. destruct (H3 d'). rewrite E. set_solver.
Qed.

Lemma timer_answer_none clock k : timer_answer None clock k = false.
Proof. apply idle_timer. Qed.

(** The clock ticks of a multi threaded execution. *)
Definition total_ticks (es : list (timer_event + event)) : nat :=
  ticks (omap (λ e, match e with inl e => Some e | inr _ => None end) es).

Lemma timed_events_elem timeout evs es i fin :
  EIter i fin ∈ timed_events (foldl timer_env (search_timer timeout) evs) es → fin = true →
  ∃ d, timeout = Some d ∧ d < ticks evs + total_ticks es.
Proof.
  revert evs. induction es as [|[e|e] es IH]; intros evs; simpl; [by intros ?%elem_of_nil|..].
  - intros H Hf. replace (timer_env (foldl timer_env (search_timer timeout) evs) e)
      with (foldl timer_env (search_timer timeout) (evs ++ [e])) in H by (by rewrite foldl_app).
    destruct (IH _ H Hf) as (d & Hd & Hlt). exists d. split; [done|].
    rewrite ticks_app in Hlt. unfold total_ticks. cbn [omap list_omap].
    rewrite (ticks_app [e] _ : ticks (e :: _) = _). unfold total_ticks in Hlt. lia.
  - intros H Hf. assert (EIter i fin ∈ timed_events (foldl timer_env (search_timer timeout) evs) es ∨
      timer_finished (foldl timer_env (search_timer timeout) evs) = true) as [Hin|Hfin].
    { destruct e as [j|j f|j]; apply elem_of_cons in H as [[=]|H]; auto.
      right. subst fin. by apply andb_prop in Hf as [_ ?]. }
    + destruct (IH _ Hin Hf) as (d & Hd & Hlt). exists d. split; [done|]. exact Hlt.
    + destruct timeout as [d|].
      * exists d. split; [done|]. apply busy_timer in Hfin. lia.
      * by rewrite idle_timer in Hfin.
Qed.

(** ** C38: dispatch *)

Lemma run_time_optimal :
  ∀ adj g, wf_input adj g →
  ∃ p, path_ok adj g p ∧ (∀ σ, valid_schedule g σ → time p ≤ time_cost σ) ∧
    ∀ bd env timeout nthreads task_bound probabilistic,
    returns (λ fuel, run bd fuel env adj g false timeout nthreads task_bound probabilistic) [p].
Proof.
  intros adj g Hin. destruct (time_optimal_valid adj g Hin) as (p & Hr & Hok & Hmin & _).
  exists p. split; [done|]. split; [done|]. intros. apply Hr.
Qed.

(** For every input, also malformed ones. *)
Lemma run_ignores_options :
  ∀ bd fuel adj g env env' timeout timeout' nthreads nthreads' bound bound' prob prob',
  run bd fuel env adj g false timeout nthreads bound prob =
  run bd fuel env' adj g false timeout' nthreads' bound' prob'.
Proof. done. Qed.

Lemma run_few_threads :
  ∀ bd fuel env adj g do_search timeout nthreads bound bound' prob,
  nthreads ≤ 1 →
  run bd fuel env adj g do_search timeout nthreads bound prob =
  run bd fuel env adj g do_search timeout 1 bound' prob.
Proof.
  intros bd fuel env adj g [] timeout nthreads bound bound' prob Hn; [|done].
  unfold run, search. simpl negb. cbv iota.
  assert (nthreads <? 2 = true) as -> by (apply Nat.ltb_lt; lia). simpl (1 <? 2). cbv iota.
  unfold world_of, task_samples. cbn [w_fuel w_timer w_hash_order w_samples].
  assert (nthreads <? 2 = true) as -> by (apply Nat.ltb_lt; lia). done.
Qed.

Lemma run_default_bound :
  ∀ bd fuel env adj g do_search timeout nthreads prob,
  run bd fuel env adj g do_search timeout nthreads None prob =
  run bd fuel env adj g do_search timeout nthreads (Some 100000%N) prob.
Proof. done. Qed.

(** ** What [run] returns *)

(** The accept function is a custom one, and it is not the case that all its
    calls return. *)
Definition may_panic (prob : option (AcceptFunc * option N)) : Prop :=
  ∃ f seed, prob = Some (Custom f, seed) ∧ ¬ ∀ i, never_panics (f i).

Lemma get_accept_func_calm exp (prob : option (AcceptFunc * option N)) :
  ¬ calm_function (match prob with Some (func, _) => Some (get_accept_func exp func) | None => None end) →
  may_panic prob.
Proof.
  destruct prob as [[[| |f] seed]|]; simpl; intros H; [by destruct H..| |by destruct H]. by exists f, seed.
Qed.

Lemma run_valid :
  ∀ adj g env do_search timeout nthreads bound prob bd fuel o,
  wf_input adj g → (∀ l, e_hash_order env l ≡ₚ l) →
  run bd fuel env adj g do_search timeout nthreads bound prob = Some o →
  (∃ ps, o = Val ps ∧ Forall (path_ok adj g) ps ∧ tradeoff ps) ∨
  o = Panic ∧ do_search = true ∧ may_panic prob.
Proof.
  intros adj g env do_search timeout nthreads bound prob bd fuel o Hin Hho H. destruct do_search.
  - unfold run in H. simpl negb in H. cbv iota in H.
    destruct (decide (2 ≤ nthreads)) as [Hn|Hn].
    + destruct (threaded_valid _ _ _ _ _ _ _ _ Hin Hn (Hho : ∀ l, w_hash_order (world_of fuel env timeout nthreads _) l ≡ₚ l) H)
        as [_ [?|[-> Hc]]]; [by left|]. right. split; [done|]. split; [done|]. by eapply get_accept_func_calm.
    + unfold search in H. assert (nthreads <? 2 = true) as E by (apply Nat.ltb_lt; lia). rewrite E in H.
      destruct o as [ps|].
      * left. exists ps. split; [done|]. split; [|by eapply search_tradeoff; [|exact H]].
        eapply search_paths; [done|exact Hho|]. exists fuel. intros fuel' Hf.
        eapply search_single_mono; [|exact Hf]. exact H.
      * right. split; [done|]. split; [done|]. apply (get_accept_func_calm (e_exp env)). intros Hc.
        refine (proj2 (build_search adj g _ _ _ fuel Hin) _ bd H). destruct prob as [[func seed]|]; [|done].
        apply (Hc 0).
  - destruct (run_time_optimal adj g Hin) as (p & Hp & _ & Hr).
    destruct (Hr bd env timeout nthreads bound prob) as (f0 & Hf).
    specialize (Hf (f0 + fuel) ltac:(lia)).
    unfold run in H, Hf. simpl negb in H, Hf. cbv iota in H, Hf.
    eapply get_time_optimal_mono in H; [|apply (Nat.le_add_l fuel f0)].
    assert (o = Val [p]) as -> by congruence. left. exists [p]. split; [done|]. split; [by constructor|].
    intros i j q q' Hij Hi Hj. apply lookup_lt_Some in Hj. simpl in Hj. lia.
Qed.

Lemma run_calm_valid adj g env do_search timeout nthreads bound prob bd fuel o :
  wf_input adj g → (∀ l, e_hash_order env l ≡ₚ l) → ¬ may_panic prob →
  run bd fuel env adj g do_search timeout nthreads bound prob = Some o →
  ∃ ps, o = Val ps ∧ Forall (path_ok adj g) ps ∧ tradeoff ps.
Proof. intros H1 H2 H3 H4. by destruct (run_valid _ _ _ _ _ _ _ _ _ _ _ H1 H2 H4) as [?|(_ & _ & ?)]. Qed.

Lemma none_calm : ¬ may_panic None.
Proof. by intros (? & ? & ? & _). Qed.
Lemma builtin_calm seed : ¬ may_panic (Some (BuiltinHeavyside, seed)).
Proof. by intros (? & ? & ? & _). Qed.

(** Not interrupted: no timeout, or the clock stays within the timeout. *)
Definition within (timeout : option nat) (clock : nat → list timer_event) : Prop :=
  match timeout with
  | None => True
  | Some d => ∀ k, ticks (List.concat (map clock (seq 0 k))) ≤ d
  end.

Lemma within_answer timeout clock k : within timeout clock → timer_answer timeout clock k = false.
Proof.
  destruct timeout as [d|]; [|intros _; apply timer_answer_none]. intros H.
  destruct (timer_answer (Some d) clock k) eqn:E; [|done]. apply busy_timer in E.
  specialize (H (S k)). lia.
Qed.

Lemma loop_ext_all {S R} (b1 b2 : S → out (S + R)) fuel s :
  (∀ s, b1 s = b2 s) → loop b1 fuel s = loop b2 fuel s.
Proof.
  intros H. revert s. induction fuel as [|fuel IH]; intros s; [done|]. cbn [loop]. rewrite H.
  destruct (b2 s) as [[s'|r]|]; [apply IH|done..].
Qed.

Lemma search_single_timer bd fuel timer timer' ho adj g prob :
  (∀ k, timer k = timer' k) →
  search_single bd fuel timer ho adj g prob = search_single bd fuel timer' ho adj g prob.
Proof.
  intros Ht. unfold search_single. destruct (search_scheduler adj g) as [s|]; [|done].
  destruct prob as [[acc smp]|].
  - unfold do_probabilistic_search.
    rewrite (loop_ext_all _ (do_probabilistic_search_body bd timer' acc smp)); [done|].
    intros s0. unfold do_probabilistic_search_body. by rewrite Ht.
  - unfold do_search. rewrite (loop_ext_all _ (do_search_body bd timer')); [done|].
    intros s0. unfold do_search_body. by rewrite Ht.
Qed.

Lemma run_single_within bd fuel env adj g timeout nthreads bound prob :
  nthreads ≤ 1 → within timeout (e_clock env) →
  run bd fuel env adj g true timeout nthreads bound prob =
  search_single bd fuel (λ _, false) (e_hash_order env) adj g
    (match prob with
     | Some (f, seed) => Some (get_accept_func (e_exp env) f 0,
         match seed with Some s => seeded_samples (e_generators env) s
                       | None => entropy_samples (e_generators env) end)
     | None => None end).
Proof.
  intros Hn Hw. rewrite (run_few_threads _ _ _ _ _ _ _ _ _ None _ Hn). unfold run, search. simpl negb. cbv iota.
  simpl (1 <? 2). cbv iota. unfold world_of, task_samples. cbn [w_fuel w_timer w_hash_order w_samples].
  simpl (1 <? 2). cbv iota.
  rewrite (search_single_timer _ _ _ (λ _, false)) by (intros k; by apply within_answer).
  f_equal. destruct prob as [[f seed]|]; done.
Qed.

Lemma run_optimal :
  ∀ adj g env timeout nthreads bound,
  wf_input adj g → (∀ l, e_hash_order env l ≡ₚ l) → (∃ b, listed g b) →
  nthreads ≤ 1 → within timeout (e_clock env) →
  ∃ ps, pareto_front adj g ps ∧
    ∀ bd, returns (λ fuel, run bd fuel env adj g true timeout nthreads bound None) ps.
Proof.
  intros adj g env timeout nthreads bound Hin Hho Hl Hn Hw.
  destruct (search_optimal adj g (e_hash_order env) Hin Hho Hl) as (ps & Hr & Hp & _).
  exists ps. split; [done|]. intros bd. destruct (Hr bd) as (f0 & Hf). exists f0. intros fuel Hfu.
  rewrite run_single_within by done. by apply Hf.
Qed.

Lemma run_threaded_time_optimal :
  ∀ adj g env timeout nthreads bound bd fuel o,
  wf_input adj g → (∀ l, e_hash_order env l ≡ₚ l) → (∃ b, listed g b) → 2 ≤ nthreads →
  (timeout = None ∨ ∃ d, timeout = Some d ∧ total_ticks (e_events env) ≤ d) →
  run bd fuel env adj g true timeout nthreads bound None = Some o →
  ∃ p ps, o = Val (p :: ps) ∧ ∀ σ, valid_schedule g σ → time p ≤ time_cost σ.
Proof.
  intros adj g env timeout nthreads bound bd fuel o Hin Hho Hl Hn Hto H.
  unfold run in H. simpl negb in H. cbv iota in H.
  edestruct (threaded_first adj g nthreads) as (p & ps & -> & Hmin & _); [done|done| |done| |exact H|]; [done| |].
  - intros i fin Hi. unfold world_of in Hi. cbn [w_events] in Hi. destruct fin; [|done]. exfalso.
    destruct (timed_events_elem timeout [] _ i true Hi eq_refl) as (d & -> & Hd).
    destruct Hto as [?|(d' & [= <-] & Hle)]; [done|]. unfold ticks in Hd. simpl in Hd. lia.
  - by exists p, ps.
Qed.

(** ** Reproducibility *)

Lemma run_reproducible :
  ∀ adj g env env' nthreads nthreads' bound bound' f seed bd fuel,
  nthreads ≤ 1 → nthreads' ≤ 1 →
  (∀ l, e_hash_order env l ≡ₚ l) → (∀ l, e_hash_order env' l ≡ₚ l) →
  (* the two runs have in common: the generator for this seed, the exponential *)
  seeded_samples (e_generators env) seed = seeded_samples (e_generators env') seed →
  e_exp env = e_exp env' →
  run bd fuel env adj g true None nthreads bound (Some (f, Some seed)) =
  run bd fuel env' adj g true None nthreads' bound' (Some (f, Some seed)).
Proof.
  intros adj g env env' nthreads nthreads' bound bound' f seed bd fuel Hn Hn' Hho Hho' Hs He.
  rewrite !run_single_within by done. rewrite Hs, He. by apply search_hash_order.
Qed.

Definition idle_gen : Generators := mkGenerators (λ _ _, f64_one) (λ _ _, 0%N) (λ _, f64_one) (λ _, 0%N).
Definition lossy_env (es : list event) : Env :=
  mkEnv (λ _, []) (map inr es) id idle_gen (λ x, x).
Definition patient_events : list event :=
  EStart 0 :: repeat (EIter 0 false) 146 ++ EEnd 0 ::
  EStart 1 :: repeat (EIter 1 false) 1410 ++ EEnd 1 ::
  EStart 2 :: repeat (EIter 2 false) 594 ++ EEnd 2 ::
  EStart 3 :: [EIter 3 false; EEnd 3].

Lemma run_threaded_not_reproducible :
  ¬ ∀ adj g env env' nthreads bound prob bd fuel ps ps',
    wf_input adj g → (∀ l, e_hash_order env l ≡ₚ l) → 2 ≤ nthreads →
    (* the two runs differ in the interleaving of the threads only *)
    e_hash_order env = e_hash_order env' → e_generators env = e_generators env' →
    e_clock env = e_clock env' → e_exp env = e_exp env' →
    run bd fuel env adj g true None nthreads bound prob = Some (Val ps) →
    run bd fuel env' adj g true None nthreads bound prob = Some (Val ps') →
    map (λ p, (time p, space p)) ps = map (λ p, (time p, space p)) ps'.
Proof.
  intros H.
  destruct (run Debug 100 (lossy_env patient_events) lossy lossy_order true None 2 None None) as [[ps|]|] eqn:E1;
    [|by vm_compute in E1..].
  destruct (run Debug 100 (lossy_env lossy_events) lossy lossy_order true None 2 None None) as [[ps'|]|] eqn:E2;
    [|by vm_compute in E2..].
  assert (map (λ p, (time p, space p)) ps = map (λ p, (time p, space p)) ps') as Heq.
  { eapply (H lossy lossy_order (lossy_env patient_events) (lossy_env lossy_events) 2 None None Debug 100);
      [apply lossy_wf|done|done|done|done|done|done|exact E1|exact E2]. }
  vm_compute in E1, E2. injection E1 as <-. injection E2 as <-. discriminate Heq.
Qed.

(** ** C39: files *)

(** The file [p.1] can be read and contains, in the format [p.2], the value [a]. *)
Definition holds_value {A} (json bincode : bytes → option A) (os : System_) (fs : Files)
    (p : string * string) (a : A) : Prop :=
  os_open_fails os p.1 = false ∧ ∃ b, f_contents fs !! p.1 = Some b ∧
  (p.2 = "serde_json"%string ∧ json b = Some a ∨ p.2 = "bincode"%string ∧ bincode b = Some a).
Definition holds_spacial (os : System_) := holds_value (json_spacial os) (bincode_spacial os) os.
Definition holds_order (os : System_) := holds_value (json_order os) (bincode_order os) os.

(** The encoding of paths in a format, if the format is known. *)
Definition encoding (os : System_) (format : string) (ps : list path) : option bytes :=
  if String.eqb format "serde_json" then Some (json_paths os ps)
  else if String.eqb format "bincode" then Some (bincode_paths os ps)
  else None.

Lemma deserialize_spec {A} (json bincode : bytes → option A) os fs p a :
  deserialize_from_file json bincode os fs p.1 p.2 = Ok a ↔ holds_value json bincode os fs p a.
Proof.
  unfold deserialize_from_file, holds_value, open.
  destruct (String.eqb_spec p.2 "serde_json") as [E1|E1]; [|destruct (String.eqb_spec p.2 "bincode") as [E2|E2]].
  - destruct (os_open_fails os p.1); [split; [done|intros [? _]; done]|].
    destruct (f_contents fs !! p.1) as [b|]; [|split; [done|intros (_ & b & ? & _); done]].
    split.
    + intros H. split; [done|]. exists b. split; [done|]. left. split; [done|]. by destruct (json b); simplify_eq.
    + intros (_ & b' & [= <-] & [[_ ->]|[E _]]); [done|]. by rewrite E1 in E.
  - destruct (os_open_fails os p.1); [split; [done|intros [? _]; done]|].
    destruct (f_contents fs !! p.1) as [b|]; [|split; [done|intros (_ & b & ? & _); done]].
    split.
    + intros H. split; [done|]. exists b. split; [done|]. right. split; [done|]. by destruct (bincode b); simplify_eq.
    + intros (_ & b' & [= <-] & [[E _]|[_ ->]]); [|done]. by rewrite E2 in E.
  - split; [done|]. intros (_ & b & _ & [[? _]|[? _]]); done.
Qed.

Lemma run_serialized_inputs :
  ∀ bd fuel env os fs sg dg do_search timeout nthreads bound prob paths,
  (¬ ∃ adj, holds_spacial os fs sg adj) ∨ (¬ ∃ g, holds_order os fs dg g) →
  ∃ e, run_serialized bd fuel env os fs sg dg do_search timeout nthreads bound prob paths
       = Some (Val (fs, Err e)).
Proof.
  intros bd fuel env os fs sg dg do_search timeout nthreads bound prob paths H. unfold run_serialized.
  destruct (deserialize_from_file _ _ os fs sg.1 sg.2) as [adj|e] eqn:E1; [|by exists e].
  destruct (deserialize_from_file _ _ os fs dg.1 dg.2) as [g|e] eqn:E2; [|by exists e].
  exfalso. apply deserialize_spec in E1. apply deserialize_spec in E2.
  destruct H as [H|H]; apply H; eauto.
Qed.

Lemma run_serialized_unknown_input :
  ∀ bd fuel env os fs sg dg do_search timeout nthreads bound prob paths,
  sg.2 ≠ "serde_json"%string → sg.2 ≠ "bincode"%string →
  run_serialized bd fuel env os fs sg dg do_search timeout nthreads bound prob paths
  = Some (Val (fs, Err (UnknownFormat sg.2))).
Proof.
  intros bd fuel env os fs sg dg do_search timeout nthreads bound prob paths H1 H2.
  unfold run_serialized, deserialize_from_file.
  destruct (String.eqb_spec sg.2 "serde_json"); [done|]. by destruct (String.eqb_spec sg.2 "bincode").
Qed.

(** Both inputs can be read: what happens is determined by [run]. *)
Lemma run_serialized_run bd fuel env os fs sg dg do_search timeout nthreads bound prob paths adj g :
  holds_spacial os fs sg adj → holds_order os fs dg g →
  run_serialized bd fuel env os fs sg dg do_search timeout nthreads bound prob paths =
  match run bd fuel env adj g do_search timeout nthreads bound
          (option_map (λ f, (f, None)) prob) with
  | Some (Val ps) => Some (Val (serialize_to_file os fs paths.1 ps paths.2))
  | Some Panic => Some Panic
  | None => None
  end.
Proof.
  intros H1%deserialize_spec H2%deserialize_spec. unfold run_serialized. rewrite H1, H2.
  by destruct prob.
Qed.

Lemma serialize_frame os fs p ps fmt fs' r :
  serialize_to_file os fs p ps fmt = (fs', r) →
  (∀ q, q ≠ p → f_contents fs' !! q = f_contents fs !! q) ∧
  match r with
  | Ok _ => ∃ b, encoding os fmt ps = Some b ∧ f_contents fs' = <[p := b]> (f_contents fs)
  | Err e =>
      f_contents fs' = f_contents fs ∨
      ∃ b n, encoding os fmt ps = Some b ∧ n < length b ∧ f_contents fs' !! p = Some (take n b)
  end.
Proof.
  unfold serialize_to_file.
  assert (∀ b, match create os fs p with
     | (fs0, Ok _) => write os fs0 p b | (fs0, Err e) => (fs0, Err e) end = (fs', r) →
     (∀ q, q ≠ p → f_contents fs' !! q = f_contents fs !! q) ∧
     match r with
     | Ok _ => f_contents fs' = <[p := b]> (f_contents fs)
     | Err e => f_contents fs' = f_contents fs ∨ ∃ n, n < length b ∧ f_contents fs' !! p = Some (take n b)
     end) as Hput.
  { intros b. unfold create.
    destruct (match os_parent os p with Some (parent, all) => _ | None => _ end) as [dirs|]; [|intros [= <- <-]; by auto].
    destruct (os_create_fails os p); [intros [= <- <-]; by auto|]. unfold write. simpl.
    destruct (os_write_limit os p) as [n|]; [destruct (Nat.ltb_spec n (length b))|];
      intros [= <- <-]; simpl; (split; [intros q Hq; by rewrite !lookup_insert_ne|]).
    - right. exists n. split; [done|]. by rewrite lookup_insert.
    - by rewrite insert_insert.
    - by rewrite insert_insert. }
  unfold encoding.
  destruct (String.eqb fmt "serde_json"); [|destruct (String.eqb fmt "bincode")].
  - intros [H1 H2]%Hput. split; [done|]. destruct r as [u|e]; [by eauto|].
    destruct H2 as [H2|(n & Hn & H2)]; [by left|]. right. eauto.
  - intros [H1 H2]%Hput. split; [done|]. destruct r as [u|e]; [by eauto|].
    destruct H2 as [H2|(n & Hn & H2)]; [by left|]. right. eauto.
  - intros [= <- <-]. by auto.
Qed.

(** All outcomes: no other file is ever changed; success means that the complete
    result is there; after an error the output is as before, or writing it was
    interrupted. *)
Lemma run_serialized_outcome :
  ∀ bd fuel env os fs sg dg do_search timeout nthreads bound prob paths fs' r,
  run_serialized bd fuel env os fs sg dg do_search timeout nthreads bound prob paths = Some (Val (fs', r)) →
  (∀ q, q ≠ paths.1 → f_contents fs' !! q = f_contents fs !! q) ∧
  match r with
  | Ok _ => ∃ adj g ps b, holds_spacial os fs sg adj ∧ holds_order os fs dg g ∧
      (* without a seed *)
      run bd fuel env adj g do_search timeout nthreads bound (option_map (λ f, (f, None)) prob) = Some (Val ps) ∧
      encoding os paths.2 ps = Some b ∧ f_contents fs' = <[paths.1 := b]> (f_contents fs)
  | Err e =>
      f_contents fs' = f_contents fs ∨
      ∃ ps b n, encoding os paths.2 ps = Some b ∧ n < length b ∧
        f_contents fs' !! paths.1 = Some (take n b)
  end.
Proof.
  intros bd fuel env os fs sg dg do_search timeout nthreads bound prob paths fs' r H.
  destruct (deserialize_from_file (json_spacial os) (bincode_spacial os) os fs sg.1 sg.2) as [adj|e] eqn:E1.
  2:{ unfold run_serialized in H. rewrite E1 in H. injection H as <- <-. by auto. }
  destruct (deserialize_from_file (json_order os) (bincode_order os) os fs dg.1 dg.2) as [g|e] eqn:E2.
  2:{ unfold run_serialized in H. rewrite E1, E2 in H. injection H as <- <-. by auto. }
  apply deserialize_spec in E1. apply deserialize_spec in E2.
  rewrite (run_serialized_run _ _ _ _ _ _ _ _ _ _ _ _ _ adj g E1 E2) in H.
  destruct (run _ _ _ _ _ _ _ _ _ _) as [[ps|]|] eqn:Er; [|done..]. injection H as H.
  apply serialize_frame in H as [H1 H2]. split; [done|]. destruct r as [u|e].
  - destruct H2 as (b & Hb & H2). by exists adj, g, ps, b.
  - destruct H2 as [H2|(b & n & Hb & Hn & H2)]; [by left|]. right. by exists ps, b, n.
Qed.

(** The output format is looked at after the search, before the file is created. *)
Lemma run_serialized_unknown_output :
  ∀ bd fuel env os fs sg dg do_search timeout nthreads bound prob paths adj g,
  paths.2 ≠ "serde_json"%string → paths.2 ≠ "bincode"%string →
  holds_spacial os fs sg adj → holds_order os fs dg g →
  run_serialized bd fuel env os fs sg dg do_search timeout nthreads bound prob paths =
  match run bd fuel env adj g do_search timeout nthreads bound (option_map (λ f, (f, None)) prob) with
  | Some (Val _) => Some (Val (fs, Err (UnknownFormat paths.2)))
  | Some Panic => Some Panic
  | None => None
  end.
Proof.
  intros bd fuel env os fs sg dg do_search timeout nthreads bound prob paths adj g H1 H2 Ha Hg.
  rewrite (run_serialized_run _ _ _ _ _ _ _ _ _ _ _ _ _ adj g Ha Hg).
  destruct (run _ _ _ _ _ _ _ _ _ _) as [[ps|]|]; [|done..]. unfold serialize_to_file.
  destruct (String.eqb_spec paths.2 "serde_json"); [done|]. by destruct (String.eqb_spec paths.2 "bincode").
Qed.

(** No failure of the operating system when writing to [p]. *)
Definition writable (os : System_) (p : string) : Prop :=
  os_create_fails os p = false ∧ os_write_limit os p = None ∧
  match os_parent os p with Some (d, _) => os_mkdir_fails os d = false | None => True end.

Lemma serialize_writable os fs p ps fmt b :
  writable os p → encoding os fmt ps = Some b →
  ∃ fs', serialize_to_file os fs p ps fmt = (fs', Ok tt) ∧ f_contents fs' = <[p := b]> (f_contents fs).
Proof.
  intros (H1 & H2 & H3) Hb.
  assert (∃ fs', match create os fs p with
     | (fs0, Ok _) => write os fs0 p b | (fs0, Err e) => (fs0, Err e) end = (fs', Ok tt) ∧
     f_contents fs' = <[p := b]> (f_contents fs)) as Hput.
  { unfold create. destruct (os_parent os p) as [[d all]|]; [rewrite H3|]; rewrite H1; unfold write; rewrite H2;
      simpl; eexists; (split; [done|]); simpl; by rewrite insert_insert. }
  unfold encoding in Hb. unfold serialize_to_file.
  destruct (String.eqb fmt "serde_json"); [by simplify_eq|].
  destruct (String.eqb fmt "bincode"); by simplify_eq.
Qed.

(** From the command line to the file: a search without timeout, with one thread
    and without [-p] ends, and the output file then contains the exact Pareto
    front; all other files are as before. *)
Lemma main_optimal :
  ∀ env os fs args adj g,
  holds_spacial os fs (a_spacial_graph args, a_spacial_graph_format args) adj →
  holds_order os fs (a_dependency_graph args, a_dependency_graph_format args) g →
  writable os (a_paths args) →
  (a_paths_format args = "serde_json"%string ∨ a_paths_format args = "bincode"%string) →
  wf_input adj g → (∀ l, e_hash_order env l ≡ₚ l) → (∃ b, listed g b) →
  a_search args = true → a_timeout args = None → a_nthreads args ≤ 1 → a_probabilistic args = false →
  ∃ ps b, pareto_front adj g ps ∧ encoding os (a_paths_format args) ps = Some b ∧
    ∃ fs', f_contents fs' = <[a_paths args := b]> (f_contents fs) ∧
      ∀ bd, returns (λ fuel, main bd fuel env os fs args) fs'.
Proof.
  intros env os fs args adj g Ha Hg Hw Hf Hin Hho Hl Hs Ht Hn Hp.
  destruct (run_optimal adj g env None (a_nthreads args) (a_task_bound args) Hin Hho Hl Hn I) as (ps & Hps & Hr).
  assert (∃ b, encoding os (a_paths_format args) ps = Some b) as [b Hb].
  { destruct Hf as [-> | ->]; by eexists. }
  destruct (serialize_writable os fs _ ps _ b Hw Hb) as (fs' & Es & Ec).
  exists ps, b. split; [done|]. split; [done|]. exists fs'. split; [done|].
  intros bd. destruct (Hr bd) as (f0 & Hf0). exists f0. intros fuel Hfu. unfold main.
  rewrite (run_serialized_run _ _ _ _ _ _ _ _ _ _ _ _ _ adj g Ha Hg).
  rewrite Hs, Ht, Hp. cbn [option_map fst snd]. rewrite Hf0 by done. by rewrite Es.
Qed.

(** The binary ends normally iff [run_serialized] succeeds. *)
Lemma main_exit :
  ∀ bd fuel env os fs args fs',
  main bd fuel env os fs args = Some (Val fs') ↔
  run_serialized bd fuel env os fs
    (a_spacial_graph args, a_spacial_graph_format args)
    (a_dependency_graph args, a_dependency_graph_format args) (a_search args)
    (* seconds *)
    (option_map (λ t, N.to_nat (t * 10 ^ 9)) (a_timeout args))
    (a_nthreads args) (a_task_bound args)
    (if a_probabilistic args then Some BuiltinHeavyside else None)
    (a_paths args, a_paths_format args) = Some (Val (fs', Ok tt)).
Proof.
  intros bd fuel env os fs args fs'. unfold main.
  change (λ t : N, N.to_nat (t * 10 ^ 9)) with from_secs.
  destruct (run_serialized _ _ _ _ _ _ _ _ _ _ _ _) as [[[fs1 [[]|e]]|]|]; split; intros H; simplify_eq; done.
Qed.
