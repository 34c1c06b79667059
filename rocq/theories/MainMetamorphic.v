(** * Final statements about related inputs *)
From Verif Require Export MainInterface Metamorphic FirstFacts.

(** A single threaded search without accept function that is not interrupted. *)
Lemma run_exact bd env adj g timeout nthreads bound ps :
  nthreads ≤ 1 → within timeout (e_clock env) →
  returns (λ fuel, run bd fuel env adj g true timeout nthreads bound None) ps →
  returns (λ fuel, search_single bd fuel (λ _, false) (e_hash_order env) adj g None) ps.
Proof.
  intros Hn Hw [f0 Hr]. exists f0. intros fuel Hf. specialize (Hr fuel Hf).
  by rewrite run_single_within in Hr by done.
Qed.

Lemma run_renamed :
  ∀ f b adj g adj' g' env env' timeout timeout' nthreads nthreads' bound bound' bd bd' ps ps',
  wf_input adj g → wf_input adj' g' →
  (∀ l, e_hash_order env l ≡ₚ l) → (∀ l, e_hash_order env' l ≡ₚ l) →
  nthreads ≤ 1 → nthreads' ≤ 1 → within timeout (e_clock env) → within timeout' (e_clock env') →
  renamed f b adj g adj' g' →
  returns (λ fuel, run bd fuel env adj g true timeout nthreads bound None) ps →
  returns (λ fuel, run bd' fuel env' adj' g' true timeout' nthreads' bound' None) ps' →
  costs ps = costs ps'.
Proof.
  intros f b adj g adj' g' env env' timeout timeout' nthreads nthreads' bound bound' bd bd' ps ps'
    Hin Hin' Hho Hho' Hn Hn' Hw Hw' Hr Hps Hps'.
  apply run_exact in Hps; [|done|done]. apply run_exact in Hps'; [|done|done].
  exact (search_renamed f b adj g adj' g' _ _ bd bd' ps ps' Hin Hin' Hho Hho' Hr Hps Hps').
Qed.

Lemma run_renamed_time :
  ∀ f b adj g adj' g' env env' timeout timeout' nthreads nthreads' bound bound' prob prob' bd bd' p p',
  wf_input adj g → wf_input adj' g' → renamed f b adj g adj' g' →
  returns (λ fuel, run bd fuel env adj g false timeout nthreads bound prob) [p] →
  returns (λ fuel, run bd' fuel env' adj' g' false timeout' nthreads' bound' prob') [p'] →
  same_schedule (map (map f) (steps p)) (steps p') ∧ time p = time p' ∧ space p = space p'.
Proof.
  intros f b adj g adj' g' env env' timeout timeout' nthreads nthreads' bound bound' prob prob' bd bd' p p'
    Hin Hin' Hr Hp Hp'.
  exact (time_optimal_renamed f b adj g adj' g' bd bd' p p' Hin Hin' Hr Hp Hp').
Qed.

Lemma run_relaxed :
  ∀ adj g adj' g' env env' timeout timeout' nthreads nthreads' bound bound' bd bd' ps ps',
  wf_input adj g → wf_input adj' g' →
  (∀ l, e_hash_order env l ≡ₚ l) → (∀ l, e_hash_order env' l ≡ₚ l) →
  nthreads ≤ 1 → nthreads' ≤ 1 → within timeout (e_clock env) → within timeout' (e_clock env') →
  relaxed adj g adj' g' →
  returns (λ fuel, run bd fuel env adj g true timeout nthreads bound None) ps →
  returns (λ fuel, run bd' fuel env' adj' g' true timeout' nthreads' bound' None) ps' →
  ∀ p, p ∈ ps → ∃ p', p' ∈ ps' ∧ time p' ≤ time p ∧ (space p' <= space p)%N.
Proof.
  intros adj g adj' g' env env' timeout timeout' nthreads nthreads' bound bound' bd bd' ps ps'
    Hin Hin' Hho Hho' Hn Hn' Hw Hw' Hx Hps Hps'.
  apply run_exact in Hps; [|done|done]. apply run_exact in Hps'; [|done|done].
  exact (search_relaxed adj g adj' g' _ _ bd bd' ps ps' Hin Hin' Hho Hho' Hx Hps Hps').
Qed.

Lemma run_relaxed_time :
  ∀ adj g adj' g' env env' timeout timeout' nthreads nthreads' bound bound' prob prob' bd bd' p p',
  wf_input adj g → wf_input adj' g' → relaxed adj g adj' g' →
  returns (λ fuel, run bd fuel env adj g false timeout nthreads bound prob) [p] →
  returns (λ fuel, run bd' fuel env' adj' g' false timeout' nthreads' bound' prob') [p'] →
  time p' ≤ time p.
Proof.
  intros adj g adj' g' env env' timeout timeout' nthreads nthreads' bound bound' prob prob' bd bd' p p'
    Hin Hin' Hx Hp Hp'.
  destruct (time_optimal_greedy adj g bd p Hin Hp) as [(Hv & Ht & _) _].
  destruct (time_optimal_fastest adj' g' p' bd' Hin' Hp') as [H _]. rewrite Ht.
  apply H. by eapply relaxed_valid.
Qed.

Lemma run_sequential :
  ∀ adj g env timeout nthreads bound bd ps,
  wf_input adj g → (∀ l, e_hash_order env l ≡ₚ l) → (∃ b, listed g b) →
  nthreads ≤ 1 → within timeout (e_clock env) →
  returns (λ fuel, run bd fuel env adj g true timeout nthreads bound None) ps →
  ∃ p, last ps = Some p ∧
    (∃ σ, valid_schedule g σ ∧ sequential σ ∧ space p = N.of_nat (space_cost adj σ)) ∧
    ∀ σ, valid_schedule g σ → sequential σ → (space p <= N.of_nat (space_cost adj σ))%N.
Proof.
  intros adj g env timeout nthreads bound bd ps Hin Hho Hl Hn Hw Hps.
  apply run_exact in Hps; [|done|done]. exact (search_sequential adj g _ bd ps Hin Hho Hl Hps).
Qed.

Lemma run_bounds :
  ∀ adj g env do_search timeout nthreads bound prob bd fuel ps,
  wf_input adj g → (∀ l, e_hash_order env l ≡ₚ l) → (∃ b, listed g b) →
  run bd fuel env adj g do_search timeout nthreads bound prob = Some (Val ps) →
  length ps ≤ length (qubits g) ∧
  ∀ p, p ∈ ps → 1 ≤ time p ≤ length (qubits g) ∧ (1 <= space p <= N.of_nat (length adj))%N.
Proof.
  intros adj g env do_search timeout nthreads bound prob bd fuel ps Hin Hho Hl Hr.
  destruct (run_valid adj g env do_search timeout nthreads bound prob bd fuel _ Hin Hho Hr)
    as [(ps' & [= <-] & Hok & Ht)|[? _]]; [|done].
  exact (paths_bounds adj g ps Hin Hl Hok Ht).
Qed.

Lemma run_earliest :
  ∀ adj g env timeout nthreads bound prob bd p, wf_input adj g →
  returns (λ fuel, run bd fuel env adj g false timeout nthreads bound prob) [p] →
  ∀ k S b, steps p !! k = Some S → b ∈ S →
  (* after a chain of [k] dependencies *)
  (∃ l, length l = k ∧ chained g (l ++ [b]) ∧ ∀ c, c ∈ l → listed g c) ∧
  (* no legal schedule measures the qubit earlier *)
  ∀ σ j S', legal_prefix g σ → σ !! j = Some S' → b ∈ S' → k ≤ j.
Proof.
  intros adj g env timeout nthreads bound prob bd p Hin Hp. exact (time_optimal_earliest adj g bd p Hin Hp).
Qed.

(** *** The search and the enumeration of all schedules *)

Lemma run_selects :
  ∀ adj g env timeout nthreads bound, wf_input adj g → (∀ l, e_hash_order env l ≡ₚ l) → nthreads ≤ 1 →
  ∃ t all seen rest ps,
    from_dependency_graph g (dependency_buffer_new (length adj)) None = Val t ∧
    (* all schedules in the order in which a sweep finds them *)
    (∀ bd, returns (λ fuel, get_all_paths (H := scheduler_focus_iterator bd) fuel []
                              (mkScheduler t (graph_new adj))) all) ∧
    (∀ bd, returns (λ fuel, run bd fuel env adj g true timeout nthreads bound None) ps) ∧
    (* the search gets to a certain point of the sweep, without an interruption to its end *)
    all = seen ++ rest ∧ (within timeout (e_clock env) → rest = []) ∧
    (* and returns exactly what a look at all these schedules selects *)
    ∀ p, p ∈ ps ↔ selected seen p.
Proof.
  intros adj g env timeout nthreads bound Hin Hho Hn.
  destruct (search_selects adj g (timer_answer timeout (e_clock env)) (e_hash_order env) Hin Hho)
    as (t & all & seen & rest & ps & E & Hall & Hps & Es & Hrest & Hsel).
  exists t, all, seen, rest, ps. split; [done|]. split; [done|]. split; [|split; [done|split; [|done]]].
  - intros bd. destruct (Hps bd) as [f0 Hf]. exists f0. intros fuel Hfu. rewrite <- (Hf fuel Hfu).
    by rewrite (run_few_threads _ _ _ _ _ _ _ _ _ None _ Hn).
  - intros Hw. apply Hrest. intros k. by apply within_answer.
Qed.
