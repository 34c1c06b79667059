(** * Properties: the single threaded search

    The vocabulary of the statements is in [Spec.v] and [Histories.v].  In all
    statements [timer k] is the answer of the [k]-th look at the timer, [ho] the
    order in which the hash map of the results is iterated and [prob] the accept
    function together with the random samples, if there are any. *)
From Verif Require Import MainSearch Check.

(** ** C16: debug and release builds behave identically *)

Theorem C16_build_search :
  ∀ adj g timer ho prob fuel, wf_input adj g →
  search_single Debug fuel timer ho adj g prob = search_single Release fuel timer ho adj g prob ∧
  (calm prob → ∀ bd, search_single bd fuel timer ho adj g prob ≠ Some Panic).
Proof. exact build_search. Qed.
Print Assumptions C16_build_search.

Theorem C16_build_manual :
  ∀ T (mT : MeasurableSet T) (lT : LawfulMeasurableSet T) adj g σ (s : Scheduler T) M,
  wf_input adj g → scheduler_reached adj g σ s →
  scheduler_focus_inplace Debug s M = scheduler_focus_inplace Release s M ∧
  scheduler_focus Debug s M = scheduler_focus Release s M ∧
  time_focus_inplace Debug (s_time s) M = time_focus_inplace Release (s_time s) M ∧
  time_focus Debug (s_time s) M = time_focus Release (s_time s) M ∧
  (length M ≤ length (ms_set (measurable (s_time s))) →
     ∀ bd, scheduler_focus_inplace bd s M ≠ Panic ∧ scheduler_focus bd s M ≠ Panic).
Proof. exact build_manual. Qed.
Print Assumptions C16_build_manual.

Theorem C16_build_graph :
  ∀ adj σ gr M, wf_spacial adj → graph_reached adj σ gr →
  graph_focus_inplace Debug gr M = graph_focus_inplace Release gr M ∧
  graph_focus Debug gr M = graph_focus Release gr M ∧
  ((∀ v, v ∈ M → v < length adj) →
     ∀ bd, graph_focus_inplace bd gr M ≠ Panic ∧ graph_focus bd gr M ≠ Panic).
Proof. exact build_graph. Qed.
Print Assumptions C16_build_graph.

(** ** C17, C18, C19: run without search *)

Theorem C17_time_optimal_path :
  ∀ adj g, wf_input adj g →
  ∃ p, (∀ bd, returns (λ fuel, get_time_optimal bd fuel adj g) [p]) ∧ path_ok adj g p.
Proof. exact time_optimal_path. Qed.
Print Assumptions C17_time_optimal_path.

Theorem C18_time_optimal_fastest :
  ∀ adj g p bd, wf_input adj g → returns (λ fuel, get_time_optimal bd fuel adj g) [p] →
  (∀ σ, valid_schedule g σ → time p ≤ time_cost σ) ∧
  (* the time is the length of a longest dependency chain *)
  (∃ l, chained g l ∧ (∀ b, b ∈ l → listed g b) ∧ length l = time p) ∧
  (∀ l, chained g l → (∀ b, b ∈ l → listed g b) → length l ≤ time p).
Proof. exact time_optimal_fastest. Qed.
Print Assumptions C18_time_optimal_fastest.

Theorem C19_time_optimal_layers :
  ∀ adj g p bd, wf_input adj g → returns (λ fuel, get_time_optimal bd fuel adj g) [p] → canonical g →
  same_schedule (steps p) (filter (λ M : step, M ≠ []) (layers g)).
Proof. exact time_optimal_layers. Qed.
Print Assumptions C19_time_optimal_layers.

(** The hypotheses hold for the graphs of the test suite, also with [canonical]. *)
Example C17_example :
  wf_input square square_order ∧ wf_input fourier fourier_order ∧
  get_time_optimal Release 100 square square_order
  = Some (Val [MkPath 3 3 [[0]; [3; 1]; [2]]]).
Proof. split; [apply square_wf|]. split; [apply fourier_wf|]. by vm_compute. Qed.

Example C18_example : chained square_order [0; 3; 2].
Proof.
  split; [|split; [|done]].
  - exists [(3, [0]); (1, [0])], [0]. by rewrite !elem_of_list_In; simpl; tauto.
  - exists [(2, [3])], [3]. by rewrite !elem_of_list_In; simpl; tauto.
Qed.

Example C19_example : canonical square_order.
Proof.
  intros k layer layer' b ds H1 H2 Hb. destruct k as [|[|k]]; simpl in *; simplify_eq; apply elem_of_list_In in Hb; simpl in Hb.
  - destruct Hb as [[= <- <-]|[[= <- <-]|[]]]; exists 0; split; left.
  - destruct Hb as [[= <- <-]|[]]; exists 3; split; left.
Qed.

(** ** C20, C21, C26: paths returned by a search *)

Theorem C20_search_paths :
  ∀ adj g timer ho prob bd ps, wf_input adj g → (∀ l, ho l ≡ₚ l) →
  returns (λ fuel, search_single bd fuel timer ho adj g prob) ps → Forall (path_ok adj g) ps.
Proof. exact search_paths. Qed.
Print Assumptions C20_search_paths.

Theorem C26_search_returns :
  ∀ adj g timer ho prob, wf_input adj g → (∀ l, ho l ≡ₚ l) → calm prob →
  ∃ ps, ∀ bd, returns (λ fuel, search_single bd fuel timer ho adj g prob) ps.
Proof. exact search_returns. Qed.
Print Assumptions C26_search_returns.

Theorem C21_search_tradeoff :
  ∀ adj g timer ho prob bd fuel ps, (∀ l, ho l ≡ₚ l) →
  search_single bd fuel timer ho adj g prob = Some (Val ps) → tradeoff ps.
Proof. exact search_tradeoff. Qed.
Print Assumptions C21_search_tradeoff.

Example C20_example :
  wf_input pairs pairs_order ∧
  search_single Debug 1000 (λ k, k =? 9) (@rev _) pairs pairs_order None
  = Some (Val [MkPath 2 4 [[0; 1]; [2; 3]]; MkPath 3 3 [[1]; [0; 3]; [2]]]).
Proof. split; [apply pairs_wf|]. by vm_compute. Qed.

(** ** C22: the exhaustive search returns the exact Pareto front *)

Theorem C22_search_optimal :
  ∀ adj g ho, wf_input adj g → (∀ l, ho l ≡ₚ l) → (∃ b, listed g b) →
  ∃ ps, (∀ bd, returns (λ fuel, search_single bd fuel (λ _, false) ho adj g None) ps) ∧
    pareto_front adj g ps ∧
    (* every returned path is Pareto optimal *)
    (∀ p σ, p ∈ ps → valid_schedule g σ → time_cost σ ≤ time p →
       (N.of_nat (space_cost adj σ) <= space p)%N →
       time_cost σ = time p ∧ N.of_nat (space_cost adj σ) = space p) ∧
    (* the first one is time optimal, the last one space optimal *)
    (∃ p, head ps = Some p ∧ ∀ σ, valid_schedule g σ → time p ≤ time_cost σ) ∧
    (∃ p, last ps = Some p ∧ ∀ σ, valid_schedule g σ → (space p <= N.of_nat (space_cost adj σ))%N).
Proof. exact search_optimal. Qed.
Print Assumptions C22_search_optimal.

Example C22_example :
  search_single Debug 1000 (λ _, false) id pairs pairs_order None
  = Some (Val [MkPath 2 4 [[0; 1]; [2; 3]]; MkPath 3 3 [[1]; [0; 3]; [2]];
               MkPath 4 2 [[1]; [3]; [0]; [2]]]).
Proof. by vm_compute. Qed.

(** ** C23: a deterministic search that returns anything returns a time optimal path first *)

Theorem C23_search_first :
  ∀ adj g timer ho, wf_input adj g → (∀ l, ho l ≡ₚ l) →
  ∃ ps, (∀ bd, returns (λ fuel, search_single bd fuel timer ho adj g None) ps) ∧
    (ps = [] ∨ ∃ p, head ps = Some p ∧ ∀ σ, valid_schedule g σ → time p ≤ time_cost σ) ∧
    (* the timer answered "not finished" for as many iterations as some schedule has steps *)
    (∀ σ, valid_schedule g σ → σ ≠ [] → (∀ k, k < length σ → timer k = false) → ps ≠ []).
Proof. exact search_first. Qed.
Print Assumptions C23_search_first.

(** The bound on the number of iterations is met by the code: one less is not enough. *)
Example C23_example :
  search_single Debug 1000 (λ k, 2 <=? k) id pairs pairs_order None
  = Some (Val [MkPath 2 4 [[0; 1]; [2; 3]]]) ∧
  search_single Debug 1000 (λ k, 1 <=? k) id pairs pairs_order None = Some (Val []).
Proof. by split; vm_compute. Qed.

(** ** C24: searching longer never makes the result worse *)

Theorem C24_search_longer :
  ∀ adj g timer timer' ho ho' prob ps ps' bd bd', wf_input adj g → (∀ l, ho l ≡ₚ l) → (∀ l, ho' l ≡ₚ l) →
  (* the second timer does not finish earlier *)
  (∀ i, timer' i = true → ∃ j, j ≤ i ∧ timer j = true) →
  returns (λ fuel, search_single bd fuel timer ho adj g prob) ps →
  returns (λ fuel, search_single bd' fuel timer' ho' adj g prob) ps' →
  ∀ p, p ∈ ps → ∃ p', p' ∈ ps' ∧ time p' ≤ time p ∧ (space p' <= space p)%N.
Proof. exact search_longer. Qed.
Print Assumptions C24_search_longer.

(** ** C25: the search terminates on every input *)

Theorem C25_time_optimal_finishes :
  ∀ bd adj g, ∃ o, finishes (λ fuel, get_time_optimal bd fuel adj g) o.
Proof. exact time_optimal_finishes. Qed.
Print Assumptions C25_time_optimal_finishes.

Theorem C25_search_finishes :
  ∀ bd timer ho adj g prob, ∃ o, finishes (λ fuel, search_single bd fuel timer ho adj g prob) o.
Proof. exact search_finishes. Qed.
Print Assumptions C25_search_finishes.

(** ** C27: accept functions that accept everything or nothing *)

Theorem C27_accept_everything :
  ∀ adj g bd fuel timer ho acc smp,
  (∀ k a b c d e r n, ∃ x, acc k a b c d e r n = Val x ∧ SFleb f64_one x = true) →
  search_single bd fuel timer ho adj g (Some (acc, smp)) = search_single bd fuel timer ho adj g None.
Proof. exact accept_everything. Qed.
Print Assumptions C27_accept_everything.

Theorem C27_accept_nothing :
  ∀ adj g bd fuel timer ho acc smp o, (∀ l, ho l ≡ₚ l) →
  (* the function returns 0 or NaN and the samples are not negative *)
  (∀ k a b c d e r n, ∃ x, acc k a b c d e r n = Val x ∧ (x = S754_nan ∨ ∃ sg, x = S754_zero sg)) →
  (∀ k, SFleb (S754_zero false) (smp k) = true) →
  search_single bd fuel timer ho adj g (Some (acc, smp)) = Some o → o = Panic ∨ o = Val [].
Proof. exact accept_nothing. Qed.
Print Assumptions C27_accept_nothing.

(** The two hypotheses on the accept function. *)
Example C27_example :
  SFleb f64_one S754_nan = false ∧ SFleb f64_one f64_one = true ∧
  SFleb f64_one (S754_infinity false) = true.
Proof. done. Qed.

(** ** C29: the result does not depend on hash map iteration order *)

Theorem C29_search_hash_order :
  ∀ adj g timer ho ho' prob bd fuel, (∀ l, ho l ≡ₚ l) → (∀ l, ho' l ≡ₚ l) →
  search_single bd fuel timer ho adj g prob = search_single bd fuel timer ho' adj g prob.
Proof. exact search_hash_order. Qed.
Print Assumptions C29_search_hash_order.

(** ** C35: the reaction to the timeout of the single threaded search *)

Theorem C35_search_timeout :
  ∀ adj g bd timer ho prob k, timer k = true →
  ∃ o, search_single bd (S k) timer ho adj g prob = Some o.
Proof. exact search_timeout. Qed.
Print Assumptions C35_search_timeout.
