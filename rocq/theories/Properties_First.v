(** * Properties: the first path

    The documentation of [run]: "do_search determines whether to search for all best
    paths or just take the first one, which is the time optimal path", "if the timeout is
    too short, i.e., shorter than how long it would take to get the first path, [...]
    empty list", "the algorithm always first tries the more time optimal patterns"
    (interface.rs:39-70).  [timer_answer timeout clock k] is what the timer answers after
    iteration number [k], counted from 0. *)
From Verif Require Import MainFirst Check.
From Verif Require Import Spec.

(** ** C77: the first path of the search and the path without search *)

(** The first path of a single threaded search is the path of a run without search,
    exactly; it is complete after one iteration more than it has steps. *)
Theorem C77_first_path :
  ∀ adj g env timeout nthreads bound,
  wf_input adj g → (∀ l, e_hash_order env l ≡ₚ l) → (∃ b, listed g b) → nthreads ≤ 1 →
  let over := timer_answer timeout (e_clock env) in
  ∃ p ps,
    (∀ bd timeout' nthreads' bound' prob',
       returns (λ fuel, run bd fuel env adj g false timeout' nthreads' bound' prob') [p]) ∧
    (∀ bd, returns (λ fuel, run bd fuel env adj g true timeout nthreads bound None) ps) ∧
    (* interrupted before the first path is complete: nothing *)
    (∀ k, k < time p → over k = true → ps = []) ∧
    (* interrupted as soon as the first path is complete: the path without search *)
    ((∀ k, k < time p → over k = false) → over (time p) = true → ps = [p]) ∧
    (* otherwise the first one of the list is as fast and needs no more space *)
    ((∀ k, k < time p → over k = false) →
     ∃ q, head ps = Some q ∧ time q = time p ∧ (space q <= space p)%N).
Proof. exact run_first_path. Qed.
Print Assumptions C77_first_path.

(** A clock that ticks once before every poll; timeouts after one and two ticks. *)
Example C77_example :
  let env := mkEnv (λ _, [TStep 0; Tick; TStep 0; TStep 0]) [] id idle_gen (λ x, x) in
  run Debug 100 env pairs pairs_order true (Some 1) 1 None None = Some (Val []) ∧
  run Debug 100 env pairs pairs_order true (Some 2) 1 None None
  = run Release 100 env pairs pairs_order false None 7 None None ∧
  run Debug 100 env pairs pairs_order false None 0 None None
  = Some (Val [MkPath 2 4 [[0; 1]; [2; 3]]]) ∧
  map (timer_answer (Some 2) (e_clock env)) [0; 1; 2] = [false; false; true].
Proof. by vm_compute. Qed.

(** Four qubits without edges, the last one after the first one. *)
Definition lazy : spacial := [[]; []; []; []].
Definition lazy_order : order := [[(0, []); (1, []); (2, [])]; [(3, [0])]].

Lemma lazy_wf : wf_input lazy lazy_order.
Proof. by apply wf_input_checked; vm_compute. Qed.

(** But it is not always the first path of the list that a complete search returns: a
    later one with the same number of steps may replace it. *)
Theorem C77_first_listed_refuted :
  ¬ (∀ adj g bd env p ps,
     wf_input adj g → (∀ l, e_hash_order env l ≡ₚ l) → (∃ b, listed g b) →
     returns (λ fuel, run bd fuel env adj g false None 1 None None) [p] →
     returns (λ fuel, run bd fuel env adj g true None 1 None None) ps →
     head ps = Some p).
Proof.
  intros H. set (env := mkEnv (λ _, []) [] id idle_gen (λ x, x)).
  assert (run Debug 1000 env lazy lazy_order false None 1 None None
          = Some (Val [MkPath 2 3 [[0; 1; 2]; [3]]])) as E1 by by vm_compute.
  assert (run Debug 1000 env lazy lazy_order true None 1 None None
          = Some (Val [MkPath 2 2 [[0; 2]; [1; 3]]; MkPath 4 1 [[2]; [1]; [0]; [3]]])) as E2 by by vm_compute.
  assert (head [MkPath 2 2 [[0; 2]; [1; 3]]; MkPath 4 1 [[2]; [1]; [0]; [3]]]
          = Some (MkPath 2 3 [[0; 1; 2]; [3]])) as Hbad; [|done].
  apply (H lazy lazy_order Debug env); [exact lazy_wf|done|exists 0, [(0, []); (1, []); (2, [])], []; split; left| |].
  - eapply finishes_of; [|exact E1]. intros fuel fuel' r. apply get_time_optimal_mono.
  - eapply finishes_of; [|exact E2]. intros fuel fuel' r. apply search_single_mono.
Qed.
Print Assumptions C77_first_listed_refuted.

(** The order in which a sweep, and hence a search (see C50), comes across the
    schedules: at each point steps with more measurements come first. *)
Theorem C77_order :
  ∀ adj g, wf_input adj g →
  ∃ t all, from_dependency_graph g (dependency_buffer_new (length adj)) None = Val t ∧
    (∀ bd, returns (λ fuel, get_all_paths (H := scheduler_focus_iterator bd) fuel []
                              (mkScheduler t (graph_new adj))) all) ∧
    (* of two schedules with a common beginning, that which measures more in the next
       step comes first *)
    ∀ i j p A B σ τ m m', i < j →
      all !! i = Some (p ++ A :: σ, m) → all !! j = Some (p ++ B :: τ, m') → length B ≤ length A.
Proof. exact sweep_order. Qed.
Print Assumptions C77_order.

(** This does not sort the schedules by their length. *)
Theorem C77_sorted_refuted :
  ¬ (∀ adj g bd t all i j σ τ m m',
     wf_input adj g → from_dependency_graph g (dependency_buffer_new (length adj)) None = Val t →
     returns (λ fuel, get_all_paths (H := scheduler_focus_iterator bd) fuel []
                        (mkScheduler t (graph_new adj))) all →
     i < j → all !! i = Some (σ, m) → all !! j = Some (τ, m') → time_cost σ ≤ time_cost τ).
Proof.
  intros H. destruct (from_dependency_graph square_order (dependency_buffer_new 4) None) as [t|] eqn:Et;
    [|by vm_compute in Et].
  assert (∃ all, get_all_paths (H := scheduler_focus_iterator Debug) 100 [] (mkScheduler t (graph_new Check.square))
            = Some (Val all) ∧
          map fst all = [[[0]; [3; 1]; [2]]; [[0]; [1]; [3]; [2]]; [[0]; [3]; [1; 2]];
                         [[0]; [3]; [2]; [1]]; [[0]; [3]; [1]; [2]]]) as (all & E & Ha).
  { vm_compute in Et. injection Et as <-. eexists. split; by vm_compute. }
  destruct all as [|x [|[σ m] [|[τ m'] all]]]; try done. injection Ha as _ Hσ Hτ _. simpl in Hσ, Hτ. subst σ τ.
  assert (time_cost [[0]; [1]; [3]; [2]] ≤ time_cost [[0]; [3]; [1; 2]]) as Hbad.
  { eapply (H Check.square square_order Debug t (x :: ([[0]; [1]; [3]; [2]], m) :: ([[0]; [3]; [1; 2]], m') :: all) 1 2); [exact square_wf|exact Et| |lia|done|done].
    eapply finishes_of; [|exact E]. intros fuel fuel' r Hr Hle. by eapply loop_mono. }
  unfold time_cost in Hbad. simpl in Hbad. lia.
Qed.
Print Assumptions C77_sorted_refuted.
