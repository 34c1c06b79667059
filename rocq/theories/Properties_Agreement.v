(** * Properties: one thread and several threads

    Which of the results about complete searches hold for several threads as well. *)
From Verif Require Import MainAgreement Check.
From Verif Require Import Spec.

(** ** C94: one thread and several threads *)

(** No run is better than an uninterrupted deterministic search with one thread: the
    lower bounds for its results are lower bounds for all runs. *)
Theorem C94_matched :
  ∀ adj g qs env do_search timeout nthreads bound prob bd fuel ps,
  wf_input adj g → (∃ b, listed g b) → searched adj g qs → (∀ l, e_hash_order env l ≡ₚ l) →
  run bd fuel env adj g do_search timeout nthreads bound prob = Some (Val ps) →
  ∀ p, p ∈ ps → ∃ q, q ∈ qs ∧ time q ≤ time p ∧ (space q <= space p)%N.
Proof. exact run_matched. Qed.
Print Assumptions C94_matched.

(** Several threads find the same trade-offs if no other task ends or exchanges anything
    while a task that makes an exchange is running, for every number of threads and every
    task bound: then everything that holds for the costs with one thread holds with
    several threads. *)
Theorem C94_threads :
  ∀ adj g qs env timeout nthreads bound bd fuel o,
  wf_input adj g → (∃ b, listed g b) → searched adj g qs → (∀ l, e_hash_order env l ≡ₚ l) → 2 ≤ nthreads →
  no_timeout (timed_events (search_timer timeout) (e_events env)) →
  undisturbed (timed_events (search_timer timeout) (e_events env)) →
  run bd fuel env adj g true timeout nthreads bound None = Some o →
  ∃ ps, o = Val ps ∧ costs ps = costs qs.
Proof. exact run_threads_costs. Qed.
Print Assumptions C94_threads.

(** Two pairs of qubits, two workers whose iterations alternate. *)
Definition two_pairs : spacial := [[2]; [3]; [0]; [1]].
Definition two_pairs_order : order := [[(0, []); (1, [])]; [(2, [0]); (3, [1])]].
Definition turns : list event :=
  EStart 0 :: EStart 1 :: concat (repeat [EIter 0 false; EIter 1 false] 5) ++
  EEnd 0 :: EStart 2 :: concat (repeat [EIter 1 false; EIter 2 false] 7) ++
  EEnd 1 :: EStart 3 :: repeat (EIter 2 false) 5 ++ [EEnd 2; EIter 3 false; EEnd 3].
Definition agree_env : Env := mkEnv (λ _, []) (map inr turns) id idle_gen (λ x, x).

Lemma agree_searched adj g ps :
  run Debug 2000 agree_env adj g true None 1 None None = Some (Val ps) → searched adj g ps.
Proof.
  intros E. exists agree_env, None, 1, None, Debug. split; [done|]. split; [done|]. split; [done|].
  eapply finishes_of; [|exact E]. intros fuel fuel' r. apply search_single_mono.
Qed.

Example C94_example :
  wf_input two_pairs two_pairs_order ∧
  no_timeout (timed_events (search_timer None) (e_events agree_env)) ∧
  undisturbed (timed_events (search_timer None) (e_events agree_env)) ∧
  (∃ qs, searched two_pairs two_pairs_order qs ∧ costs qs = [(2, 4%N); (3, 3%N); (4, 2%N)]) ∧
  run Debug 100 agree_env two_pairs two_pairs_order true None 2 (Some 0%N) None =
    Some (Val [MkPath 2 4 [[0; 1]; [2; 3]]; MkPath 3 3 [[0]; [1; 2]; [3]]; MkPath 4 2 [[0]; [2]; [1]; [3]]]).
Proof.
  assert (timed_events (search_timer None) (e_events agree_env) = turns) as -> by by vm_compute.
  split; [by apply wf_input_checked; vm_compute|]. split; [|split; [|split]].
  - intros i fin Hi. unfold turns in Hi. rewrite !elem_of_cons, !elem_of_app in Hi. simpl in Hi.
    rewrite ?elem_of_cons, ?elem_of_app, ?elem_of_cons, ?elem_of_nil in Hi. simpl in Hi.
    rewrite ?elem_of_cons, ?elem_of_nil in Hi. destruct_or? Hi; by simplify_eq.
  - intros before i between e after E Hi. exfalso. unfold iterations in Hi.
    assert (length (filter (λ e, is_iteration i e = true) turns) ≤ length turns) as Hle by apply filter_length.
    assert (length turns ≤ 100) as Hlen by (apply (bool_decide_unpack _); by vm_compute). lia.
  - eexists. split; [apply agree_searched; vm_compute; reflexivity|]. reflexivity.
  - by vm_compute.
Qed.
