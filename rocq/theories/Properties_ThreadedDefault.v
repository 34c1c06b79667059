(** * Properties: the default accept function and several threads

    [exp] stands for [f64::exp], as in [Properties_Probabilistic.v]. *)
From Verif Require Import MainBenchmarkFull ThreadedWitness Check Properties_Probabilistic.
From Verif Require Import Spec.

(** ** C66: what the default accept function keeps when there are several threads *)

(** With one thread the first path is a fastest one (C45).  With several threads
    this holds if the first task copies the shared bounds before another task
    lowers them.  There is no condition on the timer: the task looks at it only
    after 1000 iterations, when the first descent is over. *)
Theorem C66_first :
  ∀ adj g nthreads exp bound bd w o,
  wf_input adj g → 2 ≤ nthreads → (∀ l, w_hash_order w l ≡ₚ l) → (∃ b, listed g b) →
  exp_function exp → exp_near_zero exp → length adj ≤ 1000 →
  (* until the first task starts, no task ends or reaches an exchange *)
  (∃ es1 es2, w_events w = es1 ++ EStart 0 :: es2 ∧
     (∀ i, EEnd i ∉ es1) ∧ (∀ i, iterations i es1 ≤ 1000)) →
  search bd w adj g nthreads (Some (get_accept_func exp accept_func_default)) bound = Some o →
  ∃ p ps, o = Val (p :: ps) ∧ ∀ σ, valid_schedule g σ → time p ≤ time_cost σ.
Proof. exact threaded_default_first. Qed.
Print Assumptions C66_first.

(** Otherwise it does not.  Task 1 goes through all it can find before task 0
    copies the shared bounds.  It finds a slow path that needs little space, so that
    the accept function, which compares with the last bound, turns every step of
    the only fast path down, whatever number is drawn. *)
Definition late_start : list event :=
  EStart 1 :: repeat (EIter 1 false) 12 ++ EEnd 1 :: EStart 0 :: repeat (EIter 0 false) 4 ++
  EEnd 0 :: EStart 2 :: repeat (EIter 2 false) 4 ++ [EEnd 2; EStart 3; EIter 3 false; EEnd 3].
Definition late_world (es : list event) : World := mkWorld 100 (λ _, false) es id (λ _ _, f64_half).
Definition late_paths : list path := [MkPath 3 3 [[1]; [0; 3]; [2]]; MkPath 4 2 [[1]; [3]; [0]; [2]]].

Lemma late_result bd :
  search bd (late_world late_start) pairs pairs_order 2
    (Some (get_accept_func crude_exp accept_func_default)) 100000 = Some (Val late_paths).
Proof. by destruct bd; vm_compute. Qed.

Lemma late_fastest : valid_schedule pairs_order [[0; 1]; [2; 3]].
Proof. apply valid_checked. by vm_compute. Qed.

Lemma late_listed : listed pairs_order 0.
Proof. apply (lp_listed _ _ (vs_legal _ _ late_fastest)). left. Qed.

Theorem C66_threaded_first_refuted :
  ¬ (∀ adj g nthreads exp bound bd w o,
     wf_input adj g → 2 ≤ nthreads → (∀ l, w_hash_order w l ≡ₚ l) → (∃ b, listed g b) →
     exp_function exp → exp_near_zero exp → length adj ≤ 1000 →
     no_timeout (w_events w) →
     search bd w adj g nthreads (Some (get_accept_func exp accept_func_default)) bound = Some o →
     ∃ p ps, o = Val (p :: ps) ∧ ∀ σ, valid_schedule g σ → time p ≤ time_cost σ).
Proof.
  intros H.
  destruct (H pairs pairs_order 2 crude_exp 100000%Z Debug (late_world late_start) (Val late_paths))
    as (p & ps & [= <- <-] & Hp).
  - exact pairs_wf.
  - done.
  - done.
  - exists 0. apply late_listed.
  - exact crude_exp_function.
  - exact crude_exp_near_zero.
  - vm_compute. lia.
  - by apply no_timeout_checked.
  - apply late_result.
  - specialize (Hp _ late_fastest). vm_compute in Hp. lia.
Qed.
Print Assumptions C66_threaded_first_refuted.

(** The same at the level of the locks. *)
Theorem C66_moves_first_refuted :
  ¬ (∀ adj g nthreads exp bound bd debug ms ho smp o,
     wf_input adj g → 2 ≤ nthreads → (∀ l, ho l ≡ₚ l) → (∃ b, listed g b) →
     exp_function exp → exp_near_zero exp → length adj ≤ 1000 →
     no_timeout_moves ms →
     fine_search bd debug ms ho adj g nthreads
       (Some (get_accept_func exp accept_func_default, smp)) bound = Some o →
     ∃ p ps, o = Val (p :: ps) ∧ ∀ σ, valid_schedule g σ → time p ≤ time_cost σ).
Proof.
  intros H.
  destruct (coarse_to_fine Debug true (late_world late_start) pairs pairs_order 2 _ 100000 _ (le_n 2)
    (late_result Debug)) as (ms & Hno & Hms).
  destruct (H pairs pairs_order 2 crude_exp 100000%Z Debug true ms id (λ _ _, f64_half) (Val late_paths))
    as (p & ps & [= <- <-] & Hp).
  - exact pairs_wf.
  - done.
  - done.
  - exists 0. apply late_listed.
  - exact crude_exp_function.
  - exact crude_exp_near_zero.
  - vm_compute. lia.
  - apply Hno. by apply no_timeout_checked.
  - exact Hms.
  - specialize (Hp _ late_fastest). vm_compute in Hp. lia.
Qed.
Print Assumptions C66_moves_first_refuted.

(** Task 0 starts while task 1 is at work, and in time. *)
Definition timely_start : list event :=
  EStart 1 :: repeat (EIter 1 true) 3 ++ EStart 0 :: repeat (EIter 1 true) 9 ++ EEnd 1 ::
  repeat (EIter 0 true) 5 ++
  EEnd 0 :: EStart 2 :: repeat (EIter 2 false) 4 ++ [EEnd 2; EStart 3; EIter 3 false; EEnd 3].

Example C66_example :
  (∃ es1 es2, timely_start = es1 ++ EStart 0 :: es2 ∧
     (∀ i, EEnd i ∉ es1) ∧ (∀ i, iterations i es1 ≤ 1000)) ∧
  search Debug (late_world timely_start) pairs pairs_order 2
    (Some (get_accept_func crude_exp accept_func_default)) 100000
  = Some (Val (MkPath 2 4 [[0; 1]; [2; 3]] :: late_paths)).
Proof.
  split; [|by vm_compute].
  exists (EStart 1 :: repeat (EIter 1 true) 3). eexists. split; [reflexivity|]. split.
  - intros i. cbn. rewrite !not_elem_of_cons. split_and!; try done. apply not_elem_of_nil.
  - intros i. etrans; [apply filter_length|]. simpl. lia.
Qed.

(** ** C67: with the default accept function the result is never empty *)

(** With one thread this follows from C45.  With several threads the fastest
    schedule can be lost (C66), but something is always found: until some task
    lowers the bounds, the first task accepts every step of its first descent.
    There is no condition on the timer or the interleaving. *)
Theorem C67_search :
  ∀ adj g nthreads exp bound bd w o,
  wf_input adj g → 2 ≤ nthreads → (∀ l, w_hash_order w l ≡ₚ l) → (∃ b, listed g b) →
  exp_function exp → exp_near_zero exp → length adj ≤ 1000 →
  search bd w adj g nthreads (Some (get_accept_func exp accept_func_default)) bound = Some o →
  ∃ p ps, o = Val (p :: ps).
Proof. exact threaded_default_nonempty. Qed.
Print Assumptions C67_search.
Theorem C67_run :
  ∀ adj g env timeout nthreads bound seed bd fuel o,
  wf_input adj g → (∀ l, e_hash_order env l ≡ₚ l) → (∃ b, listed g b) → 2 ≤ nthreads →
  exp_function (e_exp env) → exp_near_zero (e_exp env) → length adj ≤ 1000 →
  run bd fuel env adj g true timeout nthreads bound (Some (accept_func_default, seed)) = Some o →
  ∃ p ps, o = Val (p :: ps).
Proof. exact run_default_nonempty. Qed.
Print Assumptions C67_run.
Theorem C67_moves :
  ∀ adj g nthreads exp bound bd debug ms ho smp o,
  wf_input adj g → 2 ≤ nthreads → (∀ l, ho l ≡ₚ l) → (∃ b, listed g b) →
  exp_function exp → exp_near_zero exp → length adj ≤ 1000 →
  fine_search bd debug ms ho adj g nthreads
    (Some (get_accept_func exp accept_func_default, smp)) bound = Some o →
  ∃ p ps, o = Val (p :: ps).
Proof. exact moves_default_nonempty. Qed.
Print Assumptions C67_moves.

(** A search whose time is over whenever a task looks at the timer. *)
Example C67_example :
  search Debug (late_world (EStart 1 :: repeat (EIter 1 true) 12 ++ EEnd 1 :: EStart 0 ::
      repeat (EIter 0 true) 4 ++ EEnd 0 :: EStart 2 :: repeat (EIter 2 true) 4 ++
      [EEnd 2; EStart 3; EIter 3 true; EEnd 3]))
    pairs pairs_order 2 (Some (get_accept_func crude_exp accept_func_default)) 100000
  = Some (Val late_paths).
Proof. by vm_compute. Qed.

(** An accept function of the user may turn everything down, then the result is
    empty. *)
Example C67_other_functions :
  search Debug (late_world (EStart 0 :: repeat (EIter 0 false) 4 ++ EEnd 0 ::
      EStart 1 :: repeat (EIter 1 false) 4 ++ EEnd 1 :: EStart 2 :: repeat (EIter 2 false) 4 ++
      [EEnd 2; EStart 3; EIter 3 false; EEnd 3]))
    pairs pairs_order 2 (Some (λ _ _ _ _ _ _ _ _ _, Val f64_zero)) 100000
  = Some (Val []).
Proof. by vm_compute. Qed.
