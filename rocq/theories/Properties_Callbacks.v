(** * Properties: what the search asks an accept function, and its panics

    [question], [known_limit], [possible_limit] and [extends] are defined in
    [Callbacks.v]. *)
From Verif Require Import MainCallbacks Check.

(** ** C48: the arguments of the accept function *)

(** Single threaded: only such questions are asked.  In the k-th call (the first is
    call 0) at least [k] iterations have been made, and the paths that count as
    known are those which the search would have returned if the timer had stopped it
    after the previous iteration. *)
Theorem C48_arguments :
  ∀ adj g ho acc acc' smp, wf_input adj g → (∀ l, ho l ≡ₚ l) →
  (* the answers agree, for the call number [k], when the paths [ps] are known *)
  (∀ k ps σ M a b c d e r n,
     (k = 0 ∧ ps = [] ∨
      ∃ i, k ≤ S i ∧ returns (λ fuel, search_single Debug fuel (λ j, i <=? j) ho adj g
                                        (Some (acc, smp))) ps) →
     question adj g (known_limit ps) σ M a b c d e r n →
     acc k a b c d e r n = acc' k a b c d e r n) →
  ∀ bd fuel timer,
    search_single bd fuel timer ho adj g (Some (acc, smp))
    = search_single bd fuel timer ho adj g (Some (acc', smp)).
Proof. exact accept_arguments. Qed.
Print Assumptions C48_arguments.

(** Any number of threads. *)
Theorem C48_arguments_threads :
  ∀ adj g acc acc', wf_input adj g →
  (∀ i k σ M a b c d e r n,
     question adj g (possible_limit adj g) σ M a b c d e r n →
     acc i k a b c d e r n = acc' i k a b c d e r n) →
  ∀ bd w nthreads task_bound, (∀ l, w_hash_order w l ≡ₚ l) →
    search bd w adj g nthreads (Some acc) task_bound
    = search bd w adj g nthreads (Some acc') task_bound.
Proof. exact search_arguments. Qed.
Print Assumptions C48_arguments_threads.

Notation nums l := (map f64_of_usize l%N) (only parsing).

(** Panics at exactly one question. *)
Definition trap (call : nat) (args : list f64) : Accept :=
  λ k a b c d e r n,
    if (k =? call) && forallb (λ p, SFeqb p.1 p.2) (zip [a; b; c; d; e; r; n] args)
    then Panic else Val f64_one.

(** The search puts exactly these seven questions to a function that always
    accepts; one that is not put, and one with the wrong number of the call. *)
Example C48_asked :
  map (λ q, search_single Debug 1000 (λ _, false) id pairs pairs_order
              (Some (trap q.1 q.2, λ _, S754_nan)))
    [(0, nums [usize_max; usize_max; 0; 0; 2; 0; 4]);
     (1, nums [usize_max; usize_max; 4; 2; 0; 0; 4]);
     (2, nums [4; 4; 0; 0; 1; 1; 4]);
     (3, nums [4; 4; 2; 1; 1; 0; 4]);
     (4, nums [4; 4; 3; 1; 0; 0; 4]);
     (5, nums [3; 3; 2; 1; 0; 1; 4]);
     (6, nums [3; 3; 2; 0; 1; 0; 4])]
  = replicate 7 (Some Panic) ∧
  map (λ q, search_single Debug 1000 (λ _, false) id pairs pairs_order
              (Some (trap q.1 q.2, λ _, S754_nan)))
    [(3, nums [4; 4; 2; 1; 1; 1; 4]); (2, nums [4; 4; 2; 1; 1; 0; 4])]
  = replicate 2 (Some (Val [MkPath 2 4 [[0; 1]; [2; 3]]; MkPath 3 3 [[1]; [0; 3]; [2]];
                            MkPath 4 2 [[1]; [3]; [0]; [2]]])).
Proof. by split; vm_compute. Qed.

(** The fourth of them: one path is known, qubit 1 has been measured, and 0 and 3
    are about to be measured; 2 is left, which is not blocked. *)
Example C48_question :
  question pairs pairs_order (known_limit [MkPath 2 4 [[0; 1]; [2; 3]]]) [[1]] [0; 3]
    (f64_of_usize 4) (f64_of_usize 4) (f64_of_usize 2) (f64_of_usize 1)
    (f64_of_usize 1) (f64_of_usize 0) (f64_of_usize 4).
Proof.
  assert (∀ b, b ∈ ([] : list nat) ↔ blocked pairs_order ([[1]] ++ [[0; 3]]) b) as Hb.
  { intros b. rewrite <- blocked_list_spec. done. }
  split; try done.
  - apply (legal_prefix_app _ _ [[2]]). apply valid_checked. by vm_compute.
  - exists 3, 4%N. split; [|by vm_compute]. right. left. split; [|split; [|done]].
    + exists 2. rewrite listed_qubits. split; apply (bool_decide_unpack _); by vm_compute.
    + intros b H. apply Hb in H. by apply elem_of_nil in H.
  - by exists 4%N.
  - exists []. split; [constructor|]. by split.
Qed.

(** A function with internal state: it accepts everything in its first two calls and
    nothing later. *)
Example C48_state :
  search_single Debug 1000 (λ _, false) id pairs pairs_order
    (Some ((λ k _ _ _ _ _ _ _, Val (if k <? 2 then f64_one else f64_zero)) : Accept, λ _, f64_zero))
  = Some (Val [MkPath 2 4 [[0; 1]; [2; 3]]]).
Proof. by vm_compute. Qed.

(** ** C49: panics of the accept function *)

(** If the search returns, then every function that answers where [acc] answers
    leads to the same result: no answer was needed that [acc] does not give.  For
    every input, also malformed ones. *)
Theorem C49_search :
  ∀ bd w adj g nthreads task_bound acc acc', (∀ i, extends (acc i) (acc' i)) →
  search bd w adj g nthreads (Some acc) task_bound = Some Panic ∨
  search bd w adj g nthreads (Some acc) task_bound = search bd w adj g nthreads (Some acc') task_bound.
Proof. exact search_extends. Qed.
Print Assumptions C49_search.

Theorem C49_run :
  ∀ bd fuel env adj g do_search timeout nthreads task_bound seed f f',
  (∀ i, extends (f i) (f' i)) →
  run bd fuel env adj g do_search timeout nthreads task_bound (Some (Custom f, seed)) = Some Panic ∨
  run bd fuel env adj g do_search timeout nthreads task_bound (Some (Custom f, seed))
  = run bd fuel env adj g do_search timeout nthreads task_bound (Some (Custom f', seed)).
Proof. exact run_extends. Qed.
Print Assumptions C49_run.

(** A Python callback that raises an exception makes the call panic. *)
Theorem C49_python :
  ∀ bd fuel env warn adj g do_search timeout nthreads seed task_bound (f f' : PyCallback),
  (∀ k a b c d e r n x, f k a b c d e r n = Ok x → f' k a b c d e r n = Ok x) →
  py_run bd fuel env warn adj g do_search timeout nthreads (Some (PyCustom f, seed)) task_bound
    = Some Panic ∨
  py_run bd fuel env warn adj g do_search timeout nthreads (Some (PyCustom f, seed)) task_bound
  = py_run bd fuel env warn adj g do_search timeout nthreads (Some (PyCustom f', seed)) task_bound.
Proof. exact py_run_extends. Qed.
Print Assumptions C49_python.

(** The function panics when the path could be completed with less memory than the
    known ones. *)
Definition greedy : nat → Accept :=
  λ _ _ bound minimal _ _ _ _ _,
    if SFltb minimal (f64_of_usize 4) then Panic else Val f64_one.

Example C49_example :
  (∀ i, extends (greedy i) (λ _ _ _ _ _ _ _ _, Val f64_one)) ∧
  search Debug (mkWorld 1000 (λ _, false) [] id (λ _ _, S754_nan)) pairs pairs_order 1
    (Some greedy) 0 = Some Panic ∧
  (* stopped before that call *)
  search Debug (mkWorld 1000 (λ k, 5 <=? k) [] id (λ _ _, S754_nan)) pairs pairs_order 1
    (Some greedy) 0 = Some (Val [MkPath 2 4 [[0; 1]; [2; 3]]]) ∧
  search Debug (mkWorld 1000 (λ k, 5 <=? k) [] id (λ _ _, S754_nan)) pairs pairs_order 1
    (Some (λ _ _ _ _ _ _ _ _ _, Val f64_one)) 0 = Some (Val [MkPath 2 4 [[0; 1]; [2; 3]]]).
Proof.
  split.
  { intros i k a b c d e r n x. unfold greedy. by destruct (SFltb _ _). }
  by split_and!; vm_compute.
Qed.
