(** * Properties: which random numbers decide what

    [Question], [answer], [used], [verdict] and [numbers] are defined in
    [Randomness.v]. *)
From Verif Require Import MainRandomness Check.

(** ** C63: random numbers *)

(** [q i k] is what call number [k] of the accept function of task [i] is asked.  The
    result depends on the verdicts only: a step is taken if the answer is at least 1,
    or if it is larger than the first random number of the task that has not been
    compared with an earlier answer. *)
Theorem C63_search :
  ∀ bd fuel timer events ho smp adj g nthreads task_bound acc,
  ∃ q : nat → nat → Question,
    ∀ acc' smp',
      (∀ i k, verdict (acc' i) (smp' i) (q i) k = verdict (acc i) (smp i) (q i) k) →
      search bd (mkWorld fuel timer events ho smp') adj g nthreads (Some acc') task_bound
      = search bd (mkWorld fuel timer events ho smp) adj g nthreads (Some acc) task_bound.
Proof. exact search_verdicts. Qed.
Print Assumptions C63_search.

(** The same for [run], with the numbers that belong to the seed. *)
Theorem C63_run :
  ∀ bd fuel env adj g do_search timeout nthreads task_bound func seed,
  ∃ q : nat → nat → Question,
    ∀ gen' f' seed',
      (∀ i k, verdict (f' i) (numbers gen' nthreads seed' i) (q i) k
              = verdict (get_accept_func (e_exp env) func i)
                  (numbers (e_generators env) nthreads seed i) (q i) k) →
      run bd fuel (mkEnv (e_clock env) (e_events env) (e_hash_order env) gen' (e_exp env))
        adj g do_search timeout nthreads task_bound (Some (Custom f', seed'))
      = run bd fuel env adj g do_search timeout nthreads task_bound (Some (func, seed)).
Proof. exact run_verdicts. Qed.
Print Assumptions C63_run.

Theorem C63_decided :
  ∀ bd fuel env adj g do_search timeout nthreads task_bound func seed,
  ∃ f' : nat → Accept,
    (∀ i k a b c d e r n,
       f' i k a b c d e r n = Val f64_one ∨ f' i k a b c d e r n = Val f64_zero ∨
       f' i k a b c d e r n = Panic ∧ ∃ q, answer (get_accept_func (e_exp env) func i) k q = Panic) ∧
    ∀ gen' seed',
      (∀ i k, SFltb (numbers gen' nthreads seed' i k) f64_zero = false) →
      run bd fuel (mkEnv (e_clock env) (e_events env) (e_hash_order env) gen' (e_exp env))
        adj g do_search timeout nthreads task_bound (Some (Custom f', seed'))
      = run bd fuel env adj g do_search timeout nthreads task_bound (Some (func, seed)).
Proof. exact run_decided. Qed.
Print Assumptions C63_decided.

Definition half : f64 := f64_div f64_one (f64_of_usize 2).

(** The answer is always 1/2, and the random numbers are as follows. *)
Definition flips (l : list bool) (k : nat) : f64 :=
  if nth k l false then f64_zero else f64_one.
(** The function that decides in the same way. *)
Definition decides (l : list bool) : Accept :=
  λ k _ _ _ _ _ _ _, Val (if nth k l false then f64_one else f64_zero).

Example C63_example :
  let random l := search_single Debug 1000 (λ _, false) id pairs pairs_order
                    (Some (stateless (λ _ _ _ _ _ _ _, half), flips l)) in
  let decided l := search_single Debug 1000 (λ _, false) id pairs pairs_order
                     (Some (decides l, λ _, f64_zero)) in
  map random [[true; true]; [true; false; true; true; true]; [false; true; true; true]]
  = map decided [[true; true]; [true; false; true; true; true]; [false; true; true; true]] ∧
  map decided [[true; true]; [true; false; true; true; true]; [false; true; true; true]]
  = map (λ p, Some (Val [p])) [MkPath 2 4 [[0; 1]; [2; 3]]; MkPath 3 4 [[0; 1]; [3]; [2]];
                               MkPath 3 3 [[1]; [0; 3]; [2]]].
Proof. by split; vm_compute. Qed.

(** Two threads with two tasks: the seeds 7 and 8 are the first numbers of the
    generator that is asked for. *)
Example C63_example_threads :
  let yes := [true; true; true] in
  let some := [true; false; true; true; true; true] in
  let gen := mkGenerators (λ s, flips (if (s =? 7)%N then yes else if (s =? 8)%N then some else []))
               (λ s i, (s + N.of_nat i)%N) (λ _, f64_one) (λ _, 0%N) in
  let env gen := mkEnv (λ _, [])
    (map inr (EStart 0 :: EStart 1 :: repeat (EIter 0 false) 5 ++ EEnd 0 ::
              repeat (EIter 1 false) 16 ++ [EEnd 1])) id gen id in
  let result := Some (Val [MkPath 2 4 [[0; 1]; [2; 3]]; MkPath 4 2 [[1]; [3]; [0]; [2]]]) in
  run Debug 1000 (env gen) pairs pairs_order true None 2 (Some 1%N)
    (Some (Custom (λ _, stateless (λ _ _ _ _ _ _ _, half)), Some 7%N)) = result ∧
  run Debug 1000 (env (mkGenerators (λ _ _, f64_zero) (λ _ _, 0%N) (λ _, f64_zero) (λ _, 0%N)))
    pairs pairs_order true None 2 (Some 1%N)
    (Some (Custom (λ i, decides (if i =? 0 then yes else some)), None)) = result.
Proof. by split; vm_compute. Qed.
