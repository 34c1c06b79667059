(** * Properties: runs at the level of the locks and of the timer's flag *)
From Verif Require Import MainLocksInterface.
From Verif Require Import Spec.

(** ** C65: the timer's flag is read with [Ordering::Relaxed] *)

(** Multi threaded: the moves of the threads interleave with the clock and the timer
    thread.  With the same events of clock and timer thread the same results are
    possible as in [run], where starting a task, an iteration with its poll and the
    end of a task are uninterrupted. *)
Theorem C65_same_results :
  ∀ bd debug env adj g timeout nthreads bound prob evs o, 2 ≤ nthreads →
  (∃ ms, clock_events ms = evs ∧
     run_moves bd debug ms env adj g timeout nthreads bound prob = Some o) ↔
  (∃ fuel es, clock_events es = evs ∧
     run bd fuel (with_events env es) adj g true timeout nthreads bound prob = Some o).
Proof. exact run_moves_same. Qed.
Print Assumptions C65_same_results.

Theorem C65_valid :
  ∀ bd debug ms env adj g timeout nthreads bound prob o,
  wf_input adj g → 2 ≤ nthreads → (∀ l, e_hash_order env l ≡ₚ l) →
  run_moves bd debug ms env adj g timeout nthreads bound prob = Some o →
  (∃ ps, o = Val ps ∧ Forall (path_ok adj g) ps ∧ tradeoff ps) ∨
  o = Panic ∧ ¬ calm_function
    (match prob with Some (f, _) => Some (get_accept_func (e_exp env) f) | None => None end).
Proof. exact run_moves_valid. Qed.
Print Assumptions C65_valid.

(** Without a timeout, or if it is not reached, the first path is as fast as
    possible, however the threads interleave. *)
Theorem C65_first :
  ∀ bd debug ms env adj g timeout nthreads bound o,
  wf_input adj g → 2 ≤ nthreads → (∀ l, e_hash_order env l ≡ₚ l) → (∃ b, listed g b) →
  (timeout = None ∨ ∃ d, timeout = Some d ∧ ticks (clock_events ms) ≤ d) →
  run_moves bd debug ms env adj g timeout nthreads bound None = Some o →
  ∃ p ps, o = Val (p :: ps) ∧ ∀ σ, valid_schedule g σ → time p ≤ time_cost σ.
Proof. exact run_moves_first. Qed.
Print Assumptions C65_first.

(** Single threaded: reads that see the flag late are reads of a flag that is written
    late. *)
Theorem C65_relaxed :
  ∀ bd fuel env adj g timeout nthreads bound prob reads, nthreads ≤ 1 →
  relaxed_reads (timer_answer timeout (e_clock env)) reads →
  ∃ clock', (∀ k, ticks (List.concat (map clock' (seq 0 k))) ≤ ticks (List.concat (map (e_clock env) (seq 0 k)))) ∧
  (* a search with the answers [reads] is a run with the clock [clock'] *)
  search bd
    (mkWorld fuel reads [] (e_hash_order env)
       (task_samples (e_generators env) nthreads (match prob with Some (_, seed) => seed | None => None end)))
    adj g nthreads (match prob with Some (f, _) => Some (get_accept_func (e_exp env) f) | None => None end)
    (match bound with Some b => Z.of_N b | None => 100000%Z end)
  = run bd fuel (mkEnv clock' (e_events env) (e_hash_order env) (e_generators env) (e_exp env))
      adj g true timeout nthreads bound prob.
Proof. exact relaxed_search. Qed.
Print Assumptions C65_relaxed.

(** A timeout of one tick.  The timer thread starts to wait, wakes up and sets the
    flag before the first poll; the search reads it at the third poll only. *)
Definition quick_clock (k : nat) : list timer_event :=
  match k with 0 => [TStep 0; Tick; Tick; TStep 0; TStep 0; TStep 0; TStep 0] | _ => [] end.

Example C65_relaxed_example :
  map (timer_answer (Some 1) quick_clock) (seq 0 5) = [true; true; true; true; true] ∧
  relaxed_reads (timer_answer (Some 1) quick_clock) (λ k, 2 <=? k) ∧
  map (timer_answer (Some 1) (late_clock quick_clock (λ k, 2 <=? k))) (seq 0 5)
    = [false; false; true; true; true].
Proof.
  split; [by vm_compute|]. split; [|by vm_compute]. split.
  - intros k _. unfold timer_answer.
    replace (List.concat (map quick_clock (seq 0 (S k)))) with (quick_clock 0); [by vm_compute|].
    change (quick_clock 0 = quick_clock 0 ++ List.concat (map quick_clock (seq 1 k))).
    replace (List.concat (map quick_clock (seq 1 k))) with (@nil timer_event); [by rewrite app_nil_r|].
    symmetry. apply concat_nil_Forall, Forall_forall. intros l (j & -> & Hj)%elem_of_list_fmap.
    apply elem_of_seq in Hj. by destruct j; [lia|].
  - intros k k' Hk ?%Nat.leb_le. apply Nat.leb_le. lia.
Qed.

(** Two threads and a timer whose flag is set in between. *)
Definition ticking (ms : list move) : list (timer_event + move) :=
  map inr (take 4 ms) ++ map inl (quick_clock 0) ++ map inr (drop 4 ms).
Definition pairs_moves : list move :=
  [MainMove; TaskMove 0 false; TaskMove 0 false; MainMove; TaskMove 1 false] ++
  map (λ i, TaskMove i true) ([0; 1; 1; 0; 0] ++ concat (repeat [1; 0] 15) ++ repeat 1 16).

Example C65_example :
  run_moves Debug true (ticking pairs_moves) (lossy_env []) pairs pairs_order (Some 1) 2 (Some 1%N) None
  = Some (Val [MkPath 2 4 [[0; 1]; [2; 3]]; MkPath 3 3 [[1]; [0; 3]; [2]];
               MkPath 4 2 [[1]; [3]; [0]; [2]]]) ∧
  ticks (clock_events (ticking pairs_moves)) = 2 ∧
  timer_finished (foldl timer_env (search_timer (Some 1)) (clock_events (ticking pairs_moves))) = true.
Proof. by vm_compute. Qed.
