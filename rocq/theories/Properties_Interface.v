(** * Properties: the entry points

    [run], [run_serialized] and [main], see [Interface.v].  The environment [env]
    fixes clock, interleaving, hash map order, random number generators and the
    exponential function; [os] fixes failures of the operating system and the
    encodings.  [returns f a]: for all sufficiently large fuel [f] yields [a].
    The vocabulary [within], [total_ticks], [holds_spacial], [holds_order],
    [encoding], [writable] is defined in [MainInterface.v]. *)
From stdpp Require Import strings.
From Verif Require Import MainInterface.
From Verif Require Import Spec.

(** ** C38: dispatch *)

Theorem C38_time_optimal :
  ∀ adj g, wf_input adj g →
  ∃ p, path_ok adj g p ∧ (∀ σ, valid_schedule g σ → time p ≤ time_cost σ) ∧
    ∀ bd env timeout nthreads task_bound probabilistic,
    returns (λ fuel, run bd fuel env adj g false timeout nthreads task_bound probabilistic) [p].
Proof. exact run_time_optimal. Qed.
Print Assumptions C38_time_optimal.

Theorem C38_ignores_options :
  ∀ bd fuel adj g env env' timeout timeout' nthreads nthreads' bound bound' prob prob',
  run bd fuel env adj g false timeout nthreads bound prob =
  run bd fuel env' adj g false timeout' nthreads' bound' prob'.
Proof. exact run_ignores_options. Qed.
Print Assumptions C38_ignores_options.

Theorem C38_few_threads :
  ∀ bd fuel env adj g do_search timeout nthreads bound bound' prob,
  nthreads ≤ 1 →
  run bd fuel env adj g do_search timeout nthreads bound prob =
  run bd fuel env adj g do_search timeout 1 bound' prob.
Proof. exact run_few_threads. Qed.
Print Assumptions C38_few_threads.

Theorem C38_default_bound :
  ∀ bd fuel env adj g do_search timeout nthreads prob,
  run bd fuel env adj g do_search timeout nthreads None prob =
  run bd fuel env adj g do_search timeout nthreads (Some 100000%N) prob.
Proof. exact run_default_bound. Qed.
Print Assumptions C38_default_bound.

(** A clock that ticks once before every poll, and lets the timer thread run
    twice. *)
Definition example_env : Env :=
  mkEnv (λ _, [TStep 0; Tick; TStep 0; TStep 0])
    (map inr (EStart 0 :: EIter 0 false :: EEnd 0 :: [])) (@rev _) idle_gen (λ x, x).

Example C38_example :
  wf_input pairs pairs_order ∧
  run Debug 1000 example_env pairs pairs_order false (Some 0) 7 (Some 2%N) (Some (BuiltinHeavyside, None))
  = run Debug 1000 example_env pairs pairs_order false None 1 None None ∧
  run Debug 1000 example_env pairs pairs_order true None 0 (Some 2%N) None
  = run Debug 1000 example_env pairs pairs_order true None 1 None None.
Proof. split; [exact pairs_wf|]. by vm_compute. Qed.

(** ** C44: results of [run] and of the binary *)

Theorem C44_run_valid :
  ∀ adj g env do_search timeout nthreads bound prob bd fuel o,
  wf_input adj g → (∀ l, e_hash_order env l ≡ₚ l) →
  run bd fuel env adj g do_search timeout nthreads bound prob = Some o →
  (∃ ps, o = Val ps ∧ Forall (path_ok adj g) ps ∧ tradeoff ps) ∨
  o = Panic ∧ do_search = true ∧ may_panic prob.
Proof. exact run_valid. Qed.
Print Assumptions C44_run_valid.

Theorem C44_run_optimal :
  ∀ adj g env timeout nthreads bound,
  wf_input adj g → (∀ l, e_hash_order env l ≡ₚ l) → (∃ b, listed g b) →
  nthreads ≤ 1 → within timeout (e_clock env) →
  ∃ ps, pareto_front adj g ps ∧
    ∀ bd, returns (λ fuel, run bd fuel env adj g true timeout nthreads bound None) ps.
Proof. exact run_optimal. Qed.
Print Assumptions C44_run_optimal.

Theorem C44_run_threaded_time_optimal :
  ∀ adj g env timeout nthreads bound bd fuel o,
  wf_input adj g → (∀ l, e_hash_order env l ≡ₚ l) → (∃ b, listed g b) → 2 ≤ nthreads →
  (timeout = None ∨ ∃ d, timeout = Some d ∧ total_ticks (e_events env) ≤ d) →
  run bd fuel env adj g true timeout nthreads bound None = Some o →
  ∃ p ps, o = Val (p :: ps) ∧ ∀ σ, valid_schedule g σ → time p ≤ time_cost σ.
Proof. exact run_threaded_time_optimal. Qed.
Print Assumptions C44_run_threaded_time_optimal.

Theorem C44_main_optimal :
  ∀ env os fs args adj g,
  holds_spacial os fs (a_spacial_graph args, a_spacial_graph_format args) adj →
  holds_order os fs (a_dependency_graph args, a_dependency_graph_format args) g →
  writable os (a_paths args) →
  (a_paths_format args = "serde_json"%string ∨ a_paths_format args = "bincode"%string) →
  wf_input adj g → (∀ l, e_hash_order env l ≡ₚ l) → (∃ b, listed g b) →
  a_search args = true → a_timeout args = None → a_nthreads args ≤ 1 → a_probabilistic args = false →
  ∃ ps b, pareto_front adj g ps ∧ encoding os (a_paths_format args) ps = Some b ∧
    ∃ fs', f_contents fs' = <[a_paths args := b]> (f_contents fs) ∧
      ∀ bd, returns (λ fuel, main bd fuel env os fs args) fs'.
Proof. exact main_optimal. Qed.
Print Assumptions C44_main_optimal.

(** With a timeout of 3 or 9 ticks the search is interrupted and has found a part
    of the front. *)
Definition costs_of (o : option (out (list path))) : option (list (nat * N)) :=
  match o with Some (Val ps) => Some (map (λ p, (time p, space p)) ps) | _ => None end.

Example C44_example :
  wf_input pairs pairs_order ∧ (∀ l, e_hash_order example_env l ≡ₚ l) ∧
  costs_of (run Debug 1000 example_env pairs pairs_order true (Some 3) 1 None None) = Some [(2, 4%N)] ∧
  costs_of (run Debug 1000 example_env pairs pairs_order true (Some 9) 1 None None)
  = Some [(2, 4%N); (3, 3%N)] ∧
  costs_of (run Debug 1000 example_env pairs pairs_order true (Some 20) 1 None None)
  = Some [(2, 4%N); (3, 3%N); (4, 2%N)].
Proof.
  split; [exact pairs_wf|]. split; [intros l; symmetry; apply Permutation_rev|]. by vm_compute.
Qed.

(** A clock that ticks five times stays within a timeout of five ticks. *)
Example C44_example_within : within (Some 5) (λ k, if k <? 5 then [Tick; TStep 0] else [TStep 0]).
Proof.
  intros k. enough (ticks (List.concat (map (λ k, if k <? 5 then [Tick; TStep 0] else [TStep 0]) (seq 0 k)))
    = min k 5) by lia.
  induction k as [|k IH]; [done|]. rewrite seq_S, map_app, concat_app, ticks_app, IH. simpl.
  destruct (Nat.ltb_spec k 5); unfold ticks; simpl; lia.
Qed.

(** ** C39: files *)

Theorem C39_inputs :
  ∀ bd fuel env os fs sg dg do_search timeout nthreads bound prob paths,
  (¬ ∃ adj, holds_spacial os fs sg adj) ∨ (¬ ∃ g, holds_order os fs dg g) →
  ∃ e, run_serialized bd fuel env os fs sg dg do_search timeout nthreads bound prob paths
       = Some (Val (fs, Err e)).
Proof. exact run_serialized_inputs. Qed.
Print Assumptions C39_inputs.

Theorem C39_unknown_input :
  ∀ bd fuel env os fs sg dg do_search timeout nthreads bound prob paths,
  sg.2 ≠ "serde_json"%string → sg.2 ≠ "bincode"%string →
  run_serialized bd fuel env os fs sg dg do_search timeout nthreads bound prob paths
  = Some (Val (fs, Err (UnknownFormat sg.2))).
Proof. exact run_serialized_unknown_input. Qed.
Print Assumptions C39_unknown_input.

Theorem C39_unknown_output :
  ∀ bd fuel env os fs sg dg do_search timeout nthreads bound prob paths adj g,
  paths.2 ≠ "serde_json"%string → paths.2 ≠ "bincode"%string →
  holds_spacial os fs sg adj → holds_order os fs dg g →
  run_serialized bd fuel env os fs sg dg do_search timeout nthreads bound prob paths =
  match run bd fuel env adj g do_search timeout nthreads bound (option_map (λ f, (f, None)) prob) with
  | Some (Val _) => Some (Val (fs, Err (UnknownFormat paths.2)))
  | Some Panic => Some Panic
  | None => None
  end.
Proof. exact run_serialized_unknown_output. Qed.
Print Assumptions C39_unknown_output.

Theorem C39_outcome :
  ∀ bd fuel env os fs sg dg do_search timeout nthreads bound prob paths fs' r,
  run_serialized bd fuel env os fs sg dg do_search timeout nthreads bound prob paths = Some (Val (fs', r)) →
  (∀ q, q ≠ paths.1 → f_contents fs' !! q = f_contents fs !! q) ∧
  match r with
  | Ok _ => ∃ adj g ps b, holds_spacial os fs sg adj ∧ holds_order os fs dg g ∧
      (* without a seed *)
      run bd fuel env adj g do_search timeout nthreads bound (option_map (λ f, (f, None)) prob) = Some (Val ps) ∧
      encoding os paths.2 ps = Some b ∧ f_contents fs' = <[paths.1 := b]> (f_contents fs)
  | Err e =>
      f_contents fs' = f_contents fs ∨
      ∃ ps b n, encoding os paths.2 ps = Some b ∧ n < length b ∧
        f_contents fs' !! paths.1 = Some (take n b)
  end.
Proof. exact run_serialized_outcome. Qed.
Print Assumptions C39_outcome.

Theorem C39_main_exit :
  ∀ bd fuel env os fs args fs',
  main bd fuel env os fs args = Some (Val fs') ↔
  run_serialized bd fuel env os fs
    (a_spacial_graph args, a_spacial_graph_format args)
    (a_dependency_graph args, a_dependency_graph_format args) (a_search args)
    (* seconds *)
    (option_map (λ t, N.to_nat (t * 10 ^ 9)) (a_timeout args))
    (a_nthreads args) (a_task_bound args)
    (if a_probabilistic args then Some BuiltinHeavyside else None)
    (a_paths args, a_paths_format args) = Some (Val (fs', Ok tt)).
Proof. exact main_exit. Qed.
Print Assumptions C39_main_exit.

(** A file system with two inputs (one byte stands for each graph); the encoding
    of paths consists of one byte per path. *)
Definition example_os : System_ :=
  mkSystem_ (λ _, false) (λ _, false) (λ p, String.eqb p "/dev/full/x") (λ p, if String.eqb p "short" then Some 2 else None)
    (λ p, if String.eqb p "out/paths" then Some ("out", ["out"; ""])%string else None)
    (λ b, match b with [Byte.x00] => Some pairs | _ => None end)
    (λ b, match b with [Byte.x01] => Some pairs_order | _ => None end)
    (map (λ _, Byte.x61))
    (λ b, None) (λ b, match b with Byte.x02 :: _ => Some pairs_order | _ => None end)
    (map (λ _, Byte.x62)).
Definition example_files : Files :=
  mkFiles {[ "s"%string := [Byte.x00]; "d"%string := [Byte.x01]; "old"%string := [Byte.x07; Byte.x08] ]} ∅.
Definition example_args (out fmt : string) : Args :=
  mkArgs "s" "serde_json" "d" "serde_json" out fmt true None 1 false None.
Definition written (o : option (out Files)) (p : string) : option (option bytes) :=
  match o with Some (Val fs) => Some (f_contents fs !! p) | _ => None end.

Example C39_example :
  holds_spacial example_os example_files ("s", "serde_json")%string pairs ∧
  holds_order example_os example_files ("d", "serde_json")%string pairs_order ∧
  writable example_os "out/paths" ∧
  written (main Debug 1000 example_env example_os example_files (example_args "out/paths" "bincode")) "out/paths"
  = Some (Some [Byte.x62; Byte.x62; Byte.x62]) ∧
  written (main Debug 1000 example_env example_os example_files (example_args "old" "serde_json")) "old"
  = Some (Some [Byte.x61; Byte.x61; Byte.x61]) ∧
  (* unknown output format: the file keeps its content, the process panics *)
  main Debug 1000 example_env example_os example_files (example_args "old" "json") = Some Panic ∧
  run_serialized Debug 1000 example_env example_os example_files ("s", "serde_json")%string ("d", "serde_json")%string
    true None 1 None None ("old", "json")%string = Some (Val (example_files, Err (UnknownFormat "json"))) ∧
  (* unknown input format: without searching *)
  run_serialized Debug 0 example_env example_os example_files ("s", "JSON")%string ("d", "serde_json")%string
    true None 1 None None ("old", "json")%string = Some (Val (example_files, Err (UnknownFormat "JSON"))).
Proof.
  split_and!; try by vm_compute.
  - split; [done|]. exists [Byte.x00]. split; [done|]. by left.
  - split; [done|]. exists [Byte.x01]. split; [done|]. by left.
Qed.

(** ** C43: reproducibility *)

Theorem C43_single_threaded :
  ∀ adj g env env' nthreads nthreads' bound bound' f seed bd fuel,
  nthreads ≤ 1 → nthreads' ≤ 1 →
  (∀ l, e_hash_order env l ≡ₚ l) → (∀ l, e_hash_order env' l ≡ₚ l) →
  (* the two runs have in common: the generator for this seed, the exponential *)
  seeded_samples (e_generators env) seed = seeded_samples (e_generators env') seed →
  e_exp env = e_exp env' →
  run bd fuel env adj g true None nthreads bound (Some (f, Some seed)) =
  run bd fuel env' adj g true None nthreads' bound' (Some (f, Some seed)).
Proof. exact run_reproducible. Qed.
Print Assumptions C43_single_threaded.

Theorem C43_multi_threaded_refuted :
  ¬ ∀ adj g env env' nthreads bound prob bd fuel ps ps',
    wf_input adj g → (∀ l, e_hash_order env l ≡ₚ l) → 2 ≤ nthreads →
    (* the two runs differ in the interleaving of the threads only *)
    e_hash_order env = e_hash_order env' → e_generators env = e_generators env' →
    e_clock env = e_clock env' → e_exp env = e_exp env' →
    run bd fuel env adj g true None nthreads bound prob = Some (Val ps) →
    run bd fuel env' adj g true None nthreads bound prob = Some (Val ps') →
    map (λ p, (time p, space p)) ps = map (λ p, (time p, space p)) ps'.
Proof. exact run_threaded_not_reproducible. Qed.
Print Assumptions C43_multi_threaded_refuted.

(** Every step is accepted with probability 1/2; the samples of the generator
    depend on the seed. *)
Example C43_example :
  let gen e := mkGenerators (λ s k, if N.even ((s + N.of_nat k) / 2) then f64_zero else f64_one) (λ _ _, 0%N)
                 (λ _, e) (λ _, 0%N) in
  let half : f64 := f64_div f64_one (f64_of_usize 2) in
  let accept : nat → Accept := λ _, stateless (λ _ _ _ _ _ _ _, half) in
  let env1 := mkEnv (λ _, []) [] id (gen f64_one) id in
  let env2 := mkEnv (λ _, [Tick]) [] (@rev _) (gen f64_zero) id in
  let seeded env s := costs_of (run Debug 1000 env pairs pairs_order true None 1 None (Some (Custom accept, s))) in
  seeded env1 (Some 3%N) = seeded env2 (Some 3%N) ∧ seeded env1 (Some 3%N) ≠ seeded env1 (Some 4%N) ∧
  seeded env1 None ≠ seeded env2 None.
Proof. by vm_compute. Qed.
