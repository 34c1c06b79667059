(** * Properties: the Python bindings

    [py_run] is the Python function [mbqc_scheduling.run], see [Python.v].
    [denotes warn o g]: the object [o] stands for the time ordering [g] - it is an
    instance of the class of this library holding [g], or another object whose
    method [into_py_graph] yields [g] (after a warning that did not raise). *)
From stdpp Require Import strings.
From Verif Require Import MainPython.
From Verif Require Import Spec.

(** ** C40: errors and results of [run] *)

Theorem C40_callback_threads :
  ∀ bd fuel env warn adj o do_search timeout nthreads prob bound,
  is_callback prob → 2 ≤ nthreads →
  py_run bd fuel env warn adj o do_search timeout nthreads prob bound
  = Some (Val (Err (PyValueError "multi-threading with a custom Python callback is not supported"))).
Proof. exact py_run_callback_threads. Qed.
Print Assumptions C40_callback_threads.

Theorem C40_same_as_run :
  ∀ bd fuel env warn adj o g do_search timeout nthreads prob bound,
  ¬ (is_callback prob ∧ 2 ≤ nthreads) → denotes warn o g →
  py_run bd fuel env warn adj o do_search timeout nthreads prob bound =
  option_map (λ r, match r with Val ps => Val (Ok ps) | Panic => Panic end)
    (run bd fuel env adj g do_search (option_map (λ s, N.to_nat (s * 1000000000)) timeout) nthreads bound
       (option_map (λ '(f, seed), (to_real f, seed)) prob)).
Proof. exact py_run_is_run. Qed.
Print Assumptions C40_same_as_run.

Theorem C40_no_order :
  ∀ bd fuel env warn adj o do_search timeout nthreads prob bound,
  ¬ (is_callback prob ∧ 2 ≤ nthreads) → (∀ g, ¬ denotes warn o g) →
  ∃ e, py_run bd fuel env warn adj o do_search timeout nthreads prob bound = Some (Val (Err e)) ∧
    (extract_by_ref o = Err e ∨ warn = Err e ∨ call_into_py_graph o = Err e).
Proof. exact py_run_no_order. Qed.
Print Assumptions C40_no_order.

Theorem C40_raises :
  ∀ bd fuel env warn adj o do_search timeout nthreads prob bound e,
  py_run bd fuel env warn adj o do_search timeout nthreads prob bound = Some (Val (Err e)) →
  (is_callback prob ∧ 2 ≤ nthreads) ∨ ∀ g, ¬ denotes warn o g.
Proof. exact py_run_raises. Qed.
Print Assumptions C40_raises.

Theorem C40_threads_no_callback :
  ∀ bd fuel env warn adj o do_search timeout nthreads prob bound ps f seed,
  py_run bd fuel env warn adj o do_search timeout nthreads prob bound = Some (Val (Ok ps)) →
  2 ≤ nthreads → prob ≠ Some (PyCustom f, seed).
Proof. exact py_run_threads_no_callback. Qed.
Print Assumptions C40_threads_no_callback.

Theorem C40_valid :
  ∀ bd fuel env warn adj o g do_search timeout nthreads prob bound r,
  wf_input adj g → (∀ l, e_hash_order env l ≡ₚ l) → denotes warn o g →
  ¬ (is_callback prob ∧ 2 ≤ nthreads) →
  py_run bd fuel env warn adj o do_search timeout nthreads prob bound = Some r →
  (∃ ps, r = Val (Ok ps) ∧ Forall (py_path_ok adj g) (into_py_paths ps) ∧ tradeoff ps) ∨
  (* a callback raised an exception *)
  r = Panic ∧ do_search = true ∧
    ∃ f seed, prob = Some (PyCustom f, seed) ∧ ¬ ∀ k a b c d e r n, ∃ x, f k a b c d e r n = Ok x.
Proof. exact py_run_valid. Qed.
Print Assumptions C40_valid.

Theorem C40_default_call :
  ∀ adj g, wf_input adj g →
  ∃ p, py_path_ok adj g p ∧ (∀ σ, valid_schedule g σ → py_time p ≤ time_cost σ) ∧
    ∀ bd env warn, ∃ fuel0, ∀ fuel, fuel0 ≤ fuel → ∃ ps,
      py_run_default bd fuel env warn adj (partial_order_graph g) = Some (Val (Ok ps)) ∧
      into_py_paths ps = [p].
Proof. exact py_run_default_optimal. Qed.
Print Assumptions C40_default_call.

(** An own object, an object of [pauli_tracker] (with and without warnings turned
    into exceptions), an object without the method; a callback with one and with
    two threads; a timeout of zero seconds interrupts the search once the clock has
    advanced. *)
Definition py_costs (o : option (out (result (list path) PyErr)))
    : option (result (list (nat * N)) PyErr) :=
  match o with
  | Some (Val (Ok ps)) => Some (Ok (map (λ p, (py_time p, py_space p)) (into_py_paths ps)))
  | Some (Val (Err e)) => Some (Err e)
  | _ => None
  end.
Definition py_env : Env :=
  mkEnv (λ _, [TStep 0; Tick; TStep 0; TStep 0])
    (map inr (EStart 0 :: EIter 0 false :: EEnd 0 :: [])) (@rev _) idle_gen (λ x, x).

Example C40_example :
  let foreign := mkPyAny false (Err (PyOther 0)) (Ok pairs_order) in
  let wrong := mkPyAny false (Err (PyOther 0)) (Err (PyOther 1)) in
  let always : PyCallback := λ _ _ _ _ _ _ _ _, Ok f64_one in
  let run warn o timeout n prob :=
    py_costs (py_run Debug 1000 py_env warn pairs o true timeout n prob None) in
  wf_input pairs pairs_order ∧
  (* own object, foreign object *)
  run (Err (PyOther 2)) (partial_order_graph pairs_order) None 1 None
  = Some (Ok [(2, 4%N); (3, 3%N); (4, 2%N)]) ∧
  run (Ok tt) foreign None 1 None = Some (Ok [(2, 4%N); (3, 3%N); (4, 2%N)]) ∧
  run (Err (PyOther 2)) foreign None 1 None = Some (Err (PyOther 2)) ∧
  run (Ok tt) wrong None 1 None = Some (Err (PyOther 1)) ∧
  (* callbacks *)
  run (Ok tt) foreign None 1 (Some (PyCustom always, None)) = Some (Ok [(2, 4%N); (3, 3%N); (4, 2%N)]) ∧
  run (Ok tt) wrong None 2 (Some (PyCustom always, None))
  = Some (Err (PyValueError "multi-threading with a custom Python callback is not supported")) ∧
  (* timeout, default call *)
  run (Ok tt) foreign (Some 0%N) 1 None = Some (Ok []) ∧
  py_costs (py_run_default Debug 1000 py_env (Ok tt) pairs foreign) = Some (Ok [(2, 4%N)]).
Proof. split; [exact pairs_wf|]. by vm_compute. Qed.

(** The documentation of the Python function says that below 3 threads nothing is
    multithreaded; with two threads the thread pool is used, and results can be lost
    that a single threaded search finds. *)
Theorem C40_below_three_refuted :
  ¬ ∀ bd fuel env warn adj o g nthreads bound ps ps',
    wf_input adj g → (∀ l, e_hash_order env l ≡ₚ l) → denotes warn o g → nthreads < 3 →
    py_run bd fuel env warn adj o true None nthreads None bound = Some (Val (Ok ps)) →
    returns (λ fuel, py_run bd fuel env warn adj o true None 1 None bound) (Ok ps') →
    ps = ps'.
Proof. exact py_run_two_threads. Qed.
Print Assumptions C40_below_three_refuted.

Theorem C40_conversions :
  (∀ ps : Paths, py_paths_new (into_py_paths ps) = ps) ∧
  (∀ qs : list PyPath, into_py_paths (py_paths_new qs) = qs) ∧
  (∀ ps : Paths, take_into_py_paths ps = (into_py_paths ps, [])) ∧
  (∀ adj : spacial, into_py_graph (py_spacial_new adj) = adj ∧
     take_into_py_graph (py_spacial_new adj) = (adj, [])).
Proof. exact paths_to_python_and_back. Qed.
Print Assumptions C40_conversions.

Theorem C40_accept_func :
  ∀ kind params func f,
  py_accept_func_new kind params func = Ok f ↔
  (kind = "BuiltinHeavyside"%string ∧ f = PyBuiltinHeavyside) ∨
  (kind = "ParametrizedHeavyside"%string ∧ ∃ p, params = Some p ∧ f = PyParametrizedHeavyside p) ∨
  (kind = "Custom"%string ∧ ∃ c, func = Some c ∧ f = PyCustom c).
Proof. exact py_accept_func_constructed. Qed.
Print Assumptions C40_accept_func.

Theorem C40_accept_func_error :
  ∀ kind params func e,
  py_accept_func_new kind params func = Err e → ∃ msg, e = PyValueError msg.
Proof. exact py_accept_func_rejected. Qed.
Print Assumptions C40_accept_func_error.

Theorem C40_accept_func_default :
  ∃ f, py_accept_func_default = Ok f ∧ to_real f = accept_func_default.
Proof. exact py_accept_func_default_real. Qed.
Print Assumptions C40_accept_func_default.

(** The kinds that the documentation strings mention do not exist. *)
Example C40_accept_func_example :
  let always : PyCallback := λ _ _ _ _ _ _ _ _, Ok f64_one in
  let param := py_heavyside_parameters_new f64_zero 2 1 1 3 1 in
  py_accept_func_new "ParamBuiltinHeavyside" (Some param) None
  = Err (PyValueError "invalid kind ParamBuiltinHeavyside") ∧
  py_accept_func_new "BuiltinLinearSpace" None None = Err (PyValueError "invalid kind BuiltinLinearSpace") ∧
  py_accept_func_new "ParametrizedHeavyside" (Some param) (Some always) = Ok (PyParametrizedHeavyside param) ∧
  py_accept_func_new "Custom" (Some param) None = Err (PyValueError "kind is Custom but custom_func is None").
Proof. by vm_compute. Qed.
