(** * Model of the Python bindings, [python_lib/rust/src/lib.rs] and
    [python_lib/rust/src/probabilistic.rs]

    Not modelled: the conversion of the arguments by pyo3 (an integer that does
    not fit into the Rust type raises before the functions below are entered),
    the serialization methods (macros of [pauli_tracker_pyo3]), the documentation
    only [__init__] methods, and the registration of the module. *)
From stdpp Require Import strings.
From Verif Require Export Interface.

(** A raised exception: the [ValueError]s of the bindings, and exceptions raised
    by other Python code. *)
Inductive PyErr :=
| PyValueError (msg : string)
| PyOther (id : nat).

(** ** Graphs and paths *)

(** The class [SpacialGraph], lib.rs:18, is the graph itself.  [__new__],
    lib.rs:23-25. *)
Definition py_spacial_new (graph : SpacialGraph) : SpacialGraph := graph.

(** [SpacialGraph::into_py_graph], lib.rs:42-44. *)
Definition into_py_graph (self : SpacialGraph) : SpacialGraph := self.

(** [SpacialGraph::take_into_py_graph], lib.rs:50-52: result and new [self]. *)
Definition take_into_py_graph (self : SpacialGraph) : SpacialGraph * SpacialGraph :=
  (self, []).

(** The class [Path], lib.rs:118-130. *)
Record PyPath := mkPyPath { py_time : nat; py_space : N; py_steps : list (list nat) }.

(** The class [Paths], lib.rs:61, wraps the paths of the Rust library. *)
Notation Paths := (list path).

(** [Paths::__new__], lib.rs:66-73. *)
Definition py_paths_new (paths : list PyPath) : Paths :=
  map (λ p, MkPath (py_time p) (py_space p) (py_steps p)) paths.

(** [Paths::transformation], lib.rs:105-110. *)
Definition transformation (paths : Paths) : list PyPath :=
  map (λ p, mkPyPath (time p) (space p) (steps p)) paths.

(** [Paths::into_py_paths], lib.rs:90-92. *)
Definition into_py_paths (self : Paths) : list PyPath := transformation self.

(** [Paths::take_into_py_paths], lib.rs:99-101: result and new [self]. *)
Definition take_into_py_paths (self : Paths) : list PyPath * Paths :=
  (transformation self, []).

(** ** Accept functions *)

(** A Python callback: what call number [k] yields.  It is an error if the
    callback raises an exception or returns something that is not a number. *)
Definition PyCallback :=
  nat → f64 → f64 → f64 → f64 → f64 → f64 → f64 → result f64 PyErr.

(** [AcceptFuncBase], probabilistic.rs:48-54. *)
Inductive AcceptFuncBase :=
| PyBuiltinHeavyside
| PyParametrizedHeavyside (param : HeavysideParameters)
| PyCustom (func : PyCallback).

(** [HeavysideParameters::__new__], probabilistic.rs:13-29. *)
Definition py_heavyside_parameters_new (cutoff : f64) (lin_num_total_nodes_exp
    exp_num_total_nodes_exp exp_num_remaining_nodes_exp exp_diff_exp
    exp_num_measured_nodes_exp : Z) : HeavysideParameters :=
  mkHeavysideParameters cutoff lin_num_total_nodes_exp exp_num_total_nodes_exp
    exp_num_remaining_nodes_exp exp_diff_exp exp_num_measured_nodes_exp.

(** [AcceptFunc::__new__], probabilistic.rs:64-99. *)
Definition py_accept_func_new (kind : string)
    (heavyside_parameters : option HeavysideParameters) (custom_func : option PyCallback)
    : result AcceptFuncBase PyErr :=
  if String.eqb kind "BuiltinHeavyside" then Ok PyBuiltinHeavyside
  else if String.eqb kind "ParametrizedHeavyside" then
    match heavyside_parameters with
    | Some p => Ok (PyParametrizedHeavyside p)
    | None => Err (PyValueError
        "kind is ParametrizedHeavyside but heavyside_parameters is None")
    end
  else if String.eqb kind "Custom" then
    match custom_func with
    | Some f => Ok (PyCustom f)
    | None => Err (PyValueError "kind is Custom but custom_func is None")
    end
  else Err (PyValueError ("invalid kind " +:+ kind)).

(** The defaults of the signature, probabilistic.rs:64-68. *)
Definition py_accept_func_default : result AcceptFuncBase PyErr :=
  py_accept_func_new "BuiltinHeavyside" None None.

(** [AcceptFunc::to_real], probabilistic.rs:122-159: [expect] panics if the call
    fails. *)
Definition to_real (self : AcceptFuncBase) : AcceptFunc :=
  match self with
  | PyBuiltinHeavyside => BuiltinHeavyside
  | PyParametrizedHeavyside param => ParametrizedHeavyside param
  | PyCustom func =>
      Custom (λ _ k a b c d e r n,
        match func k a b c d e r n with Ok x => Val x | Err _ => Panic end)
  end.

(** ** The function [run] *)

(** A Python object passed as [time_order]: whether it is an instance of the
    [PartialOrderGraph] of this library, what [extract] yields in this case (an
    error if somebody holds a mutable borrow), and what calling its method
    [into_py_graph] and converting the result yields. *)
Record PyAny := mkPyAny {
  is_partial_order_graph : bool;
  extract_by_ref : result PartialOrderGraph PyErr;
  call_into_py_graph : result PartialOrderGraph PyErr
}.

(** An object of the class [PartialOrderGraph] of this library. *)
Definition partial_order_graph (g : PartialOrderGraph) : PyAny :=
  mkPyAny true (Ok g) (Ok g).

(** The graph that [run] uses, lib.rs:238-262.  [warn] is the result of issuing a
    warning: Python can be told to turn warnings into exceptions. *)
Definition get_time_order (warn : result unit PyErr) (time_order : PyAny)
    : result PartialOrderGraph PyErr :=
  if is_partial_order_graph time_order then extract_by_ref time_order
  else
    match warn with
    | Err e => Err e
    | Ok _ => call_into_py_graph time_order
    end.

(** [run], lib.rs:215-273.  The timeout is a [u32], in seconds. *)
Definition py_run (bd : build) (fuel : nat) (env : Env) (warn : result unit PyErr)
    (spacial_graph : SpacialGraph) (time_order : PyAny) (do_search : bool)
    (timeout : option N) (nthreads : nat)
    (probabilistic : option (AcceptFuncBase * option N)) (task_bound : option N)
    : option (out (result Paths PyErr)) :=
  match
    match probabilistic with
    | Some (PyCustom _, _) =>
        if 1 <? nthreads
        then Some (PyValueError
          "multi-threading with a custom Python callback is not supported")
        else None
    | _ => None
    end
  with
  | Some e => Some (Val (Err e))
  | None =>
      match get_time_order warn time_order with
      | Err e => Some (Val (Err e))
      | Ok time_order =>
          match run bd fuel env spacial_graph time_order do_search
                  (option_map from_secs timeout) nthreads task_bound
                  (option_map (λ '(func, seed), (to_real func, seed)) probabilistic)
          with
          | None => None
          | Some Panic => Some Panic
          | Some (Val paths) => Some (Val (Ok paths))
          end
      end
  end.

(** The defaults of the signature, lib.rs:205-213. *)
Definition py_run_default (bd : build) (fuel : nat) (env : Env) (warn : result unit PyErr)
    (spacial_graph : SpacialGraph) (time_order : PyAny)
    : option (out (result Paths PyErr)) :=
  py_run bd fuel env warn spacial_graph time_order false None 1 None None.
