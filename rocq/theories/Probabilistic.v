(** * Model of [mbqc_scheduling/src/probabilistic.rs]

    Arithmetic on [f64] is IEEE binary64 with round to nearest even
    (specification floats of the standard library; one NaN, without payload).
    [f64::exp] has no specified rounding; it is the parameter [exp]. *)
From Verif Require Export Search.

Definition f64_zero : f64 := S754_zero false.
Definition f64_mul : f64 → f64 → f64 := SFmul f64_prec f64_emax.
Definition f64_div : f64 → f64 → f64 := SFdiv f64_prec f64_emax.
Definition f64_sub : f64 → f64 → f64 := SFsub f64_prec f64_emax.
Definition f64_neg : f64 → f64 := SFopp.

Definition f64_is_nan (x : f64) : bool := match x with S754_nan => true | _ => false end.

(** [f64::max]: the other argument if one is NaN. *)
Definition f64_max (x y : f64) : f64 :=
  if f64_is_nan x then y else if f64_is_nan y then x else if SFltb x y then y else x.

(** [f64::powi]: repeated squaring, as the compiler expands it for a constant
    exponent; the loop of the runtime library starts with [1.] instead of the
    first factor (an exact multiplication).  A negative exponent gives the
    reciprocal.  [x] runs through the squares, [r] is the product so far. *)
Fixpoint powi_loop (n : positive) (x : f64) (r : option f64) : f64 :=
  let mul := match r with Some r => f64_mul r x | None => x end in
  match n with
  | xH => mul
  | xO n => powi_loop n (f64_mul x x) r
  | xI n => powi_loop n (f64_mul x x) (Some mul)
  end.
Definition f64_powi (x : f64) (n : Z) : f64 :=
  match n with
  | Z0 => f64_one
  | Zpos n => powi_loop n x None
  | Zneg n => f64_div f64_one (powi_loop n x None)
  end.

(** [builtin_heavyside], probabilistic.rs:27-45. *)
Definition builtin_heavyside (exp : f64 → f64) : Formula :=
  λ _ minimal_mem last_max_mem _ cur_mem num_remaining_nodes num_total_nodes,
  let diff := f64_sub minimal_mem (f64_max cur_mem last_max_mem) in
  if SFltb diff f64_zero then f64_zero
  else
    f64_mul (f64_powi num_total_nodes 2)
      (exp (f64_neg
         (f64_div
            (f64_div (f64_mul num_total_nodes num_remaining_nodes) (f64_powi diff 3))
            (f64_sub num_total_nodes num_remaining_nodes)))).

(** [HeavysideParameters], probabilistic.rs:51-58; the exponents are [i32]. *)
Record HeavysideParameters := mkHeavysideParameters {
  cutoff : f64;
  lin_num_total_nodes_exp : Z;
  exp_num_total_nodes_exp : Z;
  exp_num_remaining_nodes_exp : Z;
  exp_diff_exp : Z;
  exp_num_measured_nodes_exp : Z
}.

(** [create_parametrized_heavyside], probabilistic.rs:60-83. *)
Definition create_parametrized_heavyside (exp : f64 → f64) (param : HeavysideParameters)
    : Formula :=
  λ _ minimal_mem last_max_mem _ cur_mem num_remaining_nodes num_total_nodes,
  let diff := f64_sub minimal_mem (f64_max cur_mem last_max_mem) in
  if SFltb diff (cutoff param) then f64_zero
  else
    f64_mul (f64_powi num_total_nodes (lin_num_total_nodes_exp param))
      (exp (f64_neg
         (f64_div
            (f64_div
               (f64_mul (f64_powi num_total_nodes (exp_num_total_nodes_exp param))
                  (f64_powi num_remaining_nodes (exp_num_remaining_nodes_exp param)))
               (f64_powi diff (exp_diff_exp param)))
            (f64_powi (f64_sub num_total_nodes num_remaining_nodes)
               (exp_num_measured_nodes_exp param))))).

(** [AcceptFunc], probabilistic.rs:90-138.  A custom function can have internal
    state, which all tasks of a multi threaded search share, and can panic:
    [f i k] is what call number [k] of task [i] does. *)
Inductive AcceptFunc :=
| BuiltinHeavyside
| ParametrizedHeavyside (param : HeavysideParameters)
| Custom (f : nat → Accept).

(** [AcceptFunc::default], probabilistic.rs:89-91. *)
Definition accept_func_default : AcceptFunc := BuiltinHeavyside.

(** [AcceptFunc::get_accept_func], probabilistic.rs:142-150. *)
Definition get_accept_func (exp : f64 → f64) (a : AcceptFunc) : nat → Accept :=
  match a with
  | BuiltinHeavyside => λ _, stateless (builtin_heavyside exp)
  | ParametrizedHeavyside param => λ _, stateless (create_parametrized_heavyside exp param)
  | Custom f => f
  end.
