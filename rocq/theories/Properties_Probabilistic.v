(** * Properties: accept functions

    [exp] stands for [f64::exp], of which only the conditions [exp_function] and
    [exp_near_zero] of [ProbabilisticFacts.v] are assumed where they are mentioned.
    [builtin_at] is the builtin function applied to unsigned integers that have
    been converted to [f64], which is how the search calls it. *)
From Verif Require Import ProbabilisticSearch Check.

(** A crude function with the assumed properties. *)
Definition crude_exp (x : f64) : f64 :=
  match x with
  | S754_nan => S754_nan
  | S754_infinity true => f64_zero
  | S754_infinity false => S754_infinity false
  | S754_zero _ => f64_one
  | S754_finite true _ _ => f64_half
  | S754_finite false _ _ => f64_one
  end.
Example crude_exp_function : exp_function crude_exp.
Proof. split; [by intros [s|[]| |[] m e]|by intros []|done|by intros [s|[]| |[] m e]]. Qed.
Example crude_exp_near_zero : exp_near_zero crude_exp.
Proof. by intros [s|[]| |[] m e] H1 H2. Qed.

(** ** C41: the builtin accept function *)

(** For all binary64 arguments. *)
Theorem C41_builtin_parametrized :
  ∀ exp, builtin_heavyside exp
         = create_parametrized_heavyside exp (mkHeavysideParameters f64_zero 2 1 1 3 1).
Proof. exact builtin_parametrized. Qed.
Print Assumptions C41_builtin_parametrized.

(** For all binary64 arguments: the result is not below zero. *)
Theorem C41_builtin_not_negative :
  ∀ exp a b c d e f g,
    (∀ x, SFltb (exp x) f64_zero = false) →
    SFltb (builtin_heavyside exp a b c d e f g) f64_zero = false.
Proof. exact builtin_not_negative. Qed.
Print Assumptions C41_builtin_not_negative.

Theorem C41_builtin_cases :
  ∀ exp bound minimal last_max last_cur cur remaining total,
    exp_function exp →
    (minimal < 2 ^ 53)%N ∨ minimal = usize_max →
    (last_max < 2 ^ 53)%N → (cur < 2 ^ 53)%N →
    (1 <= total < 2 ^ 53)%N → (remaining <= total)%N →
    let result := builtin_at exp bound minimal last_max last_cur cur remaining total in
    let mem := N.max cur last_max in
    ((minimal < mem)%N → result = f64_zero) ∧
    (minimal = mem → (0 < remaining)%N → result = f64_zero) ∧
    ((mem < minimal)%N → remaining = total → result = f64_zero) ∧
    ((mem < minimal)%N → remaining = 0%N → SFleb f64_one result = true) ∧
    (result = S754_nan ↔ minimal = mem ∧ remaining = 0%N).
Proof. exact builtin_cases. Qed.
Print Assumptions C41_builtin_cases.

Theorem C41_builtin_rejects :
  ∀ exp bound minimal last_max last_cur cur remaining total sample,
    exp_function exp →
    (minimal < 2 ^ 53)%N → (last_max < 2 ^ 53)%N → (cur < 2 ^ 53)%N →
    (1 <= total < 2 ^ 53)%N → (remaining <= total)%N →
    SFleb f64_zero sample = true → (minimal <= N.max cur last_max)%N →
    let result := builtin_at exp bound minimal last_max last_cur cur remaining total in
    SFleb f64_one result = false ∧ SFltb sample result = false.
Proof. exact builtin_rejects. Qed.
Print Assumptions C41_builtin_rejects.

Theorem C41_builtin_accepts_first :
  ∀ exp bound last_max last_cur cur remaining total,
    exp_function exp → exp_near_zero exp →
    (last_max < 2 ^ 53)%N → (cur < 2 ^ 53)%N →
    (total < 2 ^ 53)%N → (remaining < total)%N →
    SFleb f64_one (builtin_at exp bound usize_max last_max last_cur cur remaining total) = true.
Proof. exact builtin_accepts_first. Qed.
Print Assumptions C41_builtin_accepts_first.

Example C41_example :
  (* 3 of 5 nodes remain *)
  map (λ minimal, builtin_at crude_exp 9 minimal 4 3 4 3 5) [3; 4; 6; usize_max]%N
  = [f64_zero; f64_zero; f64_div (f64_of_usize 25) (f64_of_usize 2);
     f64_div (f64_of_usize 25) (f64_of_usize 2)] ∧
  (* no node remains *)
  map (λ minimal, builtin_at crude_exp 9 minimal 4 3 4 0 5) [3; 4; 6; usize_max]%N
  = [f64_zero; S754_nan; f64_of_usize 25; f64_of_usize 25] ∧
  (* every node remains *)
  map (λ minimal, builtin_at crude_exp 9 minimal 4 3 4 5 5) [3; 4; 6; usize_max]%N
  = [f64_zero; f64_zero; f64_zero; f64_zero].
Proof. by split_and!; vm_compute. Qed.

(** ** C45: with the default accept function the fastest schedule is always found *)

Theorem C45_builtin_first :
  ∀ adj g timer ho exp smp, wf_input adj g → (∀ l, ho l ≡ₚ l) →
  exp_function exp → exp_near_zero exp → (N.of_nat (length adj) < 2 ^ 53)%N →
  ∃ ps,
    (∀ bd, returns (λ fuel, search_single bd fuel timer ho adj g
                              (Some (get_accept_func exp accept_func_default 0, smp))) ps) ∧
    (ps = [] ∨ ∃ p, head ps = Some p ∧ ∀ σ, valid_schedule g σ → time p ≤ time_cost σ) ∧
    (* the timer answered "not finished" for as many iterations as some schedule has steps *)
    (∀ σ, valid_schedule g σ → σ ≠ [] → (∀ k, k < length σ → timer k = false) → ps ≠ []).
Proof. exact builtin_first. Qed.
Print Assumptions C45_builtin_first.

Example C45_example :
  search_single Debug 1000 (λ k, 2 <=? k) id pairs pairs_order
    (Some (get_accept_func crude_exp accept_func_default 0, λ _, f64_half))
  = Some (Val [MkPath 2 4 [[0; 1]; [2; 3]]]) ∧
  search_single Debug 1000 (λ k, 1 <=? k) id pairs pairs_order
    (Some (get_accept_func crude_exp accept_func_default 0, λ _, f64_half)) = Some (Val []) ∧
  search_single Debug 1000 (λ _, false) id pairs pairs_order
    (Some (get_accept_func crude_exp accept_func_default 0, λ _, f64_half))
  = Some (Val [MkPath 2 4 [[0; 1]; [2; 3]]; MkPath 3 3 [[1]; [0; 3]; [2]];
               MkPath 4 2 [[1]; [3]; [0]; [2]]]).
Proof. by split_and!; vm_compute. Qed.
