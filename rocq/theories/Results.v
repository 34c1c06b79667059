(** * Model of the benchmark crate [results] ([results/src/plots.rs],
    [plots/node.rs], [plots/density.rs] and the constants of [lib.rs])

    The command line ([cli.rs]) is modelled in [Cli.v], writing the output file in
    [Output.v].  Not modelled: printing.  [induced_order::get_order] of the crate [pauli_tracker] is a parameter. *)
From stdpp Require Import strings.
From Verif Require Export Interface.

(** Further operations on [f64]; [sqrt] is correctly rounded. *)
Definition f64_add : f64 → f64 → f64 := SFadd f64_prec f64_emax.
Definition f64_sqrt : f64 → f64 := SFsqrt f64_prec f64_emax.

(** [x.round() as u64]: half away from zero; the cast saturates, NaN becomes 0. *)
Definition f64_round_u64 (x : f64) : N :=
  match x with
  | S754_finite false m (Zneg e) =>
      N.min (2 ^ 64 - 1) ((N.pos m + 2 ^ (N.pos e - 1)) / 2 ^ N.pos e)
  | S754_finite false m e => N.min (2 ^ 64 - 1) (N.pos m * 2 ^ Z.to_N e)
  | S754_infinity false => (2 ^ 64 - 1)%N
  | _ => 0%N
  end.

(** Sequencing of computations with fuel. *)
Definition rbind {A B} (m : option (out A)) (f : A → option (out B)) : option (out B) :=
  match m with
  | Some (Val a) => f a
  | Some Panic => Some Panic
  | None => None
  end.
Notation "'let+' x := m 'in' k" := (rbind m (λ x, k))
  (at level 200, x name, m at level 100, k at level 200, right associativity).
Notation "'let+' ' p := m 'in' k" := (rbind m (λ x, let p := x in k))
  (at level 200, p pattern, m at level 100, k at level 200, right associativity).
Fixpoint rfold {A S} (f : S → A → option (out S)) (l : list A) (s : S) : option (out S) :=
  match l with
  | [] => Some (Val s)
  | a :: l => let+ s' := f s a in rfold f l s'
  end.

(** [lib.rs:5-9]. *)
Definition NCPUS : nat := 30.
Definition NUM_AVERAGE : nat := 3000.

(** [timeout_per_single_shot_sweep], lib.rs:12-14 (evaluated at compile time). *)
Definition timeout_per_single_shot_sweep (walltime buffer : N) : N :=
  ((walltime * 3600 - buffer * 60) * 1000000000 / N.of_nat NUM_AVERAGE)%N.

(** ** Densities *)

(** [DensityEnum] and the three density types, plots.rs:149-205. *)
Inductive Density :=
| Constant (factor : f64)
| ReziprocalLinear (factor : f64)
| ReziprocalSquareRoot (factor : f64).

(** The assertion of the three [new] functions, plots.rs:162-168. *)
Definition check_factor (factor : f64) : out f64 :=
  if SFleb f64_zero factor && SFleb factor f64_one then Val factor else Panic.

(** [DensityEnum::new], plots.rs:208-219: [unreachable!] panics. *)
Definition density_new (density_type : string) (factor : f64) : out Density :=
  if String.eqb density_type "constant" then
    let* f := check_factor factor in Val (Constant f)
  else if String.eqb density_type "reziprocal_linear" then
    let* f := check_factor factor in Val (ReziprocalLinear f)
  else if String.eqb density_type "reziprocal_square_root" then
    let* f := check_factor factor in Val (ReziprocalSquareRoot f)
  else Panic.

(** [Density::get], plots.rs:179-197 and 222-230. *)
Definition density_get (d : Density) (size : nat) : out f64 :=
  match d with
  | Constant factor => Val factor
  | ReziprocalLinear factor =>
      if 1 <? size
      then Val (f64_div factor (f64_sub (f64_of_usize (N.of_nat size)) f64_one))
      else Panic
  | ReziprocalSquareRoot factor =>
      if 1 <? size
      then Val (f64_div factor (f64_sqrt (f64_sub (f64_of_usize (N.of_nat size)) f64_one)))
      else Panic
  end.

(** ** Random graphs *)

(** The random number generator [rng]: what draw number [k] yields, depending on
    the kind of the draw.  Simplification: the generator is arbitrary. *)
Record Rng := mkRng {
  r_uniform : nat → f64;          (* [Uniform::new(0.0, 1.0).sample(rng)] *)
  r_range : nat → nat → nat;      (* [rng.gen_range(0..n)] *)
  r_u64 : nat → N                 (* [rng.gen()] *)
}.

(** [v[i].push(a)]. *)
Definition index_push {A} (v : list (list A)) (i : nat) (a : A) : out (list (list A)) :=
  let* l := index v i in index_set v i (l ++ [a]).

(** The body of the inner loop of [get_graph], plots.rs:242-247.  State: graph and
    number of draws so far. *)
Definition get_graph_body (rng : Rng) (density : f64) (this : nat)
    (s : SpacialGraph * nat) (other : nat) : out (SpacialGraph * nat) :=
  let '(ret, k) := s in
  if SFltb (r_uniform rng k) density then
    let* ret := index_push ret this other in
    let* ret := index_push ret other this in
    Val (ret, S k)
  else Val (ret, S k).

(** [get_graph], plots.rs:232-250. *)
Definition get_graph (rng : Rng) (density : Density) (size : nat) (k : nat)
    : out (SpacialGraph * nat) :=
  if size =? 0 then Val ([], k)
  else
    let* density := density_get density size in
    ofold (λ s this,
             ofold (get_graph_body rng density this) (seq (this + 1) (size - (this + 1))) s)
      (seq 0 (size - 1)) (replicate size [], k).

(** [Vec::swap_remove]: the removed element and the rest; panics if out of bounds. *)
Definition swap_take {A} (v : list A) (i : nat) : out (A * list A) :=
  let* a := index v i in Val (a, swap_remove v i).

(** The Pauli frames, one stack per qubit.  Simplification: only the [z] parts,
    the [x] parts are never written. *)
Notation Frames := (list (list bool)).

(** [pool.iter().filter(..)], plots.rs:273-276: one draw per element. *)
Fixpoint choose_corrections (rng : Rng) (density : f64) (pool : list nat) (k : nat) : list nat * nat :=
  match pool with
  | [] => ([], k)
  | b :: pool =>
      let '(cs, k') := choose_corrections rng density pool (S k) in
      (if SFltb (r_uniform rng k) density then b :: cs else cs, k')
  end.

(** [frames.get_mut(correction).unwrap().z.set(i, true)], plots.rs:278: [set]
    panics if [i] is out of bounds. *)
Definition set_frame (i : nat) (frames : Frames) (correction : nat) : out Frames :=
  let* z := index frames correction in
  let* z := index_set z i true in
  index_set frames correction z.

(** One round of the [while] loop of [get_order], plots.rs:267-281.  State: frames,
    pool, map, number of draws. *)
Definition get_order_body (rng : Rng) (density : f64)
    (s : Frames * list nat * list nat * nat)
    : out ((Frames * list nat * list nat * nat) + (Frames * list nat * nat)) :=
  let '(frames, pool, map, k) := s in
  match pool with
  | [] => Val (inr (frames, map, k))
  | _ =>
      let* '(bit, pool) := swap_take pool (r_range rng k (length pool)) in
      let '(corrections, k) := choose_corrections rng density pool (S k) in
      let* frames := ofold (set_frame (length map)) corrections frames in
      Val (inl (frames, pool, map ++ [bit], k))
  end.

(** The loop of [get_order], plots.rs:261-281: frames, map, number of draws. *)
Definition get_frames (fuel : nat) (rng : Rng) (density : f64) (size : nat) (k : nat)
    : option (out (Frames * list nat * nat)) :=
  loop (get_order_body rng density) fuel
    (replicate size (replicate size false), seq 0 size, [], k).

(** [get_order], plots.rs:252-283; [induced] is [induced_order::get_order]. *)
Definition get_order (fuel : nat) (induced : Frames → list nat → PartialOrderGraph)
    (rng : Rng) (density : Density) (size : nat) (k : nat)
    : option (out (PartialOrderGraph * nat)) :=
  if size =? 0 then Some (Val ([], k))
  else
    let+ density := Some (density_get density size) in
    let+ '(frames, map, k) := get_frames fuel rng density size k in
    Some (Val (induced frames map, k)).

(** ** The benchmark *)

(** What a single shot does not determine: the environments of the three searches
    and how long they take, in nano seconds. *)
Record Shot := mkShot {
  sh_time_optimal : Env;
  sh_approx : Env;
  sh_full : Env;
  sh_elapsed : N * N * N
}.

(** [results[2 * j].push(time); results[2 * j + 1].push(space)] and the same for
    the means, plots.rs:69-93. *)
Definition push_path (j : nat) (p : path) (s : list (list N) * list f64)
    : out (list (list N) * list f64) :=
  let '(results, means) := s in
  let* results := index_push results (2 * j) (N.of_nat (time p)) in
  let* results := index_push results (2 * j + 1) (space p) in
  let* m := index means (2 * j) in
  let* means := index_set means (2 * j) (f64_add m (f64_of_usize (N.of_nat (time p)))) in
  let* m := index means (2 * j + 1) in
  let* means := index_set means (2 * j + 1) (f64_add m (f64_of_usize (space p))) in
  Val (results, means).
Definition push_opt (j : nat) (p : option path) (s : list (list N) * list f64)
    : out (list (list N) * list f64) :=
  match p with Some p => push_path j p s | None => Val s end.

(** One round of the main loop of [do_it], plots.rs:41-94.  State: results, means,
    total times, number of draws. *)
Definition do_it_body (bd : build) (fuel : nat)
    (induced : Frames → list nat → PartialOrderGraph) (rng : Rng) (size : nat)
    (edge_density correction_density : Density) (timeout : N) (get_full : bool)
    (s : (list (list N) * list f64) * (N * N * N) * nat) (shot : Shot)
    : option (out ((list (list N) * list f64) * (N * N * N) * nat)) :=
  let '(rm, (t1, t2, t3), k) := s in
  let+ '(graph, k) := Some (get_graph rng edge_density size k) in
  let+ '(order, k) := get_order fuel induced rng correction_density size k in
  let+ time_optimal :=
    run bd fuel (sh_time_optimal shot) graph order false None 1 None None in
  let+ space_optimal_approx :=
    run bd fuel (sh_approx shot) graph order true (Some (N.to_nat timeout)) NCPUS None
      (Some (BuiltinHeavyside, Some (r_u64 rng k))) in
  let+ full :=
    if get_full then
      let+ full := run bd fuel (sh_full shot) graph order true None NCPUS None None in
      Some (Val (Some full))
    else Some (Val None) in
  let+ rm := Some
    (let* time_optimal := match head time_optimal with Some p => Val p | None => Panic end in
     let* rm := push_path 0 time_optimal rm in
     let* rm := push_opt 1 (last space_optimal_approx) rm in
     match full with
     | Some full =>
         let* rm := push_opt 2 (head full) rm in
         push_opt 3 (last full) rm
     | None => Val rm
     end) in
  let '(e1, e2, e3) := sh_elapsed shot in
  Some (Val (rm, (t1 + e1, t2 + e2, if get_full then t3 + e3 else t3)%N, S k)).

(** Mean and deviation, plots.rs:96-111. *)
Definition statistics (result : list N) (mean : f64) : f64 * f64 :=
  let n := f64_of_usize (N.of_nat (length result)) in
  let mean := f64_div mean n in
  let sum := foldl (λ s e, f64_add s (f64_powi (f64_sub (f64_of_usize e) mean) 2))
               f64_zero result in
  (mean, f64_sqrt (f64_div sum n)).

(** [Times], plots.rs:125-129, in nano seconds. *)
Record Times := mkTimes {
  time_optimal : N;
  space_optimal_approximated : N;
  full : option N
}.

(** [Times::average], plots.rs:144-146: [try_into().unwrap()]. *)
Definition average (time : N) : out N :=
  let q := (time / N.of_nat NUM_AVERAGE)%N in
  if (q <? 2 ^ 64)%N then Val q else Panic.

(** [do_it], plots.rs:26-122: statistics, times, number of draws.  The shots are
    those of the [NUM_AVERAGE] rounds.  Simplification: [Duration] is unbounded. *)
Definition do_it (bd : build) (fuel : nat)
    (induced : Frames → list nat → PartialOrderGraph) (rng : Rng) (size : nat)
    (edge_density correction_density : Density) (timeout : N) (get_full : bool)
    (shots : nat → Shot) (k : nat) : option (out (list (f64 * f64) * Times * nat)) :=
  let num_res := if get_full then 8 else 4 in
  let+ '(rm, (t1, t2, t3), k) :=
    rfold (do_it_body bd fuel induced rng size edge_density correction_density timeout get_full)
      (map shots (seq 0 NUM_AVERAGE))
      ((replicate num_res [], replicate num_res f64_zero), (0, 0, 0)%N, k) in
  let ret := zip_with statistics rm.1 rm.2 in
  let+ times := Some
    (let* t1 := average t1 in
     let* t2 := average t2 in
     if get_full then let* t3 := average t3 in Val (mkTimes t1 t2 (Some t3))
     else Val (mkTimes t1 t2 None)) in
  Some (Val (ret, times, k)).

(** [results[2 * i].push(result.0); results[2 * i + 1].push(result.1)],
    node.rs:118-121 and density.rs:89-92. *)
Definition push_result (results : list (list f64)) (e : nat * (f64 * f64))
    : out (list (list f64)) :=
  let* results := index_push results (2 * e.1) e.2.1 in
  index_push results (2 * e.1 + 1) e.2.2.
Definition push_results (results : list (list f64)) (result : list (f64 * f64))
    : out (list (list f64)) :=
  ofold push_result (imap (λ i r, (i, r)) result) results.

(** *** Sweep over the number of nodes, [plots/node.rs] *)

(** node.rs:22-37. *)
Definition node_TIMEOUT_PER_SINGLE_SHOT_SWEEP : N := timeout_per_single_shot_sweep 192 120.
Definition MAX_SIZE : nat := 45.
Definition MAX_EXACT_SIZE : nat := 20.
Definition TIMEOUT_PER_SINGLE_SHOT_EXACT_SWEEP : N := 5000000000.
Definition node_RANGE : list nat := seq 2 (MAX_SIZE - 1).
Definition REAL_TIMEOUT_PER_SINGLE_SHOT_SWEEP : N :=
  (node_TIMEOUT_PER_SINGLE_SHOT_SWEEP - TIMEOUT_PER_SINGLE_SHOT_EXACT_SWEEP)%N.

(** [timeouts], node.rs:43-54, in nano seconds. *)
Definition node_timeouts_factor : f64 :=
  let six := f64_of_usize 6 in
  let n := N.of_nat MAX_SIZE in
  f64_div (f64_of_usize REAL_TIMEOUT_PER_SINGLE_SHOT_SWEEP)
    (f64_sub (f64_mul (f64_div f64_one six) (f64_of_usize (n * (n + 1) * (2 * n + 1))))
       f64_one).
Definition node_timeout (size : nat) : N :=
  (f64_round_u64 (f64_mul node_timeouts_factor (f64_powi (f64_of_usize (N.of_nat size)) 2))
   - 5000000)%N. (* saturating_sub *)
Definition node_timeouts : out (list N) :=
  ofold (λ ret size, index_set ret size (node_timeout size)) node_RANGE
    (replicate (MAX_SIZE + 1) 0%N).

(** [node::Args], node.rs:57-62. *)
Record NodeArgs := mkNodeArgs {
  n_edge_density : f64;
  n_edge_density_type : string;
  n_correction_density : f64;
  n_correction_density_type : string
}.

(** One round of the main loop of [node::run], node.rs:98-123. *)
Definition node_body (bd : build) (fuel : nat)
    (induced : Frames → list nat → PartialOrderGraph) (rng : Rng)
    (edge_density correction_density : Density) (timeouts : list N)
    (shots : nat → nat → Shot) (s : list (list f64) * list Times * nat) (size : nat)
    : option (out (list (list f64) * list Times * nat)) :=
  let '(results, time_results, k) := s in
  let+ timeout := Some (index timeouts size) in
  let+ '(result, times, k) :=
    do_it bd fuel induced rng size edge_density correction_density timeout
      (size <=? MAX_EXACT_SIZE) (shots size) k in
  let+ results := Some (push_results results result) in
  Some (Val (results, time_results ++ [times], k)).

(** [node::run], node.rs:64-141, up to writing the output file: the fields
    [results] and [time_results] of the output. *)
Definition node_run (bd : build) (fuel : nat)
    (induced : Frames → list nat → PartialOrderGraph) (rng : Rng) (args : NodeArgs)
    (shots : nat → nat → Shot) : option (out (list (list f64) * list Times)) :=
  let+ edge_density := Some (density_new (n_edge_density_type args) (n_edge_density args)) in
  let+ correction_density :=
    Some (density_new (n_correction_density_type args) (n_correction_density args)) in
  let+ timeouts := Some node_timeouts in
  let+ '(results, time_results, _) :=
    rfold (node_body bd fuel induced rng edge_density correction_density timeouts shots)
      node_RANGE (replicate 16 [], [], 0) in
  Some (Val (results, time_results)).

(** *** Sweep over the correction density, [plots/density.rs] *)

(** density.rs:14-19. *)
Definition density_TIMEOUT_PER_SINGLE_SHOT_SWEEP : N := timeout_per_single_shot_sweep 10 30.
Definition NUM_DENSITIES : nat := 21.
Definition density_RANGE : list nat := seq 1 NUM_DENSITIES.

(** [density], density.rs:21-23. *)
Definition density (multiplier : f64) : out Density :=
  let* f := check_factor
    (f64_div multiplier (f64_add (f64_of_usize (N.of_nat NUM_DENSITIES)) f64_one)) in
  Val (Constant f).

(** [timeouts], density.rs:26-32. *)
Definition density_timeouts : list N :=
  0%N :: replicate NUM_DENSITIES
    (density_TIMEOUT_PER_SINGLE_SHOT_SWEEP / N.of_nat NUM_DENSITIES)%N.

(** [density::Args], density.rs:35-38. *)
Record DensityArgs := mkDensityArgs {
  d_num_nodes : nat;
  d_edge_density_multiplier : f64
}.

(** One round of the main loop of [density::run], density.rs:69-94. *)
Definition density_body (bd : build) (fuel : nat)
    (induced : Frames → list nat → PartialOrderGraph) (rng : Rng) (size : nat)
    (edge_density : Density) (shots : nat → nat → Shot)
    (s : list (list f64) * list Times * nat) (multiplier : nat)
    : option (out (list (list f64) * list Times * nat)) :=
  let '(results, time_results, k) := s in
  let+ correction_density := Some (density (f64_of_usize (N.of_nat multiplier))) in
  let+ timeout := Some (index density_timeouts multiplier) in
  let+ '(result, times, k) :=
    do_it bd fuel induced rng size edge_density correction_density timeout false
      (shots multiplier) k in
  let+ results := Some (push_results results result) in
  Some (Val (results, time_results ++ [times], k)).

(** [density::run], density.rs:40-112, up to writing the output file. *)
Definition density_run (bd : build) (fuel : nat)
    (induced : Frames → list nat → PartialOrderGraph) (rng : Rng) (args : DensityArgs)
    (shots : nat → nat → Shot) : option (out (list (list f64) * list Times)) :=
  let+ edge_density := Some (density (d_edge_density_multiplier args)) in
  let+ '(results, time_results, _) :=
    rfold (density_body bd fuel induced rng (d_num_nodes args) edge_density shots)
      density_RANGE (replicate 8 [], [], 0) in
  Some (Val (results, time_results)).
