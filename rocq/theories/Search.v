(** * Model of [mbqc_scheduling/src/search.rs] *)
From Verif Require Export Base Combinatoric Tree Space Time Scheduler.
From Coq Require Export Floats.SpecFloat.
From Verif Require Export Spec.

(** IEEE binary64 numbers (specification floats of the standard library). *)
Definition f64 : Set := spec_float.
Definition f64_prec : Z := 53.
Definition f64_emax : Z := 1024.

(** [x as f64] for [x : usize]: round to nearest, ties to even. *)
Definition f64_of_usize (x : N) : f64 :=
  binary_normalize f64_prec f64_emax (Z.of_N x) 0 false.

(** The literal [1.]. *)
Definition f64_one : f64 := f64_of_usize 1.

(** A formula for [pub type Accept], probabilistic.rs:22: the seven arguments are
    [bound_best_mem], [minimal_mem], [last_max_mem], [last_cur_mem], [cur_mem],
    [num_remaining_nodes], [num_total_nodes]. *)
Definition Formula := f64 → f64 → f64 → f64 → f64 → f64 → f64 → f64.

(** [pub type Accept], probabilistic.rs:22.  A closure can have internal state
    and can panic: [f k] is what call number [k] does. *)
Definition Accept := nat → f64 → f64 → f64 → f64 → f64 → f64 → f64 → out f64.

(** A function without internal state that never panics. *)
Definition stateless (f : Formula) : Accept :=
  λ _ a b c d e r n, Val (f a b c d e r n).

(** How many samples were drawn, and how often the accept function was called. *)
Notation Draws := (nat * nat)%type.

(** [pub type Steps], search.rs:37, [type MappedPaths], search.rs:81. *)
Notation Steps := (list (list nat)).
Notation MappedPaths := (gmap nat (N * list (list nat))).

(** A loop with fuel: the body either continues with a new state or leaves the
    loop with a result.  [None] means that the fuel was not sufficient. *)
Fixpoint loop {S R} (body : S → out (S + R)) (fuel : nat) (s : S) : option (out R) :=
  match fuel with
  | 0 => None
  | S fuel =>
      match body s with
      | Panic => Some Panic
      | Val (inr r) => Some (Val r)
      | Val (inl s') => loop body fuel s'
      end
  end.

(** ** [get_time_optimal] *)

(** One round of the [while] loop of [get_time_optimal], search.rs:65-72.  State:
    scheduler, path, max_memory. *)
Definition time_optimal_body (bd : build) (s : Scheduler (list nat) * Steps * N)
    : out ((Scheduler (list nat) * Steps * N) + (Steps * N)) :=
  let '(sch, p, max_mem) := s in
  match measurable (s_time sch) with
  | [] => Val (inr (p, max_mem))
  | _ =>
      let measurable_set := measurable (s_time sch) in
      let* '(sch', r) := scheduler_focus_inplace bd sch measurable_set in
      match r with
      | Err _ => Panic (* expect *)
      | Ok _ => Val (inl (sch', p ++ [measurable_set],
                          N.max max_mem (max_memory (s_space sch'))))
      end
  end.

(** [get_time_optimal], search.rs:47-79. *)
Definition get_time_optimal (bd : build) (fuel : nat) (spacial_graph : SpacialGraph)
    (time_ordering : PartialOrderGraph) : option (out (list path)) :=
  match from_dependency_graph time_ordering
          (dependency_buffer_new (length spacial_graph)) None with
  | Panic => Some Panic
  | Val t =>
      match loop (time_optimal_body bd) fuel
              (mkScheduler t (graph_new spacial_graph), [], 0%N) with
      | None => None
      | Some Panic => Some Panic
      | Some (Val (p, max_mem)) => Some (Val [MkPath (length p) max_mem p])
      end
  end.

(** ** Bookkeeping of the depth first search *)

(** [minimum_path_length], search.rs:176-184. *)
Definition minimum_path_length (t : PathGenerator Partitioner) (current_path : Steps) : nat :=
  match time_at_leaf t with
  | Some _ => length current_path + 1
  | None =>
      if has_unmeasureable t then length current_path + 3
      else length current_path + 2
  end.

(** [forward], search.rs:187-205.  Result: sweep, path, and whether to break. *)
Definition forward (measure : list nat) (scheduler : Sweep (Scheduler Partitioner))
    (best_memory : list N) (current_path : Steps)
    : out (Sweep (Scheduler Partitioner) * Steps * bool) :=
  let cur := current scheduler in
  let* bound := index best_memory (minimum_path_length (s_time cur) current_path) in
  if (bound <=? max_memory (s_space cur))%N then
    match skip_current scheduler with
    | (scheduler, Ok _) => Val (scheduler, current_path, false)
    | (scheduler, Err _) => Val (scheduler, current_path, true)
    end
  else Val (scheduler, current_path ++ [measure], false).

(** [Vec::pop] without looking at the popped element. *)
Definition pop {A} (l : list A) : list A := take (length l - 1) l.

(** [for m in best_memory[k..].iter_mut() { *m = min( *m, mem) }], search.rs:216-218. *)
Definition lower_from (k : nat) (mem : N) (best_memory : list N) : list N :=
  take k best_memory ++ map (λ m, N.min m mem) (drop k best_memory).

(** [backward], search.rs:208-222.  Slicing [best_memory[len + 1..]] cannot panic
    once [best_memory[len]] did not. *)
Definition backward (leaf : option N) (current_path : Steps) (best_memory : list N)
    (results : MappedPaths) : out (Steps * list N * MappedPaths) :=
  match leaf with
  | Some mem =>
      let* best_memory := index_set best_memory (length current_path) mem in
      let best_memory := lower_from (length current_path + 1) mem best_memory in
      let results := <[length current_path := (mem, current_path)]> results in
      Val (pop current_path, best_memory, results)
  | None => Val (pop current_path, best_memory, results)
  end.

(** The local variables of the search loops (search.rs:151-154, 232-234). *)
Record SearchState := mkSearchState {
  ss_scheduler : Sweep (Scheduler Partitioner);
  ss_path : Steps;
  ss_best : list N;
  ss_results : MappedPaths
}.

(** The local variables on entry of [do_search], search.rs:151-154. *)
Definition search_init (scheduler : Sweep (Scheduler Partitioner)) (num_bits : nat)
    : SearchState :=
  mkSearchState scheduler [] (replicate (num_bits + 1) usize_max) ∅.

(** ** Deterministic search *)

(** The body of the [while let] loop of [do_search] without the timer,
    search.rs:155-165: [inr] leaves the loop. *)
Definition search_iteration (bd : build) (s : SearchState)
    : out (SearchState + SearchState) :=
  let* '(sch, st) := sweep_next (H := scheduler_focus_iterator bd) (ss_scheduler s) in
  match st with
  | None => Val (inr (mkSearchState sch (ss_path s) (ss_best s) (ss_results s)))
  | Some (Forward measure) =>
      let* '(sch, p, brk) := forward measure sch (ss_best s) (ss_path s) in
      let s' := mkSearchState sch p (ss_best s) (ss_results s) in
      if brk : bool then Val (inr s') else Val (inl s')
  | Some (Backward leaf) =>
      let* '(p, best, res) := backward leaf (ss_path s) (ss_best s) (ss_results s) in
      Val (inl (mkSearchState sch p best res))
  end.

(** One round of [do_search]'s loop, search.rs:155-170.  [timer n] is what the
    [n]-th call of [timer.finished()] returns; the state carries [n]. *)
Definition do_search_body (bd : build) (timer : nat → bool) (s : nat * SearchState)
    : out ((nat * SearchState) + (MappedPaths * list N)) :=
  let* r := search_iteration bd s.2 in
  match r with
  | inr s' => Val (inr (ss_results s', ss_best s'))
  | inl s' =>
      if timer s.1 then Val (inr (ss_results s', ss_best s'))
      else Val (inl (S s.1, s'))
  end.

(** [do_search], search.rs:146-173. *)
Definition do_search (bd : build) (fuel : nat) (timer : nat → bool)
    (scheduler : Sweep (Scheduler Partitioner)) (num_bits : nat)
    : option (out (MappedPaths * list N)) :=
  loop (do_search_body bd timer) fuel (0, search_init scheduler num_bits).

(** ** Probabilistic search *)

(** [probabilistic_forward], search.rs:282-318.  [samples] is the stream of the
    values that [dist.sample(rng)] will return; the rest of the stream is
    returned.  Simplification: the random generator is an arbitrary stream. *)
Definition probabilistic_forward (measure : list nat)
    (scheduler : Sweep (Scheduler Partitioner)) (best_memory : list N)
    (current_path : Steps) (last_cur_mem last_max_mem : N)
    (samples : nat → f64) (drawn : Draws) (accept_func : Accept)
    : out (Sweep (Scheduler Partitioner) * Steps * Draws * bool) :=
  let cur := current scheduler in
  let sp := s_space cur in
  let* bound_best_mem :=
    index best_memory (minimum_path_length (s_time cur) current_path) in
  if (bound_best_mem <=? max_memory sp)%N then
    match skip_current scheduler with
    | (scheduler, Ok _) => Val (scheduler, current_path, drawn, false)
    | (scheduler, Err _) => Val (scheduler, current_path, drawn, true)
    end
  else
    let* last_best := match last best_memory with Some m => Val m | None => Panic end in
    let* accept :=
      accept_func drawn.2 (f64_of_usize bound_best_mem) (f64_of_usize last_best)
        (f64_of_usize last_max_mem) (f64_of_usize last_cur_mem)
        (f64_of_usize (current_memory sp))
        (f64_of_usize (N.of_nat (num_remaining_nodes (s_time cur))))
        (f64_of_usize (N.of_nat (length (nodes sp)))) in
    let called := (drawn.1, S drawn.2) in
    let sampled := (S drawn.1, S drawn.2) in
    if SFleb f64_one accept then Val (scheduler, current_path ++ [measure], called, false)
    else if SFltb (samples drawn.1) accept
    then Val (scheduler, current_path ++ [measure], sampled, false)
    else
      match skip_current scheduler with
      | (scheduler, Ok _) => Val (scheduler, current_path, sampled, false)
      | (scheduler, Err _) => Val (scheduler, current_path, sampled, true)
      end.

(** The body of the loop of [do_probabilistic_search] without the timer,
    search.rs:243-270.  The numbers of samples and calls are carried along. *)
Definition probabilistic_iteration (bd : build) (accept_func : Accept)
    (samples : nat → f64) (s : Draws * SearchState)
    : out ((Draws * SearchState) + SearchState) :=
  let '(drawn, s) := s in
  let sp := s_space (current (ss_scheduler s)) in
  let last_cur_mem := current_memory sp in
  let last_max_mem := max_memory sp in
  let* '(sch, st) := sweep_next (H := scheduler_focus_iterator bd) (ss_scheduler s) in
  match st with
  | None => Val (inr (mkSearchState sch (ss_path s) (ss_best s) (ss_results s)))
  | Some (Forward measure) =>
      let* '(sch, p, drawn, brk) :=
        probabilistic_forward measure sch (ss_best s) (ss_path s) last_cur_mem
          last_max_mem samples drawn accept_func in
      let s' := mkSearchState sch p (ss_best s) (ss_results s) in
      if brk : bool then Val (inr s') else Val (inl (drawn, s'))
  | Some (Backward leaf) =>
      let* '(p, best, res) := backward leaf (ss_path s) (ss_best s) (ss_results s) in
      Val (inl (drawn, mkSearchState sch p best res))
  end.

(** One round of [do_probabilistic_search]'s loop, search.rs:243-275. *)
Definition do_probabilistic_search_body (bd : build) (timer : nat → bool)
    (accept_func : Accept) (samples : nat → f64) (s : nat * (Draws * SearchState))
    : out ((nat * (Draws * SearchState)) + (MappedPaths * list N)) :=
  let* r := probabilistic_iteration bd accept_func samples s.2 in
  match r with
  | inr s' => Val (inr (ss_results s', ss_best s'))
  | inl s' =>
      if timer s.1 then Val (inr (ss_results s'.2, ss_best s'.2))
      else Val (inl (S s.1, s'))
  end.

(** [do_probabilistic_search], search.rs:226-278. *)
Definition do_probabilistic_search (bd : build) (fuel : nat) (timer : nat → bool)
    (scheduler : Sweep (Scheduler Partitioner)) (num_bits : nat)
    (accept_func : Accept) (samples : nat → f64) : option (out (MappedPaths * list N)) :=
  loop (do_probabilistic_search_body bd timer accept_func samples) fuel
    (0, ((0, 0), search_init scheduler num_bits)).

(** ** Filtering and sorting *)

(** The body of the filter loop, search.rs:124-134. *)
Definition filter_body (results : MappedPaths) (s : MappedPaths * list N) (i : nat)
    : out (MappedPaths * list N) :=
  match results !! i with
  | None => Val s
  | Some (mem, st) =>
      let* m := index s.2 i in
      if (mem <? m)%N
      then Val (<[i := (mem, st)]> s.1,
                take i s.2 ++ replicate (length s.2 - i) mem)
      else Val s
  end.

(** The filter, search.rs:121-134. *)
Definition filter_results (num_bits : nat) (results : MappedPaths) : out MappedPaths :=
  let best := replicate (num_bits + 1) usize_max in
  let* r := ofold (filter_body results) (seq 0 (length best)) (∅, best) in
  Val r.1.

(** [sort_by_key] by the time, search.rs:140: a stable sort. *)
Fixpoint insert_by_time (p : path) (l : list path) : list path :=
  match l with
  | [] => [p]
  | q :: l' => if time p <=? time q then p :: l else q :: insert_by_time p l'
  end.
Fixpoint sort_by_time (l : list path) : list path :=
  match l with [] => [] | p :: l' => insert_by_time p (sort_by_time l') end.

(** search.rs:119-142.  [hash_order] is the iteration order of the hash map
    [filtered_results]: an arbitrary rearrangement of its entries. *)
Definition finish (hash_order : list (nat * (N * Steps)) → list (nat * (N * Steps)))
    (num_bits : nat) (results : MappedPaths) : out (list path) :=
  let* filtered_results := filter_results num_bits results in
  Val (sort_by_time (map (λ e, MkPath e.1 e.2.1 e.2.2)
                       (hash_order (map_to_list filtered_results)))).

(** The scheduler built by [search], search.rs:94-101. *)
Definition search_scheduler (spacial_graph : SpacialGraph)
    (time_ordering : PartialOrderGraph) : out (Scheduler Partitioner) :=
  let* t := from_dependency_graph time_ordering
              (dependency_buffer_new (length spacial_graph)) None in
  Val (mkScheduler t (graph_new spacial_graph)).

(** [search] with [nthreads < 2], search.rs:86-143 (the other case is in
    [Threaded.v]).  [probabilistic] is the accept function together with the
    samples that the generator seeded by search.rs:236-240 delivers. *)
Definition search_single (bd : build) (fuel : nat) (timer : nat → bool)
    (hash_order : list (nat * (N * Steps)) → list (nat * (N * Steps)))
    (spacial_graph : SpacialGraph) (time_ordering : PartialOrderGraph)
    (probabilistic : option (Accept * (nat → f64))) : option (out (list path)) :=
  let num_bits := length spacial_graph in
  match search_scheduler spacial_graph time_ordering with
  | Panic => Some Panic
  | Val scheduler =>
      match
        match probabilistic with
        | Some (accept_func, samples) =>
            do_probabilistic_search bd fuel timer (sweep_new scheduler) num_bits
              accept_func samples
        | None => do_search bd fuel timer (sweep_new scheduler) num_bits
        end
      with
      | None => None
      | Some Panic => Some Panic
      | Some (Val (results, _)) => Some (finish hash_order num_bits results)
      end
  end.
