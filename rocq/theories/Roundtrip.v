(** * Model of the repository's own property test, [mbqc_scheduling/tests/roundtrip.rs]

    Modelled from the dependency graph on (roundtrip.rs:102-291): a failing
    assertion, an [unwrap] of an error and an index out of range are [Panic].
    The random circuits from which [pauli_tracker] computes the dependency graph
    (roundtrip.rs:46-88) are not modelled: the graph is an argument. *)
From Verif Require Export Search Sweeping.

(** [type TimeStep], roundtrip.rs:313. *)
Notation TimeStep := (Step (list nat) (option unit)).

(** A computation that needs fuel, followed by another one. *)
Definition andthen {A B} (x : option (out A)) (f : A → option (out B)) : option (out B) :=
  match x with
  | None => None
  | Some Panic => Some Panic
  | Some (Val a) => f a
  end.

(** ** The search of the test *)

(** One round of the loop at roundtrip.rs:132-162. *)
Definition skipper_body (bd : build) (s : SearchState) : out (SearchState + MappedPaths) :=
  let* '(sch, st) := sweep_next (H := scheduler_focus_iterator bd) (ss_scheduler s) in
  let p := ss_path s in
  match st with
  | None => Val (inr (ss_results s))
  | Some (Forward mess) =>
      let cur := current sch in
      let minimum_time :=
        match time_at_leaf (s_time cur) with
        | Some _ => length p + 1
        | None => if has_unmeasureable (s_time cur) then length p + 3 else length p + 2
        end in
      let* m := index (ss_best s) minimum_time in
      if (m <=? max_memory (s_space cur))%N then
        match skip_current sch with
        | (sch, Ok _) => Val (inl (mkSearchState sch p (ss_best s) (ss_results s)))
        | (_, Err _) => Val (inr (ss_results s))
        end
      else Val (inl (mkSearchState sch (p ++ [mess]) (ss_best s) (ss_results s)))
  | Some (Backward (Some mem)) =>
      let* best := index_set (ss_best s) (length p) mem in
      Val (inl (mkSearchState sch (pop p) (lower_from (length p + 1) mem best)
                  (<[length p := (mem, p)]> (ss_results s))))
  | Some (Backward None) =>
      Val (inl (mkSearchState sch (pop p) (ss_best s) (ss_results s)))
  end.

(** roundtrip.rs:127-162.  [num_nodes + 1] cannot overflow in the test, where
    [num_nodes < 8]. *)
Definition skipper (bd : build) (fuel : nat) (sch : Scheduler Partitioner) (num_nodes : nat)
    : option (out MappedPaths) :=
  loop (skipper_body bd) fuel
    (mkSearchState (sweep_new sch) []
       (replicate (num_nodes + 1) (N.of_nat num_nodes + 1)%N) ∅).

(** ** Filters *)

(** One round of the loop at roundtrip.rs:165-173. *)
Definition keep_best (res : MappedPaths) (e : Steps * N) : MappedPaths :=
  match res !! length e.1 with
  | Some (mem, _) => if (e.2 <? mem)%N then <[length e.1 := (e.2, e.1)]> res else res
  | None => <[length e.1 := (e.2, e.1)]> res
  end.

(** roundtrip.rs:164-173. *)
Definition filtered_all (all : list (Steps * N)) : MappedPaths := foldl keep_best ∅ all.

(** One round of the loop at roundtrip.rs:182-192. *)
Definition final_filter_body (paths : MappedPaths) (s : MappedPaths * list N) (i : nat)
    : out (MappedPaths * list N) :=
  match paths !! i with
  | None => Val s
  | Some (mem, p) =>
      let* m := index s.2 i in
      if (mem <? m)%N
      then Val (<[i := (mem, p)]> s.1, take i s.2 ++ map (λ _, mem) (drop i s.2))
      else Val s
  end.

(** [final_filter], roundtrip.rs:176-194. *)
Definition final_filter (num_nodes : nat) (paths : MappedPaths) : out MappedPaths :=
  let best := replicate (num_nodes + 1) (N.of_nat num_nodes + 1)%N in
  let* r := ofold (final_filter_body paths) (seq 0 (length best)) (∅, best) in
  Val r.1.

(** ** Splitting the sweep into tasks *)

(** [time.into_iter().collect()], roundtrip.rs:320-327: all steps of the sweep. *)
Definition steps_body (bd : build) (s : Sweep (PathGenerator Partitioner) * list TimeStep)
    : out ((Sweep (PathGenerator Partitioner) * list TimeStep) + list TimeStep) :=
  let* '(sw, st) := sweep_next (H := time_focus_iterator bd) s.1 in
  match st with
  | Some st => Val (inl (sw, s.2 ++ [st]))
  | None => Val (inr s.2)
  end.
Definition all_steps (bd : build) (fuel : nat) (t : PathGenerator Partitioner)
    : option (out (list TimeStep)) :=
  loop (steps_body bd) fuel (sweep_new t, []).

(** What the closure at roundtrip.rs:322-326 counts. *)
Definition is_leaf (st : TimeStep) : bool :=
  match st with Backward (Some _) => true | _ => false end.
Definition num_leaves (l : list TimeStep) : nat := length (List.filter is_leaf l).

(** The local variables of the loop, roundtrip.rs:333-340. *)
Record Splitting := mkSplitting {
  sp_res : list (list TimeStep);
  sp_task : list TimeStep;
  sp_in_task : nat;
  sp_init : list TimeStep;
  sp_done : nat;
  sp_per_job : nat
}.

(** The inner loop, roundtrip.rs:358-368: returns [init] and what is left. *)
Fixpoint skip_back (init : list TimeStep) (l : list TimeStep) : list TimeStep * list TimeStep :=
  match l with
  | [] => (init, [])
  | Backward _ :: l => skip_back (pop init) l
  | Forward i :: l => (init ++ [Forward i], l)
  end.

(** One round of the outer loop, roundtrip.rs:342-382. *)
Definition split_body (num_normal : nat) (s : Splitting * list TimeStep)
    : out ((Splitting * list TimeStep) + list (list TimeStep)) :=
  let '(s, l) := s in
  match l with
  | [] => Val (inr (sp_res s))
  | Backward leaf :: l =>
      let task := sp_task s ++ [Backward leaf] in
      let init := pop (sp_init s) in
      match leaf with
      | None =>
          Val (inl (mkSplitting (sp_res s) task (sp_in_task s) init (sp_done s) (sp_per_job s), l))
      | Some _ =>
          let k := sp_in_task s + 1 in
          if k =? sp_per_job s then
            let '(init, l) := skip_back init l in
            let d := sp_done s + 1 in
            Val (inl (mkSplitting (sp_res s ++ [task]) init 0 init d
                        (if d =? num_normal then sp_per_job s + 1 else sp_per_job s), l))
          else
            Val (inl (mkSplitting (sp_res s) task k init (sp_done s) (sp_per_job s), l))
      end
  | Forward i :: l =>
      Val (inl (mkSplitting (sp_res s) (sp_task s ++ [Forward i]) (sp_in_task s)
                  (sp_init s ++ [Forward i]) (sp_done s) (sp_per_job s), l))
  end.

(** [split_instructions], roundtrip.rs:315-384.  The division panics if there
    are no tasks; the subtractions cannot overflow. *)
Definition split_instructions (bd : build) (fuel : nat) (t : PathGenerator Partitioner)
    (num_tasks : nat) : option (out (list (list TimeStep))) :=
  andthen (all_steps bd fuel t) (λ l,
    let total := num_leaves l in
    if total <? num_tasks then Some (Val [l])
    else if num_tasks =? 0 then Some Panic
    else
      let per_job := total / num_tasks in
      let num_normal := num_tasks - (total - num_tasks * per_job) in
      loop (split_body num_normal) fuel (mkSplitting [] [] 0 [] 0 per_job, l)).

(** ** Replaying the tasks *)

(** One call of [InstructedSweep::next], roundtrip.rs:231-244, together with one
    round of the loop at roundtrip.rs:256-268.  State: [current], [stack] (its top
    is the head), [path], [results]. *)
Definition replay_body (bd : build) (s : Graph * list Graph * Steps * list (Steps * N))
    (st : TimeStep) : out (Graph * list Graph * Steps * list (Steps * N)) :=
  let '(cur, stk, p, res) := s in
  match st with
  | Forward mess =>
      let* '(cur, r) := graph_focus bd cur mess in
      match r with
      | Ok new => Val (new, cur :: stk, p ++ [mess], res)
      | Err _ => Panic
      end
  | Backward leaf =>
      match stk with
      | [] => Panic
      | top :: stk =>
          match leaf with
          | Some _ => Val (top, stk, pop p, res ++ [(p, max_memory cur)])
          | None => Val (top, stk, pop p, res)
          end
      end
  end.

(** One thread, roundtrip.rs:252-270.  A panicking thread makes [join] return an
    error, which is unwrapped. *)
Definition replay (bd : build) (graph : Graph) (task : list TimeStep) : out (list (Steps * N)) :=
  let* '(_, _, _, res) := ofold (replay_body bd) task (graph, [], [], []) in
  Val res.

(** All threads, roundtrip.rs:247-276: the results are joined in the order of
    the tasks. *)
Definition replay_all (bd : build) (graph : Graph) (tasks : list (list TimeStep))
    : out (list (Steps * N)) :=
  ofold (λ res task, let* r := replay bd graph task in Val (res ++ r)) tasks [].

(** The loops at roundtrip.rs:273-279 and 286-290: every entry has to be new.
    The entries of the test also contain the length of the path. *)
Definition as_set (l : list (Steps * N)) : out (gset (nat * N * Steps)) :=
  ofold (λ s e, let r := (length e.1, e.2, e.1) in
                if decide (r ∈ s) then Panic else Val ({[ r ]} ∪ s)) l ∅.

(** ** The test *)

(** [roundtrip], roundtrip.rs:102-291.  (If nothing is measured, the test returns
    before it has a dependency graph, roundtrip.rs:81-83.) *)
Definition roundtrip (bd : build) (fuel : nat) (dependency_graph : PartialOrderGraph)
    (edges : list (nat * nat)) (num_nodes : nat) : option (out unit) :=
  match from_dependency_graph dependency_graph (dependency_buffer_new num_nodes) None with
  | Panic => Some Panic
  | Val path_generator =>
  match graph_buffer_new edges num_nodes None true with
  | Panic => Some Panic
  | Val buffer =>
      let graph := graph_new buffer in
      let scheduler := mkScheduler path_generator graph in
      andthen (get_all_paths (H := scheduler_focus_iterator bd) fuel [] scheduler) (λ all_paths,
      andthen (skipper bd fuel scheduler num_nodes) (λ skipper_results,
      andthen (Some (final_filter num_nodes skipper_results)) (λ filtered_skipper,
      andthen (Some (final_filter num_nodes (filtered_all all_paths))) (λ filtered_all_paths,
      if decide (filtered_skipper = filtered_all_paths) then
        andthen (split_instructions bd fuel path_generator 4) (λ tasks,
        andthen (Some (replay_all bd graph tasks)) (λ results,
        andthen (Some (as_set results)) (λ merged_results,
        andthen (Some (as_set all_paths)) (λ all_results,
        if decide (all_results = merged_results) then Some (Val tt) else Some Panic))))
      else Some Panic))))
  end end.
