(** * Model of [mbqc_scheduling/src/interface.rs] and of the binary
    [mbqc_scheduling/src/main.rs] *)
From stdpp Require Import strings.
From Verif Require Export Probabilistic Timer Threaded.


(** The random number generators (external crates): the samples and the 64 bit
    numbers that a [Pcg64] with a given seed yields, and those of a generator
    seeded by the operating system. *)
Record Generators := mkGenerators {
  seeded_samples : N → nat → f64;
  seeded_u64 : N → nat → N;
  entropy_samples : nat → f64;
  entropy_u64 : nat → N
}.

(** What a run does not determine itself. *)
Record Env := mkEnv {
  e_clock : nat → list timer_event;          (* what clock and timer thread do before poll number k
                                                of a single threaded search *)
  e_events : list (timer_event + event);     (* a multi threaded execution, together with clock and
                                                timer thread *)
  e_hash_order : list (nat * (N * Steps)) → list (nat * (N * Steps));
  e_generators : Generators;
  e_exp : f64 → f64
}.

(** The timer of a search, search.rs:103-106; timeout in nano seconds.  The clock
    starts at 0. *)
Definition search_timer (timeout : option nat) : Timer :=
  match timeout with
  | Some d => default (timer_new 0) (timer_exec (timer_new 0) (UStart d))
  | None => timer_new 0
  end.

(** The environment lets the timer thread run or time pass; an event that is not
    possible does not happen.  The search itself does not touch the timer. *)
Definition timer_env (t : Timer) (e : timer_event) : Timer :=
  match e with
  | TStep _ | Tick => default t (timer_exec t e)
  | _ => t
  end.

(** The answer to poll number [k] of a single threaded search, search.rs:166 and
    271. *)
Definition timer_answer (timeout : option nat) (clock : nat → list timer_event)
    (k : nat) : bool :=
  timer_finished
    (foldl timer_env (search_timer timeout) (List.concat (map clock (seq 0 (S k))))).

(** The events of a multi threaded execution: an iteration that polls the timer,
    threaded.rs:180, may see that it has finished.  The flag is read and written
    with [Ordering::Relaxed], timer.rs:74 and 83: the boolean of [EIter] says whether
    the read sees a write that has happened. *)
Fixpoint timed_events (t : Timer) (es : list (timer_event + event)) : list event :=
  match es with
  | [] => []
  | inl e :: es => timed_events (timer_env t e) es
  | inr (EIter i sees) :: es => EIter i (sees && timer_finished t) :: timed_events t es
  | inr e :: es => e :: timed_events t es
  end.

(** The samples of task [i] (task 0 is also the single threaded search):
    search.rs:236-240; threaded.rs:47-57, 70-73, 92-96 and 258. *)
Definition task_samples (gen : Generators) (nthreads : nat) (seed : option N)
    (i : nat) : nat → f64 :=
  if nthreads <? 2 then
    match seed with Some s => seeded_samples gen s | None => entropy_samples gen end
  else
    seeded_samples gen
      (match seed with Some s => seeded_u64 gen s i | None => entropy_u64 gen i end).

(** The world of a search in the environment [env]. *)
Definition world_of (fuel : nat) (env : Env) (timeout : option nat) (nthreads : nat)
    (seed : option N) : World :=
  mkWorld fuel (timer_answer timeout (e_clock env))
    (timed_events (search_timer timeout) (e_events env))
    (e_hash_order env) (task_samples (e_generators env) nthreads seed).

(** [run], interface.rs:71-92.  [nthreads] is a [u16], [task_bound] a [u32], the
    seed a [u64]. *)
Definition run (bd : build) (fuel : nat) (env : Env) (spacial_graph : SpacialGraph)
    (time_ordering : PartialOrderGraph) (do_search : bool) (timeout : option nat)
    (nthreads : nat) (task_bound : option N)
    (probabilistic : option (AcceptFunc * option N)) : option (out (list path)) :=
  if negb do_search then get_time_optimal bd fuel spacial_graph time_ordering
  else
    search bd
      (world_of fuel env timeout nthreads
         (match probabilistic with Some (_, seed) => seed | None => None end))
      spacial_graph time_ordering nthreads
      (match probabilistic with
       | Some (func, _) => Some (get_accept_func (e_exp env) func)
       | None => None
       end)
      (match task_bound with Some b => Z.of_N b | None => 100000%Z end).

(** ** Files *)

Notation bytes := (list Init.Byte.byte).

(** Contents of the files and the existing directories. *)
Record Files := mkFiles {
  f_contents : gmap string bytes;
  f_dirs : gset string
}.

(** Errors, [Box<dyn error::Error>]. *)
Inductive error :=
| IoError
| DecodeError
| UnknownFormat (format : string).   (* interface.rs:138-147 *)

(** The operating system and the serialization crates. *)
Record System_ := mkSystem_ {
  os_open_fails : string → bool;           (* besides files that do not exist *)
  os_mkdir_fails : string → bool;
  os_create_fails : string → bool;
  os_write_limit : string → option nat;    (* writing fails after so many bytes *)
  os_parent : string → option (string * list string);  (* [Path::parent], and itself with all its
                                                           ancestors *)
  json_spacial : bytes → option SpacialGraph;
  json_order : bytes → option PartialOrderGraph;
  json_paths : list path → bytes;
  bincode_spacial : bytes → option SpacialGraph;
  bincode_order : bytes → option PartialOrderGraph;
  bincode_paths : list path → bytes
}.

(** [open], interface.rs:127-129, and reading the whole file. *)
Definition open (os : System_) (fs : Files) (path : string) : result bytes error :=
  if os_open_fails os path then Err IoError
  else match f_contents fs !! path with Some b => Ok b | None => Err IoError end.

(** [create], interface.rs:131-136: creates the parent directories and truncates
    the file. *)
Definition create (os : System_) (fs : Files) (path : string) : Files * result unit error :=
  let dirs :=
    match os_parent os path with
    | Some (parent, all) =>
        if os_mkdir_fails os parent then None else Some (list_to_set all ∪ f_dirs fs)
    | None => Some (f_dirs fs)
    end in
  match dirs with
  | None => (fs, Err IoError)
  | Some dirs =>
      let fs := mkFiles (f_contents fs) dirs in
      if os_create_fails os path then (fs, Err IoError)
      else (mkFiles (<[path := []]> (f_contents fs)) (f_dirs fs), Ok tt)
  end.

(** Writing [b] to the file created at [path] (part of interface.rs:155-156). *)
Definition write (os : System_) (fs : Files) (path : string) (b : bytes)
    : Files * result unit error :=
  match os_write_limit os path with
  | Some n =>
      if n <? length b
      then (mkFiles (<[path := take n b]> (f_contents fs)) (f_dirs fs), Err IoError)
      else (mkFiles (<[path := b]> (f_contents fs)) (f_dirs fs), Ok tt)
  | None => (mkFiles (<[path := b]> (f_contents fs)) (f_dirs fs), Ok tt)
  end.

(** [serialize_to_file] for [Vec<Path>], interface.rs:149-160. *)
Definition serialize_to_file (os : System_) (fs : Files) (path : string)
    (value : list Spec.path) (format : string) : Files * result unit error :=
  let put (b : bytes) :=
    match create os fs path with
    | (fs, Err e) => (fs, Err e)
    | (fs, Ok _) => write os fs path b
    end in
  if String.eqb format "serde_json"%string then put (json_paths os value)
  else if String.eqb format "bincode"%string then put (bincode_paths os value)
  else (fs, Err (UnknownFormat format)).

(** [deserialize_from_file], interface.rs:162-171, with the decoders for the two
    formats. *)
Definition deserialize_from_file {A} (json bincode : bytes → option A) (os : System_)
    (fs : Files) (path format : string) : result A error :=
  let get (decode : bytes → option A) :=
    match open os fs path with
    | Err e => Err e
    | Ok b => match decode b with Some a => Ok a | None => Err DecodeError end
    end in
  if String.eqb format "serde_json"%string then get json
  else if String.eqb format "bincode"%string then get bincode
  else Err (UnknownFormat format).

(** [run_serialized], interface.rs:98-125.  Result: the files afterwards and the
    returned [Result]; [None]: out of fuel; [Panic]: the search panics. *)
Definition run_serialized (bd : build) (fuel : nat) (env : Env) (os : System_) (fs : Files)
    (spacial_graph dependency_graph : string * string) (do_search : bool)
    (timeout : option nat) (nthreads : nat) (task_bound : option N)
    (probabilistic : option AcceptFunc) (paths : string * string)
    : option (out (Files * result unit error)) :=
  match deserialize_from_file (json_spacial os) (bincode_spacial os) os fs
          spacial_graph.1 spacial_graph.2 with
  | Err e => Some (Val (fs, Err e))
  | Ok adj =>
      match deserialize_from_file (json_order os) (bincode_order os) os fs
              dependency_graph.1 dependency_graph.2 with
      | Err e => Some (Val (fs, Err e))
      | Ok g =>
          match run bd fuel env adj g do_search timeout nthreads task_bound
                  (match probabilistic with Some func => Some (func, None) | None => None end) with
          | None => None
          | Some Panic => Some Panic
          | Some (Val ps) => Some (Val (serialize_to_file os fs paths.1 ps paths.2))
          end
      end
  end.

(** ** The binary *)

(** [Args], cli.rs:99-111.  Not modelled: how [clap] gets them from the command
    line. *)
Record Args := mkArgs {
  a_spacial_graph : string; a_spacial_graph_format : string;
  a_dependency_graph : string; a_dependency_graph_format : string;
  a_paths : string; a_paths_format : string;
  a_search : bool;
  a_timeout : option N;     (* seconds *)
  a_nthreads : nat;
  a_probabilistic : bool;
  a_task_bound : option N
}.

(** [Duration::from_secs], in nano seconds. *)
Definition from_secs (t : N) : nat := N.to_nat (t * 1000000000).

(** [main], main.rs:8-34: [expect] panics if [run_serialized] fails. *)
Definition main (bd : build) (fuel : nat) (env : Env) (os : System_) (fs : Files)
    (args : Args) : option (out Files) :=
  match
    run_serialized bd fuel env os fs
      (a_spacial_graph args, a_spacial_graph_format args)
      (a_dependency_graph args, a_dependency_graph_format args)
      (a_search args) (option_map from_secs (a_timeout args)) (a_nthreads args)
      (a_task_bound args) (if a_probabilistic args then Some BuiltinHeavyside else None)
      (a_paths args, a_paths_format args)
  with
  | None => None
  | Some Panic => Some Panic
  | Some (Val (_, Err _)) => Some Panic
  | Some (Val (fs, Ok _)) => Some (Val fs)
  end.
