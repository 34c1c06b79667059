(** * Model of the command lines

    [mbqc_scheduling/src/cli.rs] and [results/src/cli.rs] describe command lines
    for the crate [clap] (4.4); this file models how [clap] parses the options
    and values that occur there, and the functions [parse] of the two files.

    [clap] ends the process if the command line is not accepted, or if help or
    version are asked for: [None] here; messages and exit codes are not
    distinguished.  Arguments are byte strings; [clap] rejects those that are not
    UTF-8. *)
From Coq Require Import Ascii String.
From stdpp Require Import list.
From Verif Require Export Interface Results.
Local Open Scope string_scope.
Local Notation length := List.length.

(** ** [clap] *)

(** An option: [Arg::short], [Arg::long]; [o_takes]: it has a value
    ([ArgAction::Set], otherwise [ArgAction::SetTrue]). *)
Record Opt := mkOpt { o_id : string; o_short : ascii; o_long : string; o_takes : bool }.

(** What a command line says, in its order. *)
Inductive said := Given (id value : string) | Operand (value : string).

Definition find_short (opts : list Opt) (c : ascii) : option Opt :=
  List.find (λ o, Ascii.eqb (o_short o) c) opts.
Definition find_long (opts : list Opt) (s : string) : option Opt :=
  List.find (λ o, String.eqb (o_long o) s) opts.

(** The name and the attached value of [name=value]. *)
Fixpoint split_eq (s : string) : string * option string :=
  match s with
  | "" => ("", None)
  | String c r =>
      if Ascii.eqb c "=" then ("", Some r)
      else let (n, v) := split_eq r in (String c n, v)
  end.

(** A group of short options: flags, then possibly one option with its value,
    which may be attached, after a [=] or not; otherwise it is the next argument. *)
Fixpoint cluster (opts : list Opt) (s : string) : option (list said * option Opt) :=
  match s with
  | "" => Some ([], None)
  | String c r =>
      match find_short opts c with
      | None => None
      | Some o =>
          if o_takes o then
            match r with
            | "" => Some ([], Some o)
            | String d v => Some ([Given (o_id o) (if Ascii.eqb d "=" then v else r)], None)
            end
          else
            match cluster opts r with
            | Some (es, pending) => Some (Given (o_id o) "" :: es, pending)
            | None => None
            end
      end
  end.

(** The kinds of arguments. *)
Inductive kind := Escape | LongArg (s : string) | ShortArg (s : string) | PlainArg.

Definition classify (arg : string) : kind :=
  match arg with
  | "" => PlainArg
  | String c r =>
      if negb (Ascii.eqb c "-") then PlainArg
      else match r with
        | "" => PlainArg
        | String d s =>
            if negb (Ascii.eqb d "-") then ShortArg r
            else match s with "" => Escape | _ => LongArg s end
        end
  end.

(** All arguments; [trailing]: after [--]; [pending]: the option that waits for its
    value.  [-h], [--help], [-V] and [--version] are not in [opts]. *)
Fixpoint events (opts : list Opt) (trailing : bool) (pending : option Opt) (argv : list string)
    : option (list said) :=
  match argv with
  | [] => match pending with Some _ => None | None => Some [] end
  | arg :: rest =>
      if trailing then
        match pending with
        | Some _ => None
        | None => cons (Operand arg) <$> events opts true None rest
        end
      else
        match classify arg with
        | Escape => events opts true pending rest
        | LongArg s =>
            match pending, split_eq s with
            | Some _, _ => None
            | None, (name, value) =>
                match find_long opts name with
                | None => None
                | Some o =>
                    if o_takes o then
                      match value with
                      | Some v => cons (Given (o_id o) v) <$> events opts false None rest
                      | None => events opts false (Some o) rest
                      end
                    else
                      match value with
                      | Some _ => None
                      | None => cons (Given (o_id o) "") <$> events opts false None rest
                      end
                end
            end
        | ShortArg s =>
            match pending with
            | Some _ => None
            | None =>
                match cluster opts s with
                | Some (es, pending) => app es <$> events opts false pending rest
                | None => None
                end
            end
        | PlainArg =>
            match pending with
            | Some o => cons (Given (o_id o) arg) <$> events opts false None rest
            | None => cons (Operand arg) <$> events opts false None rest
            end
        end
  end.

Definition operands (es : list said) : list string :=
  omap (λ e, match e with Operand s => Some s | Given _ _ => None end) es.
Definition settings (es : list said) : list (string * string) :=
  omap (λ e, match e with Given i v => Some (i, v) | Operand _ => None end) es.

(** [str::parse::<i64>] and the range of the type, [value_parser!(u32)] and
    [value_parser!(u16)]. *)
Fixpoint parse_digits (acc : Z) (s : string) : option Z :=
  match s with
  | "" => Some acc
  | String c r =>
      let d := Z.of_nat (nat_of_ascii c) in
      if ((48 <=? d) && (d <=? 57))%Z then parse_digits (10 * acc + (d - 48))%Z r else None
  end.
Definition parse_i64 (s : string) : option Z :=
  let digits (s : string) := match s with "" => None | _ => parse_digits 0 s end in
  let z :=
    match s with
    | "" => None
    | String c r =>
        if Ascii.eqb c "-" then Z.opp <$> digits r
        else if Ascii.eqb c "+" then digits r
        else digits s
    end in
  match z with
  | Some z => if ((- 2 ^ 63 <=? z) && (z <? 2 ^ 63))%Z then Some z else None
  | None => None
  end.
Definition parse_ranged (bits : Z) (s : string) : option N :=
  match parse_i64 s with
  | Some z => if ((0 <=? z) && (z <? 2 ^ bits))%Z then Some (Z.to_N z) else None
  | None => None
  end.

(** ** [mbqc_scheduling/src/cli.rs] *)

(** cli.rs:10-14, 58-97. *)
Definition search_opts : list Opt :=
  [mkOpt "search" "s" "search" false;
   mkOpt "timeout" "t" "timeout" true;
   mkOpt "nthreads" "n" "nthreads" true;
   mkOpt "accept_func" "p" "probablistic" false;
   mkOpt "task_bound" "b" "task-bound" true].

(** cli.rs:4-9, 22-57. *)
Definition search_operands : list string :=
  ["spacial_graph"; "spacial_graph_format"; "dependency_graph"; "dependency_graph_format";
   "paths"; "paths_format"].

(** The value of an option on the command line. *)
Definition setting (es : list said) (id : string) : option string :=
  snd <$> List.find (λ p, String.eqb (fst p) id) (settings es).

(** [ArgMatches]: the operands and the options with their values; options that
    are not given are absent, besides the flags and options with a default. *)
Record Matches := mkMatches {
  m_operands : list (string * string);
  m_flags : list (string * bool);
  m_numbers : list (string * N)
}.

(** An option with a number: an error if its value is not accepted. *)
Definition number (bits : Z) (es : list said) (id : string) : option (list (string * N)) :=
  match setting es id with
  | None => Some []
  | Some v => match parse_ranged bits v with Some n => Some [(id, n)] | None => None end
  end.

Definition flag (es : list said) (id : string) : string * bool :=
  (id, match setting es id with Some _ => true | None => false end).

(** [build().get_matches()], cli.rs:16-97 and 114.  No option twice; all operands
    are required; without arguments: help. *)
Definition get_matches (argv : list string) : option Matches :=
  es ← events search_opts false None argv;
  if decide (NoDup (map fst (settings es)) ∧ length (operands es) = length search_operands) then
    t ← number 32 es "timeout";
    n ← number 16 es "nthreads";
    b ← number 32 es "task_bound";
    Some (mkMatches (zip search_operands (operands es)) [flag es "search"; flag es "accept_func"]
            (t ++ (match n with [] => [("nthreads", 1%N)] (* default_value *) | _ => n end) ++ b))
  else None.

(** [ArgMatches::remove_one]. *)
Definition remove_one {A} (l : list (string * A)) (id : string) : option A :=
  snd <$> List.find (λ p, String.eqb (fst p) id) l.

(** [Option::expect] *)
Definition expect_some {A} (o : option A) : out A := match o with Some a => Val a | None => Panic end.

(** [parse], cli.rs:113-132, after [get_matches]. *)
Definition parse_args (m : Matches) : out Args :=
  let* sg := expect_some (remove_one (m_operands m) "spacial_graph") in
  let* sgf := expect_some (remove_one (m_operands m) "spacial_graph_format") in
  let* dg := expect_some (remove_one (m_operands m) "dependency_graph") in
  let* dgf := expect_some (remove_one (m_operands m) "dependency_graph_format") in
  let* p := expect_some (remove_one (m_operands m) "paths") in
  let* pf := expect_some (remove_one (m_operands m) "paths_format") in
  let* s := expect_some (remove_one (m_flags m) "search") in
  let t := remove_one (m_numbers m) "timeout" in
  let* n := expect_some (remove_one (m_numbers m) "nthreads") in
  let* a := expect_some (remove_one (m_flags m) "accept_func") in
  let b := remove_one (m_numbers m) "task_bound" in
  Val (mkArgs sg sgf dg dgf p pf s t (N.to_nat n) a b).

(** [main], main.rs:8-34, with the command line; [Exit]: the process is ended by
    [clap]. *)
Inductive ended := Exit | Ran (fs : Files).

Definition program (bd : build) (fuel : nat) (env : Env) (os : System_) (fs : Files)
    (argv : list string) : option (out ended) :=
  match get_matches argv with
  | None => Some (Val Exit)
  | Some m =>
      match parse_args m with
      | Panic => Some Panic
      | Val args =>
          match main bd fuel env os fs args with
          | Some (Val fs) => Some (Val (Ran fs))
          | Some Panic => Some Panic
          | None => None
          end
      end
  end.

(** ** [results/src/cli.rs] *)

(** [Args], results/src/plots.rs:21-24. *)
Inductive BenchmarkArgs := NodeArgs_ (args : NodeArgs) | DensityArgs_ (args : DensityArgs).

(** [usize::from_str] *)
Definition parse_usize (s : string) : option N :=
  let digits (s : string) := match s with "" => None | _ => parse_digits 0 s end in
  match (match s with
         | "" => None
         | String c r => if Ascii.eqb c "+" then digits r else digits s
         end) with
  | Some z => if (z <? 2 ^ 64)%Z then Some (Z.to_N z) else None
  | None => None
  end.

(** [build().get_matches()], results/src/cli.rs:5-36; [parse_f64] is
    [f64::from_str].  The result: name and operands of the subcommand, or no
    subcommand.  [clap] ends the process if there are no arguments, for a help
    subcommand, and for anything else that is not a subcommand. *)
Inductive Value := VNumber (n : N) | VFloat (x : f64) | VString (s : string).

Definition read_value (parse_f64 : string → option f64) (kind : nat) (s : string) : option Value :=
  match kind with
  | 0 => VNumber <$> parse_usize s
  | 1 => VFloat <$> parse_f64 s
  | _ => Some (VString s)
  end.

Definition subcommand (parse_f64 : string → option f64) (ids : list (string * nat)) (argv : list string)
    : option (list (string * Value)) :=
  es ← events [] false None argv;
  if decide (length (operands es) = length ids) then
    mapM (λ '((id, kind), s), pair id <$> read_value parse_f64 kind s) (zip ids (operands es))
  else None.

Definition benchmark_matches (parse_f64 : string → option f64) (argv : list string)
    : option (option (string * list (string * Value))) :=
  match argv with
  | [] => None
  | name :: argv =>
      if String.eqb name "node" then
        l ← subcommand parse_f64 [("edge_density", 1); ("correction_density", 1);
              ("edge_density_type", 2); ("correction_density_type", 2)] argv;
        Some (Some ("node", l))
      else if String.eqb name "density" then
        l ← subcommand parse_f64 [("num_nodes", 0); ("edge_density", 1)] argv;
        Some (Some ("density", l))
      else None
  end.

(** [remove_one::<T>]: panics if the type is not that of the value parser. *)
Definition as_float (v : option Value) : out f64 := match v with Some (VFloat x) => Val x | _ => Panic end.
Definition as_string (v : option Value) : out string := match v with Some (VString s) => Val s | _ => Panic end.
Definition as_usize (v : option Value) : out nat := match v with Some (VNumber n) => Val (N.to_nat n) | _ => Panic end.

(** [parse], results/src/cli.rs:38-54, after [get_matches]. *)
Definition parse_benchmark (m : option (string * list (string * Value))) : out BenchmarkArgs :=
  match m with
  | None => Panic
  | Some (name, l) =>
      if String.eqb name "node" then
        let* d := as_float (remove_one l "edge_density") in
        let* dt := as_string (remove_one l "edge_density_type") in
        let* c := as_float (remove_one l "correction_density") in
        let* ct := as_string (remove_one l "correction_density_type") in
        Val (NodeArgs_ (mkNodeArgs d dt c ct))
      else if String.eqb name "density" then
        let* n := as_usize (remove_one l "num_nodes") in
        let* d := as_float (remove_one l "edge_density") in
        Val (DensityArgs_ (mkDensityArgs n d))
      else Panic
  end.
