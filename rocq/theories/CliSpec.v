(** * Specification of command lines

    The conventions of command lines (POSIX and GNU), independent of the parser
    in [Cli.v]; from there only the descriptions of options and of what a command
    line says. *)
From Coq Require Import Ascii String.
From stdpp Require Import list.
From Verif Require Import Cli FormatSpec.
Local Open Scope string_scope.

(** A piece of a command line: an operand, a long option with or without value
    (in the next argument, or after [=]), or a group of short flags, possibly
    with an option with a value at the end (in the next argument, attached, or
    after [=]). *)
Inductive piece :=
| Plain (s : string)
| Long (o : Opt)
| LongNext (o : Opt) (v : string)
| LongEq (o : Opt) (v : string)
| Shorts (fs : list Opt)
| ShortsNext (fs : list Opt) (o : Opt) (v : string)
| ShortsAttached (fs : list Opt) (o : Opt) (v : string)
| ShortsEq (fs : list Opt) (o : Opt) (v : string).

Fixpoint letters (fs : list Opt) (rest : string) : string :=
  match fs with [] => rest | o :: fs => String (o_short o) (letters fs rest) end.

Definition piece_args (p : piece) : list string :=
  match p with
  | Plain s => [s]
  | Long o => ["--" ++ o_long o]
  | LongNext o v => ["--" ++ o_long o; v]
  | LongEq o v => ["--" ++ o_long o ++ "=" ++ v]
  | Shorts fs => ["-" ++ letters fs ""]
  | ShortsNext fs o v => ["-" ++ letters (fs ++ [o])%list ""; v]
  | ShortsAttached fs o v => ["-" ++ letters (fs ++ [o])%list v]
  | ShortsEq fs o v => ["-" ++ letters (fs ++ [o])%list ("=" ++ v)]
  end.

Definition flags_events (fs : list Opt) : list said := map (λ o, Given (o_id o) "") fs.

Definition piece_events (p : piece) : list said :=
  match p with
  | Plain s => [Operand s]
  | Long o => [Given (o_id o) ""]
  | LongNext o v | LongEq o v => [Given (o_id o) v]
  | Shorts fs => flags_events fs
  | ShortsNext fs o v | ShortsAttached fs o v | ShortsEq fs o v =>
      (flags_events fs ++ [Given (o_id o) v])%list
  end.

(** Not an option: it does not start with a hyphen, or it is a hyphen. *)
Definition plain (s : string) : Prop :=
  s = "-" ∨ ∀ r, s ≠ String "-" r.

Definition piece_ok (opts : list Opt) (p : piece) : Prop :=
  let flag o := o ∈ opts ∧ o_takes o = false in
  let valued o := o ∈ opts ∧ o_takes o = true in
  match p with
  | Plain s => plain s
  | Long o => flag o
  | LongNext o v => valued o ∧ plain v
  | LongEq o v => valued o
  | Shorts fs => fs ≠ [] ∧ Forall flag fs
  | ShortsNext fs o v => Forall flag fs ∧ valued o ∧ plain v
  | ShortsAttached fs o v => Forall flag fs ∧ valued o ∧ v ≠ "" ∧ ∀ r, v ≠ String "=" r
  | ShortsEq fs o v => Forall flag fs ∧ valued o
  end.

(** After [--] there are only operands. *)
Definition tail_args (tail : option (list string)) : list string :=
  match tail with None => [] | Some l => "--" :: l end.
Definition tail_events (tail : option (list string)) : list said :=
  match tail with None => [] | Some l => map Operand l end.

(** The command line [argv] says [es]. *)
Definition says (opts : list Opt) (argv : list string) (es : list said) : Prop :=
  ∃ ps tail, Forall (piece_ok opts) ps ∧
    argv = (concat (map piece_args ps) ++ tail_args tail)%list ∧
    es = (concat (map piece_events ps) ++ tail_events tail)%list.

(** A decimal number, possibly with a sign. *)
Definition digits_string (ds : list N) : string :=
  String.string_of_list_ascii (map (λ d, ascii_of_N (48 + d)) ds).
Definition number_text (limit : N) (s : string) (n : N) : Prop :=
  ∃ sign ds, s = sign ++ digits_string ds ∧ ds ≠ [] ∧ Forall (λ d, (d < 10)%N) ds ∧
    n = digits_value ds ∧ (n < limit)%N ∧ (sign = "" ∨ sign = "+" ∨ sign = "-" ∧ n = 0%N).

(** The same without minus. *)
Definition unsigned_text (limit : N) (s : string) (n : N) : Prop :=
  number_text limit s n ∧ ∀ r, s ≠ String "-" r.

(** The option [id] with a number: absent, or with a number below the limit. *)
Definition says_number (limit : N) (es : list said) (id : string) (n : option N) : Prop :=
  match n with
  | None => ∀ v, Given id v ∉ es
  | Some n => ∃ v, Given id v ∈ es ∧ number_text limit v n
  end.

(** The command line asks for [a]: six operands, every option at most once, one
    thread unless something else is said. *)
Definition asks (argv : list string) (a : Args) : Prop :=
  ∃ es, says search_opts argv es ∧
    (* no option twice *)
    NoDup (omap (λ e, match e with Given i _ => Some i | Operand _ => None end) es) ∧
    omap (λ e, match e with Operand s => Some s | Given _ _ => None end) es
    = [a_spacial_graph a; a_spacial_graph_format a; a_dependency_graph a; a_dependency_graph_format a;
       a_paths a; a_paths_format a] ∧
    (a_search a = true ↔ ∃ v, Given "search" v ∈ es) ∧
    (a_probabilistic a = true ↔ ∃ v, Given "accept_func" v ∈ es) ∧
    says_number (2 ^ 32) es "timeout" (a_timeout a) ∧
    says_number (2 ^ 32) es "task_bound" (a_task_bound a) ∧
    ((∀ v, Given "nthreads" v ∉ es) ∧ a_nthreads a = 1 ∨
     says_number (2 ^ 16) es "nthreads" (Some (N.of_nat (a_nthreads a)))).

(** The benchmark programs: subcommand and operands, no options.  [float_text] says
    which floats the texts stand for. *)
Definition asks_benchmark (float_text : string → f64 → Prop) (argv : list string) (a : BenchmarkArgs) : Prop :=
  ∃ rest es, says [] rest es ∧
  let ops := omap (λ e, match e with Operand s => Some s | Given _ _ => None end) es in
  match a with
  | NodeArgs_ a => argv = "node" :: rest ∧ ∃ d c,
      (* both numbers before both types *)
      ops = [d; c; n_edge_density_type a; n_correction_density_type a] ∧
      float_text d (n_edge_density a) ∧ float_text c (n_correction_density a)
  | DensityArgs_ a => argv = "density" :: rest ∧ ∃ n d,
      ops = [n; d] ∧ unsigned_text (2 ^ 64) n (N.of_nat (d_num_nodes a)) ∧
      float_text d (d_edge_density_multiplier a)
  end.
