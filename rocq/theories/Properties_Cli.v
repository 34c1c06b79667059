(** * Properties: command lines

    [CliSpec.v] says what a command line asks for, [Cli.v] models how it is read. *)
From Coq Require Import Ascii String.
From stdpp Require Import list.
From Verif Require Import Metamorphic MainInterface MainFiles MainCli Properties_Files.
From Verif Require Import Check.
Local Open Scope string_scope.

(** ** C59: a command line is accepted if it asks for something *)

Theorem C59_exact :
  ∀ argv a, (∃ m, get_matches argv = Some m ∧ parse_args m = Val a) ↔ asks argv a.
Proof. exact cli_exact. Qed.
Print Assumptions C59_exact.

Theorem C59_no_panic :
  ∀ argv m, get_matches argv = Some m → ∃ a, parse_args m = Val a.
Proof. exact cli_no_panic. Qed.
Print Assumptions C59_no_panic.

Theorem C59_reachable :
  ∀ a, (∀ t, a_timeout a = Some t → (t < 2 ^ 32)%N) → (∀ b, a_task_bound a = Some b → (b < 2 ^ 32)%N) →
  (N.of_nat (a_nthreads a) < 2 ^ 16)%N → ∃ argv, asks argv a.
Proof. exact cli_reachable. Qed.
Print Assumptions C59_reachable.

Definition read_args (argv : list string) : option (out Args) := parse_args <$> get_matches argv.

Definition six : list string := ["g"; "serde_json"; "d"; "bincode"; "-"; "p q"].

Example C59_example :
  let args := mkArgs "g" "serde_json" "d" "bincode" "-" "p q" in
  read_args six = Some (Val (args false None 1 false None)) ∧
  (* the same in several ways *)
  map (λ more, read_args (more ++ six)%list)
    [["-s"; "-p"; "-t"; "5"; "-n"; "3"]; ["-spt5"; "-n=3"]; ["-pst=+05"; "--nthreads"; "003"];
     ["--search"; "--probablistic"; "--timeout=5"; "-n3"; "--"]]
  = replicate 4 (Some (Val (args true (Some 5%N) 3 true None))) ∧
  (* options between and after the operands; 0 as number of threads *)
  read_args ["g"; "serde_json"; "-b"; "7"; "d"; "bincode"; "-"; "p q"; "-n0"]
  = Some (Val (args false None 0 false (Some 7%N))) ∧
  (* after -- everything is an operand *)
  read_args ["--"; "-s"; "serde_json"; "--"; "bincode"; ""; "-t"]
  = Some (Val (mkArgs "-s" "serde_json" "--" "bincode" "" "-t" false None 1 false None)) ∧
  (* not accepted: a missing and a superfluous operand, an option twice, an unknown
     one, a missing, a negative, a too large number, a value for a flag, help *)
  map read_args
    [tail six; "more" :: six; ("-s" :: "-s" :: six); ("--probabilistic" :: six); (six ++ ["-t"])%list;
     ("-t" :: "-5" :: six); ("-n" :: "65536" :: six); ("--timeout=4294967296" :: six);
     ("--search=true" :: six); ("-t" :: "--" :: "5" :: six); ["--help"]; []]
  = replicate 12 None.
Proof. by vm_compute. Qed.

(** The hypotheses of the third theorem. *)
Example C59_reachable_example :
  let a := mkArgs "--" "x" "" "y" "-s" "z" true (Some 4294967295%N) 99 true None in
  (∀ t, a_timeout a = Some t → (t < 2 ^ 32)%N) ∧ (∀ b, a_task_bound a = Some b → (b < 2 ^ 32)%N) ∧
  (N.of_nat (a_nthreads a) < 2 ^ 16)%N ∧
  asks ["-spt4294967295"; "-n"; "99"; "--"; "--"; "x"; ""; "y"; "-s"; "z"] a.
Proof.
  intros a. split; [by intros t [= <-]|]. split; [done|]. split; [done|].
  apply C59_exact. eexists. split; [vm_compute; reflexivity|].
  by vm_compute.
Qed.

(** ** C60: from the command line to the files *)

Theorem C60_program :
  ∀ bd fuel env os fs argv,
  (∀ a, asks argv a → program bd fuel env os fs argv =
     match main bd fuel env os fs a with
     | Some (Val fs') => Some (Val (Ran fs')) | Some Panic => Some Panic | None => None end) ∧
  ((¬ ∃ a, asks argv a) → program bd fuel env os fs argv = Some (Val Exit)).
Proof. exact program_outcome. Qed.
Print Assumptions C60_program.

Theorem C60_optimal :
  ∀ env os fs argv a adj g, asks argv a →
  stored json_spacial_text bin_spacial_text os fs (a_spacial_graph a) (a_spacial_graph_format a) adj →
  stored json_order_text bin_order_text os fs (a_dependency_graph a) (a_dependency_graph_format a) g →
  writable os (a_paths a) →
  (a_paths_format a = "serde_json" ∨ a_paths_format a = "bincode") →
  wf_input adj g → (∀ l, e_hash_order env l ≡ₚ l) → (∃ b, listed g b) →
  a_search a = true → a_timeout a = None → a_nthreads a ≤ 1 → a_probabilistic a = false →
  ∃ ps fs', pareto_front adj g ps ∧ paths_in fs' (a_paths a) (a_paths_format a) = Some ps ∧
    ∀ bd, returns (λ fuel, program bd fuel env (with_codecs os) fs argv) (Ran fs').
Proof. exact program_optimal. Qed.
Print Assumptions C60_optimal.

Example C60_example :
  let run argv :=
    match program Debug 1000 example_env (with_codecs example_os) example_files argv with
    | Some (Val (Ran fs)) => f_contents fs !! "out" | _ => None end in
  asks ["-s"; "graph"; "serde_json"; "order"; "bincode"; "out"; "serde_json"] example_args ∧
  run ["-s"; "graph"; "serde_json"; "order"; "bincode"; "out"; "serde_json"]
  = Some (text "[{""time"":2,""space"":4,""steps"":[[0,1],[2,3]]},{""time"":3,""space"":3,""steps"":[[1],[0,3],[2]]},{""time"":4,""space"":2,""steps"":[[1],[3],[0],[2]]}]") ∧
  run ["graph"; "serde_json"; "order"; "bincode"; "out"; "serde_json"]
  = Some (text "[{""time"":2,""space"":4,""steps"":[[0,1],[2,3]]}]") ∧
  program Debug 1000 example_env (with_codecs example_os) example_files ["--help"] = Some (Val Exit).
Proof.
  split.
  - apply C59_exact. eexists. split; [vm_compute; reflexivity|by vm_compute].
  - by vm_compute.
Qed.

(** ** C61: the command line of the benchmark programs *)

Theorem C61_benchmark :
  ∀ parse_f64 argv,
  (∀ m, benchmark_matches parse_f64 argv = Some m → ∃ a, parse_benchmark m = Val a) ∧
  (∀ a, (∃ m, benchmark_matches parse_f64 argv = Some m ∧ parse_benchmark m = Val a) ↔
    asks_benchmark (λ s x, parse_f64 s = Some x) argv a).
Proof. exact benchmark_cli. Qed.
Print Assumptions C61_benchmark.

Example C61_example :
  let parse_f64 s := if String.eqb s "0.5" then Some (SpecFloat.S754_finite false 1 (-1)) else None in
  let read argv := parse_benchmark <$> benchmark_matches parse_f64 argv in
  let half := SpecFloat.S754_finite false 1 (-1) in
  read ["node"; "0.5"; "0.5"; "constant"; "reziprocal_linear"]
  = Some (Val (NodeArgs_ (mkNodeArgs half "constant" half "reziprocal_linear"))) ∧
  read ["density"; "+012"; "--"; "0.5"] = Some (Val (DensityArgs_ (mkDensityArgs 12 half))) ∧
  (* not accepted: no subcommand, another one, too few operands, the types first, not a number *)
  map read [[]; ["nodes"]; ["density"; "3"]; ["node"; "constant"; "0.5"; "0.5"; "constant"];
            ["density"; "-0"; "0.5"]; ["density"; "x"; "0.5"]; ["-s"; "density"; "3"; "0.5"]]
  = replicate 7 None.
Proof. by vm_compute. Qed.
