(** * Model of the way from the parameter files to the figures
    ([results/src/main.rs], [lib.rs], [results/scripts], [results/parameters])

    The scripts call the benchmark program with the lines of a parameter file, the
    program writes files to [output], and the plotting scripts of [Plotting.v] read
    the same parameter files and the data from [data]. *)
From stdpp Require Import strings gmap.
From Verif Require Export Cli Output Plotting.
From Verif Require Import Codec.

(** ** The program *)

(** What one run of the program meets: how long it may compute, the seed that it
    draws and the generator with this seed, the behaviour of the single searches,
    the files that can be created. *)
Record Machine := mkMachine {
  m_fuel : nat;
  m_seed : N;
  m_rng : Rng;
  m_shots : nat → nat → Shot;
  m_creatable : string → bool
}.

(** [f64::from_str] in [cli::build]. *)
Definition parse_f64 (s : string) : option f64 := read_f64 (text s).

(** [main], main.rs:1-3, and [run], lib.rs:16-21: the files after the process has
    ended, however it ended ([None]: it does not end within [m_fuel]). *)
Definition results_main (shortest : Digits) (bd : build) (induced : Frames → list nat → PartialOrderGraph)
    (w : Machine) (argv : list string) (fs : Disk) : option Disk :=
  match benchmark_matches parse_f64 argv with
  | None => Some fs
  | Some m =>
      o ← match parse_benchmark m with
          | Panic => Some Panic
          | Val (NodeArgs_ args) =>
              node_main shortest bd (m_fuel w) induced (m_rng w) (m_seed w) args (m_shots w) (m_creatable w) fs
          | Val (DensityArgs_ args) =>
              density_main shortest bd (m_fuel w) induced (m_rng w) (m_seed w) args (m_shots w) (m_creatable w) fs
          end;
      Some (match o with Val fs' => fs' | Panic => fs end)
  end.

(** ** The shell scripts *)

(** [readarray -t parameters < file]; nothing if the file is missing. *)
Definition readarray (fs : Disk) (file : string) : list bytes :=
  match fs !! file with Some b => splitlines b | None => [] end.

(** The words of an expansion without quotation marks.  Simplification: only blanks
    separate words, and there are no patterns for file names. *)
Definition shell_words (line : bytes) : list string :=
  map name (List.filter (λ w : bytes, match w with [] => false | _ => true end) (split_at Byte.x20 line)).

Section scripts.
  Context (shortest : Digits) (bd : build) (induced : Frames → list nat → PartialOrderGraph).

  (** exe_density_local.bash:1-8: one run after the other, the machine of run [i] is [ws i]. *)
  Fixpoint density_runs (ws : nat → Machine) (i : nat) (lines : list bytes) (fs : Disk) : option Disk :=
    match lines with
    | [] => Some fs
    | line :: lines =>
        fs ← results_main shortest bd induced (ws i) ("density" :: shell_words line) fs;
        density_runs ws (S i) lines fs
    end.
  Definition exe_density_local (ws : nat → Machine) (fs : Disk) : option Disk :=
    density_runs ws 0 (readarray fs "parameters/density.dat") fs.

  (** One job on the cluster: the program starts in an empty directory, its files
      are moved to the submission directory afterwards.  exe_density_hpc.bash:20-38
      for the index [i] of the array (from 1 on), exe_node_hpc.bash:18-36. *)
  Definition job (w : Machine) (argv : list string) (fs : Disk) : option Disk :=
    new ← results_main shortest bd induced w argv ∅;
    Some (new ∪ fs).
  Definition exe_density_hpc (w : Machine) (i : nat) (fs : Disk) : option Disk :=
    let line := default [] (readarray fs "parameters/density.dat" !! (i - 1)) in
    job w ("density" :: shell_words line) fs.
  Definition exe_node_hpc (w : Machine) (fs : Disk) : option Disk :=
    let line := default [] (readarray fs "parameters/node.dat" !! 0) in
    job w ("node" :: shell_words line) fs.

  (** The jobs of the array ([#PBS -J 1-21]) in the order in which they end. *)
  Fixpoint density_jobs (ws : nat → Machine) (order : list nat) (fs : Disk) : option Disk :=
    match order with
    | [] => Some fs
    | i :: order => fs ← exe_density_hpc (ws i) i fs; density_jobs ws order fs
    end.
End scripts.

(** The walltime that exe_density_hpc.bash:13 asks for, in nano seconds. *)
Definition density_job_walltime : N := 5 * 3600 * 1000000000.
(** exe_node_hpc.bash:11. *)
Definition node_job_walltime : N := 192 * 3600 * 1000000000.

(** results/parameters/node.dat. *)
Definition node_dat : bytes :=
  text "0.5 0.5 reziprocal_square_root reziprocal_square_root" ++ [Byte.x0a].
(** results/parameters/density.dat: the lines [20 1] to [20 21]. *)
Definition density_dat : bytes :=
  List.concat (map (λ i, text "20 " ++ json_write_usize (N.of_nat i) ++ [Byte.x0a]) (seq 1 21)).
