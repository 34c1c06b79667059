(** * Model of the output files of the benchmark programs
    ([results/src/plots/node.rs] and [density.rs], the [Output] structs and the ends
    of the two functions [run]; the [Serialize] derives of plots.rs)

    [serde] turns a value into calls for the parts of a JSON document, which
    [serde_json] (1.0, compact format) writes at once; here the document is a value
    of its own. *)
From stdpp Require Import strings.
From Verif Require Export Decimal64 JsonSpec.
From Verif Require Import Codec.

(** The compact format: no blanks.  Simplification: strings are written as they
    are, the strings here need no escapes. *)
Fixpoint json_print (v : json) : bytes :=
  match v with
  | JNull => text "null"
  | JBool b => if b then text "true" else text "false"
  | JNumber t => t
  | JString t => Byte.x22 :: t ++ [Byte.x22]
  | JArray l =>
      Byte.x5b ::
      (fix items (l : list json) : bytes :=
         match l with
         | [] => []
         | [a] => json_print a
         | a :: l => json_print a ++ Byte.x2c :: items l
         end) l ++ [Byte.x5d]
  | JObject l =>
      Byte.x7b ::
      (fix members (l : list (bytes * json)) : bytes :=
         match l with
         | [] => []
         | [(k, a)] => Byte.x22 :: k ++ Byte.x22 :: Byte.x3a :: json_print a
         | (k, a) :: l => Byte.x22 :: k ++ Byte.x22 :: Byte.x3a :: json_print a ++ Byte.x2c :: members l
         end) l ++ [Byte.x7d]
  end.

Notation Disk := (gmap string bytes).
Notation name := String.string_of_list_byte.

Section output.
  Context (shortest : Digits).

  (** [u64], [u16], [usize]. *)
  Definition json_u64 (n : N) : json := JNumber (json_write_usize n).
  Definition json_usize (n : nat) : json := json_u64 (N.of_nat n).
  (** [f64]: infinities and NaN are written as [null]. *)
  Definition json_f64 (x : f64) : json :=
    match ryu shortest x with Some t => JNumber t | None => JNull end.
  (** [std::time::Duration]: seconds and nano seconds. *)
  Definition json_duration (t : N) : json :=
    JObject [(text "secs", json_u64 (t / 1000000000)); (text "nanos", json_u64 (t mod 1000000000))].
  (** [Times], plots.rs:124-129. *)
  Definition json_times (t : Times) : json :=
    JObject
      [(text "time_optimal", json_duration (time_optimal t));
       (text "space_optimal_approximated", json_duration (space_optimal_approximated t));
       (text "full", match full t with Some d => json_duration d | None => JNull end)].
  (** [DensityEnum] (untagged) and the density types with their renamed field,
      plots.rs:153-205. *)
  Definition json_density (d : Density) : json :=
    match d with
    | Constant f => JObject [(text "constant", json_f64 f)]
    | ReziprocalLinear f => JObject [(text "reziprocal_linear", json_f64 f)]
    | ReziprocalSquareRoot f => JObject [(text "reziprocal_square_root", json_f64 f)]
    end.
  Definition json_results (results : list (list f64)) : json :=
    JArray (map (λ l, JArray (map json_f64 l)) results).

  (** [node::Output], node.rs:125-135 and 143-154. *)
  Definition node_json (edge_density correction_density : Density) (seed : N)
      (results : list (list f64)) (time_results : list Times) : json :=
    JObject
      [(text "max_size", json_usize MAX_SIZE);
       (text "num_average", json_usize NUM_AVERAGE);
       (text "walltime", json_u64 192);
       (text "ncpus", json_usize NCPUS);
       (text "edge_density", json_density edge_density);
       (text "correction_density", json_density correction_density);
       (text "seed", json_u64 seed);
       (text "results", json_results results);
       (text "time_results", JArray (map json_times time_results))].

  (** [density::Output], density.rs:96-106 and 114-125. *)
  Definition density_json (size : nat) (edge_density_multiplier : f64) (seed : N)
      (results : list (list f64)) (time_results : list Times) : json :=
    JObject
      [(text "size", json_usize size);
       (text "num_average", json_usize NUM_AVERAGE);
       (text "walltime", json_u64 10);
       (text "ncpus", json_usize NCPUS);
       (text "edge_density_multiplier", json_f64 edge_density_multiplier);
       (text "num_density", json_usize NUM_DENSITIES);
       (text "seed", json_u64 seed);
       (text "results", json_results results);
       (text "time_results", JArray (map json_times time_results))].

  (** [output_file], node.rs:72-77: the two densities as JSON without braces and
      quotation marks. *)
  Definition stripped (b : bytes) : bytes :=
    List.filter (λ c, negb (Byte.eqb c Byte.x7b || Byte.eqb c Byte.x22 || Byte.eqb c Byte.x7d)) b.
  Definition node_file (edge_density correction_density : Density) : bytes :=
    stripped (text "output/node-" ++ json_print (json_density edge_density) ++ text "_" ++
      json_print (json_density correction_density) ++ text ".json").

  (** [output_file], density.rs:48-51. *)
  Definition density_file (size : nat) (edge_density_multiplier : f64) : bytes :=
    text "output/density-numnodes:" ++ json_write_usize (N.of_nat size) ++
    text "_numdensities:" ++ json_write_usize (N.of_nat NUM_DENSITIES) ++
    text "_density:" ++ rust_display shortest edge_density_multiplier ++ text ".json".

  (** The files; [creatable]: which of them can be created (with their directory). *)
  (** [fs::create_dir_all("output").unwrap(); to_writer(File::create(..).unwrap(), ..).unwrap()],
      node.rs:137-138, density.rs:108-109. *)
  Definition write_output (creatable : string → bool) (file : string) (v : json) (fs : Disk) : out Disk :=
    if creatable file then Val (<[file := json_print v]> fs) else Panic.

  (** [node::run], node.rs:64-141; the seed is that of the generator [rng]. *)
  Definition node_main (bd : build) (fuel : nat)
      (induced : Frames → list nat → PartialOrderGraph) (rng : Rng) (seed : N) (args : NodeArgs)
      (shots : nat → nat → Shot) (creatable : string → bool) (fs : Disk) : option (out Disk) :=
    let+ edge_density := Some (density_new (n_edge_density_type args) (n_edge_density args)) in
    let+ correction_density :=
      Some (density_new (n_correction_density_type args) (n_correction_density args)) in
    let+ '(results, time_results) := node_run bd fuel induced rng args shots in
    Some (write_output creatable (name (node_file edge_density correction_density))
      (node_json edge_density correction_density seed results time_results) fs).

  (** [density::run], density.rs:40-112. *)
  Definition density_main (bd : build) (fuel : nat)
      (induced : Frames → list nat → PartialOrderGraph) (rng : Rng) (seed : N) (args : DensityArgs)
      (shots : nat → nat → Shot) (creatable : string → bool) (fs : Disk) : option (out Disk) :=
    let+ '(results, time_results) := density_run bd fuel induced rng args shots in
    Some (write_output creatable (name (density_file (d_num_nodes args) (d_edge_density_multiplier args)))
      (density_json (d_num_nodes args) (d_edge_density_multiplier args) seed results time_results) fs).
End output.
