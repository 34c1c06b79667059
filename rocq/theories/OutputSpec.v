(** * What the output files of the benchmark programs have to contain

    Independent of the model of the writer in [Output.v].  [Density], [Times] and
    the arguments of the programs are those of [Results.v]. *)
From stdpp Require Import strings.
From Verif Require Export JsonSpec Decimal64.

(** The text of a decimal number whose correctly rounded double is [x]. *)
Definition float_text (x : f64) (t : bytes) : Prop :=
  ∃ n m k, number_text n m k t ∧ x = if n : bool then SFopp (f64_of_decimal m k) else f64_of_decimal m k.

Definition holds_float (v : json) (x : f64) : Prop := ∃ t, v = JNumber t ∧ float_text x t.
(** Neither sign nor fraction nor exponent. *)
Definition holds_int (v : json) (n : N) : Prop :=
  ∃ t ds, v = JNumber t ∧ digits_as ds t ∧ (head ds = Some 0%N → ds = [0%N]) ∧ n = digits_value ds.
Definition holds_list {A} (R : json → A → Prop) (v : json) (l : list A) : Prop :=
  ∃ vs, v = JArray vs ∧ Forall2 R vs l.

(** Nano seconds. *)
Definition holds_duration (v : json) (t : N) : Prop :=
  ∃ a b n, v = JObject [(char "secs", a); (char "nanos", b)] ∧ holds_int a ((t - n) / 1000000000) ∧ holds_int b n ∧
    (n < 1000000000 ∧ n ≤ t ∧ (t - n) mod 1000000000 = 0)%N.
Definition holds_option {A} (R : json → A → Prop) (v : json) (x : option A) : Prop :=
  match x with Some a => R v a | None => v = JNull end.
Definition holds_times (v : json) (t : Times) : Prop :=
  ∃ a b c, v = JObject [(char "time_optimal", a); (char "space_optimal_approximated", b); (char "full", c)] ∧
    holds_duration a (time_optimal t) ∧ holds_duration b (space_optimal_approximated t) ∧
    holds_option holds_duration c (full t).

Definition type_name (d : Density) : string :=
  match d with
  | Constant _ => "constant"
  | ReziprocalLinear _ => "reziprocal_linear"
  | ReziprocalSquareRoot _ => "reziprocal_square_root"
  end.
Definition factor_of (d : Density) : f64 :=
  match d with Constant f | ReziprocalLinear f | ReziprocalSquareRoot f => f end.
Definition holds_density (v : json) (d : Density) : Prop :=
  ∃ a, v = JObject [(char (type_name d), a)] ∧ holds_float a (factor_of d).

Definition holds_node (v : json) (ed cd : Density) (seed : N) (results : list (list f64)) (times : list Times) : Prop :=
  ∃ a b c d e f g h i,
    v = JObject [(char "max_size", a); (char "num_average", b); (char "walltime", c); (char "ncpus", d);
      (char "edge_density", e); (char "correction_density", f); (char "seed", g);
      (char "results", h); (char "time_results", i)] ∧
    holds_int a 45 ∧ holds_int b 3000 ∧ holds_int c 192 ∧ holds_int d 30 ∧
    holds_density e ed ∧ holds_density f cd ∧ holds_int g seed ∧
    holds_list (holds_list holds_float) h results ∧ holds_list holds_times i times.

Definition holds_sweep (v : json) (size : nat) (multiplier : f64) (seed : N)
    (results : list (list f64)) (times : list Times) : Prop :=
  ∃ a b c d e f g h i,
    v = JObject [(char "size", a); (char "num_average", b); (char "walltime", c); (char "ncpus", d);
      (char "edge_density_multiplier", e); (char "num_density", f); (char "seed", g);
      (char "results", h); (char "time_results", i)] ∧
    holds_int a (N.of_nat size) ∧ holds_int b 3000 ∧ holds_int c 10 ∧ holds_int d 30 ∧
    holds_float e multiplier ∧ holds_int f 21 ∧ holds_int g seed ∧
    holds_list (holds_list holds_float) h results ∧ holds_list holds_times i times.

(** The file names. *)
Definition node_name (ed cd : Density) (file : bytes) : Prop :=
  ∃ t t', float_text (factor_of ed) t ∧ float_text (factor_of cd) t' ∧
    file = char "output/node-" ++ char (type_name ed) ++ char ":" ++ t ++ char "_" ++
      char (type_name cd) ++ char ":" ++ t' ++ char ".json".
Definition sweep_name (size : nat) (multiplier : f64) (file : bytes) : Prop :=
  ∃ t t', digits_as t t' ∧ digits_value t = N.of_nat size ∧ ∃ u, float_text multiplier u ∧
    file = char "output/density-numnodes:" ++ t' ++ char "_numdensities:21_density:" ++ u ++ char ".json".
