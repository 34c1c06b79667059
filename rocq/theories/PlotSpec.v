(** * What the figures have to show

    [Sample], [mean_of], [times_of] and [spaces_of] are the recorded data of
    [BenchmarkFacts.v]; [curve] and [axes] are the drawn data of [Plotting.v]. *)
From stdpp Require Import strings.
From Verif Require Export BenchmarkFacts MainBenchmarkNumbers Plotting Pipeline.

(** The schedules that are compared, in the order of their labels: time-optimal and
    trivial, space-optimal and approximated, the exact ones for time and space. *)
Definition strategy (i : nat) : Sample → option path :=
  match i with
  | 0 => λ r, Some (s_fast r)
  | 1 => s_approx
  | 2 => s_full_first
  | _ => s_full_last
  end.
(** Exact searches were only carried out for up to 20 nodes. *)
Definition sizes_of (i : nat) : list nat := if i <? 2 then seq 2 44 else seq 2 19.

Definition time_curve (rs : nat → list Sample) (i : nat) : curve :=
  mkCurve i (map (λ size, (size, Some (mean_of (times_of (strategy i) (rs size))))) (sizes_of i)).
Definition space_curve (rs : nat → list Sample) (i : nat) : curve :=
  mkCurve i (map (λ size, (size, Some (mean_of (spaces_of (strategy i) (rs size))))) (sizes_of i)).

(** With the deviations as error bars. *)
Definition time_bars (rs : nat → list Sample) (i : nat) : bars :=
  mkBars i (map (λ size, (size, (mean_of (times_of (strategy i) (rs size)), deviation_of (times_of (strategy i) (rs size)))))
    (sizes_of i)).
Definition space_bars (rs : nat → list Sample) (i : nat) : bars :=
  mkBars i (map (λ size, (size, (mean_of (spaces_of (strategy i) (rs size)), deviation_of (spaces_of (strategy i) (rs size)))))
    (sizes_of i)).

(** Panel [2 * i + j] of the density figure: strategy [i], times ([j = 0]) or spaces;
    the row for the multiplier [k] of the edge density, the column for [m]. *)
Definition panel_value (rs : nat → nat → list Sample) (panel k m : nat) : f64 :=
  mean_of ((if Nat.even panel then times_of else spaces_of) (strategy (panel / 2)) (rs k m)).
Definition panel_image (rs : nat → nat → list Sample) (panel : nat) : list (list f64) :=
  map (λ k, map (λ m, panel_value rs panel k m) (seq 1 21)) (seq 1 21).

(** The visible part of a curve. *)
Definition visible (a : axes) (c : curve) : list (nat * option f64) :=
  List.filter (λ p, (fst (a_xlim a) <=? p.1) && (p.1 <=? snd (a_xlim a))) (c_points c).

(** ** The runs behind the figures *)

Definition half : f64 := f64_of_decimal 5 (-1).

(** Random numbers in range, hash orders that are orders, an exponential function
    with values in its range, file system without errors. *)
Definition machine_ok (w : Machine) : Prop :=
  (∀ k n, 0 < n → r_range (m_rng w) k n < n) ∧
  (∀ a i, shot_ok (m_shots w a i) ∧ shot_exp (m_shots w a i)) ∧
  (∀ file, m_creatable w file = true).

(** The samples [rs] and times [tm] for every size, one after the other. *)
Definition node_recorded (bd : build) (induced : Frames → list nat → PartialOrderGraph) (w : Machine)
    (rs : nat → list Sample) (tm : nat → Times) : Prop :=
  ∃ ts ks, node_timeouts = Val ts ∧ ks 2 = 0 ∧
    ∀ size, 2 ≤ size ≤ 45 → ∃ timeout, ts !! size = Some timeout ∧
      measured bd (m_fuel w) induced (m_rng w) size (ReziprocalSquareRoot half) (ReziprocalSquareRoot half)
        timeout (size <=? 20) (m_shots w size) (ks size) (rs size) (tm size) (ks (S size)).

(** The same for the edge density [k / 22] and every correction density [m / 22]. *)
Definition density_recorded (bd : build) (induced : Frames → list nat → PartialOrderGraph) (w : Machine) (k : nat)
    (rs : nat → list Sample) (tm : nat → Times) : Prop :=
  ∃ ks, ks 1 = 0 ∧
    ∀ m, 1 ≤ m ≤ 21 → ∃ timeout, density_timeouts !! m = Some timeout ∧
      measured bd (m_fuel w) induced (m_rng w) 20
        (Constant (f64_div (f64_of_usize (N.of_nat k)) (f64_of_usize 22)))
        (Constant (f64_div (f64_of_usize (N.of_nat m)) (f64_of_usize 22)))
        timeout false (m_shots w m) (ks m) (rs m) (tm m) (ks (S m)).

(** The figures are made from a copy of the directory [output] called [data]. *)
Definition copied (fs1 fs2 : Disk) : Prop :=
  ∀ file, fs2 !! ("data/" +:+ file)%string = fs1 !! ("output/" +:+ file)%string.
