(** * Properties: numbers of schedules and of steps *)
From Verif Require Import MainSearch MainSweep MainAmount MainParity Check.
From Verif Require Import Properties_Amount.

(** ** C97: the number of schedules is odd *)

(** Whatever the dependencies are, there is an odd number of schedules, so a sweep
    records an odd number of paths. *)
Theorem C97_odd :
  ∀ adj g k, wf_input adj g → amount g k → Nat.Odd k.
Proof. exact amount_odd. Qed.
Print Assumptions C97_odd.

Theorem C97_swept :
  ∀ adj g buf, wf_input adj g → length adj ≤ length buf → (∃ b, listed g b) →
  ∃ t ps qs, from_dependency_graph (T := Partition nat) g buf None = Val t ∧
    (∀ bd, returns (λ fuel, get_all_paths (H := time_focus_iterator bd) fuel [] t) ps) ∧
    (∀ bd, returns (λ fuel, get_all_paths (H := scheduler_focus_iterator bd) fuel []
                              (mkScheduler t (graph_new adj))) qs) ∧
    Nat.Odd (length ps) ∧ Nat.Odd (length qs).
Proof. exact swept_odd. Qed.
Print Assumptions C97_swept.

(** Every number of steps between that of the time optimal schedule and the number of
    qubits is possible, and no other one. *)
Theorem C97_steps :
  ∀ adj g, wf_input adj g →
  ∃ p, (∀ bd, returns (λ fuel, get_time_optimal bd fuel adj g) [p]) ∧
    ∀ t, (∃ σ, valid_schedule g σ ∧ time_cost σ = t) ↔ time p ≤ t ∧ t ≤ length (qubits g).
Proof. exact every_time. Qed.
Print Assumptions C97_steps.

Example C97_example :
  wf_input [[]; []; []; []; []; []] abreast ∧ swept 6 abreast = Val 31 ∧
  (* from two to four steps *)
  (∀ t, (∃ σ, valid_schedule abreast σ ∧ time_cost σ = t) ↔ 2 ≤ t ∧ t ≤ 4).
Proof.
  assert (wf_input [[]; []; []; []; []; []] abreast) as Hin by (by apply wf_input_checked; vm_compute).
  split; [done|]. split; [by vm_compute|].
  destruct (C97_steps _ _ Hin) as (p & Hp & Ht).
  assert (returns (λ fuel, get_time_optimal Debug fuel [[]; []; []; []; []; []] abreast)
    [MkPath 2 3 [[0; 1; 3]; [5]]]) as H.
  { apply (finishes_of _ _ 100); [intros fuel fuel' r; apply get_time_optimal_mono|by vm_compute]. }
  pose proof (finishes_det _ _ _ (Hp Debug) H) as E. injection E as ->. exact Ht.
Qed.
