(** * Properties: the timer

    An execution of a timer is a list of events from [timer_new], see [Timer.v];
    [timer_run] is [None] if one of the events is not possible. *)
From Verif Require Import TimerFacts.

(** ** C37: no early finish, no late finish, dropping does not wait *)

Theorem C37_never_started :
  ∀ now es t, timer_run (timer_new now) es = Some t → (∀ d, UStart d ∉ es) → timer_finished t = false.
Proof. exact timer_never_started. Qed.
Print Assumptions C37_never_started.

(** [finished] only if some [start(d)] is more than [d] ticks ago. *)
Theorem C37_not_early :
  ∀ now es t, timer_run (timer_new now) es = Some t → timer_finished t = true →
  ∃ d e1 e2, es = e1 ++ UStart d :: e2 ∧ d < ticks e2.
Proof. exact timer_not_early. Qed.
Print Assumptions C37_not_early.

Theorem C37_monotone :
  ∀ now es es' t t', timer_run (timer_new now) es = Some t → timer_run t es' = Some t' →
  timer_finished t = true → timer_finished t' = true.
Proof. exact timer_monotone. Qed.
Print Assumptions C37_monotone.

Theorem C37_finishes :
  ∀ now d e1 e2 e3 e4 t i,
  i = starts e1 → runs i e2 = 0 → d < ticks e3 →
  timer_run (timer_new now) (e1 ++ UStart d :: e2 ++ TStep i :: e3 ++ e4) = Some t →
  UDrop ∉ e1 ++ UStart d :: e2 ++ TStep i :: e3 ++ e4 →
  (2 ≤ runs i e4 → timer_finished t = true) ∧
  (timer_finished t = false →
     (∃ t', timer_exec t (TStep i) = Some t') ∨
     (∃ j t', timer_exec t (TStep j) = Some t' ∧ timer_finished t' = true)).
Proof. exact timer_finishes. Qed.
Print Assumptions C37_finishes.

Theorem C37_drop_starts :
  ∀ now es t, timer_run (timer_new now) es = Some t → UDrop ∉ es →
  (∃ t', timer_exec t UDrop = Some t') ∨
  (∃ j t' t'', timer_exec t (TStep j) = Some t' ∧ timer_finished t' = true ∧
     timer_exec t' UDrop = Some t'').
Proof. exact timer_drop_starts. Qed.
Print Assumptions C37_drop_starts.

Theorem C37_drop_returns :
  ∀ now e1 e2 t t', timer_run (timer_new now) e1 = Some t → UDrop ∉ e1 →
  timer_run t (UDrop :: e2) = Some t' →
  timer_finished t' = timer_finished t ∧
  (UJoin ∈ e2 ∨ (∃ t'', timer_exec t' UJoin = Some t'') ∨
   (∃ t'', timer_run t' [TStep (starts e1 - 1); UJoin] = Some t'')).
Proof. exact timer_drop_returns. Qed.
Print Assumptions C37_drop_returns.

Theorem C37_no_leak :
  ∀ now es t, timer_run (timer_new now) es = Some t → starts es ≤ 1 → tm_phase t = Gone →
  ∀ th, th ∈ tm_threads t → th = TDone.
Proof. exact timer_no_leak. Qed.
Print Assumptions C37_no_leak.

(** With two calls of [start] the first thread can outlive the timer. *)
Theorem C37_no_leak_restarted_refuted :
  ¬ ∀ now es t, timer_run (timer_new now) es = Some t → tm_phase t = Gone →
    ∀ th, th ∈ tm_threads t → th = TDone.
Proof.
  intros H.
  specialize (H 0 [UStart 7; UStart 2; TStep 0; TStep 1; UDrop; TStep 1; UJoin] _ eq_refl eq_refl (TWaiting 0 7)).
  discriminate H. apply elem_of_list_In. simpl. by left.
Qed.
Print Assumptions C37_no_leak_restarted_refuted.

(** A duration of 2 ticks with a spurious wake up and an interleaved restart:
    finished after the third tick and two more actions of the thread; the drop
    returns before the second duration has elapsed. *)
Example C37_example :
  let es := [UStart 2; Tick; TStep 0; Tick; TStep 0; UStart 9; Tick; TStep 1; Tick; TStep 0] in
  option_map timer_finished (timer_run (timer_new 5) es) = Some false ∧
  timer_run (timer_new 5) (es ++ [UDrop]) = None ∧
  option_map timer_finished (timer_run (timer_new 5) (es ++ [TStep 0])) = Some true ∧
  option_map tm_phase (timer_run (timer_new 5) (es ++ [TStep 0; UDrop; TStep 1; UJoin])) = Some Gone.
Proof. by vm_compute. Qed.

Example C37_example_finishes :
  let e3 := [Tick; TStep 0; UStart 9; Tick; TStep 1; Tick] in
  let e4 := [TStep 0; TStep 0] in
  let es := [] ++ UStart 2 :: [Tick] ++ TStep (starts []) :: e3 ++ e4 in
  is_Some (timer_run (timer_new 5) es) ∧ UDrop ∉ es ∧ runs 0 [Tick] = 0 ∧ 2 < ticks e3 ∧ 2 ≤ runs 0 e4.
Proof.
  split; [by eexists; vm_compute|]. split; [|vm_compute; split_and!; lia].
  intros H. apply elem_of_list_In in H. simpl in H. repeat (destruct H as [H|H]; [done|]). done.
Qed.

(** Dropped before the time is over: [finished] stays false for ever. *)
Example C37_example_drop :
  option_map timer_finished
    (timer_run (timer_new 0) [UStart 3; TStep 0; Tick; UDrop; Tick; Tick; Tick; Tick; TStep 0; UJoin; Tick])
  = Some false.
Proof. by vm_compute. Qed.
