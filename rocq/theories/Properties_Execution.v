(** * Properties: executing the scheduled patterns

    The example program [compile_flow.py] executes a pattern step by step; each time a
    qubit is measured with outcome 1, the Pauli frame of this qubit is multiplied to the
    corrections.  [required st outcome v] is the correction of qubit [v] for the outcomes
    of {e all} measurements, [compiled n g st] says that the dependency graph [g] orders
    each corrected qubit after the qubit of the frame.  The recorded list contains for
    every measurement the qubit, the correction read, and the correction performed. *)
From Verif Require Import MainExecution Check.

Theorem C73_execution :
  ∀ n g st outcome init σ,
  compiled n g st → (∀ b, listed g b → b < n) → valid_schedule g σ → length init = n →
  ∃ final,
    execute st outcome init σ =
      Some (final, map (λ v, let c := pauli_mul (at_qubit init v) (required st outcome v) in
                             (v, c, performed c)) (concat σ)) ∧
    length final = n ∧
    ((∀ q, q ∈ st_frame_flags st → listed g q) →
     ∀ v, v < n → final !! v = Some (pauli_mul (at_qubit init v) (required st outcome v))).
Proof. exact execution_complete. Qed.
Print Assumptions C73_execution.

Theorem C73_known_before :
  ∀ n g st outcome init σ k S,
  compiled n g st → (∀ b, listed g b → b < n) → legal_prefix g σ → length init = n →
  σ !! k = Some S →
  ∃ cf log, execute st outcome init (take k σ) = Some (cf, log) ∧
    ∀ v, v ∈ S → cf !! v = Some (pauli_mul (at_qubit init v) (required st outcome v)).
Proof. exact known_before_step. Qed.
Print Assumptions C73_known_before.

Theorem C73_same :
  ∀ n g st outcome init σ τ,
  compiled n g st → (∀ b, listed g b → b < n) → valid_schedule g σ → valid_schedule g τ → length init = n →
  (∀ q, q ∈ st_frame_flags st → listed g q) →
  ∃ final log log', log ≡ₚ log' ∧
    execute st outcome init σ = Some (final, log) ∧ execute st outcome init τ = Some (final, log').
Proof. exact execution_same. Qed.
Print Assumptions C73_same.

Theorem C73_run :
  ∀ bd fuel env warn adj o g do_search timeout nthreads prob bound ps p st outcome init,
  wf_input adj g → (∀ l, e_hash_order env l ≡ₚ l) → denotes warn o g →
  py_run bd fuel env warn adj o do_search timeout nthreads prob bound = Some (Val (Ok ps)) →
  p ∈ into_py_paths ps → compiled (length adj) g st → length init = length adj →
  (∃ final,
     execute st outcome init (py_steps p) =
       Some (final, map (λ v, let c := pauli_mul (at_qubit init v) (required st outcome v) in
                              (v, c, performed c)) (concat (py_steps p))) ∧
     length final = length adj ∧
     ((∀ q, q ∈ st_frame_flags st → listed g q) →
      ∀ v, v < length adj → final !! v = Some (pauli_mul (at_qubit init v) (required st outcome v)))) ∧
  ∀ k S, py_steps p !! k = Some S →
    ∃ cf log, execute st outcome init (take k (py_steps p)) = Some (cf, log) ∧
      ∀ v, v ∈ S → cf !! v = Some (pauli_mul (at_qubit init v) (required st outcome v)).
Proof. exact run_executes. Qed.
Print Assumptions C73_run.

Theorem C73_widget :
  ∀ adj g, wf_input adj g →
  ∃ p, (∀ bd env warn, ∃ fuel0, ∀ fuel, fuel0 ≤ fuel → ∃ ps,
          py_run_default bd fuel env warn adj (partial_order_graph g) = Some (Val (Ok ps)) ∧
          into_py_paths ps !! 0 = Some p) ∧
    ∀ frames flags buffer outcome,
    let st := mkStorage frames flags adj p buffer in
    compiled (length adj) g st →
    ∃ final, execute_widget_a st outcome =
      Some (final, map (λ v, (v, required st outcome v, performed (required st outcome v)))
                     (concat (py_steps p))).
Proof. exact widget_executes. Qed.
Print Assumptions C73_widget.

(** Conversely, every dependency that the frames require is necessary. *)
Theorem C73_order_needed :
  ∀ n g st init i q f v,
  wf_order n g → length (st_frames st) = length (st_frame_flags st) →
  Forall (λ f, length f = n) (st_frames st) → NoDup (st_frame_flags st) → length init = n →
  st_frame_flags st !! i = Some q → st_frames st !! i = Some f → at_qubit f v ≠ (false, false) →
  listed g v → ¬ after g v q →
  ∃ σ outcome final log c, valid_schedule g σ ∧ execute st outcome init σ = Some (final, log) ∧
    (v, c, performed c) ∈ log ∧ c ≠ pauli_mul (at_qubit init v) (required st outcome v).
Proof. exact order_needed. Qed.
Print Assumptions C73_order_needed.

(** The first widget of the example.  This is the order that its frames require. *)
Definition widget_a_order : order := [[(0, [])]; [(2, [0]); (3, [0])]; [(1, [2]); (4, [2])]].
Definition widget_a_storage : Storage :=
  let '(t, flags, graph) := compile_widget_a in
  mkStorage (tr_frames t) flags graph (mkPyPath 3 4 [[0]; [2; 3]; [1; 4]]) [].

Lemma widget_a_compiled : compiled 5 widget_a_order widget_a_storage.
Proof.
  split; [done|by repeat constructor|by apply (bool_decide_unpack _); vm_compute|].
  assert (depends widget_a_order 2 0) as H20 by (eexists _, [0]; split; [right; left|]; split; [left|left]).
  assert (depends widget_a_order 3 0) as H30 by (eexists _, [0]; split; [right; left|]; split; [right; left|left]).
  assert (depends widget_a_order 1 2) as H12 by (eexists _, [2]; split; [right; right; left|]; split; [left|left]).
  assert (depends widget_a_order 4 2) as H42 by (eexists _, [2]; split; [right; right; left|]; split; [right; left|left]).
  intros [|[|i]] q f v Hq Hf Hv _; [| |done].
  - injection Hq as <-. injection Hf as <-. unfold after.
    do 5 (destruct v as [|v]; [try (by destruct Hv); by apply tc_once|]). by destruct Hv.
  - injection Hq as <-. injection Hf as <-. unfold after.
    do 5 (destruct v as [|v]; [try (by destruct Hv); by apply tc_once|]). by destruct Hv.
Qed.

Definition quiet_env : Env := mkEnv (λ _, []) [] (λ l, l) idle_gen (λ x, x).

(** All outcomes are 1: qubit 1 needs the correction Y, that is Z and X. *)
Example C73_example :
  wf_input widget_graph widget_a_order ∧
  match py_run_default Debug 100 quiet_env (Ok tt) widget_graph (partial_order_graph widget_a_order) with
  | Some (Val (Ok ps)) => into_py_paths ps !! 0 = Some (st_path widget_a_storage)
  | _ => False
  end ∧
  compiled 5 widget_a_order widget_a_storage ∧
  execute_widget_a widget_a_storage (λ _, true) =
    Some ([(false, false); (true, true); (true, false); (false, true); (false, true)],
          [(0, (false, false), (false, false)); (2, (true, false), (true, false));
           (3, (false, true), (false, true)); (1, (true, true), (true, false));
           (4, (false, true), (false, true))]).
Proof.
  split; [apply wf_input_checked; by vm_compute|]. split; [by vm_compute|]. split; [exact widget_a_compiled|].
  by vm_compute.
Qed.

(** [if … elif …]: a correction with both parts is not performed completely. *)
Theorem C73_performed : ∀ c, performed c = c ↔ c ≠ (true, true).
Proof. exact performed_spec. Qed.
Print Assumptions C73_performed.

Theorem C73_performed_refuted :
  ¬ ∀ adj g st outcome final log v c d,
    wf_input adj g → st_graph st = adj → compiled (length adj) g st →
    valid_schedule g (py_steps (st_path st)) →
    execute_widget_a st outcome = Some (final, log) → (v, c, d) ∈ log →
    d = required st outcome v.
Proof.
  intros H. destruct C73_example as (Hwf & _ & Hc & He).
  assert ((true, false) = required widget_a_storage (λ _, true) 1) as Hr; [|vm_compute in Hr; discriminate].
  eapply (H widget_graph widget_a_order widget_a_storage (λ _, true)); [exact Hwf|done|exact Hc| |exact He|].
  - cbn. apply valid_checked. by vm_compute.
  - do 3 right. left.
Qed.
Print Assumptions C73_performed_refuted.

(** Corrections from the previous widget: [conjugate_all gs outs] are the corrections
    [outs] of its output qubits after the gates [gs] of the next widget.  The frames of
    output qubit [idx] in the buffer have the numbers [2 * idx] and [2 * idx + 1]. *)
Theorem C73_buffer :
  ∀ gs outs,
  take_over (λ idx, 2 * idx) (λ idx, 2 * idx + 1)
    (tr_frames (foldl (λ t g, tracker_gate g t) (buffer_tracker (length outs)) gs))
    (length outs + new_qubits gs) outs
  = Some (conjugate_all gs outs).
Proof. exact take_over_right. Qed.
Print Assumptions C73_buffer.

(** The example uses [idx] and [idx + 1], which is the same for a single output only. *)
Theorem C73_buffer_single :
  ∀ st gs c,
  st_buffer st = tr_frames (foldl (λ t g, tracker_gate g t) (buffer_tracker 1) gs) →
  length (st_graph st) = 1 + new_qubits gs →
  initial_correction_frame st [c] = Some (conjugate_all gs [c]).
Proof. exact take_over_single. Qed.
Print Assumptions C73_buffer_single.

Theorem C73_buffer_refuted :
  ¬ ∀ st gs outs,
    st_buffer st = tr_frames (foldl (λ t g, tracker_gate g t) (buffer_tracker (length outs)) gs) →
    length (st_graph st) = length outs + new_qubits gs →
    initial_correction_frame st outs = Some (conjugate_all gs outs).
Proof.
  intros H.
  specialize (H (mkStorage [] [] widget_graph (mkPyPath 0 0 [])
                   (tr_frames (compile_widget_b (buffer_tracker 3)).2))
                widget_b_gates example_output_corrections eq_refl eq_refl).
  vm_compute in H. discriminate.
Qed.
Print Assumptions C73_buffer_refuted.

(** The second widget of the example with its three output corrections: the corrections
    that the example takes over, and the right ones. *)
Example C73_buffer_example :
  let buffer := tr_frames (compile_widget_b (buffer_tracker 3)).2 in
  take_over (λ idx, idx) (λ idx, idx + 1) buffer 5 example_output_corrections =
    Some [(true, false); (false, false); (false, false); (true, false); (false, false)] ∧
  take_over (λ idx, 2 * idx) (λ idx, 2 * idx + 1) buffer 5 example_output_corrections =
    Some [(true, false); (true, false); (true, true); (true, false); (false, false)] ∧
  conjugate_all widget_b_gates example_output_corrections =
    [(true, false); (true, false); (true, true); (true, false); (false, false)].
Proof. by vm_compute. Qed.

(** If a qubit had two frames, only the first one would be used ([list.index]). *)
Example C73_duplicate_example :
  let st := mkStorage [[(false, false); (true, false)]; [(false, false); (false, true)]] [0; 0]
              [[1]; [0]] (mkPyPath 2 2 [[0]; [1]]) [] in
  execute_widget_a st (λ _, true) =
    Some ([(false, false); (true, false)],
          [(0, (false, false), (false, false)); (1, (true, false), (true, false))]) ∧
  required st (λ _, true) 1 = (true, true).
Proof. by vm_compute. Qed.
