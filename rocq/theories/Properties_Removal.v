(** * Properties: inputs without some of the qubits

    How much time and memory a few additional qubits take, however many neighbours they
    have. *)
From Verif Require Import MainRemoval Check.
From Verif Require Import RemovalSpec.

(** ** C92: a few qubits that can wait *)

(** If nothing else has to wait for the qubits of [S], they can be measured at the end: a
    search finds, for every path of a search for the rest, a path with at most [length S]
    more steps and places. *)
Theorem C92_search :
  ∀ S adj g adj' g' qs ps,
  wf_input adj g → wf_input adj' g' → closed_upwards g S → all_measured adj g → keeps_rest S adj g adj' g' →
  (∃ b, listed g' b) → searched adj' g' qs → searched adj g ps →
  ∀ q, q ∈ qs → ∃ p, p ∈ ps ∧ time p ≤ time q + length S ∧ (space p <= space q + N.of_nat (length S))%N.
Proof. exact run_removal. Qed.
Print Assumptions C92_search.

(** In particular few qubits that touch all edges make the memory small. *)
Theorem C92_cover :
  ∀ S adj g c ps,
  wf_input adj g → all_measured adj g → covers_edges adj g S →
  (∀ b d, depends g b d → b ∈ S) → (∃ b, listed g b) → searched adj g ps → 1 ≤ c →
  ∃ p, p ∈ ps ∧ time p ≤ (length (filter (λ b, b ∉ S) (qubits g)) + (c - 1)) / c + length S ∧
    (space p <= N.of_nat (c + length S))%N.
Proof. exact run_cover. Qed.
Print Assumptions C92_cover.

(** A wheel: a ring of four qubits and a hub, number 4. *)
Definition wheel : spacial := [[1; 3; 4]; [0; 2; 4]; [1; 3; 4]; [2; 0; 4]; [0; 1; 2; 3]].
Definition wheel_order : order := [[(0, []); (1, []); (2, [])]; [(3, [0]); (4, [0; 2])]].
Definition rim : spacial := [[1; 3]; [0; 2]; [1; 3]; [2; 0]; []].
Definition rim_order : order := [[(0, []); (1, []); (2, [])]; [(3, [0])]].

Lemma wheel_listed v : listed wheel_order v ↔ v < 5.
Proof. rewrite listed_qubits. unfold qubits. simpl. rewrite !elem_of_cons, elem_of_nil. lia. Qed.
Lemma rim_listed v : listed rim_order v ↔ v < 4.
Proof. rewrite listed_qubits. unfold qubits. simpl. rewrite !elem_of_cons, elem_of_nil. lia. Qed.

Lemma wheel_depends b d : depends wheel_order b d → (b = 3 ∧ d = 0) ∨ (b = 4 ∧ (d = 0 ∨ d = 2)).
Proof.
  intros (l & ds & Hl & Hb & Hd). unfold wheel_order in Hl. rewrite !elem_of_cons, elem_of_nil in Hl.
  destruct Hl as [->|[->|[]]]; rewrite !elem_of_cons, elem_of_nil in Hb; destruct_or? Hb; simplify_eq;
    rewrite ?elem_of_cons, elem_of_nil in Hd; lia.
Qed.

Lemma wheel_keeps : keeps_rest [4] wheel wheel_order rim rim_order.
Proof.
  split.
  - done.
  - intros b. rewrite wheel_listed, rim_listed, elem_of_list_singleton. lia.
  - intros u v Hu Hv Hvu H. rewrite elem_of_list_singleton in Hu, Hv. unfold neighbours in *.
    destruct u as [|[|[|[|[|u]]]]]; simpl in *; rewrite ?elem_of_cons, ?elem_of_nil in *; lia.
  - intros b d Hb Hd H. rewrite elem_of_list_singleton in Hb, Hd.
    apply wheel_depends in H as [[-> ->]|[? ?]]; [|done]. exists [(3, [0])], [0]. split; [right; left|]. split; left.
Qed.

Definition removal_env : Env := mkEnv (λ _, []) [] id idle_gen (λ x, x).

Lemma removal_searched adj g ps :
  run Debug 4000 removal_env adj g true None 1 None None = Some (Val ps) → searched adj g ps.
Proof.
  intros E. exists removal_env, None, 1, None, Debug. split; [done|]. split; [done|]. split; [done|].
  eapply finishes_of; [|exact E]. intros fuel fuel' r. apply search_single_mono.
Qed.

Example C92_example :
  wf_input wheel wheel_order ∧ wf_input rim rim_order ∧ closed_upwards wheel_order [4] ∧
  all_measured wheel wheel_order ∧ keeps_rest [4] wheel wheel_order rim rim_order ∧
  ∃ qs ps, searched rim rim_order qs ∧ searched wheel wheel_order ps ∧
    costs qs = [(2, 3%N)] ∧ costs ps = [(2, 5%N); (3, 4%N)].
Proof.
  split; [by apply wf_input_checked; vm_compute|]. split; [by apply wf_input_checked; vm_compute|]. split; [|split; [|split]].
  - intros b d H. rewrite !elem_of_list_singleton. apply wheel_depends in H. lia.
  - intros u v Hu Hv. apply wheel_listed. unfold neighbours in Hv.
    destruct u as [|[|[|[|[|u]]]]]; simpl in Hv; rewrite ?elem_of_cons, ?elem_of_nil in Hv; lia.
  - exact wheel_keeps.
  - eexists _, _. split; [apply removal_searched; vm_compute; reflexivity|].
    split; [apply removal_searched; vm_compute; reflexivity|]. split; reflexivity.
Qed.

(** A star whose centre, number 0, is measured last. *)
Definition star : spacial := [[1; 2; 3; 4]; [0]; [0]; [0]; [0]].
Definition inward : order := [[(1, []); (2, []); (3, []); (4, [])]; [(0, [1; 2; 3; 4])]].
Definition outward : order := [[(0, [])]; [(1, [0]); (2, [0]); (3, [0]); (4, [0])]].

Example C92_cover_example :
  wf_input star inward ∧ all_measured star inward ∧ covers_edges star inward [0] ∧
  (∀ b d, depends inward b d → b ∈ [0]) ∧
  ∃ ps, searched star inward ps ∧ costs ps = [(2, 5%N); (3, 3%N); (5, 2%N)].
Proof.
  assert (∀ v, listed inward v ↔ v < 5) as Hl.
  { intros v. rewrite listed_qubits. unfold qubits. simpl. rewrite !elem_of_cons, elem_of_nil. lia. }
  split; [by apply wf_input_checked; vm_compute|]. split; [|split; [|split]].
  - intros u v Hu Hv. apply Hl. unfold neighbours in Hv.
    destruct u as [|[|[|[|[|u]]]]]; simpl in Hv; rewrite ?elem_of_cons, ?elem_of_nil in Hv; lia.
  - intros u v Hu Hv. rewrite !elem_of_list_singleton. unfold neighbours in Hv.
    destruct u as [|[|[|[|[|u]]]]]; simpl in Hv; rewrite ?elem_of_cons, ?elem_of_nil in Hv; lia.
  - intros b d (l & ds & Hll & Hb & Hd). apply elem_of_list_singleton. unfold inward in Hll. rewrite !elem_of_cons, elem_of_nil in Hll.
    destruct Hll as [->|[->|[]]]; rewrite ?elem_of_cons, elem_of_nil in Hb; destruct_or? Hb; simplify_eq; try done;
      by apply elem_of_nil in Hd.
  - eexists. split; [apply removal_searched; vm_compute; reflexivity|]. reflexivity.
Qed.

(** It is important that nothing waits for these qubits: if the centre of the star is
    measured first, it takes five places instead of two. *)
Theorem C92_waiting_refuted :
  ¬ (∀ S adj g adj' g' qs ps,
     wf_input adj g → wf_input adj' g' → all_measured adj g → keeps_rest S adj g adj' g' →
     (∃ b, listed g' b) → searched adj' g' qs → searched adj g ps →
     ∀ q, q ∈ qs → ∃ p, p ∈ ps ∧ (space p <= space q + N.of_nat (length S))%N).
Proof.
  intros H.
  assert (∀ v, listed outward v ↔ v < 5) as Hl.
  { intros v. rewrite listed_qubits. unfold qubits. simpl. rewrite !elem_of_cons, elem_of_nil. lia. }
  assert (∀ v, listed [[(1, []); (2, []); (3, []); (4, [])]] v ↔ 1 ≤ v < 5) as Hl'.
  { intros v. rewrite listed_qubits. unfold qubits. simpl. rewrite !elem_of_cons, elem_of_nil. lia. }
  destruct (H [0] star outward [[]; []; []; []; []] [[(1, []); (2, []); (3, []); (4, [])]]
    [MkPath 1 4 [[1; 2; 3; 4]]; MkPath 2 2 [[3; 4]; [1; 2]]; MkPath 4 1 [[4]; [3]; [2]; [1]]]
    [MkPath 2 5 [[0]; [1; 2; 3; 4]]]) with (MkPath 4 1 [[4]; [3]; [2]; [1]]) as (p & Hp & Hm).
  - apply wf_input_checked; by vm_compute.
  - apply wf_input_checked; by vm_compute.
  - intros u v Hu Hv. apply Hl. unfold neighbours in Hv.
    destruct u as [|[|[|[|[|u]]]]]; simpl in Hv; rewrite ?elem_of_cons, ?elem_of_nil in Hv; lia.
  - split.
    + done.
    + intros b. rewrite Hl, Hl', elem_of_list_singleton. lia.
    + intros u v Hu Hv _ Huv. rewrite elem_of_list_singleton in Hu, Hv. unfold neighbours in Huv.
      destruct u as [|[|[|[|[|u]]]]]; simpl in Huv; rewrite ?elem_of_cons, ?elem_of_nil in Huv; lia.
    + intros b d Hb Hd (l & ds & Hll & Hbl & Hdl). exfalso. apply Hd, elem_of_list_singleton. unfold outward in Hll.
      rewrite !elem_of_cons, elem_of_nil in Hll.
      destruct Hll as [->|[->|[]]]; rewrite ?elem_of_cons, elem_of_nil in Hbl; destruct_or? Hbl; simplify_eq;
        try (by apply elem_of_nil in Hdl); by apply elem_of_list_singleton in Hdl.
  - exists 1. apply Hl'. lia.
  - apply removal_searched. by vm_compute.
  - apply removal_searched. by vm_compute.
  - right; right; left.
  - apply elem_of_list_singleton in Hp as ->. vm_compute in Hm. by apply Hm.
Qed.
Print Assumptions C92_waiting_refuted.
