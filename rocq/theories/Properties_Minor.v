(** * Properties: minors

    What is known about one graph state carries over to all graph states from which it
    arises by deleting qubits, edges and dependencies and by joining connected sets of
    qubits to single ones. *)
From Verif Require Import MainMinor Check.
From Verif Require Import MinorSpec.

(** ** C91: minors never cost more *)

(** Whatever a run for the large input returns, the search for the minor finds something
    that is at least as fast and needs at most as much memory. *)
Theorem C91_search :
  ∀ B adj' g' adj g qs env do_search timeout nthreads bound prob bd fuel ps,
  wf_input adj' g' → wf_input adj g → minor_of B adj' g' adj g → (∃ b, listed g' b) →
  searched adj' g' qs → (∀ l, e_hash_order env l ≡ₚ l) →
  run bd fuel env adj g do_search timeout nthreads bound prob = Some (Val ps) →
  ∀ p, p ∈ ps → ∃ q, q ∈ qs ∧ time q ≤ time p ∧ (space q <= space p)%N.
Proof. exact run_minor. Qed.
Print Assumptions C91_search.

(** Without search the minor is at least as fast. *)
Theorem C91_without_search :
  ∀ B adj' g' adj g env' timeout' nthreads' bound' prob' bd' q env do_search timeout nthreads bound prob bd fuel ps,
  wf_input adj' g' → wf_input adj g → minor_of B adj' g' adj g →
  returns (λ fuel, run bd' fuel env' adj' g' false timeout' nthreads' bound' prob') [q] →
  (∀ l, e_hash_order env l ≡ₚ l) →
  run bd fuel env adj g do_search timeout nthreads bound prob = Some (Val ps) →
  ∀ p, p ∈ ps → time q ≤ time p.
Proof. exact run_minor_time. Qed.
Print Assumptions C91_without_search.

(** For the memory the dependencies of the large input do not matter: the least memory of
    the minor without any dependencies is a lower bound for every run. *)
Theorem C91_graph :
  ∀ B adj' adj g qs q env do_search timeout nthreads bound prob bd fuel ps,
  wf_spacial adj' → wf_input adj g → graph_minor B adj' adj g → adj' ≠ [] →
  searched adj' (unordered (length adj')) qs → last qs = Some q → (∀ l, e_hash_order env l ≡ₚ l) →
  run bd fuel env adj g do_search timeout nthreads bound prob = Some (Val ps) →
  ∀ p, p ∈ ps → (space q <= space p)%N.
Proof. exact run_graph_minor. Qed.
Print Assumptions C91_graph.

(** In particular a large grid in the graph takes much memory, whatever the rest is. *)
Theorem C91_grid :
  ∀ B a b adj g env do_search timeout nthreads bound prob bd fuel ps,
  2 ≤ a → 2 ≤ b → (N.of_nat (a * b) < 2 ^ 64 - 1)%N → wf_input adj g → graph_minor B (grid a b) adj g →
  (∀ l, e_hash_order env l ≡ₚ l) →
  run bd fuel env adj g do_search timeout nthreads bound prob = Some (Val ps) →
  ∀ p, p ∈ ps → (N.of_nat (S (min a b)) <= space p)%N.
Proof. exact run_grid_minor. Qed.
Print Assumptions C91_grid.

(** A ring of five qubits; joining 0 with 1 and 3 with 4 leaves a triangle. *)
Definition pentagon : spacial := [[1; 4]; [0; 2]; [1; 3]; [2; 4]; [3; 0]].
Definition pentagon_order : order := [[(0, []); (1, []); (3, []); (4, [])]; [(2, [0; 1])]].
Definition triangle : spacial := [[1; 2]; [0; 2]; [0; 1]].
Definition triangle_order : order := [[(0, []); (2, [])]; [(1, [0])]].
Definition joins (w : nat) : list nat := match w with 0 => [0; 1] | 1 => [2] | 2 => [3; 4] | _ => [] end.

Lemma pentagon_listed v : listed pentagon_order v ↔ v < 5.
Proof. rewrite listed_qubits. unfold qubits. simpl. rewrite !elem_of_cons, elem_of_nil. lia. Qed.
Lemma triangle_listed v : listed triangle_order v ↔ v < 3.
Proof. rewrite listed_qubits. unfold qubits. simpl. rewrite !elem_of_cons, elem_of_nil. lia. Qed.

Lemma pentagon_pair u : u < 4 → connected pentagon [u; S u].
Proof.
  intros Hu. replace [u; S u] with (map (λ t, t + u) (seq 0 2)) by done. apply line_connected. intros t s Ht Hs Hts.
  destruct u as [|[|[|[|u]]]]; [..|lia]; assert ((t = 0 ∧ s = 1) ∨ (t = 1 ∧ s = 0)) as [[-> ->]|[-> ->]] by lia;
    unfold neighbours; simpl; rewrite !elem_of_cons, elem_of_nil; lia.
Qed.

Lemma single_connected adj u : connected adj [u].
Proof. intros x y ->%elem_of_list_singleton ->%elem_of_list_singleton. constructor. Qed.

Example triangle_minor : minor_of joins triangle triangle_order pentagon pentagon_order.
Proof.
  split.
  - intros w x Hw Hx. destruct w as [|[|[|w]]]; [..|simpl in Hw; lia]; simpl in *; rewrite ?elem_of_cons, elem_of_nil in Hx; lia.
  - intros w Hw. destruct w as [|[|[|w]]]; [done..|simpl in Hw; lia].
  - intros w w' x Hw Hw' H1 H2. destruct w as [|[|[|w]]]; [..|simpl in Hw; lia]; (destruct w' as [|[|[|w']]]; [..|simpl in Hw'; lia]);
      simpl in *; rewrite ?elem_of_cons, elem_of_nil in H1; rewrite ?elem_of_cons, elem_of_nil in H2; lia.
  - intros w Hw. destruct w as [|[|[|w]]]; [..|simpl in Hw; lia]; simpl.
    + apply pentagon_pair. lia.
    + apply single_connected.
    + apply pentagon_pair. lia.
  - intros u v Hu Hv. apply triangle_listed in Hu. unfold neighbours in Hv.
    destruct u as [|[|[|u]]]; [..|lia]; simpl in Hv; rewrite !elem_of_cons, elem_of_nil in Hv; destruct_or? Hv; try done; subst v; simpl.
    + exists 1, 2. unfold neighbours. simpl. set_solver.
    + exists 0, 4. unfold neighbours. simpl. set_solver.
    + exists 2, 1. unfold neighbours. simpl. set_solver.
    + exists 2, 3. unfold neighbours. simpl. set_solver.
    + exists 4, 0. unfold neighbours. simpl. set_solver.
    + exists 3, 2. unfold neighbours. simpl. set_solver.
  - intros w Hw x Hx. apply triangle_listed in Hw. apply pentagon_listed.
    destruct w as [|[|[|w]]]; [..|lia]; simpl in *; rewrite ?elem_of_cons, elem_of_nil in Hx; lia.
  - intros u v Hu Hv _. apply triangle_listed in Hu. apply triangle_listed. unfold neighbours in Hv.
    destruct u as [|[|[|u]]]; [..|lia]; simpl in Hv; rewrite !elem_of_cons, elem_of_nil in Hv; lia.
  - intros b d (l & ds & Hl & Hb & Hd) x Hx. unfold triangle_order in Hl. rewrite !elem_of_cons, elem_of_nil in Hl.
    destruct Hl as [->|[->|[]]]; rewrite ?elem_of_cons, elem_of_nil in Hb; destruct_or? Hb; simplify_eq;
      [by apply elem_of_nil in Hd..|]. apply elem_of_list_singleton in Hd as ->.
    exists 2. split; [left|]. apply tc_once. exists [(2, [0; 1])], [0; 1]. split; [right; left|]. split; [left|done].
Qed.

Definition minor_env : Env := mkEnv (λ _, []) [] id idle_gen (λ x, x).

Lemma minor_searched adj g ps :
  run Debug 4000 minor_env adj g true None 1 None None = Some (Val ps) → searched adj g ps.
Proof.
  intros E. exists minor_env, None, 1, None, Debug. split; [done|]. split; [done|]. split; [done|].
  eapply finishes_of; [|exact E]. intros fuel fuel' r. apply search_single_mono.
Qed.

Example C91_example :
  wf_input triangle triangle_order ∧ wf_input pentagon pentagon_order ∧
  minor_of joins triangle triangle_order pentagon pentagon_order ∧
  searched triangle triangle_order [MkPath 2 3 [[0; 2]; [1]]] ∧
  ∃ ps, run Debug 4000 minor_env pentagon pentagon_order true None 1 None None = Some (Val ps) ∧
    costs ps = [(2, 4%N); (3, 3%N)].
Proof.
  split; [by apply wf_input_checked; vm_compute|]. split; [by apply wf_input_checked; vm_compute|].
  split; [exact triangle_minor|]. split; [apply minor_searched; by vm_compute|].
  eexists. split; [vm_compute; reflexivity|]. reflexivity.
Qed.

(** The ring of five qubits has the grid with two rows and two columns as a minor. *)
Definition corners (w : nat) : list nat := match w with 0 => [0; 1] | 1 => [2] | 3 => [3] | 2 => [4] | _ => [] end.

Example C91_grid_example : wf_input pentagon pentagon_order ∧ graph_minor corners (grid 2 2) pentagon pentagon_order.
Proof.
  split; [by apply wf_input_checked; vm_compute|].
  assert (length (grid 2 2) = 4) as El by done. split; rewrite ?El.
  - intros w x Hw Hx. apply pentagon_listed.
    destruct w as [|[|[|[|w]]]]; [..|lia]; simpl in *; rewrite ?elem_of_cons, elem_of_nil in Hx; lia.
  - intros w Hw. destruct w as [|[|[|[|w]]]]; [done..|lia].
  - intros w w' x Hw Hw' H1 H2. destruct w as [|[|[|[|w]]]]; [..|lia]; (destruct w' as [|[|[|[|w']]]]; [..|lia]);
      simpl in *; rewrite ?elem_of_cons, elem_of_nil in H1; rewrite ?elem_of_cons, elem_of_nil in H2; lia.
  - intros w Hw. destruct w as [|[|[|[|w]]]]; [..|lia]; simpl.
    + apply pentagon_pair. lia.
    + apply single_connected.
    + apply single_connected.
    + apply single_connected.
  - replace (grid 2 2) with [[1; 2]; [0; 3]; [0; 3]; [1; 2]] by by vm_compute. intros u v Hv. unfold neighbours in Hv.
    destruct u as [|[|[|[|u]]]]; simpl in Hv; rewrite ?elem_of_cons, ?elem_of_nil in Hv; destruct_or? Hv; try done; subst v; simpl.
    + exists 1, 2. unfold neighbours. simpl. set_solver.
    + exists 0, 4. unfold neighbours. simpl. set_solver.
    + exists 2, 1. unfold neighbours. simpl. set_solver.
    + exists 2, 3. unfold neighbours. simpl. set_solver.
    + exists 4, 0. unfold neighbours. simpl. set_solver.
    + exists 4, 3. unfold neighbours. simpl. set_solver.
    + exists 3, 2. unfold neighbours. simpl. set_solver.
    + exists 3, 4. unfold neighbours. simpl. set_solver.
Qed.

(** It is important that the sets are connected: if the two ends of a line of four qubits
    are joined, it becomes a triangle and needs one place more. *)
Theorem C91_unconnected_refuted :
  ¬ (∀ B adj' adj qs ps,
     wf_spacial adj' → wf_spacial adj → adj' ≠ [] →
     (∀ w, w < length adj' → B w ≠ []) → (∀ w x, w < length adj' → x ∈ B w → x < length adj) →
     (∀ w w' x, w < length adj' → w' < length adj' → x ∈ B w → x ∈ B w' → w = w') →
     (∀ u v, v ∈ neighbours adj' u → touching adj (B u) (B v)) →
     searched adj' (unordered (length adj')) qs → searched adj (unordered (length adj)) ps →
     ∀ p, p ∈ ps → ∃ q, q ∈ qs ∧ (space q <= space p)%N).
Proof.
  intros H.
  destruct (H (λ w, match w with 0 => [0; 3] | 1 => [1] | 2 => [2] | _ => [] end) triangle [[1]; [0; 2]; [1; 3]; [2]]
    [MkPath 1 3 [[0; 1; 2]]] [MkPath 1 4 [[0; 1; 2; 3]]; MkPath 2 3 [[2; 3]; [0; 1]]; MkPath 3 2 [[3]; [2]; [0; 1]]])
    with (MkPath 3 2 [[3]; [2]; [0; 1]]) as (q & Hq & Hm).
  - apply (wf_input_checked triangle (unordered 3)). by vm_compute.
  - apply (wf_input_checked [[1]; [0; 2]; [1; 3]; [2]] (unordered 4)). by vm_compute.
  - done.
  - intros w Hw. destruct w as [|[|[|w]]]; [done..|simpl in Hw; lia].
  - intros w x Hw Hx. destruct w as [|[|[|w]]]; [..|simpl in Hw; lia]; simpl in *; rewrite ?elem_of_cons, elem_of_nil in Hx; lia.
  - intros w w' x Hw Hw' H1 H2. destruct w as [|[|[|w]]]; [..|simpl in Hw; lia]; (destruct w' as [|[|[|w']]]; [..|simpl in Hw'; lia]);
      simpl in *; rewrite ?elem_of_cons, elem_of_nil in H1; rewrite ?elem_of_cons, elem_of_nil in H2; lia.
  - intros u v Hv. unfold neighbours in Hv.
    destruct u as [|[|[|u]]]; simpl in Hv; rewrite ?elem_of_cons, ?elem_of_nil in Hv; destruct_or? Hv; try done; subst v; simpl.
    + exists 0, 1. unfold neighbours. simpl. set_solver.
    + exists 3, 2. unfold neighbours. simpl. set_solver.
    + exists 1, 0. unfold neighbours. simpl. set_solver.
    + exists 1, 2. unfold neighbours. simpl. set_solver.
    + exists 2, 3. unfold neighbours. simpl. set_solver.
    + exists 2, 1. unfold neighbours. simpl. set_solver.
  - apply minor_searched. by vm_compute.
  - apply minor_searched. by vm_compute.
  - right; right; left.
  - apply elem_of_list_singleton in Hq as ->. by apply (N.lt_nge 2 3) in Hm.
Qed.
Print Assumptions C91_unconnected_refuted.
