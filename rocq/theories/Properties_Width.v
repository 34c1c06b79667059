(** * Properties: path decompositions

    What the least memory of an input means, in terms of graph theory only. *)
From Verif Require Import MainWidth Check.
From Verif Require Import WidthSpec.

(** ** C79: schedules and path decompositions *)

(** There is a path with at most [t] steps and at most [w] qubits in memory if and only
    if there is a decomposition with at most [t] bags of at most [w] nodes. *)
Theorem C79_decompositions :
  ∀ adj g ps, wf_input adj g → undirected adj → (∃ b, listed g b) → searched adj g ps →
  ∀ t w, (∃ p, p ∈ ps ∧ time p ≤ t ∧ (space p <= N.of_nat w)%N) ↔
         (∃ bags, decomposition adj g bags ∧ length bags ≤ t ∧ bags_within w bags).
Proof. exact run_decompositions. Qed.
Print Assumptions C79_decompositions.

(** Without dependencies, the least memory is the pathwidth of the graph plus one. *)
Theorem C79_pathwidth :
  ∀ adj g ps p, wf_input adj g → undirected adj → (∃ v, v < length adj) →
  (∀ v, v < length adj → listed g v) → (∀ b d, ¬ depends g b d) →
  searched adj g ps → last ps = Some p →
  (∃ bags, path_decomposition adj bags ∧ bags_within (N.to_nat (space p)) bags) ∧
  (∀ bags w, path_decomposition adj bags → bags_within w bags → (space p <= N.of_nat w)%N).
Proof. exact run_pathwidth. Qed.
Print Assumptions C79_pathwidth.

(** Also interrupted, randomized and multi threaded runs are not better. *)
Theorem C79_all_runs :
  ∀ adj g env do_search timeout nthreads bound prob bd fuel ps p,
  wf_input adj g → (∀ l, e_hash_order env l ≡ₚ l) → undirected adj →
  run bd fuel env adj g do_search timeout nthreads bound prob = Some (Val ps) → p ∈ ps →
  ∃ bags, decomposition adj g bags ∧ length bags = time p ∧ bags_within (N.to_nat (space p)) bags.
Proof. exact run_width. Qed.
Print Assumptions C79_all_runs.

(** For example [n] nodes in a line without dependencies: two qubits in memory suffice,
    however long the line is. *)
Theorem C79_line :
  ∀ n ps p, 2 ≤ n → (N.of_nat n < 2 ^ 64 - 1)%N →
  searched (line n) (line_order n) ps → last ps = Some p → space p = 2%N.
Proof. exact run_line. Qed.
Print Assumptions C79_line.

(** Four nodes in a circle, and one more that is never measured, beside node 0; qubit 2
    depends on qubit 0: the bags of the path with the least memory. *)
Definition circle : spacial := [[1; 3; 4]; [0; 2]; [1; 3]; [2; 0]; [0]].
Definition circle_order : order := [[(0, []); (1, []); (3, [])]; [(2, [0])]].

Definition width_env : Env := mkEnv (λ _, []) [] id idle_gen (λ x, x).

Lemma circle_undirected : undirected circle.
Proof.
  intros u v Hv. do 5 (destruct u as [|u]; [unfold neighbours in *; simpl in *;
    repeat (apply elem_of_cons in Hv as [->|Hv]; [simpl; by apply (bool_decide_unpack _)|]); by apply elem_of_nil in Hv|]).
  unfold neighbours in Hv. rewrite lookup_ge_None_2 in Hv by (simpl; lia). by apply elem_of_nil in Hv.
Qed.

Example C79_example :
  wf_input circle circle_order ∧ undirected circle ∧
  searched circle circle_order
    [MkPath 2 4 [[0]; [1; 3; 2]]; MkPath 4 3 [[3]; [1]; [0]; [2]]] ∧
  decomposition circle circle_order [[0; 2; 3]; [0; 1; 2]; [0; 2; 4]; [2; 4]] ∧
  bags_within 3 [[0; 2; 3]; [0; 1; 2]; [0; 2; 4]; [2; 4]].
Proof.
  assert (wf_input circle circle_order) as Hwf by (by apply wf_input_checked; vm_compute).
  split; [done|]. split; [exact circle_undirected|]. split; [|split].
  - exists width_env, None, 1, None, Debug. split; [done|]. split; [done|]. split; [done|].
    assert (run Debug 1000 width_env circle circle_order true None 1 None None
            = Some (Val [MkPath 2 4 [[0]; [1; 3; 2]]; MkPath 4 3 [[3]; [1]; [0]; [2]]])) as E by by vm_compute.
    eapply finishes_of; [|exact E]. intros fuel fuel' r. apply search_single_mono.
  - assert ([[0; 2; 3]; [0; 1; 2]; [0; 2; 4]; [2; 4]] = bags_of circle [[3]; [1]; [0]; [2]]) as -> by by vm_compute.
    apply bags_of_decomposition; [done|exact circle_undirected|]. apply valid_checked. by vm_compute.
  - intros B HB. repeat (apply elem_of_cons in HB as [->|HB]; [simpl; lia|]). by apply elem_of_nil in HB.
Qed.

(** In a graph with directed edges (which [run] accepts, too) the schedule cannot always
    be turned into a decomposition: *)
Definition directed : spacial := [[1]; []].
Definition directed_order : order := [[(0, []); (1, [])]].

Theorem C79_directed_refuted :
  ¬ (∀ adj g ps p, wf_input adj g → (∃ b, listed g b) → searched adj g ps → p ∈ ps →
     ∃ bags, decomposition adj g bags ∧ bags_within (N.to_nat (space p)) bags).
Proof.
  intros H.
  assert (run Debug 1000 width_env directed directed_order true None 1 None None
          = Some (Val [MkPath 1 2 [[0; 1]]; MkPath 2 1 [[1]; [0]]])) as E by by vm_compute.
  destruct (H directed directed_order [MkPath 1 2 [[0; 1]]; MkPath 2 1 [[1]; [0]]] (MkPath 2 1 [[1]; [0]]))
    as (bags & Hd & Hw).
  - by apply wf_input_checked; vm_compute.
  - exists 0, [(0, []); (1, [])], []. split; left.
  - exists width_env, None, 1, None, Debug. split; [done|]. split; [done|]. split; [done|].
    eapply finishes_of; [|exact E]. intros fuel fuel' r. apply search_single_mono.
  - right. left.
  - destruct (dc_edges _ _ _ Hd 0 1) as (B & HB & H0 & H1).
    + exists [(0, []); (1, [])], []. split; left.
    + unfold neighbours. simpl. left.
    + specialize (Hw B HB). simpl in Hw. change (Pos.to_nat 1) with 1 in Hw.
      destruct B as [|x [|y B]]; [by apply elem_of_nil in H0| |simpl in Hw; lia].
      apply elem_of_list_singleton in H0 as <-. by apply elem_of_list_singleton in H1.
Qed.
Print Assumptions C79_directed_refuted.
