(** * Properties: trees

    Graph states that are trees, measured from the leaves to the root. *)
From Verif Require Import MainRooted Check.
From Verif Require Import RootedSpec.

(** ** C93: trees need logarithmic memory *)

(** If all trees of the graph have at most [w] qubits and qubits wait at most for qubits
    below them, a search finds a path with at most [log2 w + 1] qubits in memory. *)
Theorem C93_search :
  ∀ ts adj g w ps,
  wf_input adj g → forest_input ts adj g → (∀ t, t ∈ ts → length (members t) ≤ w) → (∃ b, listed g b) →
  searched adj g ps →
  ∃ p, p ∈ ps ∧ time p ≤ length (qubits g) ∧ (space p <= N.of_nat (S (Nat.log2 w)))%N.
Proof. exact run_forest. Qed.
Print Assumptions C93_search.

(** A root with three legs of two qubits. *)
Definition spider : rooted := Rooted 0 [Rooted 1 [Rooted 4 []]; Rooted 2 [Rooted 5 []]; Rooted 3 [Rooted 6 []]].
Definition spider_graph : spacial := [[1; 2; 3]; [0; 4]; [0; 5]; [0; 6]; [1]; [2]; [3]].
Definition spider_order : order := [[(4, []); (5, []); (6, [])]; [(1, [4]); (2, [5]); (3, [6])]; [(0, [1; 2; 3])]].

Lemma spider_listed v : listed spider_order v ↔ v < 7.
Proof. rewrite listed_qubits. unfold qubits. simpl. rewrite !elem_of_cons, elem_of_nil. lia. Qed.

Lemma spider_leg x y : (x, y) ∈ [(1, 4); (2, 5); (3, 6)] → Rooted x [Rooted y []] ∈ [Rooted 1 [Rooted 4 []]; Rooted 2 [Rooted 5 []]; Rooted 3 [Rooted 6 []]].
Proof. rewrite !elem_of_cons, elem_of_nil. naive_solver. Qed.

Lemma spider_edges x y : (x, y) ∈ [(1, 4); (2, 5); (3, 6)] →
  tree_edge spider 0 x ∧ tree_edge spider x 0 ∧ tree_edge spider x y ∧ tree_edge spider y x ∧ beneath spider 0 x ∧ beneath spider x y.
Proof.
  intros H%spider_leg. split; [|split; [|split; [|split; [|split]]]].
  - by apply (te_down 0 _ (Rooted x [Rooted y []])).
  - by apply (te_up 0 _ (Rooted x [Rooted y []])).
  - eapply te_inside; [exact H|]. apply (te_down x _ (Rooted y [])). left.
  - eapply te_inside; [exact H|]. apply (te_up x _ (Rooted y [])). left.
  - eapply bn_top; [exact H|]. left.
  - eapply bn_inside; [exact H|]. eapply bn_top; left.
Qed.

Example spider_input : forest_input [spider] spider_graph spider_order.
Proof.
  destruct (spider_edges 1 4) as (A1 & A2 & A3 & A4 & A5 & A6); [left|].
  destruct (spider_edges 2 5) as (B1 & B2 & B3 & B4 & B5 & B6); [right; left|].
  destruct (spider_edges 3 6) as (C1 & C2 & C3 & C4 & C5 & C6); [right; right; left|].
  split.
  - apply (bool_decide_unpack _). by vm_compute.
  - intros b. rewrite spider_listed. simpl. rewrite !elem_of_cons, elem_of_nil. lia.
  - intros u v _ Hv. right. exists spider. split; [left|]. unfold neighbours in Hv.
    destruct u as [|[|[|[|[|[|[|u]]]]]]]; simpl in Hv; rewrite ?elem_of_cons, ?elem_of_nil in Hv; destruct_or? Hv; try done; by subst v.
  - intros b d (l & ds & Hl & Hb & Hd). exists spider. split; [left|]. unfold spider_order in Hl. rewrite !elem_of_cons, elem_of_nil in Hl.
    destruct Hl as [->|[->|[->|[]]]]; rewrite ?elem_of_cons, elem_of_nil in Hb; destruct_or? Hb; simplify_eq;
      rewrite ?elem_of_cons, elem_of_nil in Hd; destruct_or? Hd; try done; by subst d.
Qed.

Definition rooted_env : Env := mkEnv (λ _, []) [] id idle_gen (λ x, x).

Lemma rooted_searched adj g ps :
  run Debug 4000 rooted_env adj g true None 1 None None = Some (Val ps) → searched adj g ps.
Proof.
  intros E. exists rooted_env, None, 1, None, Debug. split; [done|]. split; [done|]. split; [done|].
  eapply finishes_of; [|exact E]. intros fuel fuel' r. apply search_single_mono.
Qed.

(** Here the bound is sharp: [log2 7 + 1 = 3]. *)
Example C93_example :
  wf_input spider_graph spider_order ∧ forest_input [spider] spider_graph spider_order ∧
  (∀ t, t ∈ [spider] → length (members t) ≤ 7) ∧
  searched spider_graph spider_order
    [MkPath 3 6 [[4; 5; 6]; [1; 2; 3]; [0]]; MkPath 4 4 [[5; 6]; [4]; [2; 3; 1]; [0]];
     MkPath 6 3 [[6]; [5]; [3; 2]; [4]; [1]; [0]]].
Proof.
  split; [by apply wf_input_checked; vm_compute|]. split; [exact spider_input|]. split.
  - intros t ->%elem_of_list_singleton. simpl. lia.
  - apply rooted_searched. by vm_compute.
Qed.

(** If the qubits wait for those above them, the memory can be as large as the tree: a
    star whose centre comes first. *)
Theorem C93_downwards_refuted :
  ¬ (∀ ts adj g w ps,
     wf_input adj g → NoDup (concat (map members ts)) → (∀ b, listed g b ↔ b ∈ concat (map members ts)) →
     (∀ u v, listed g u → v ∈ neighbours adj u → v = u ∨ ∃ t, t ∈ ts ∧ tree_edge t u v) →
     (∀ b d, depends g b d → ∃ t, t ∈ ts ∧ beneath t d b) →
     (∀ t, t ∈ ts → length (members t) ≤ w) → (∃ b, listed g b) → searched adj g ps →
     ∃ p, p ∈ ps ∧ (space p <= N.of_nat (S (Nat.log2 w)))%N).
Proof.
  intros H. set (leaves := [Rooted 1 []; Rooted 2 []; Rooted 3 []; Rooted 4 []]).
  assert (∀ v, listed [[(0, [])]; [(1, [0]); (2, [0]); (3, [0]); (4, [0])]] v ↔ v < 5) as Hl.
  { intros v. rewrite listed_qubits. unfold qubits. simpl. rewrite !elem_of_cons, elem_of_nil. lia. }
  assert (∀ v, 1 ≤ v < 5 → Rooted v [] ∈ leaves) as Hleaf.
  { intros v Hv. unfold leaves. rewrite !elem_of_cons. assert (v = 1 ∨ v = 2 ∨ v = 3 ∨ v = 4) by lia. naive_solver. }
  destruct (H [Rooted 0 leaves] [[1; 2; 3; 4]; [0]; [0]; [0]; [0]] [[(0, [])]; [(1, [0]); (2, [0]); (3, [0]); (4, [0])]] 5
    [MkPath 2 5 [[0]; [1; 2; 3; 4]]]) as (p & Hp & Hm).
  - apply wf_input_checked; by vm_compute.
  - apply (bool_decide_unpack _). by vm_compute.
  - intros b. rewrite Hl. simpl. rewrite !elem_of_cons, elem_of_nil. lia.
  - intros u v _ Hv. right. exists (Rooted 0 leaves). split; [left|]. unfold neighbours in Hv.
    destruct u as [|[|[|[|[|u]]]]]; simpl in Hv; rewrite ?elem_of_cons, ?elem_of_nil in Hv.
    { apply (te_down 0 leaves (Rooted v [])), Hleaf. lia. }
    1-4: destruct Hv as [->|[]].
    + apply (te_up 0 leaves (Rooted 1 [])), Hleaf. lia.
    + apply (te_up 0 leaves (Rooted 2 [])), Hleaf. lia.
    + apply (te_up 0 leaves (Rooted 3 [])), Hleaf. lia.
    + apply (te_up 0 leaves (Rooted 4 [])), Hleaf. lia.
    + done.
  - intros b d (l & ds & Hll & Hb & Hd). exists (Rooted 0 leaves). split; [left|].
    assert (d = 0 ∧ 1 ≤ b < 5) as [-> Hb'].
    { rewrite !elem_of_cons, elem_of_nil in Hll.
      destruct Hll as [->|[->|[]]]; rewrite ?elem_of_cons, elem_of_nil in Hb; destruct_or? Hb; simplify_eq;
        rewrite ?elem_of_cons, elem_of_nil in Hd; destruct_or? Hd; try done; subst d; lia. }
    eapply (bn_top 0 leaves (Rooted b [])); [by apply Hleaf|left].
  - intros t ->%elem_of_list_singleton. simpl. lia.
  - exists 0. apply Hl. lia.
  - apply rooted_searched. by vm_compute.
  - apply elem_of_list_singleton in Hp as ->. vm_compute in Hm. by apply Hm.
Qed.
Print Assumptions C93_downwards_refuted.
