(** * Properties: numberings, brambles and cluster states

    General bounds of the memory from above and from below, and what they give for the
    typical graphs of measurement based quantum computing: rectangular grids, measured
    column by column. *)
From Verif Require Import MainCluster Check.
From Verif Require Import ClusterSpec.

(** ** C89: bounds by numberings and brambles *)

(** If there is a numbering such that edges lead at most [w] further and no qubit depends
    on one of the same block of [c] numbers, then a search finds a path that measures
    block by block, or a better one. *)
Theorem C89_bandwidth :
  ∀ adj g f w c ps,
  wf_input adj g → (∀ v, v < length adj → listed g v) → 1 ≤ length adj →
  numbering (length adj) f → bandwidth w f adj → 1 ≤ c → (∀ b d, depends g b d → f d / c < f b / c) →
  searched adj g ps →
  ∃ p, p ∈ ps ∧ time p ≤ (length adj + (c - 1)) / c ∧ (space p <= N.of_nat (c + w))%N.
Proof. exact run_bandwidth. Qed.
Print Assumptions C89_bandwidth.

(** A bramble forces every path of every run to have as many qubits in memory at the same
    time as it takes to meet all its sets. *)
Theorem C89_bramble :
  ∀ adj g Bs m env do_search timeout nthreads bound prob bd fuel ps,
  wf_input adj g → bramble adj Bs → bramble_order m Bs → (∀ B v, B ∈ Bs → v ∈ B → listed g v) → (∃ b, listed g b) →
  (∀ l, e_hash_order env l ≡ₚ l) →
  run bd fuel env adj g do_search timeout nthreads bound prob = Some (Val ps) →
  ∀ p, p ∈ ps → (N.of_nat m <= space p)%N.
Proof. exact run_bramble. Qed.
Print Assumptions C89_bramble.

(** A ring of five qubits, without dependencies. *)
Definition five : spacial := [[1; 4]; [0; 2]; [1; 3]; [2; 4]; [3; 0]].
Definition five_order : order := [[(0, []); (1, []); (2, []); (3, []); (4, [])]].
Definition arcs : list (list nat) := [[0; 1]; [2]; [3; 4]].

Lemma five_listed v : v < 5 ↔ listed five_order v.
Proof. rewrite listed_qubits. unfold qubits. simpl. rewrite !elem_of_cons, elem_of_nil. lia. Qed.

Example five_bramble : bramble five arcs.
Proof.
  split.
  - intros B HB. unfold arcs in HB. rewrite !elem_of_cons, elem_of_nil in HB. destruct HB as [->|[->|[->|[]]]]; (split; [|done]).
    + apply (line_connected five (λ t, t) 2). intros t u Ht Hu Htu.
      assert ((t = 0 ∧ u = 1) ∨ (t = 1 ∧ u = 0)) as [[-> ->]|[-> ->]] by lia; unfold neighbours; simpl; set_solver.
    + apply (line_connected five (λ t, t + 2) 1). intros t u Ht Hu Htu. lia.
    + apply (line_connected five (λ t, t + 3) 2). intros t u Ht Hu Htu.
      assert ((t = 0 ∧ u = 1) ∨ (t = 1 ∧ u = 0)) as [[-> ->]|[-> ->]] by lia; unfold neighbours; simpl; set_solver.
  - intros B C HB HC. unfold arcs in HB, HC. rewrite !elem_of_cons, elem_of_nil in HB, HC.
    destruct HB as [->|[->|[->|[]]]], HC as [->|[->|[->|[]]]].
    + exists 0, 0. set_solver.
    + exists 1, 2. unfold neighbours. simpl. set_solver.
    + exists 0, 4. unfold neighbours. simpl. set_solver.
    + exists 2, 1. unfold neighbours. simpl. set_solver.
    + exists 2, 2. set_solver.
    + exists 2, 3. unfold neighbours. simpl. set_solver.
    + exists 4, 0. unfold neighbours. simpl. set_solver.
    + exists 3, 2. unfold neighbours. simpl. set_solver.
    + exists 3, 3. set_solver.
Qed.

Example five_order_three : bramble_order 3 arcs.
Proof.
  intros H Hnd Hhit.
  destruct (Hhit [0; 1]) as (x & Hx & HxH); [set_solver|]. destruct (Hhit [2]) as (y & Hy & HyH); [set_solver|].
  destruct (Hhit [3; 4]) as (z & Hz & HzH); [set_solver|].
  rewrite !elem_of_cons, elem_of_nil in Hx. rewrite !elem_of_cons, elem_of_nil in Hy. rewrite !elem_of_cons, elem_of_nil in Hz.
  apply (submseteq_length [x; y; z]), NoDup_submseteq.
  - apply NoDup_cons. split; [rewrite !elem_of_cons, elem_of_nil; lia|]. apply NoDup_cons.
    split; [rewrite !elem_of_cons, elem_of_nil; lia|]. apply NoDup_singleton.
  - intros v Hv. rewrite !elem_of_cons, elem_of_nil in Hv. destruct Hv as [->|[->|[->|[]]]]; done.
Qed.

(** Numbered in pairs from both ends: 0, 1, 4, 2, 3. *)
Definition folded (v : nat) : nat := match v with 0 => 0 | 1 => 1 | 4 => 2 | 2 => 3 | 3 => 4 | _ => v end.

Example five_numbering : numbering 5 folded ∧ bandwidth 2 folded five.
Proof.
  split; [split|].
  - intros v Hv. destruct v as [|[|[|[|[|v]]]]]; simpl; lia.
  - intros u v Hu Hv E. destruct u as [|[|[|[|[|u]]]]]; [..|lia]; destruct v as [|[|[|[|[|v]]]]]; simpl in E; lia.
  - intros u v Huv. destruct u as [|[|[|[|[|u]]]]]; unfold neighbours in Huv; simpl in Huv;
      rewrite ?elem_of_cons, ?elem_of_nil in Huv; destruct_or? Huv; try done; subst v; simpl; lia.
Qed.

Definition cluster_env : Env := mkEnv (λ _, []) [] id idle_gen (λ x, x).

(** Both bounds together: three places. *)
Example C89_example :
  wf_input five five_order ∧ (∀ v, v < 5 → listed five_order v) ∧
  (∀ b d, depends five_order b d → folded d / 1 < folded b / 1) ∧
  ∃ ps p, run Debug 4000 cluster_env five five_order true None 1 None None = Some (Val ps) ∧ last ps = Some p ∧ space p = 3%N.
Proof.
  split; [by apply wf_input_checked; vm_compute|]. split; [apply five_listed|]. split.
  - intros b d (l & ds & Hl & Hb & Hd). apply elem_of_list_singleton in Hl as ->.
    rewrite !elem_of_cons, elem_of_nil in Hb. destruct_or? Hb; simplify_eq; by apply elem_of_nil in Hd.
  - eexists _, _. split; [vm_compute; reflexivity|]. split; reflexivity.
Qed.

(** ** C90: cluster states *)

(** The trade-off between time and memory, and the exact least memory. *)
Theorem C90_search :
  ∀ a b ps,
  2 ≤ a → 2 ≤ b → (N.of_nat (a * b) < 2 ^ 64 - 1)%N → searched (grid a b) (grid_order a b) ps →
  (* the memory decreases from 2 a to a + 1 if fewer qubits are measured at the same time *)
  (∀ c, 1 ≤ c ≤ a → ∃ p, p ∈ ps ∧ time p ≤ (a * b + (c - 1)) / c ∧ (space p <= N.of_nat (a + c))%N) ∧
  (* the least memory *)
  (∀ p, last ps = Some p → space p = N.of_nat (S (min a b))).
Proof. exact run_grid. Qed.
Print Assumptions C90_search.

(** The path without search, exactly. *)
Theorem C90_without_search :
  ∀ a b env timeout nthreads bound prob bd p,
  1 ≤ a → 2 ≤ b → (N.of_nat (a * b) < 2 ^ 64 - 1)%N →
  returns (λ fuel, run bd fuel env (grid a b) (grid_order a b) false timeout nthreads bound prob) [p] →
  same_schedule (steps p) (map (λ j, seq (j * a) a) (seq 0 b)) ∧ time p = b ∧ space p = N.of_nat (2 * a).
Proof. exact run_grid_time. Qed.
Print Assumptions C90_without_search.

(** With any other dependencies no run needs less memory. *)
Theorem C90_any_order :
  ∀ a b g env do_search timeout nthreads bound prob bd fuel ps,
  2 ≤ a → 2 ≤ b → wf_input (grid a b) g → (∀ v, v < a * b → listed g v) →
  (∀ l, e_hash_order env l ≡ₚ l) →
  run bd fuel env (grid a b) g do_search timeout nthreads bound prob = Some (Val ps) →
  ∀ p, p ∈ ps → (N.of_nat (S (min a b)) <= space p)%N.
Proof. exact run_grid_lower. Qed.
Print Assumptions C90_any_order.

Example C90_example :
  wf_input (grid 2 3) (grid_order 2 3) ∧
  run Debug 4000 cluster_env (grid 2 3) (grid_order 2 3) true None 1 None None =
    Some (Val [MkPath 3 4 [[0; 1]; [2; 3]; [4; 5]]; MkPath 5 3 [[1]; [0]; [2]; [3; 4]; [5]]]).
Proof.
  split; [apply grid_wf; [lia|lia|done]|]. by vm_compute.
Qed.
