(** * Properties: spacial graphs with neighbours that are not nodes

    Such a graph is what an edge with a misspelled node gives; nothing checks it
    when the graph is read. *)
From Verif Require Import MainDangling Check.

(** ** C75: neighbours that are not nodes *)

(** No returned path measures a qubit with a neighbour that is not a node,
    whatever the graphs, the build, the mode, the timeout and the threads. *)
Theorem C75_never :
  ∀ bd adj g fuel env do_search timeout nthreads bound prob ps p b,
  (∀ l, e_hash_order env l ≡ₚ l) →
  run bd fuel env adj g do_search timeout nthreads bound prob = Some (Val ps) →
  p ∈ ps → b ∈ concat (steps p) → ¬ dangling adj b.
Proof. exact dangling_never. Qed.
Print Assumptions C75_never.

(** What is returned is what would be returned if these neighbours were deleted
    from the graph. *)
Theorem C75_value :
  ∀ bd adj g fuel env do_search timeout nthreads bound prob ps,
  run bd fuel env adj g do_search timeout nthreads bound prob = Some (Val ps) →
  run bd fuel env (without_dangling adj) g do_search timeout nthreads bound prob = Some (Val ps).
Proof. exact dangling_value. Qed.
Print Assumptions C75_value.

(** If the dependency graph does not list qubits with such neighbours, they make
    no difference at all (the results above for well-formed graphs apply). *)
Theorem C75_unlisted :
  ∀ bd adj g fuel env do_search timeout nthreads bound prob,
  (∀ b, listed g b → ¬ dangling adj b) →
  run bd fuel env adj g do_search timeout nthreads bound prob =
  run bd fuel env (without_dangling adj) g do_search timeout nthreads bound prob.
Proof. exact dangling_unlisted. Qed.
Print Assumptions C75_unlisted.

(** If it lists one of them, without search there is a panic, in both builds. *)
Theorem C75_time_optimal :
  ∀ bd adj g env timeout nthreads bound prob b,
  wf_order (length adj) g → (N.of_nat (length adj) < 2 ^ 64 - 1)%N → listed g b → dangling adj b →
  finishes (λ fuel, run bd fuel env adj g false timeout nthreads bound prob) Panic.
Proof. exact dangling_time_optimal. Qed.
Print Assumptions C75_time_optimal.

(** Every search then returns no path or panics ... *)
Theorem C75_nothing :
  ∀ bd adj g fuel env do_search timeout nthreads bound prob ps b,
  wf_order (length adj) g → (N.of_nat (length adj) < 2 ^ 64 - 1)%N → (∀ l, e_hash_order env l ≡ₚ l) →
  listed g b → dangling adj b →
  run bd fuel env adj g do_search timeout nthreads bound prob = Some (Val ps) → ps = [].
Proof. exact dangling_nothing. Qed.
Print Assumptions C75_nothing.

(** ... and a search that is not interrupted panics. *)
Theorem C75_search :
  ∀ bd adj g env timeout nthreads bound b,
  wf_order (length adj) g → (N.of_nat (length adj) < 2 ^ 64 - 1)%N → (∀ l, e_hash_order env l ≡ₚ l) →
  listed g b → dangling adj b → nthreads ≤ 1 → within timeout (e_clock env) →
  finishes (λ fuel, run bd fuel env adj g true timeout nthreads bound None) Panic.
Proof. exact dangling_search. Qed.
Print Assumptions C75_search.

Theorem C75_threaded :
  ∀ bd adj g env timeout nthreads bound fuel o b,
  wf_order (length adj) g → (N.of_nat (length adj) < 2 ^ 64 - 1)%N → (∀ l, e_hash_order env l ≡ₚ l) →
  listed g b → dangling adj b → 2 ≤ nthreads →
  (timeout = None ∨ ∃ d, timeout = Some d ∧ total_ticks (e_events env) ≤ d) →
  run bd fuel env adj g true timeout nthreads bound None = Some o → o = Panic.
Proof. exact dangling_threaded. Qed.
Print Assumptions C75_threaded.

(** Node 1 has the neighbour 7; so has node 2, which is not to be measured. *)
Definition loose : spacial := [[1]; [0; 7]; [0; 7]; [0]].
Definition loose_order : order := [[(0, [])]; [(3, [0])]; [(1, [3])]].

Definition ticking : Env :=
  mkEnv (λ _, [TStep 0; Tick; TStep 0; TStep 0]) [] id (mkGenerators (λ _ _, f64_one) (λ _ _, 0%N) (λ _, f64_one) (λ _, 0%N)) (λ x, x).

Example C75_example :
  wf_order (length loose) loose_order ∧ (N.of_nat (length loose) < 2 ^ 64 - 1)%N ∧
  (∀ l, e_hash_order ticking l ≡ₚ l) ∧ listed loose_order 1 ∧ dangling loose 1 ∧
  within None (e_clock ticking) ∧
  run Debug 100 ticking loose loose_order false None 1 None None = Some Panic ∧
  run Release 100 ticking loose loose_order true None 1 None None = Some Panic ∧
  (* interrupted before the third step *)
  run Debug 100 ticking loose loose_order true (Some 1) 1 None None = Some (Val []).
Proof.
  split; [by apply wf_order_checked|]. split; [done|]. split; [done|].
  split; [exists [(1, [3])], [3]; split; [right; right; left|left]|].
  split; [exists 7; split; [right; left|simpl; lia]|].
  split; [done|]. repeat split; by vm_compute.
Qed.

(** Only node 2 has such a neighbour. *)
Definition loose_end : spacial := [[1]; [0]; [0; 7]; [0]].

Example C75_unlisted_example :
  (∀ b, listed loose_order b → ¬ dangling loose_end b) ∧ dangling loose_end 2 ∧
  without_dangling loose_end = [[1]; [0]; [0]; [0]] ∧
  run Debug 100 ticking loose_end loose_order false None 1 None None = Some (Val [MkPath 3 2 [[0]; [3]; [1]]]) ∧
  run Debug 100 ticking loose_end loose_order true None 1 None None = Some (Val [MkPath 3 2 [[0]; [3]; [1]]]).
Proof.
  split.
  { intros b (layer & ds & Hl & Hb) (v & Hv & Hle).
    unfold loose_order in Hl. rewrite !elem_of_cons, elem_of_nil in Hl.
    destruct Hl as [-> |[-> |[-> |[]]]]; apply elem_of_list_singleton in Hb; injection Hb as -> _;
      unfold neighbours in Hv; simpl in Hv, Hle; apply elem_of_list_singleton in Hv; lia. }
  split; [exists 7; split; [right; left|simpl; lia]|].
  split; [done|]. split; by vm_compute.
Qed.

(** Two threads: the tasks start and the one that meets node 1 panics. *)
Example C75_threaded_example :
  let env := mkEnv (λ _, []) [inr (EStart 0); inr (EIter 0 false); inr (EIter 0 false)] id
    (mkGenerators (λ _ _, f64_one) (λ _ _, 0%N) (λ _, f64_one) (λ _, 0%N)) (λ x, x) in
  run Release 100 env loose loose_order true None 2 (Some 1%N) None = Some Panic.
Proof. by vm_compute. Qed.

(** "A listed qubit with such a neighbour is noticed" is false for searches with a
    timeout: an empty list of paths is returned. *)
Theorem C75_noticed_refuted :
  ¬ (∀ adj g env timeout bd fuel o b,
     wf_order (length adj) g → (∀ l, e_hash_order env l ≡ₚ l) → listed g b → dangling adj b →
     run bd fuel env adj g true timeout 1 None None = Some o → o = Panic).
Proof.
  intros H. destruct C75_example as (H1 & _ & H3 & H4 & H5 & _ & _ & _ & H6).
  by specialize (H loose loose_order ticking (Some 1) Debug 100 _ 1 H1 H3 H4 H5 H6).
Qed.
Print Assumptions C75_noticed_refuted.
