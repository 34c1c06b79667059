(** * Properties: related inputs, and the search against the full enumeration

    [renamed], [relaxed], [sequential], [costs] and [selected] are defined in
    [Spec.v], [get_all_paths] in [Sweeping.v], [within] in [MainInterface.v]. *)
From Verif Require Import MainMetamorphic.
From Verif Require Import Check.

(** ** C50: the search selects from the sweep *)

Theorem C50_selects :
  ∀ adj g env timeout nthreads bound, wf_input adj g → (∀ l, e_hash_order env l ≡ₚ l) → nthreads ≤ 1 →
  ∃ t all seen rest ps,
    from_dependency_graph g (dependency_buffer_new (length adj)) None = Val t ∧
    (* all schedules in the order in which a sweep finds them *)
    (∀ bd, returns (λ fuel, get_all_paths (H := scheduler_focus_iterator bd) fuel []
                              (mkScheduler t (graph_new adj))) all) ∧
    (∀ bd, returns (λ fuel, run bd fuel env adj g true timeout nthreads bound None) ps) ∧
    (* the search gets to a certain point of the sweep, without an interruption to its end *)
    all = seen ++ rest ∧ (within timeout (e_clock env) → rest = []) ∧
    (* and returns exactly what a look at all these schedules selects *)
    ∀ p, p ∈ ps ↔ selected seen p.
Proof. exact run_selects. Qed.
Print Assumptions C50_selects.

(** Two schedules need four steps and memory 2; the first one in the order of the
    sweep is returned. *)
Definition example_env : Env :=
  mkEnv (λ _, [TStep 0; Tick; TStep 0; TStep 0]) [] (@rev _) idle_gen (λ x, x).

Example C50_example :
  (let* t := from_dependency_graph pairs_order (dependency_buffer_new 4) None in
   let* ps := default Panic (get_all_paths (H := scheduler_focus_iterator Release) 100 []
     (mkScheduler t (graph_new pairs))) in Val (filter (λ e, e.2 = 2%N) ps))
  = Val [([[1]; [3]; [0]; [2]], 2%N); ([[0]; [2]; [1]; [3]], 2%N)] ∧
  run Debug 1000 example_env pairs pairs_order true None 1 None None
  = Some (Val [MkPath 2 4 [[0; 1]; [2; 3]]; MkPath 3 3 [[1]; [0; 3]; [2]]; MkPath 4 2 [[1]; [3]; [0]; [2]]]) ∧
  (∀ l, e_hash_order example_env l ≡ₚ l) ∧
  selected [([[0; 1]; [2; 3]], 4%N); ([[1]; [3]; [0]; [2]], 2%N); ([[0]; [2]; [1]; [3]], 2%N)]
    (MkPath 4 2 [[1]; [3]; [0]; [2]]).
Proof.
  split; [by vm_compute|]. split; [by vm_compute|]. split; [intros l; symmetry; apply Permutation_rev|].
  split; [done|]. eexists [_], [_]. split; [done|]. simpl.
  split; [|split]; intros τ m [= -> ->]%elem_of_list_singleton; simpl; lia.
Qed.

(** ** C51: the names of the qubits do not matter *)

Theorem C51_renamed :
  ∀ f b adj g adj' g' env env' timeout timeout' nthreads nthreads' bound bound' bd bd' ps ps',
  wf_input adj g → wf_input adj' g' →
  (∀ l, e_hash_order env l ≡ₚ l) → (∀ l, e_hash_order env' l ≡ₚ l) →
  nthreads ≤ 1 → nthreads' ≤ 1 → within timeout (e_clock env) → within timeout' (e_clock env') →
  renamed f b adj g adj' g' →
  returns (λ fuel, run bd fuel env adj g true timeout nthreads bound None) ps →
  returns (λ fuel, run bd' fuel env' adj' g' true timeout' nthreads' bound' None) ps' →
  costs ps = costs ps'.
Proof. exact run_renamed. Qed.
Print Assumptions C51_renamed.

Theorem C51_renamed_time :
  ∀ f b adj g adj' g' env env' timeout timeout' nthreads nthreads' bound bound' prob prob' bd bd' p p',
  wf_input adj g → wf_input adj' g' → renamed f b adj g adj' g' →
  returns (λ fuel, run bd fuel env adj g false timeout nthreads bound prob) [p] →
  returns (λ fuel, run bd' fuel env' adj' g' false timeout' nthreads' bound' prob') [p'] →
  same_schedule (map (map f) (steps p)) (steps p') ∧ time p = time p' ∧ space p = space p'.
Proof. exact run_renamed_time. Qed.
Print Assumptions C51_renamed_time.

(** The qubits in reverse order, with a repeated neighbour, a loop, and the
    entries of the layers in another order. *)
Definition reversed_pairs : spacial := [[2]; [3; 3; 1]; [0]; [1]].
Definition reversed_order : order := [[(2, []); (3, [])]; [(1, [3]); (0, [2])]].

Lemma reversed_wf : wf_input reversed_pairs reversed_order.
Proof. apply wf_input_checked. by vm_compute. Qed.

Example C51_example :
  renamed (λ v, 3 - v) (λ v, 3 - v) pairs pairs_order reversed_pairs reversed_order ∧
  run Debug 1000 example_env reversed_pairs reversed_order true None 1 None None
  = Some (Val [MkPath 2 4 [[2; 3]; [0; 1]]; MkPath 3 3 [[3]; [2; 1]; [0]]; MkPath 4 2 [[3]; [1]; [2]; [0]]]) ∧
  run Debug 1000 example_env pairs pairs_order false None 1 None None
  = Some (Val [MkPath 2 4 [[0; 1]; [2; 3]]]) ∧
  run Debug 1000 example_env reversed_pairs reversed_order false None 1 None None
  = Some (Val [MkPath 2 4 [[2; 3]; [0; 1]]]).
Proof.
  split; [|by vm_compute]. split.
  - done.
  - intros [|[|[|[|v]]]]; simpl; lia.
  - intros [|[|[|[|v]]]]; simpl; lia.
  - intros [|[|[|[|u]]]] [|[|[|[|v]]]] Hu Hv Hne; simpl in Hu, Hv; try lia; try done;
      unfold neighbours; simpl; rewrite !elem_of_cons, !elem_of_nil; lia.
  - intros [|[|[|[|v]]]] Hv; simpl in Hv; try lia; rewrite !listed_qubits;
      unfold qubits; simpl; rewrite !elem_of_cons, !elem_of_nil; lia.
  - intros [|[|[|[|u]]]] [|[|[|[|v]]]] Hu Hv; simpl in Hu, Hv; try lia;
      rewrite (depends_deps_of 4 pairs_order (proj2 pairs_wf)), (depends_deps_of 4 reversed_order (proj2 reversed_wf));
      unfold deps_of; simpl; rewrite ?elem_of_cons, ?elem_of_nil; lia.
Qed.

(** ** C52: removing edges or dependencies never makes the result worse *)

Theorem C52_relaxed :
  ∀ adj g adj' g' env env' timeout timeout' nthreads nthreads' bound bound' bd bd' ps ps',
  wf_input adj g → wf_input adj' g' →
  (∀ l, e_hash_order env l ≡ₚ l) → (∀ l, e_hash_order env' l ≡ₚ l) →
  nthreads ≤ 1 → nthreads' ≤ 1 → within timeout (e_clock env) → within timeout' (e_clock env') →
  relaxed adj g adj' g' →
  returns (λ fuel, run bd fuel env adj g true timeout nthreads bound None) ps →
  returns (λ fuel, run bd' fuel env' adj' g' true timeout' nthreads' bound' None) ps' →
  ∀ p, p ∈ ps → ∃ p', p' ∈ ps' ∧ time p' ≤ time p ∧ (space p' <= space p)%N.
Proof. exact run_relaxed. Qed.
Print Assumptions C52_relaxed.

Theorem C52_relaxed_time :
  ∀ adj g adj' g' env env' timeout timeout' nthreads nthreads' bound bound' prob prob' bd bd' p p',
  wf_input adj g → wf_input adj' g' → relaxed adj g adj' g' →
  returns (λ fuel, run bd fuel env adj g false timeout nthreads bound prob) [p] →
  returns (λ fuel, run bd' fuel env' adj' g' false timeout' nthreads' bound' prob') [p'] →
  time p' ≤ time p.
Proof. exact run_relaxed_time. Qed.
Print Assumptions C52_relaxed_time.

(** The square without the edge between 0 and 1 and with 2 in the first layer. *)
Definition relaxed_square : spacial := [[2]; [3]; [0; 3]; [1; 2]].
Definition relaxed_order : order := [[(0, []); (2, [])]; [(3, [0]); (1, [0])]].

Lemma relaxed_wf : wf_input relaxed_square relaxed_order.
Proof. apply wf_input_checked. by vm_compute. Qed.

Example C52_example :
  relaxed square square_order relaxed_square relaxed_order ∧
  run Debug 1000 example_env square square_order true None 1 None None
  = Some (Val [MkPath 3 3 [[0]; [3; 1]; [2]]]) ∧
  run Debug 1000 example_env relaxed_square relaxed_order true None 1 None None
  = Some (Val [MkPath 2 3 [[0; 2]; [3; 1]]; MkPath 3 2 [[0]; [2]; [3; 1]]]).
Proof.
  split; [|by vm_compute]. split.
  - done.
  - intros [|[|[|[|u]]]] v; unfold neighbours; simpl; rewrite ?elem_of_cons, ?elem_of_nil; tauto.
  - intros v. rewrite !listed_qubits. unfold qubits. simpl. rewrite !elem_of_cons. tauto.
  - intros u v. rewrite (depends_deps_of 4 square_order (proj2 square_wf)), (depends_deps_of 4 relaxed_order (proj2 relaxed_wf)).
    destruct u as [|[|[|[|u]]]]; unfold deps_of; simpl; rewrite ?elem_of_cons, ?elem_of_nil; tauto.
Qed.

(** ** C53: measuring one qubit at a time needs the least memory *)

Theorem C53_sequential :
  ∀ adj g env timeout nthreads bound bd ps,
  wf_input adj g → (∀ l, e_hash_order env l ≡ₚ l) → (∃ b, listed g b) →
  nthreads ≤ 1 → within timeout (e_clock env) →
  returns (λ fuel, run bd fuel env adj g true timeout nthreads bound None) ps →
  ∃ p, last ps = Some p ∧
    (∃ σ, valid_schedule g σ ∧ sequential σ ∧ space p = N.of_nat (space_cost adj σ)) ∧
    ∀ σ, valid_schedule g σ → sequential σ → (space p <= N.of_nat (space_cost adj σ))%N.
Proof. exact run_sequential. Qed.
Print Assumptions C53_sequential.

Example C53_example :
  valid_schedule square_order [[0]; [3]; [1]; [2]] ∧ sequential [[0]; [3]; [1]; [2]] ∧
  space_cost square [[0]; [3]; [1]; [2]] = 3.
Proof.
  split; [apply valid_checked; by vm_compute|]. split; [|by vm_compute].
  intros S. rewrite !elem_of_cons. intros [->|[->|[->|[->|H]]]]; [done..|by apply elem_of_nil in H].
Qed.

(** ** C54: the number of paths and their costs are bounded by the number of qubits *)

Theorem C54_bounds :
  ∀ adj g env do_search timeout nthreads bound prob bd fuel ps,
  wf_input adj g → (∀ l, e_hash_order env l ≡ₚ l) → (∃ b, listed g b) →
  run bd fuel env adj g do_search timeout nthreads bound prob = Some (Val ps) →
  length ps ≤ length (qubits g) ∧
  ∀ p, p ∈ ps → 1 ≤ time p ≤ length (qubits g) ∧ (1 <= space p <= N.of_nat (length adj))%N.
Proof. exact run_bounds. Qed.
Print Assumptions C54_bounds.

(** Three qubits in a line of dependencies with one isolated node: the only path has the most steps. *)
Example C54_example :
  wf_input [[1]; [0; 2]; [1]; []] [[(0, [])]; [(1, [0])]; [(2, [1])]] ∧
  run Release 100 example_env [[1]; [0; 2]; [1]; []] [[(0, [])]; [(1, [0])]; [(2, [1])]] true None 1 None None
  = Some (Val [MkPath 3 2 [[0]; [1]; [2]]]) ∧
  listed [[(0, [])]; [(1, [0])]; [(2, [1])]] 0.
Proof.
  split; [apply wf_input_checked; by vm_compute|]. split; [by vm_compute|].
  apply listed_qubits. apply elem_of_list_here.
Qed.

(** ** C55: without search every qubit is measured as early as possible *)

Theorem C55_earliest :
  ∀ adj g env timeout nthreads bound prob bd p, wf_input adj g →
  returns (λ fuel, run bd fuel env adj g false timeout nthreads bound prob) [p] →
  ∀ k S b, steps p !! k = Some S → b ∈ S →
  (* after a chain of [k] dependencies *)
  (∃ l, length l = k ∧ chained g (l ++ [b]) ∧ ∀ c, c ∈ l → listed g c) ∧
  (* no legal schedule measures the qubit earlier *)
  ∀ σ j S', legal_prefix g σ → σ !! j = Some S' → b ∈ S' → k ≤ j.
Proof. exact run_earliest. Qed.
Print Assumptions C55_earliest.

Example C55_example :
  run Release 100 example_env square square_order false None 1 None None
  = Some (Val [MkPath 3 3 [[0]; [3; 1]; [2]]]) ∧ chained square_order ([0; 3] ++ [2]).
Proof.
  split; [by vm_compute|]. split; [|split; [|done]].
  - exists [(3, [0]); (1, [0])], [0]. by rewrite !elem_of_list_In; simpl; tauto.
  - exists [(2, [3])], [3]. by rewrite !elem_of_list_In; simpl; tauto.
Qed.
