(** * Properties: inputs that differ in a few edges or dependencies

    How sensitive the results are to small changes of the input. *)
From Verif Require Import MainEdges Check.
From Verif Require Import EdgesSpec.

(** ** C87: sensitivity to edges and dependencies *)

(** Every additional edge takes at most one more place in memory, and no time. *)
Theorem C87_edges :
  ∀ es adj adj' g ps ps',
  wf_input adj g → wf_input adj' g → more_edges es adj adj' → (∃ b, listed g b) →
  searched adj g ps → searched adj' g ps' →
  (∀ p, p ∈ ps → ∃ p', p' ∈ ps' ∧ time p' ≤ time p ∧ (space p' <= space p + N.of_nat (length es))%N) ∧
  (∀ p', p' ∈ ps' → ∃ p, p ∈ ps ∧ time p ≤ time p' ∧ (space p <= space p')%N) ∧
  (* the least numbers of steps are the same, the least memories almost *)
  (∀ p p', head ps = Some p → head ps' = Some p' → time p = time p') ∧
  (∀ p p', last ps = Some p → last ps' = Some p' → (space p <= space p' <= space p + N.of_nat (length es))%N).
Proof. exact run_edges. Qed.
Print Assumptions C87_edges.

(** Without search the steps are the same. *)
Theorem C87_edges_without_search :
  ∀ es adj adj' g env env' timeout timeout' nthreads nthreads' bound bound' prob prob' bd bd' p p',
  wf_input adj g → wf_input adj' g → more_edges es adj adj' →
  returns (λ fuel, run bd fuel env adj g false timeout nthreads bound prob) [p] →
  returns (λ fuel, run bd' fuel env' adj' g false timeout' nthreads' bound' prob') [p'] →
  same_schedule (steps p) (steps p') ∧ time p = time p' ∧
  (space p <= space p' <= space p + N.of_nat (length es))%N.
Proof. exact run_edges_time. Qed.
Print Assumptions C87_edges_without_search.

(** One additional dependency at most doubles the least number of steps, and so on. *)
Theorem C87_dependencies :
  ∀ ds adj adj' g g' env env' timeout timeout' nthreads nthreads' bound bound' prob prob' bd bd' p p',
  wf_input adj g → wf_input adj' g' → more_depends ds g g' →
  returns (λ fuel, run bd fuel env adj g false timeout nthreads bound prob) [p] →
  returns (λ fuel, run bd' fuel env' adj' g' false timeout' nthreads' bound' prob') [p'] →
  time p' ≤ S (length ds) * time p.
Proof. exact run_depends_time. Qed.
Print Assumptions C87_dependencies.

Definition edges_env : Env := mkEnv (λ _, []) [] id idle_gen (λ x, x).

Lemma edges_searched adj g ps :
  run Debug 4000 edges_env adj g true None 1 None None = Some (Val ps) → searched adj g ps.
Proof.
  intros E. exists edges_env, None, 1, None, Debug. split; [done|]. split; [done|]. split; [done|].
  eapply finishes_of; [|exact E]. intros fuel fuel' r. apply search_single_mono.
Qed.

Lemma edges_returns adj g p :
  run Debug 4000 edges_env adj g false None 1 None None = Some (Val [p]) →
  returns (λ fuel, run Debug fuel edges_env adj g false None 1 None None) [p].
Proof. intros E. eapply finishes_of; [|exact E]. intros fuel fuel' r. apply get_time_optimal_mono. Qed.

(** A line that is closed to a ring: exactly one more place. *)
Definition open_line : spacial := [[1]; [0; 2]; [1; 3]; [2]].
Definition ring : spacial := [[1; 3]; [0; 2]; [1; 3]; [2; 0]].
Definition ring_order : order := [[(0, []); (3, [])]; [(1, [0])]; [(2, [1])]].

Example C87_edges_example :
  wf_input open_line ring_order ∧ wf_input ring ring_order ∧ more_edges [(0, 3)] open_line ring ∧
  searched open_line ring_order [MkPath 3 2 [[0]; [1]; [3; 2]]] ∧
  searched ring ring_order [MkPath 3 3 [[0]; [3; 1]; [2]]].
Proof.
  split; [by apply wf_input_checked; vm_compute|]. split; [by apply wf_input_checked; vm_compute|].
  split.
  { split; [done|]. intros u v. unfold neighbours, open_line, ring.
    destruct u as [|[|[|[|u]]]]; simpl; rewrite ?elem_of_cons, ?elem_of_nil; naive_solver. }
  split; apply edges_searched; by vm_compute.
Qed.

(** Two chains that are joined. *)
Definition two_chains : order := [[(0, []); (2, [])]; [(1, [0]); (3, [2])]].
Definition joined : order := [[(0, [])]; [(1, [0])]; [(2, [1])]; [(3, [2])]].

Example C87_dependencies_example :
  wf_input open_line two_chains ∧ wf_input open_line joined ∧ more_depends [(2, 1)] two_chains joined ∧
  returns (λ fuel, run Debug fuel edges_env open_line two_chains false None 1 None None) [MkPath 2 4 [[0; 2]; [1; 3]]] ∧
  returns (λ fuel, run Debug fuel edges_env open_line joined false None 1 None None) [MkPath 4 2 [[0]; [1]; [2]; [3]]].
Proof.
  split; [by apply wf_input_checked; vm_compute|]. split; [by apply wf_input_checked; vm_compute|].
  split.
  { split.
    - intros b. rewrite !listed_qubits. unfold qubits. simpl. rewrite !elem_of_cons, elem_of_nil. lia.
    - intros b d (l & ds & Hl & Hb & Hd). unfold joined in Hl. rewrite !elem_of_cons, elem_of_nil in Hl.
      destruct Hl as [->|[->|[->|[->|[]]]]]; apply elem_of_list_singleton in Hb as [= -> ->];
        try by apply elem_of_nil in Hd.
      all: apply elem_of_list_singleton in Hd as ->.
      + left. exists [(1, [0]); (3, [2])], [0]. repeat constructor.
      + right. left.
      + left. exists [(1, [0]); (3, [2])], [2]. repeat constructor. }
  split; apply edges_returns; by vm_compute.
Qed.

(** There is no such bound for the memory: a single dependency can force the search to
    begin with the centre of a star. *)
Definition star_graph : spacial := [[1; 2; 3; 4]; [0]; [0]; [0]; [0]].
Definition star_free : order := [[(0, []); (1, [])]; [(2, [1]); (3, [1]); (4, [1])]].
Definition star_forced : order := [[(0, [])]; [(1, [0])]; [(2, [1]); (3, [1]); (4, [1])]].

Theorem C87_dependencies_memory_refuted :
  ¬ (∀ ds adj g g' ps ps' p p',
     wf_input adj g → wf_input adj g' → more_depends ds g g' →
     searched adj g ps → searched adj g' ps' → last ps = Some p → last ps' = Some p' →
     (space p' <= N.of_nat (S (length ds)) * space p)%N).
Proof.
  intros H.
  assert (∃ ps p, searched star_graph star_free ps ∧ last ps = Some p ∧ space p = 2%N) as (ps & p & Hps & Hp & Em).
  { eexists _, _. split; [apply edges_searched; vm_compute; reflexivity|]. split; [reflexivity|]. reflexivity. }
  assert (∃ ps p, searched star_graph star_forced ps ∧ last ps = Some p ∧ space p = 5%N) as (ps' & p' & Hps' & Hp' & Em').
  { eexists _, _. split; [apply edges_searched; vm_compute; reflexivity|]. split; [reflexivity|]. reflexivity. }
  specialize (H [(1, 0)] star_graph star_free star_forced ps ps' p p'). rewrite Em, Em' in H.
  apply (N.lt_nge 4 5); [done|]. apply H; [by apply wf_input_checked; vm_compute..| |done|done|done|done].
  split.
  - intros b. rewrite !listed_qubits. unfold qubits. simpl. rewrite !elem_of_cons, elem_of_nil. lia.
  - intros b d (l & ds & Hl & Hb & Hd). unfold star_forced in Hl. rewrite !elem_of_cons, elem_of_nil in Hl.
    destruct Hl as [->|[->|[->|[]]]]; rewrite !elem_of_cons, elem_of_nil in Hb; destruct_or! Hb; try done; simplify_eq;
      try by apply elem_of_nil in Hd.
    all: apply elem_of_list_singleton in Hd as ->; try (right; left).
    all: left; exists [(2, [1]); (3, [1]); (4, [1])], [1]; repeat constructor.
Qed.
Print Assumptions C87_dependencies_memory_refuted.
