(** * Properties: inputs that are contained in other inputs

    A part of a computation, with other names, fewer edges and fewer dependencies: what
    can be said about its cost if the cost of the whole is known, and the other way
    round. *)
From Verif Require Import MainEmbed Check.
From Verif Require Import EmbedSpec.

(** ** C86: a part never costs more than the whole *)

(** Whatever a run for the whole returns, the search for the part finds something that is
    at least as fast and needs at most as much memory. *)
Theorem C86_search :
  ∀ f adj' g' adj g qs env do_search timeout nthreads bound prob bd fuel ps,
  wf_input adj' g' → wf_input adj g → embeds f adj' g' adj g → (∃ b, listed g' b) →
  searched adj' g' qs → (∀ l, e_hash_order env l ≡ₚ l) →
  run bd fuel env adj g do_search timeout nthreads bound prob = Some (Val ps) →
  ∀ p, p ∈ ps → ∃ q, q ∈ qs ∧ time q ≤ time p ∧ (space q <= space p)%N.
Proof. exact run_embeds. Qed.
Print Assumptions C86_search.

(** Without search the part is at least as fast. *)
Theorem C86_without_search :
  ∀ f adj' g' adj g env' timeout' nthreads' bound' prob' bd' q env do_search timeout nthreads bound prob bd fuel ps,
  wf_input adj' g' → wf_input adj g → embeds f adj' g' adj g →
  returns (λ fuel, run bd' fuel env' adj' g' false timeout' nthreads' bound' prob') [q] →
  (∀ l, e_hash_order env l ≡ₚ l) →
  run bd fuel env adj g do_search timeout nthreads bound prob = Some (Val ps) →
  ∀ p, p ∈ ps → time q ≤ time p.
Proof. exact run_embeds_time. Qed.
Print Assumptions C86_without_search.

(** Qubits 2, 3 and 4 of a line of five qubits, without the dependency of 4 on 3. *)
Definition whole : spacial := [[1]; [0; 2]; [1; 3]; [2; 4]; [3]].
Definition whole_order : order := [[(0, [])]; [(1, [0])]; [(2, [1])]; [(3, [2])]; [(4, [3])]].
Definition piece : spacial := [[1]; [0; 2]; [1]].
Definition piece_order : order := [[(0, [])]; [(1, [0]); (2, [0])]].

Lemma whole_depends b : b < 4 → depends whole_order (S b) b.
Proof.
  intros Hb. destruct b as [|[|[|[|b]]]]; [..|lia].
  - exists [(1, [0])], [0]. repeat constructor.
  - exists [(2, [1])], [1]. repeat constructor.
  - exists [(3, [2])], [2]. repeat constructor.
  - exists [(4, [3])], [3]. repeat constructor.
Qed.

Example piece_embeds : embeds (λ v, v + 2) piece piece_order whole whole_order.
Proof.
  assert (∀ b, listed piece_order b ↔ b < 3) as Hl.
  { intros b. rewrite listed_qubits. unfold qubits. simpl. rewrite !elem_of_cons, elem_of_nil. lia. }
  assert (∀ b, listed whole_order b ↔ b < 5) as Hl'.
  { intros b. rewrite listed_qubits. unfold qubits. simpl. rewrite !elem_of_cons, elem_of_nil. lia. }
  assert (∀ b d, depends piece_order b d → d = 0 ∧ (b = 1 ∨ b = 2)) as Hd.
  { intros b d (l & ds & Hll & Hb & Hd). unfold piece_order in Hll. rewrite !elem_of_cons, elem_of_nil in Hll.
    destruct Hll as [->|[->|[]]]; rewrite ?elem_of_cons, elem_of_nil in Hb; destruct_or? Hb; simplify_eq/=; try done;
      rewrite ?elem_of_cons, elem_of_nil in Hd; destruct_or? Hd; try done; subst d; lia. }
  split; simpl.
  - intros v Hv. lia.
  - intros u v _ _ H. lia.
  - intros u v Hu Hv. apply Hl in Hu. destruct u as [|[|[|u]]]; [..|lia]; unfold neighbours in *; simpl in *;
      rewrite !elem_of_cons, elem_of_nil in *; lia.
  - intros b Hb. apply Hl'. apply Hl in Hb. lia.
  - intros b d H. assert (d = 0 ∧ (b = 1 ∨ b = 2)) as [-> Hb].
    { induction H as [b d H|b c d H _ IH]; [by apply Hd|]. destruct (Hd _ _ H) as [-> ?], IH as [-> [|]]; lia. }
    destruct Hb as [-> | ->]; simpl.
    + apply tc_once, (whole_depends 2). lia.
    + eapply tc_l; [apply (whole_depends 3)|apply tc_once, (whole_depends 2)]; lia.
  - intros u v Hu Hv _. apply Hl in Hu. apply Hl. destruct u as [|[|[|u]]]; [..|lia]; unfold neighbours in *;
      simpl in *; rewrite !elem_of_cons, elem_of_nil in *; lia.
Qed.

Definition embed_env : Env := mkEnv (λ _, []) [] id idle_gen (λ x, x).

Lemma embed_searched adj g ps :
  run Debug 2000 embed_env adj g true None 1 None None = Some (Val ps) → searched adj g ps.
Proof.
  intros E. exists embed_env, None, 1, None, Debug. split; [done|]. split; [done|]. split; [done|].
  eapply finishes_of; [|exact E]. intros fuel fuel' r. apply search_single_mono.
Qed.

Example C86_example :
  wf_input piece piece_order ∧ wf_input whole whole_order ∧ embeds (λ v, v + 2) piece piece_order whole whole_order ∧
  searched piece piece_order [MkPath 2 2 [[0]; [1; 2]]] ∧
  run Debug 2000 embed_env whole whole_order true None 1 None None = Some (Val [MkPath 5 2 [[0]; [1]; [2]; [3]; [4]]]).
Proof.
  split; [by apply wf_input_checked; vm_compute|]. split; [by apply wf_input_checked; vm_compute|].
  split; [exact piece_embeds|]. split; [apply embed_searched|]; by vm_compute.
Qed.

(** The memory of the run without search can be larger for a part: without the qubit
    between them, 0 and 2 are measured at the same time. *)
Theorem C86_memory_without_search_refuted :
  ¬ (∀ f adj' g' adj g env' timeout' nthreads' bound' prob' bd' q env timeout nthreads bound prob bd p,
     wf_input adj' g' → wf_input adj g → embeds f adj' g' adj g →
     returns (λ fuel, run bd' fuel env' adj' g' false timeout' nthreads' bound' prob') [q] →
     returns (λ fuel, run bd fuel env adj g false timeout nthreads bound prob) [p] →
     (space q <= space p)%N).
Proof.
  intros H.
  specialize (H (λ v, 2 * v) [[]; []] [[(0, []); (1, [])]] [[]; []; []] [[(0, [])]; [(1, [0])]; [(2, [1])]]
    embed_env None 1 None None Debug (MkPath 1 2 [[0; 1]]) embed_env None 1 None None Debug (MkPath 3 1 [[0]; [1]; [2]])).
  assert (∀ adj g p, run Debug 2000 embed_env adj g false None 1 None None = Some (Val [p]) →
    returns (λ fuel, run Debug fuel embed_env adj g false None 1 None None) [p]) as Hr.
  { intros adj g p E. eapply finishes_of; [|exact E]. intros fuel fuel' r. apply get_time_optimal_mono. }
  apply (N.lt_nge 1 2); [done|]. apply H; [..|apply Hr; by vm_compute|apply Hr; by vm_compute].
  1-2: apply wf_input_checked; by vm_compute.
  split; simpl.
  - lia.
  - lia.
  - intros u v _ Hv. destruct u as [|[|u]]; by apply elem_of_nil in Hv.
  - intros b Hb. apply listed_qubits in Hb. apply listed_qubits. unfold qubits in *. simpl in *.
    rewrite !elem_of_cons, elem_of_nil in *. lia.
  - intros b d Hl. exfalso. assert (∃ d, depends [[(0, []); (1, [])]] b d) as (d' & l & ds & Hll & Hb & Hd).
    { destruct Hl as [b d H1|b c d H1 _]; by eexists. }
    apply elem_of_list_singleton in Hll as ->. rewrite !elem_of_cons, elem_of_nil in Hb.
    destruct Hb as [[= -> ->]|[[= -> ->]|[]]]; by apply elem_of_nil in Hd.
  - intros u v _ Hv. destruct u as [|[|u]]; by apply elem_of_nil in Hv.
Qed.
Print Assumptions C86_memory_without_search_refuted.

(** It can be worse to measure fewer qubits: the neighbours of those that are measured
    stay in memory.  With all qubits of the line, two are enough; with 1 and 3 only, it
    takes four. *)
Theorem C86_fewer_measurements_refuted :
  ¬ (∀ adj g' g qs ps,
     wf_input adj g' → wf_input adj g → (∃ b, listed g' b) →
     (∀ b, listed g' b → listed g b) → (∀ b d, later g' b d → later g b d) →
     searched adj g' qs → searched adj g ps →
     ∀ p, p ∈ ps → ∃ q, q ∈ qs ∧ (space q <= space p)%N).
Proof.
  intros H. destruct (H whole [[(1, [])]; [(3, [1])]] whole_order [MkPath 2 4 [[1]; [3]]]
    [MkPath 5 2 [[0]; [1]; [2]; [3]; [4]]]) with (MkPath 5 2 [[0]; [1]; [2]; [3]; [4]]) as (q & Hq & Hm).
  - apply wf_input_checked; by vm_compute.
  - apply wf_input_checked; by vm_compute.
  - exists 1. apply listed_qubits. unfold qubits. simpl. left.
  - intros b Hb. apply listed_qubits in Hb. apply listed_qubits. unfold qubits in *. simpl in *.
    rewrite !elem_of_cons, elem_of_nil in *. lia.
  - intros b d Hl. assert (b = 3 ∧ d = 1) as [-> ->].
    { assert (∀ b d, depends [[(1, [])]; [(3, [1])]] b d → b = 3 ∧ d = 1) as Hd.
      { intros b' d' (l & ds & Hll & Hb & Hd). rewrite !elem_of_cons, elem_of_nil in Hll.
        destruct Hll as [->|[->|[]]]; apply elem_of_list_singleton in Hb as [= -> ->];
          [by apply elem_of_nil in Hd|by apply elem_of_list_singleton in Hd as ->]. }
      induction Hl as [b d Hbd|b c d Hbc _ IH]; [by apply Hd|]. destruct (Hd _ _ Hbc), IH. lia. }
    eapply tc_l; [apply (whole_depends 2)|apply tc_once, (whole_depends 1)]; lia.
  - apply embed_searched. by vm_compute.
  - apply embed_searched. by vm_compute.
  - left.
  - apply elem_of_list_singleton in Hq as ->. by apply (N.lt_nge 2 4) in Hm.
Qed.
Print Assumptions C86_fewer_measurements_refuted.
