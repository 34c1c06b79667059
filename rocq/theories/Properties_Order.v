(** * Properties: dependency graphs as partial orders

    The type is called [PartialOrderGraph], but it is a list of layers with lists of
    direct dependencies: the same partial order can be written down in many ways (with
    redundant dependencies, or with a qubit in a later layer than necessary). *)
From Verif Require Import MainOrder MainCircuits Check.
From Verif Require Import OrderSpec.

(** ** C85: only the partial order matters *)

(** An uninterrupted search finds the same costs. *)
Theorem C85_search :
  ∀ adj g g' ps ps', wf_input adj g → wf_input adj g' → same_order g g' → (∃ b, listed g b) →
  searched adj g ps → searched adj g' ps' → costs ps = costs ps'.
Proof. exact run_same_order. Qed.
Print Assumptions C85_search.

(** Without search the steps are the same, too. *)
Theorem C85_without_search :
  ∀ adj g g' env env' timeout timeout' nthreads nthreads' bound bound' prob prob' bd bd' p p',
  wf_input adj g → wf_input adj g' → same_order g g' →
  returns (λ fuel, run bd fuel env adj g false timeout nthreads bound prob) [p] →
  returns (λ fuel, run bd' fuel env' adj g' false timeout' nthreads' bound' prob') [p'] →
  same_schedule (steps p) (steps p') ∧ time p = time p' ∧ space p = space p'.
Proof. exact run_same_order_time. Qed.
Print Assumptions C85_without_search.

(** A stronger order never makes the result better. *)
Theorem C85_stronger :
  ∀ adj g g' ps ps', wf_input adj g → wf_input adj g' → stronger g g' → (∃ b, listed g b) →
  searched adj g ps → searched adj g' ps' →
  ∀ p', p' ∈ ps' → ∃ p, p ∈ ps ∧ time p ≤ time p' ∧ (space p <= space p')%N.
Proof. exact run_stronger. Qed.
Print Assumptions C85_stronger.

(** Every path of every run for a stronger order is one for the weaker order, with
    exact costs. *)
Theorem C85_stronger_paths :
  ∀ adj g g' env do_search timeout nthreads bound prob bd fuel ps,
  wf_input adj g' → (∀ l, e_hash_order env l ≡ₚ l) → stronger g g' →
  run bd fuel env adj g' do_search timeout nthreads bound prob = Some (Val ps) → Forall (path_ok adj g) ps.
Proof. exact run_stronger_valid. Qed.
Print Assumptions C85_stronger_paths.

(** Nothing more can be disregarded: the valid schedules determine the order. *)
Theorem C85_determined :
  ∀ n n' g g', wf_order n g → wf_order n' g' →
  (∀ σ, valid_schedule g σ ↔ valid_schedule g' σ) ↔ same_order g g'.
Proof. exact schedules_same. Qed.
Print Assumptions C85_determined.

Theorem C85_determined_stronger :
  ∀ n n' g g', wf_order n g → wf_order n' g' →
  (∀ σ, valid_schedule g' σ → valid_schedule g σ) ↔ stronger g g'.
Proof. exact schedules_stronger. Qed.
Print Assumptions C85_determined_stronger.

(** For the dependency graphs that the property test takes from its circuits, it does not
    matter which function with the contract of [induced_order::get_order] is used. *)
Theorem C85_get_order :
  ∀ get_order get_order' n st measured,
  orders_corrections get_order → orders_corrections get_order' → causal n st measured →
  same_order (get_order st measured) (get_order' st measured).
Proof.
  intros f f' n st measured Hf Hf' C. destruct (Hf n st measured C) as (_ & H1 & H2).
  destruct (Hf' n st measured C) as (_ & H1' & H2'). split.
  - intros b. by rewrite H1, H1'.
  - intros b d. unfold later. by rewrite H2, H2'.
Qed.
Print Assumptions C85_get_order.

(** Four qubits on a line.  Qubit 2 waits for 1 and 1 for 0; once the dependency of 2 on 0
    is written down, and 3 is put into the last layer. *)
Definition ordered_line : spacial := [[1]; [0; 2]; [1; 3]; [2]].
Definition short_order : order := [[(0, [])]; [(1, [0]); (3, [0])]; [(2, [1])]].
Definition long_order : order := [[(0, [])]; [(1, [0])]; [(2, [1; 0]); (3, [0])]].

Example order_wf : wf_input ordered_line short_order ∧ wf_input ordered_line long_order.
Proof. split; apply wf_input_checked; by vm_compute. Qed.

Example order_same : same_order short_order long_order.
Proof.
  apply same_order_depends.
  - intros b. rewrite !listed_qubits. unfold qubits. simpl. rewrite !elem_of_cons. tauto.
  - intros b d (l & ds & Hl & Hb & Hd). apply tc_once. unfold short_order in Hl.
    rewrite !elem_of_cons, elem_of_nil in Hl. destruct Hl as [->|[->|[->|[]]]];
      rewrite ?elem_of_cons, elem_of_nil in Hb; destruct_or? Hb; simplify_eq/=; try done;
      rewrite ?elem_of_cons, elem_of_nil in Hd; destruct_or? Hd; try done; subst d.
    + exists [(1, [0])], [0]. repeat constructor.
    + exists [(2, [1; 0]); (3, [0])], [0]. repeat constructor.
    + exists [(2, [1; 0]); (3, [0])], [1; 0]. repeat constructor.
  - assert (depends short_order 1 0) as H10 by (exists [(1, [0]); (3, [0])], [0]; repeat constructor).
    assert (depends short_order 3 0) as H30 by (exists [(1, [0]); (3, [0])], [0]; repeat constructor).
    assert (depends short_order 2 1) as H21 by (exists [(2, [1])], [1]; repeat constructor).
    intros b d (l & ds & Hl & Hb & Hd). unfold long_order in Hl.
    rewrite !elem_of_cons, elem_of_nil in Hl. destruct Hl as [->|[->|[->|[]]]];
      rewrite ?elem_of_cons, elem_of_nil in Hb; destruct_or? Hb; simplify_eq/=; try done;
      rewrite ?elem_of_cons, elem_of_nil in Hd; destruct_or? Hd; try done; subst d.
    + by apply tc_once.
    + by apply tc_once.
    + eapply tc_l; [exact H21|by apply tc_once].
    + by apply tc_once.
Qed.

Definition order_env : Env := mkEnv (λ _, []) [] id idle_gen (λ x, x).
Example order_runs :
  run Debug 1000 order_env ordered_line short_order true None 1 None None = Some (Val [MkPath 3 2 [[0]; [1]; [3; 2]]]) ∧
  run Debug 1000 order_env ordered_line long_order true None 1 None None = Some (Val [MkPath 3 2 [[0]; [1]; [3; 2]]]).
Proof. by vm_compute. Qed.

(** A stronger order can be worse: if 3 has to wait for 2 as well. *)
Definition strong_order : order := [[(0, [])]; [(1, [0])]; [(2, [1])]; [(3, [2])]].
Example order_strong :
  run Debug 1000 order_env ordered_line strong_order true None 1 None None = Some (Val [MkPath 4 2 [[0]; [1]; [2]; [3]]]).
Proof. by vm_compute. Qed.
