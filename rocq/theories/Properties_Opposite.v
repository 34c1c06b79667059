(** * Properties: the opposite order

    A dependency graph can be read backwards. *)
From Verif Require Import MainOpposite Check.
From Verif Require Import OrderSpec.

(** ** C88: the opposite order takes the same time, but not the same memory *)

Theorem C88_time :
  ∀ adj adj' g g' env env' timeout timeout' nthreads nthreads' bound bound' prob prob' bd bd' p p',
  wf_input adj g → wf_input adj' g' → opposite_order g g' →
  returns (λ fuel, run bd fuel env adj g false timeout nthreads bound prob) [p] →
  returns (λ fuel, run bd' fuel env' adj' g' false timeout' nthreads' bound' prob') [p'] →
  time p = time p'.
Proof. exact run_opposite_time. Qed.
Print Assumptions C88_time.

Theorem C88_paths :
  ∀ adj g g' env do_search timeout nthreads bound prob bd fuel ps p,
  wf_input adj g → (∀ l, e_hash_order env l ≡ₚ l) → opposite_order g g' →
  run bd fuel env adj g do_search timeout nthreads bound prob = Some (Val ps) → p ∈ ps →
  valid_schedule g' (reverse (steps p)).
Proof. exact run_opposite_valid. Qed.
Print Assumptions C88_paths.

(** A star with the centre 0 and four leaves.  If the centre comes first, all leaves are in
    memory at once; if it comes last, two places are enough. *)
Definition star : spacial := [[1; 2; 3; 4]; [0]; [0]; [0]; [0]].
Definition centre_first : order := [[(0, [])]; [(1, [0])]; [(2, [1]); (3, [1]); (4, [1])]].
Definition centre_last : order := [[(2, []); (3, []); (4, [])]; [(1, [2; 3; 4])]; [(0, [1])]].

Example star_opposite : opposite_order centre_first centre_last.
Proof.
  assert (∀ b d, depends centre_first b d ↔ (b = 1 ∧ d = 0) ∨ (b = 2 ∨ b = 3 ∨ b = 4) ∧ d = 1) as H1.
  { intros b d. split.
    - intros (l & ds & Hl & Hb & Hd). unfold centre_first in Hl. rewrite !elem_of_cons, elem_of_nil in Hl.
      destruct Hl as [->|[->|[->|[]]]]; rewrite !elem_of_cons, elem_of_nil in Hb; destruct_or! Hb; try done; simplify_eq;
        rewrite ?elem_of_cons, ?elem_of_nil in Hd; lia.
    - intros [[-> ->]|[[->|[->| ->]] ->]].
      + exists [(1, [0])], [0]. repeat constructor.
      + exists [(2, [1]); (3, [1]); (4, [1])], [1]. repeat constructor.
      + exists [(2, [1]); (3, [1]); (4, [1])], [1]. repeat constructor.
      + exists [(2, [1]); (3, [1]); (4, [1])], [1]. repeat constructor. }
  assert (∀ b d, depends centre_last b d ↔ depends centre_first d b) as H2.
  { intros b d. rewrite H1. split.
    - intros (l & ds & Hl & Hb & Hd). unfold centre_last in Hl. rewrite !elem_of_cons, elem_of_nil in Hl.
      destruct Hl as [->|[->|[->|[]]]]; rewrite !elem_of_cons, elem_of_nil in Hb; destruct_or! Hb; try done; simplify_eq;
        rewrite ?elem_of_cons, ?elem_of_nil in Hd; lia.
    - intros [[-> ->]|[Hd ->]].
      + exists [(0, [1])], [1]. repeat constructor.
      + exists [(1, [2; 3; 4])], [2; 3; 4]. split; [repeat constructor|]. split; [repeat constructor|].
        rewrite !elem_of_cons. tauto. }
  split.
  - intros b. rewrite !listed_qubits. unfold qubits. simpl. rewrite !elem_of_cons, elem_of_nil. lia.
  - intros b d. unfold later. split.
    + induction 1 as [b d Hd|b c d Hd _ IH]; [by apply tc_once, H2|]. eapply tc_r; [exact IH|]. by apply H2.
    + induction 1 as [d b Hd|d c b Hd _ IH]; [by apply tc_once, H2|]. eapply tc_r; [exact IH|]. by apply H2.
Qed.

Definition star_env : Env := mkEnv (λ _, []) [] id idle_gen (λ x, x).

Example C88_example :
  wf_input star centre_first ∧ wf_input star centre_last ∧ opposite_order centre_first centre_last ∧
  run Debug 2000 star_env star centre_first false None 1 None None = Some (Val [MkPath 3 5 [[0]; [1]; [2; 3; 4]]]) ∧
  run Debug 2000 star_env star centre_last false None 1 None None = Some (Val [MkPath 3 4 [[2; 3; 4]; [1]; [0]]]).
Proof.
  split; [by apply wf_input_checked; vm_compute|]. split; [by apply wf_input_checked; vm_compute|].
  split; [exact star_opposite|]. by vm_compute.
Qed.

Theorem C88_memory_refuted :
  ¬ (∀ adj g g' ps ps' p p',
     wf_input adj g → wf_input adj g' → opposite_order g g' →
     searched adj g ps → searched adj g' ps' → last ps = Some p → last ps' = Some p' → space p = space p').
Proof.
  intros H.
  assert (∀ g ps, run Debug 4000 star_env star g true None 1 None None = Some (Val ps) → searched star g ps) as Hs.
  { intros g ps E. exists star_env, None, 1, None, Debug. split; [done|]. split; [done|]. split; [done|].
    eapply finishes_of; [|exact E]. intros fuel fuel' r. apply search_single_mono. }
  assert (∃ ps p, searched star centre_first ps ∧ last ps = Some p ∧ space p = 5%N) as (ps & p & Hps & Hp & Em).
  { eexists _, _. split; [apply Hs; vm_compute; reflexivity|]. split; [reflexivity|]. reflexivity. }
  assert (∃ ps p, searched star centre_last ps ∧ last ps = Some p ∧ space p = 2%N) as (ps' & p' & Hps' & Hp' & Em').
  { eexists _, _. split; [apply Hs; vm_compute; reflexivity|]. split; [reflexivity|]. reflexivity. }
  specialize (H star centre_first centre_last ps ps' p p'). rewrite Em, Em' in H.
  assert (5 = 2)%N as E; [|discriminate E]. apply H; [..|exact star_opposite|done|done|done|done];
    apply wf_input_checked; by vm_compute.
Qed.
Print Assumptions C88_memory_refuted.
