(** * Properties: dependency graphs of any shape

    Neither distinct qubits nor sensible dependencies are assumed here. *)
From Verif Require Import MainChecked BuildsFacts Measured.

(** ** C74: what the debug build checks and the release build skips *)

(** In debug builds every returned path measures nodes only, each at most once,
    and its reported costs are exact, for every dependency graph, mode, timeout,
    number of threads and interleaving. *)
Theorem C74_checked :
  ∀ adj g fuel env do_search timeout nthreads bound prob ps, wf_spacial adj →
  (∀ l, e_hash_order env l ≡ₚ l) →
  run Debug fuel env adj g do_search timeout nthreads bound prob = Some (Val ps) →
  Forall (measured_once adj) ps ∧ tradeoff ps.
Proof. exact checked_run. Qed.
Print Assumptions C74_checked.

(** What a debug build returns is what a release build returns, for every pair of
    graphs: release builds only differ where debug builds panic. *)
Theorem C74_builds :
  ∀ fuel env adj g do_search timeout nthreads bound prob ps,
  run Debug fuel env adj g do_search timeout nthreads bound prob = Some (Val ps) →
  run Release fuel env adj g do_search timeout nthreads bound prob = Some (Val ps).
Proof. exact builds_agree. Qed.
Print Assumptions C74_builds.

(** A qubit that is not a node panics in both builds. *)
Theorem C74_out_of_range :
  ∀ bd adj g env do_search timeout nthreads bound prob b, listed g b → length adj ≤ b →
  finishes (λ fuel, run bd fuel env adj g do_search timeout nthreads bound prob) Panic.
Proof. exact checked_out_of_range. Qed.
Print Assumptions C74_out_of_range.

(** A qubit that occurs twice in the first layer panics in debug builds. *)
Theorem C74_repeated :
  ∀ adj g env timeout nthreads bound prob, wf_spacial adj →
  ¬ NoDup (map fst (default [] (head g))) →
  finishes (λ fuel, run Debug fuel env adj g false timeout nthreads bound prob) Panic.
Proof. exact checked_repeated. Qed.
Print Assumptions C74_repeated.

(** A world for the examples. *)
Definition plain_env : Env :=
  mkEnv (λ _, []) [] id (mkGenerators (λ _ _, f64_one) (λ _ _, 0%N) (λ _, f64_one) (λ _, 0%N)) (λ x, x).

(** A repeated qubit after the first layer overwrites the dependents of the first
    occurrence: qubit 1 is silently never measured. *)
Definition shadowed : order := [[(0, [])]; [(0, []); (1, [0])]].

Example C74_checked_example :
  wf_spacial [[1]; [0]] ∧ (∀ l, e_hash_order plain_env l ≡ₚ l) ∧ ¬ NoDup (qubits shadowed) ∧
  run Debug 100 plain_env [[1]; [0]] shadowed false None 1 None None
  = Some (Val [MkPath 1 2 [[0]]]) ∧
  run Debug 100 plain_env [[1]; [0]] shadowed true None 1 None None
  = Some (Val [MkPath 1 2 [[0]]]).
Proof.
  split; [split; [|done]|].
  { intros ns v H. rewrite !elem_of_cons, elem_of_nil in H.
    destruct H as [-> |[-> |[]]]; rewrite elem_of_list_singleton; intros ->; simpl; lia. }
  split; [done|]. split; [|by split; vm_compute].
  intros H. apply NoDup_cons in H as [H _]. apply H. left.
Qed.

(** In release builds the first claim is false: a qubit is measured twice, and
    the reported memory is too small or has wrapped around. *)
Definition twice : order := [[(0, []); (0, [])]].
Definition wrapping : order := [[(0, []); (0, []); (0, []); (1, [])]; [(2, [1])]].

Example C74_release_example :
  run Release 100 plain_env [[]; []] twice false None 1 None None = Some (Val [MkPath 1 1 [[0; 0]]]) ∧
  run Release 100 plain_env [[]; []] twice true None 1 None None = Some (Val [MkPath 1 1 [[0; 0]]]) ∧
  run Release 100 plain_env [[]; []; []] wrapping false None 1 None None
  = Some (Val [MkPath 2 18446744073709551615 [[0; 0; 0; 1]; [2]]]) ∧
  run Debug 100 plain_env [[]; []] twice false None 1 None None = Some Panic ∧
  run Debug 100 plain_env [[]; []] twice true None 1 None None = Some Panic ∧
  run Debug 100 plain_env [[]; []; []] wrapping false None 1 None None = Some Panic.
Proof. repeat split; by vm_compute. Qed.

(** A counter below zero is increased again: after the first step the memory is -1, the
    second step makes it 0, so the space is the maximum of the first step. *)
Definition returning : order := [[(0, []); (0, []); (1, [])]; [(2, [1])]].

Example C74_returning_example :
  run Release 100 plain_env [[]; []; []] returning false None 1 None None
  = Some (Val [MkPath 2 2 [[0; 0; 1]; [2]]]) ∧
  run Debug 100 plain_env [[]; []; []] returning false None 1 None None = Some Panic.
Proof. split; by vm_compute. Qed.

(** The second entry of qubit 1 sets its number of dependencies to zero: measuring
    qubit 0 overflows, in release builds qubit 1 then waits for 2^64 - 1 others. *)
Definition overwritten : order := [[(0, [])]; [(1, [0]); (1, [])]].

Example C74_overflow_example :
  run Release 100 plain_env [[]; []] overwritten false None 1 None None = Some (Val [MkPath 1 1 [[0]]]) ∧
  run Release 100 plain_env [[]; []] overwritten true None 1 None None = Some (Val [MkPath 1 1 [[0]]]) ∧
  run Debug 100 plain_env [[]; []] overwritten false None 1 None None = Some Panic ∧
  run Debug 100 plain_env [[]; []] overwritten true None 1 None None = Some Panic.
Proof. repeat split; by vm_compute. Qed.

Lemma three_alone : wf_spacial [[]; []; []].
Proof.
  split; [|done]. intros ns v H Hv. rewrite !elem_of_cons, elem_of_nil in H.
  destruct H as [-> |[-> |[-> |[]]]]; by apply elem_of_nil in Hv.
Qed.

Theorem C74_release_refuted :
  ¬ (∀ adj g fuel env do_search timeout nthreads bound prob ps, wf_spacial adj →
     (∀ l, e_hash_order env l ≡ₚ l) →
     run Release fuel env adj g do_search timeout nthreads bound prob = Some (Val ps) →
     ∀ p, p ∈ ps → NoDup (concat (steps p)) ∨ space p = N.of_nat (space_cost adj (steps p))).
Proof.
  intros H. destruct (H [[]; []; []] wrapping 100 plain_env false None 1 None None
    [MkPath 2 18446744073709551615 [[0; 0; 0; 1]; [2]]] three_alone (λ l, reflexivity l)
    (proj1 (proj2 (proj2 C74_release_example))) _ (elem_of_list_here _ _)) as [Hn|Hs].
  - apply NoDup_cons in Hn as [Hn _]. apply Hn. left.
  - by vm_compute in Hs.
Qed.
Print Assumptions C74_release_refuted.

(** The converse of the agreement is false too. *)
Theorem C74_builds_converse_refuted :
  ¬ (∀ fuel env adj g do_search timeout nthreads bound prob ps,
     run Release fuel env adj g do_search timeout nthreads bound prob = Some (Val ps) →
     run Debug fuel env adj g do_search timeout nthreads bound prob = Some (Val ps)).
Proof.
  intros H. specialize (H 100 plain_env [[]; []] twice false None 1 None None _ (proj1 C74_release_example)).
  by vm_compute in H.
Qed.
Print Assumptions C74_builds_converse_refuted.
