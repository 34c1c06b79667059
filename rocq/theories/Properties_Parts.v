(** * Properties: independent parts

    No documentation mentions it, but it is what a user may expect of inputs that fall
    into two parts without common edges and dependencies. *)
From Verif Require Import MainParts Check.
From Verif Require Import PartsSpec.

(** ** C78: the paths of an input and of its independent parts *)

(** [searched adj g ps]: an uninterrupted deterministic single threaded search returns
    [ps], for any environment and any settings. *)
Theorem C78_parts :
  ∀ c adj g ps ps1 ps2,
  wf_input adj g → separated c adj g → (∃ b, listed g b ∧ c b = true) → (∃ b, listed g b ∧ c b = false) →
  searched adj g ps → searched adj (part c true g) ps1 → searched adj (part c false g) ps2 →
  (* no path beats the paths of the parts *)
  (∀ p, p ∈ ps → ∃ p1 p2, p1 ∈ ps1 ∧ p2 ∈ ps2 ∧
     max (time p1) (time p2) ≤ time p ∧ (N.max (space p1) (space p2) <= space p)%N) ∧
  (* any two of them can be combined: side by side *)
  (∀ p1 p2, p1 ∈ ps1 → p2 ∈ ps2 → ∃ p, p ∈ ps ∧
     time p ≤ max (time p1) (time p2) ∧ (space p <= space p1 + space p2)%N) ∧
  (* or, if nothing is left over, one after the other *)
  (exhausting adj g → ∀ p1 p2, p1 ∈ ps1 → p2 ∈ ps2 → ∃ p, p ∈ ps ∧
     time p ≤ time p1 + time p2 ∧ (space p <= N.max (space p1) (space p2))%N) ∧
  (* hence the least times and the least memories *)
  (∀ p p1 p2, head ps = Some p → head ps1 = Some p1 → head ps2 = Some p2 → time p = max (time p1) (time p2)) ∧
  (exhausting adj g → ∀ p p1 p2, last ps = Some p → last ps1 = Some p1 → last ps2 = Some p2 →
     space p = N.max (space p1) (space p2)).
Proof. exact run_parts. Qed.
Print Assumptions C78_parts.

(** Without search exactly the steps of the parts are taken side by side. *)
Theorem C78_without_search :
  ∀ c adj g env env1 env2 timeout timeout1 timeout2 nthreads nthreads1 nthreads2 bound bound1 bound2
    prob prob1 prob2 bd bd1 bd2 p p1 p2,
  wf_input adj g → separated c adj g →
  returns (λ fuel, run bd fuel env adj g false timeout nthreads bound prob) [p] →
  returns (λ fuel, run bd1 fuel env1 adj (part c true g) false timeout1 nthreads1 bound1 prob1) [p1] →
  returns (λ fuel, run bd2 fuel env2 adj (part c false g) false timeout2 nthreads2 bound2 prob2) [p2] →
  (∀ k b, (∃ S, steps p !! k = Some S ∧ b ∈ S) ↔
     (∃ S, steps p1 !! k = Some S ∧ b ∈ S) ∨ (∃ S, steps p2 !! k = Some S ∧ b ∈ S)) ∧
  time p = max (time p1) (time p2) ∧ (N.max (space p1) (space p2) <= space p <= space p1 + space p2)%N.
Proof. exact run_parts_time. Qed.
Print Assumptions C78_without_search.

(** Two pairs of qubits, in two colours. *)
Lemma pairs_separated : separated Nat.even pairs pairs_order.
Proof.
  split.
  - intros u v Hu%listed_qubits. vm_compute in Hu. intros Hv.
    repeat (apply elem_of_cons in Hu as [->|Hu]; [vm_compute in Hv; by apply elem_of_list_singleton in Hv as ->|]).
    by apply elem_of_nil in Hu.
  - intros b d (l & ds & Hl & Hb & Hd).
    repeat (apply elem_of_cons in Hl as [->|Hl];
      [repeat (apply elem_of_cons in Hb as [[= -> ->]|Hb];
         [first [by apply elem_of_nil in Hd|by apply elem_of_list_singleton in Hd as ->]|]);
       by apply elem_of_nil in Hb|]).
    by apply elem_of_nil in Hl.
Qed.

Lemma pairs_exhausting : exhausting pairs pairs_order.
Proof.
  intros u v Hu%listed_qubits Hv. apply listed_qubits. vm_compute in Hu.
  repeat (apply elem_of_cons in Hu as [->|Hu];
    [vm_compute in Hv; apply elem_of_list_singleton in Hv as ->; by apply (bool_decide_unpack _)|]).
  by apply elem_of_nil in Hu.
Qed.

Definition parts_env : Env := mkEnv (λ _, []) [] id idle_gen (λ x, x).

(** Each part takes two steps and needs memory for two qubits; together two steps with
    memory for four, three steps with memory for three, or four steps with memory for
    two. *)
Example C78_example :
  wf_input pairs pairs_order ∧ separated Nat.even pairs pairs_order ∧ exhausting pairs pairs_order ∧
  searched pairs pairs_order
    [MkPath 2 4 [[0; 1]; [2; 3]]; MkPath 3 3 [[1]; [0; 3]; [2]]; MkPath 4 2 [[1]; [3]; [0]; [2]]] ∧
  searched pairs (part Nat.even true pairs_order) [MkPath 2 2 [[0]; [2]]] ∧
  searched pairs (part Nat.even false pairs_order) [MkPath 2 2 [[1]; [3]]].
Proof.
  split; [exact pairs_wf|]. split; [exact pairs_separated|]. split; [exact pairs_exhausting|].
  assert (∀ g ps, run Debug 1000 parts_env pairs g true None 1 None None = Some (Val ps) → searched pairs g ps) as H.
  { intros g ps E. exists parts_env, None, 1, None, Debug. split; [done|]. split; [done|]. split; [done|].
    eapply finishes_of; [|exact E]. intros fuel fuel' r. apply search_single_mono. }
  split; [|split]; apply H; by vm_compute.
Qed.

(** If measured qubits have neighbours that are never measured, one part after the other
    needs more than the larger one of the two memories: *)
Definition leftovers : spacial := [[1]; [0]; [3]; [2]].
Definition leftovers_order : order := [[(0, []); (2, [])]].

Theorem C78_leftover_refuted :
  ¬ (∀ c adj g ps ps1 ps2 p p1 p2,
     wf_input adj g → separated c adj g → (∃ b, listed g b ∧ c b = true) → (∃ b, listed g b ∧ c b = false) →
     searched adj g ps → searched adj (part c true g) ps1 → searched adj (part c false g) ps2 →
     last ps = Some p → last ps1 = Some p1 → last ps2 = Some p2 → space p = N.max (space p1) (space p2)).
Proof.
  intros H.
  assert (∀ g ps, run Debug 1000 parts_env leftovers g true None 1 None None = Some (Val ps) → searched leftovers g ps) as Hs.
  { intros g ps E. exists parts_env, None, 1, None, Debug. split; [done|]. split; [done|]. split; [done|].
    eapply finishes_of; [|exact E]. intros fuel fuel' r. apply search_single_mono. }
  assert (space (MkPath 2 3 [[2]; [0]]) = N.max (space (MkPath 1 2 [[0]])) (space (MkPath 1 2 [[2]]))) as Hbad; [|done].
  apply (H (λ v, v <? 2) leftovers leftovers_order [MkPath 1 4 [[0; 2]]; MkPath 2 3 [[2]; [0]]] [MkPath 1 2 [[0]]] [MkPath 1 2 [[2]]]); [| | | | | | |done..].
  - by apply wf_input_checked; vm_compute.
  - split.
    + intros u v Hu%listed_qubits. vm_compute in Hu. intros Hv.
      repeat (apply elem_of_cons in Hu as [->|Hu]; [vm_compute in Hv; by apply elem_of_list_singleton in Hv as ->|]).
      by apply elem_of_nil in Hu.
    + intros b d (l & ds & Hl & Hb & Hd). apply elem_of_list_singleton in Hl as ->.
      repeat (apply elem_of_cons in Hb as [[= -> ->]|Hb]; [by apply elem_of_nil in Hd|]). by apply elem_of_nil in Hb.
  - exists 0. split; [|done]. exists [(0, []); (2, [])], []. split; left.
  - exists 2. split; [|done]. exists [(0, []); (2, [])], []. split; [left|right; left].
  - apply Hs. by vm_compute.
  - apply Hs. by vm_compute.
  - apply Hs. by vm_compute.
Qed.
Print Assumptions C78_leftover_refuted.
