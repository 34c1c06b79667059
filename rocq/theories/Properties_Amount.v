(** * Properties: how many schedules there are

    The number of schedules decides how long a sweep takes and how the work is split
    among the threads. *)
From Verif Require Import MainSweep MainAmount Check.
From Verif Require Import Properties_Series.

(** ** C96: the number of schedules *)

(** There is only one such number, and a sweep over the generator as well as one over
    the scheduler records that many paths. *)
Theorem C96_unique : ∀ g k k', amount g k → amount g k' → k = k'.
Proof. exact amount_unique. Qed.
Print Assumptions C96_unique.

Theorem C96_swept :
  ∀ adj g buf, wf_input adj g → length adj ≤ length buf → (∃ b, listed g b) →
  ∃ t ps qs, from_dependency_graph (T := Partition nat) g buf None = Val t ∧
    (∀ bd, returns (λ fuel, get_all_paths (H := time_focus_iterator bd) fuel [] t) ps) ∧
    (∀ bd, returns (λ fuel, get_all_paths (H := scheduler_focus_iterator bd) fuel []
                              (mkScheduler t (graph_new adj))) qs) ∧
    amount g (length ps) ∧ amount g (length qs) ∧ length ps = length qs.
Proof. exact amount_swept. Qed.
Print Assumptions C96_swept.

(** A stronger order has fewer schedules, unless it is the same order. *)
Theorem C96_stronger :
  ∀ n n' g g' k k', wf_order n g → wf_order n' g' → stronger g g' → amount g k → amount g' k' →
  k' ≤ k ∧ (k' = k ↔ same_order g g').
Proof. exact amount_stronger. Qed.
Print Assumptions C96_stronger.

(** If one part has to wait for the other, the numbers are multiplied. *)
Theorem C96_series :
  ∀ n g g1 g2 k k1 k2, wf_order n g → wf_order n g1 → wf_order n g2 → series g1 g2 g →
  amount g k → amount g1 k1 → amount g2 k2 → k = k1 * k2.
Proof. exact amount_series. Qed.
Print Assumptions C96_series.

(** For two independent parts there are at least three times as many. *)
Theorem C96_parts :
  ∀ c g k k1 k2,
  (∃ b, listed g b ∧ c b = true) → (∃ b, listed g b ∧ c b = false) →
  amount g k → amount (part c true g) k1 → amount (part c false g) k2 → 3 * (k1 * k2) ≤ k.
Proof. exact amount_parts. Qed.
Print Assumptions C96_parts.

(** There is one schedule if and only if the dependencies order all qubits. *)
Theorem C96_total :
  ∀ adj g k, wf_input adj g → amount g k → (k = 1 ↔ ∃ l, total_order g l).
Proof. exact amount_total. Qed.
Print Assumptions C96_total.

(** Without dependencies it is the ordered Bell number, which is never exceeded. *)
Theorem C96_independent :
  ∀ adj g, wf_input adj g → (∃ b, listed g b) →
  (∀ k, amount g k → k ≤ ordered_bell (length (qubits g))) ∧
  ((∀ b d, ¬ depends g b d) → amount g (ordered_bell (length (qubits g)))).
Proof. exact amount_bell. Qed.
Print Assumptions C96_independent.

Definition swept (n : nat) (g : order) : out nat :=
  let* t := from_dependency_graph g (dependency_buffer_new n) None in
  let* ps := default Panic (get_all_paths (H := time_focus_iterator Debug) 1000 [] t) in
  Val (length ps).

Definition colour (b : nat) : bool := b <? 3.
Definition abreast : order := [[(0, []); (1, []); (3, [])]; [(5, [3])]].

Example C96_example :
  (* one after the other: 13 * 5 *)
  wf_order 6 stages_order ∧ wf_order 6 stage1 ∧ wf_order 6 stage2 ∧ series stage1 stage2 stages_order ∧
  swept 6 stage1 = Val 13 ∧ swept 6 stage2 = Val 5 ∧ swept 6 stages_order = Val 65 ∧
  (* independent: more than 3 * (3 * 1) *)
  part colour true abreast = [[(0, []); (1, [])]; []] ∧
  part colour false abreast = [[(3, [])]; [(5, [3])]] ∧
  swept 6 abreast = Val 31 ∧
  (* two single qubits: 3 * 1 * 1 *)
  swept 2 [[(0, []); (1, [])]] = Val 3 ∧ swept 2 [[(0, [])]] = Val 1 ∧
  (* three qubits in a row *)
  swept 3 [[(0, [])]; [(1, [0])]; [(2, [1])]] = Val 1.
Proof.
  split; [apply (proj2 (A := wf_spacial stages)); by apply wf_input_checked; vm_compute|].
  split; [apply (proj2 (A := wf_spacial stages)); by apply wf_input_checked; vm_compute|].
  split; [apply (proj2 (A := wf_spacial stages)); by apply wf_input_checked; vm_compute|].
  split; [exact stages_series|]. by vm_compute.
Qed.

(** Three times the product is not always the number. *)
Theorem C96_parts_exact_refuted :
  ¬ (∀ c g k k1 k2, (∃ b, listed g b ∧ c b = true) → (∃ b, listed g b ∧ c b = false) →
     amount g k → amount (part c true g) k1 → amount (part c false g) k2 → k = 3 * (k1 * k2)).
Proof.
  intros H.
  assert (∀ g, wf_input [[]; []; []] g → (∃ b, listed g b) → (∀ b d, ¬ depends g b d) →
    amount g (ordered_bell (length (qubits g)))) as Ha by (intros g Hin Hl; by apply (C96_independent _ g Hin Hl)).
  assert (∀ l, Forall (λ e : nat * list nat, e.2 = []) l → ∀ b d, ¬ depends [l] b d) as Hd.
  { intros l Hf b d (l' & ds & Hl' & Hb & Hds). apply elem_of_list_singleton in Hl' as ->.
    rewrite Forall_forall in Hf. apply Hf in Hb. simpl in Hb. subst. by apply elem_of_nil in Hds. }
  assert (∀ l b, b ∈ map fst l → listed [l] b) as Hlist.
  { intros l b Hb. apply listed_qubits. unfold qubits. simpl. by rewrite app_nil_r. }
  assert (13 = 3 * (1 * 3)) as Hbad; [|done].
  apply (H (λ b, b =? 0) [[(0, []); (1, []); (2, [])]]).
  - exists 0. split; [|done]. apply Hlist. left.
  - exists 1. split; [|done]. apply Hlist. right. left.
  - apply (Ha [[(0, []); (1, []); (2, [])]]); [by apply wf_input_checked; vm_compute| |by apply Hd; repeat constructor].
    exists 0. apply Hlist. left.
  - apply (Ha [[(0, [])]]); [by apply wf_input_checked; vm_compute| |by apply Hd; repeat constructor].
    exists 0. apply Hlist. left.
  - apply (Ha [[(1, []); (2, [])]]); [by apply wf_input_checked; vm_compute| |by apply Hd; repeat constructor].
    exists 1. apply Hlist. left.
Qed.
Print Assumptions C96_parts_exact_refuted.
