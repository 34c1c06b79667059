(** * Specification

    The vocabulary in which the properties are stated.  This file is
    independent of the model: it imports no model file and mentions none of
    the data structures of the implementation.

    - A qubit is a number, a spacial graph is the list of the neighbour lists.
    - A dependency graph is a list of layers; an entry [(b, ds)] says that
      qubit [b] may only be measured after all qubits in [ds].
    - A schedule is a list of steps; the qubits of a step are measured
      simultaneously. *)
From stdpp Require Export prelude list.
From Coq Require Export NArith Lia.

Notation spacial := (list (list nat)).
Notation order := (list (list (nat * list nat))).
Notation step := (list nat).
Notation schedule := (list (list nat)).

(** ** Dependencies *)

(** [b] is a qubit of the dependency graph. *)
Definition listed (g : order) (b : nat) : Prop :=
  ∃ layer ds, layer ∈ g ∧ (b, ds) ∈ layer.

(** [b] has to be measured after [d]. *)
Definition depends (g : order) (b d : nat) : Prop :=
  ∃ layer ds, layer ∈ g ∧ (b, ds) ∈ layer ∧ d ∈ ds.

(** ** Legal schedules *)

(** Beginning of a schedule: nobody is measured twice, no step is empty, only
    qubits of the dependency graph are measured, and every qubit is measured in
    a step strictly after the steps of the qubits it depends on. *)
Record legal_prefix (g : order) (σ : schedule) : Prop := {
  lp_nonempty : ∀ S, S ∈ σ → S ≠ [];
  lp_once : NoDup (concat σ);
  lp_listed : ∀ b, b ∈ concat σ → listed g b;
  lp_order : ∀ k S b d, σ !! k = Some S → b ∈ S → depends g b d →
               d ∈ concat (take k σ)
}.

(** Complete schedule: moreover every qubit of the dependency graph is measured. *)
Record valid_schedule (g : order) (σ : schedule) : Prop := {
  vs_legal : legal_prefix g σ;
  vs_complete : ∀ b, listed g b → b ∈ concat σ
}.

(** Two schedules are the same if they measure the same sets in the same order. *)
Definition same_schedule (σ τ : schedule) : Prop := Forall2 Permutation σ τ.

(** ** Memory cost *)

(** Neighbours of [u] (none if [u] is not a node). *)
Definition neighbours (adj : spacial) (u : nat) : list nat := default [] (adj !! u).

(** [v] has to be initialized once all qubits of [A] have been measured: it is
    one of them or a neighbour of one of them. *)
Definition needed (adj : spacial) (A : list nat) (v : nat) : Prop :=
  v ∈ A ∨ ∃ u, u ∈ A ∧ v ∈ neighbours adj u.

Global Instance needed_dec adj A v : Decision (needed adj A v).
Proof.
  unfold needed. apply or_dec; [apply _|].
  destruct (decide (Exists (λ u, v ∈ neighbours adj u) A)) as [H|H].
  - left. apply Exists_exists in H. destruct H as (u & ? & ?). eauto.
  - right. intros (u & ? & ?). apply H, Exists_exists. eauto.
Defined.

(** During step [k] (the first step is step 0), qubit [v] occupies memory: it
    has not been measured in an earlier step and it is needed by the qubits
    measured up to and including step [k]. *)
Definition occupies (adj : spacial) (σ : schedule) (k v : nat) : Prop :=
  v ∉ concat (take k σ) ∧ needed adj (concat (take (S k) σ)) v.
Global Instance occupies_dec adj σ k v : Decision (occupies adj σ k v).
Proof. unfold occupies. apply _. Defined.

(** Number of qubits in memory during step [k]. *)
Definition memory_at (adj : spacial) (σ : schedule) (k : nat) : nat :=
  length (filter (occupies adj σ k) (seq 0 (length adj))).

(** Space cost: the largest number of qubits in memory during some step. *)
Definition space_cost (adj : spacial) (σ : schedule) : nat :=
  max_list (map (memory_at adj σ) (seq 0 (length σ))).

(** Time cost: the number of steps. *)
Definition time_cost (σ : schedule) : nat := length σ.

(** ** Well-formed inputs *)

(** All neighbours are nodes, and the number of nodes fits into a machine word
    (strictly below [usize::MAX], true of every vector that fits into memory). *)
Definition wf_spacial (adj : spacial) : Prop :=
  (∀ ns v, ns ∈ adj → v ∈ ns → v < length adj)
  ∧ (N.of_nat (length adj) < 2 ^ 64 - 1)%N.

(** Qubits of a dependency graph, with multiplicity. *)
Definition qubits (g : order) : list nat := map fst (concat g).

(** A dependency graph over [n] qubits is well-formed if all its qubits are
    below [n] and distinct, the qubits of the first layer have no dependencies
    and every qubit of a later layer has a non-empty, duplicate free list of
    dependencies, all of which are qubits of strictly earlier layers. *)
Record wf_order (n : nat) (g : order) : Prop := {
  wf_range : ∀ b, b ∈ qubits g → b < n;
  wf_nodup : NoDup (qubits g);
  wf_first : ∀ b ds, (b, ds) ∈ default [] (head g) → ds = [];
  wf_later : ∀ k layer b ds, g !! S k = Some layer → (b, ds) ∈ layer →
    ds ≠ [] ∧ NoDup ds ∧ ∀ d, d ∈ ds → d ∈ qubits (take (S k) g)
}.

(** What is left of a dependency graph with distinct qubits if the dependencies
    of the first layer are dropped, and from the later layers every qubit is
    removed that has no dependencies, a repeated dependency, or a dependency that
    is not a remaining qubit of a strictly earlier layer. *)
Definition usable (seen : list nat) (e : nat * list nat) : Prop :=
  e.2 ≠ [] ∧ NoDup e.2 ∧ Forall (λ d, d ∈ seen) e.2.
Global Instance usable_dec seen e : Decision (usable seen e).
Proof. unfold usable. apply _. Defined.
Fixpoint repaired_from (seen : list nat) (rest : order) : order :=
  match rest with
  | [] => []
  | layer :: rest =>
      let layer' := filter (usable seen) layer in
      layer' :: repaired_from (seen ++ map fst layer') rest
  end.
Definition repaired (g : order) : order :=
  match g with
  | [] => []
  | first :: rest => map (λ e, (e.1, [])) first :: repaired_from (map fst first) rest
  end.

(** A well-formed pair of inputs. *)
Definition wf_input (adj : spacial) (g : order) : Prop :=
  wf_spacial adj ∧ wf_order (length adj) g.

(** ** Dependency chains and layers *)

(** A list of qubits each of which depends on the previous one. *)
Fixpoint chained (g : order) (l : list nat) : Prop :=
  match l with
  | b :: ((c :: _) as l') => depends g c b ∧ chained g l'
  | _ => True
  end.

(** The layers of a dependency graph, without the dependencies. *)
Definition layers (g : order) : schedule := map (map fst) g.

(** Every qubit outside the first layer depends on a qubit of the layer before. *)
Definition canonical (g : order) : Prop :=
  ∀ k layer layer' b ds, g !! k = Some layer → g !! S k = Some layer' → (b, ds) ∈ layer' →
    ∃ d, d ∈ ds ∧ d ∈ map fst layer.

(** ** Returned paths *)

(** What a caller sees of a path: time, space and the steps. *)
Record path := MkPath { time : nat; space : N; steps : schedule }.

(** The path describes a complete schedule and its costs are exact. *)
Definition path_ok (adj : spacial) (g : order) (p : path) : Prop :=
  valid_schedule g (steps p)
  ∧ time p = time_cost (steps p)
  ∧ space p = N.of_nat (space_cost adj (steps p)).

(** A list of paths sorted by strictly increasing time with strictly decreasing
    space. *)
Definition tradeoff (ps : list path) : Prop :=
  ∀ i j p q, i < j → ps !! i = Some p → ps !! j = Some q →
    time p < time q ∧ (space q < space p)%N.

(** The path is at least as good as the schedule in time and in space. *)
Definition as_good_as (adj : spacial) (p : path) (σ : schedule) : Prop :=
  time p ≤ time_cost σ ∧ (space p ≤ N.of_nat (space_cost adj σ))%N.

(** Every valid schedule is matched by a returned path. *)
Definition covers (adj : spacial) (g : order) (ps : list path) : Prop :=
  ∀ σ, valid_schedule g σ → ∃ p, p ∈ ps ∧ as_good_as adj p σ.

(** The exact Pareto front of time and space. *)
Definition pareto_front (adj : spacial) (g : order) (ps : list path) : Prop :=
  Forall (path_ok adj g) ps ∧ tradeoff ps ∧ covers adj g ps.

(** The path [p] is what a look at the list [all] of complete schedules with
    their memory selects for its number of steps: no schedule in the list with
    at most as many steps needs less memory, none with fewer steps needs as
    little, and it is the first one in the list with its two costs. *)
Definition selected (all : list (schedule * N)) (p : path) : Prop :=
  time p = length (steps p) ∧
  ∃ before after, all = before ++ (steps p, space p) :: after ∧
    (∀ τ m, (τ, m) ∈ before → length τ ≤ time p → (space p < m)%N) ∧
    (∀ τ m, (τ, m) ∈ after → length τ ≤ time p → (space p <= m)%N) ∧
    (∀ τ m, (τ, m) ∈ after → length τ < time p → (space p < m)%N).

(** Every step measures one qubit. *)
Definition sequential (σ : schedule) : Prop := ∀ S, S ∈ σ → length S = 1.

(** The costs of the paths in a list. *)
Definition costs (ps : list path) : list (nat * N) := map (λ p, (time p, space p)) ps.

(** ** Related inputs *)

(** Two inputs that are the same up to the names of the qubits: [f] gives the new
    names, [b] the old ones.  Nothing is said about the order of the neighbours,
    about repeated neighbours and loops, or about the layers. *)
Record renamed (f b : nat → nat) (adj : spacial) (g : order) (adj' : spacial) (g' : order) : Prop := {
  rn_length : length adj' = length adj;
  rn_forth : ∀ v, v < length adj → f v < length adj ∧ b (f v) = v;
  rn_back : ∀ v, v < length adj → b v < length adj ∧ f (b v) = v;
  rn_edges : ∀ u v, u < length adj → v < length adj → u ≠ v →
    v ∈ neighbours adj u ↔ f v ∈ neighbours adj' (f u);
  rn_listed : ∀ v, v < length adj → listed g v ↔ listed g' (f v);
  rn_depends : ∀ u v, u < length adj → v < length adj → depends g u v ↔ depends g' (f u) (f v)
}.

(** The second input has the same qubits, no additional edges and no additional
    dependencies. *)
Record relaxed (adj : spacial) (g : order) (adj' : spacial) (g' : order) : Prop := {
  rx_length : length adj' = length adj;
  rx_edges : ∀ u v, v ∈ neighbours adj' u → v ∈ neighbours adj u;
  rx_listed : ∀ v, listed g v ↔ listed g' v;
  rx_depends : ∀ u v, depends g' u v → depends g u v
}.

(** ** Numbers of schedules *)

(** The binomial coefficient. *)
Fixpoint choose (n k : nat) : nat :=
  match n, k with
  | _, 0 => 1
  | 0, S _ => 0
  | S n', S k' => choose n' k' + choose n' k
  end.

(** The ordered Bell numbers: there is one empty schedule, and a non-empty
    schedule of [n] qubits has [k < n] qubits after its first step.  [f] bounds
    the depth of the recursion. *)
Fixpoint ordered_bell_upto (f n : nat) : nat :=
  match f, n with
  | S f', S _ => sum_list (map (λ k, choose n k * ordered_bell_upto f' k) (seq 0 n))
  | _, _ => 1
  end.
Definition ordered_bell (n : nat) : nat := ordered_bell_upto n n.

(** ** Positions of a list *)

(** The elements of [l] at the positions selected by [Q], the first element
    having position [i]. *)
Fixpoint pick_from {A} (i : nat) (Q : nat → bool) (l : list A) : list A :=
  match l with
  | [] => []
  | x :: l => if Q i then x :: pick_from (S i) Q l else pick_from (S i) Q l
  end.
Definition pick {A} (Q : nat → bool) (l : list A) : list A := pick_from 0 Q l.

(** ** Executions

    The rules of the README: a qubit can be initialized once; the qubits of a
    step are measured together, when all of them are in memory and all their
    neighbours have been initialized; a qubit occupies memory from its
    initialization until it is measured. *)
Inductive action := Init (v : nat) | MeasureStep (M : list nat).

(** [ops] obeys the rules, [live] being the qubits in memory and [gone] those
    that have been measured. *)
Fixpoint obeys (adj : spacial) (live gone : list nat) (ops : list action) : Prop :=
  match ops with
  | [] => True
  | Init v :: ops =>
      v < length adj ∧ v ∉ live ∧ v ∉ gone ∧ obeys adj (v :: live) gone ops
  | MeasureStep M :: ops =>
      NoDup M ∧ (∀ u, u ∈ M → u ∈ live) ∧
      (∀ u v, u ∈ M → v ∈ neighbours adj u → v ∈ live ∨ v ∈ gone) ∧
      obeys adj (filter (λ v, v ∉ M) live) (gone ++ M) ops
  end.

(** The largest number of qubits in memory at some moment. *)
Fixpoint peak (live : list nat) (ops : list action) : nat :=
  match ops with
  | [] => length live
  | Init v :: ops => max (length live) (peak (v :: live) ops)
  | MeasureStep M :: ops => max (length live) (peak (filter (λ v, v ∉ M) live) ops)
  end.

(** The steps of an execution. *)
Definition steps_of (ops : list action) : schedule :=
  omap (λ o, match o with Init _ => None | MeasureStep M => Some M end) ops.

(** ** Relabelling and edge lists *)

(** Renaming by a partial map; unmapped qubits keep their name. *)
Definition rename (m : nat → option nat) (b : nat) : nat := default b (m b).
Definition rename_order (m : nat → option nat) (g : order) : order :=
  map (map (λ e, (rename m e.1, map (rename m) e.2))) g.
Definition rename_edges (m : nat → option nat) (E : list (nat * nat)) : list (nat * nat) :=
  map (λ e, (rename m e.1, rename m e.2)) E.

(** [u] and [v] are joined by an edge, in either direction. *)
Definition joined (E : list (nat * nat)) (u v : nat) : Prop := (u, v) ∈ E ∨ (v, u) ∈ E.

(** No loops, and no two edges join the same nodes. *)
Definition simple_edges (E : list (nat * nat)) : Prop :=
  NoDup E ∧ ∀ u v, (u, v) ∈ E → u ≠ v ∧ (v, u) ∉ E.
