(** * Properties: one part after the other

    The counterpart of independent parts: a part that has to wait for another one.  Again
    no documentation mentions it, but a user who splits a long computation into stages
    relies on it. *)
From Verif Require Import MainSeries Check.
From Verif Require Import SeriesSpec.

(** ** C81: the paths of an input and of its stages *)

(** The times add up and the larger memory counts. *)
Theorem C81_series :
  ∀ adj g g1 g2 ps ps1 ps2,
  wf_input adj g → wf_input adj g1 → wf_input adj g2 → series g1 g2 g → disconnected adj g1 g2 →
  (∃ b, listed g1 b) → (∃ b, listed g2 b) →
  searched adj g ps → searched adj g1 ps1 → searched adj g2 ps2 →
  (* every path costs what a path of the first part and one of the second part cost *)
  (∀ p, p ∈ ps → ∃ p1 p2, p1 ∈ ps1 ∧ p2 ∈ ps2 ∧
     time p = time p1 + time p2 ∧ space p = N.max (space p1) (space p2)) ∧
  (* and any two of them are matched *)
  (∀ p1 p2, p1 ∈ ps1 → p2 ∈ ps2 → ∃ p, p ∈ ps ∧
     time p ≤ time p1 + time p2 ∧ (space p <= N.max (space p1) (space p2))%N) ∧
  (* every path measures the first part, then the second part *)
  (∀ p, p ∈ ps → ∃ σ1 σ2, steps p = σ1 ++ σ2 ∧ valid_schedule g1 σ1 ∧ valid_schedule g2 σ2) ∧
  (* hence the least time and the least memory *)
  (∀ p p1 p2, head ps = Some p → head ps1 = Some p1 → head ps2 = Some p2 → time p = time p1 + time p2) ∧
  (∀ p p1 p2, last ps = Some p → last ps1 = Some p1 → last ps2 = Some p2 → space p = N.max (space p1) (space p2)).
Proof. exact run_series. Qed.
Print Assumptions C81_series.

(** Without search the steps of the second stage follow those of the first one. *)
Theorem C81_without_search :
  ∀ adj g g1 g2 env env1 env2 timeout timeout1 timeout2 nthreads nthreads1 nthreads2 bound bound1 bound2
    prob prob1 prob2 bd bd1 bd2 p p1 p2,
  wf_input adj g → wf_input adj g1 → wf_input adj g2 → series g1 g2 g →
  returns (λ fuel, run bd fuel env adj g false timeout nthreads bound prob) [p] →
  returns (λ fuel, run bd1 fuel env1 adj g1 false timeout1 nthreads1 bound1 prob1) [p1] →
  returns (λ fuel, run bd2 fuel env2 adj g2 false timeout2 nthreads2 bound2 prob2) [p2] →
  same_schedule (steps p) (steps p1 ++ steps p2) ∧ time p = time p1 + time p2 ∧
  (disconnected adj g1 g2 → space p = N.max (space p1) (space p2)).
Proof. exact run_series_time. Qed.
Print Assumptions C81_without_search.

(** If the dependencies order all qubits, every run, with or without search, interrupted
    or not, randomized or not, with one or several threads, returns the only path there
    is, or nothing. *)
Theorem C81_total_order :
  ∀ adj g l env do_search timeout nthreads bound prob bd fuel ps,
  wf_input adj g → (∀ l, e_hash_order env l ≡ₚ l) → total_order g l →
  run bd fuel env adj g do_search timeout nthreads bound prob = Some (Val ps) →
  let only := MkPath (length l) (N.of_nat (space_cost adj (map (λ b, [b]) l))) (map (λ b, [b]) l) in
  ps = [] ∨ ps = [only].
Proof. exact run_total. Qed.
Print Assumptions C81_total_order.

Theorem C81_total_searched :
  ∀ adj g l ps, wf_input adj g → total_order g l → l ≠ [] → searched adj g ps →
  ps = [MkPath (length l) (N.of_nat (space_cost adj (map (λ b, [b]) l))) (map (λ b, [b]) l)].
Proof. exact searched_total. Qed.
Print Assumptions C81_total_searched.

(** For example a wire of [n] qubits, each joined with the next one and waiting for the
    one before: [n] steps and two qubits in memory. *)
Theorem C81_wire :
  ∀ n ps, 2 ≤ n → (N.of_nat n < 2 ^ 64 - 1)%N → searched (line n) (wire_order n) ps →
  ps = [MkPath n 2 (map (λ b, [b]) (seq 0 n))].
Proof. exact run_wire. Qed.
Print Assumptions C81_wire.

(** Two lines of three qubits; qubit 5 has to wait for the first line only indirectly. *)
Definition stages : spacial := [[1]; [0; 2]; [1]; [4]; [3; 5]; [4]].
Definition stage1 : order := [[(0, []); (1, []); (2, [])]].
Definition stage2 : order := [[(3, []); (4, [])]; [(5, [3])]].
Definition stages_order : order := [[(0, []); (1, []); (2, [])]; [(3, [0; 1; 2]); (4, [0; 1; 2])]; [(5, [3])]].

Definition series_env : Env := mkEnv (λ _, []) [] id idle_gen (λ x, x).

Lemma series_searched adj g ps :
  run Debug 2000 series_env adj g true None 1 None None = Some (Val ps) → searched adj g ps.
Proof.
  intros E. exists series_env, None, 1, None, Debug. split; [done|]. split; [done|]. split; [done|].
  eapply finishes_of; [|exact E]. intros fuel fuel' r. apply search_single_mono.
Qed.

(** Dependencies as a list of pairs. *)
Definition pairs_of (g : order) : list (nat * nat) := concat (map (λ e : nat * list nat, map (pair e.1) e.2) (concat g)).

Lemma depends_pairs g b d : depends g b d ↔ (b, d) ∈ pairs_of g.
Proof.
  unfold pairs_of, depends. rewrite elem_of_concat. setoid_rewrite elem_of_list_fmap. split.
  - intros (l & ds & Hl & Hb & Hd). exists (map (pair b) ds). split.
    + exists (b, ds). split; [done|]. apply elem_of_concat. by exists l.
    + apply elem_of_list_fmap. by exists d.
  - intros (s & ([b' ds] & -> & He) & H). apply elem_of_list_fmap in H as (d' & [= -> ->] & Hd).
    apply elem_of_concat in He as (l & Hl & He). by exists l, ds.
Qed.

Lemma listed_below g b (P : nat → Prop) : listed g b → Forall P (qubits g) → P b.
Proof. rewrite listed_qubits, Forall_forall. auto. Qed.

Lemma stages_series : series stage1 stage2 stages_order.
Proof.
  split.
  - intros b. rewrite !listed_qubits. unfold qubits. simpl. rewrite !elem_of_cons, elem_of_nil. tauto.
  - intros b. rewrite !listed_qubits. unfold qubits. simpl. rewrite !elem_of_cons, elem_of_nil. lia.
  - intros b d. rewrite listed_qubits, !depends_pairs. unfold qubits, pairs_of. simpl.
    rewrite !elem_of_cons, !elem_of_nil. naive_solver.
  - intros b d. rewrite !listed_qubits, !depends_pairs. unfold qubits, pairs_of. simpl.
    rewrite !elem_of_cons, !elem_of_nil. intros H1 H2. naive_solver.
  - intros b d Hb Hd.
    assert (∀ d, listed stage1 d → depends stages_order 3 d ∧ depends stages_order 4 d) as H.
    { intros x Hx. apply listed_qubits in Hx. unfold qubits in Hx. simpl in Hx. rewrite !depends_pairs.
      repeat (apply elem_of_cons in Hx as [-> |Hx]; [split; by apply (bool_decide_unpack _)|]). by apply elem_of_nil in Hx. }
    destruct (H d Hd) as [H3 H4]. apply listed_qubits in Hb. unfold qubits in Hb. simpl in Hb.
    rewrite !elem_of_cons, elem_of_nil in Hb. destruct Hb as [-> |[-> |[-> |[]]]].
    + by apply tc_once.
    + by apply tc_once.
    + eapply tc_l; [|apply tc_once, H3]. apply depends_pairs. by apply (bool_decide_unpack _).
Qed.

Lemma stages_disconnected : disconnected stages stage1 stage2.
Proof.
  split; intros u v Hu Hv; apply listed_qubits in Hu; unfold qubits in Hu; simpl in Hu; rewrite listed_qubits;
    unfold qubits; simpl; repeat (apply elem_of_cons in Hu as [-> |Hu];
    [unfold neighbours in Hv; simpl in Hv; rewrite !elem_of_cons, elem_of_nil in *; lia|]); by apply elem_of_nil in Hu.
Qed.

(** The first stage takes one step with three qubits in memory or two steps with two, the
    second one takes two steps with two; together three steps with three or four steps
    with two. *)
Example C81_example :
  wf_input stages stages_order ∧ wf_input stages stage1 ∧ wf_input stages stage2 ∧
  series stage1 stage2 stages_order ∧ disconnected stages stage1 stage2 ∧
  searched stages stage1 [MkPath 1 3 [[0; 1; 2]]; MkPath 2 2 [[2]; [0; 1]]] ∧
  searched stages stage2 [MkPath 2 2 [[3]; [4; 5]]] ∧
  searched stages stages_order [MkPath 3 3 [[0; 1; 2]; [3; 4]; [5]]; MkPath 4 2 [[2]; [0; 1]; [3]; [4; 5]]].
Proof.
  do 3 (split; [by apply wf_input_checked; vm_compute|]).
  split; [exact stages_series|]. split; [exact stages_disconnected|].
  split; [|split]; apply series_searched; by vm_compute.
Qed.

Example C81_wire_example :
  total_order (wire_order 4) [0; 1; 2; 3] ∧
  searched (line 4) (wire_order 4) [MkPath 4 2 [[0]; [1]; [2]; [3]]].
Proof. split; [exact (wire_total 4)|]. apply series_searched. by vm_compute. Qed.

(** It does not suffice that no edge connects the stages: neighbours of the first stage
    that are never measured stay in memory during the second one. *)
Definition kept : spacial := [[1; 2]; [0]; [0]; [4]; [3]].
Definition kept1 : order := [[(0, [])]].
Definition kept2 : order := [[(3, []); (4, [])]].
Definition kept_order : order := [[(0, [])]; [(3, [0]); (4, [0])]].

Lemma kept_series : series kept1 kept2 kept_order.
Proof.
  split.
  - intros b. rewrite !listed_qubits. unfold qubits. simpl. rewrite !elem_of_cons, elem_of_nil. tauto.
  - intros b. rewrite !listed_qubits. unfold qubits. simpl. rewrite !elem_of_cons, elem_of_nil. lia.
  - intros b d. rewrite listed_qubits, !depends_pairs. unfold qubits, pairs_of. simpl.
    rewrite !elem_of_cons, !elem_of_nil. naive_solver.
  - intros b d. rewrite !listed_qubits, !depends_pairs. unfold qubits, pairs_of. simpl.
    rewrite !elem_of_cons, !elem_of_nil. intros H1 H2. naive_solver.
  - intros b d Hb Hd. apply tc_once, depends_pairs. apply listed_qubits in Hb. apply listed_qubits in Hd.
    unfold qubits in *. simpl in *. apply elem_of_list_singleton in Hd as ->.
    repeat (apply elem_of_cons in Hb as [-> |Hb]; [by apply (bool_decide_unpack _)|]). by apply elem_of_nil in Hb.
Qed.

Theorem C81_kept_refuted :
  ¬ (∀ adj g g1 g2 ps ps1 ps2 p p1 p2,
     wf_input adj g → wf_input adj g1 → wf_input adj g2 → series g1 g2 g →
     (∀ u v, listed g1 u → v ∈ neighbours adj u → ¬ listed g2 v) →
     (∀ u v, listed g2 u → v ∈ neighbours adj u → ¬ listed g1 v) →
     searched adj g ps → searched adj g1 ps1 → searched adj g2 ps2 →
     last ps = Some p → last ps1 = Some p1 → last ps2 = Some p2 → space p = N.max (space p1) (space p2)).
Proof.
  intros H.
  assert (space (MkPath 2 4 [[0]; [3; 4]]) = N.max (space (MkPath 1 3 [[0]])) (space (MkPath 1 2 [[3; 4]]))) as Hbad; [|done].
  apply (H kept kept_order kept1 kept2 [MkPath 2 4 [[0]; [3; 4]]] [MkPath 1 3 [[0]]] [MkPath 1 2 [[3; 4]]]); [| | |exact kept_series| | | | | |done..].
  1-3: by apply wf_input_checked; vm_compute.
  1-2: intros u v Hu Hv; apply listed_qubits in Hu; unfold qubits in Hu; simpl in Hu; rewrite listed_qubits;
    unfold qubits; simpl; repeat (apply elem_of_cons in Hu as [-> |Hu];
    [unfold neighbours in Hv; simpl in Hv; rewrite !elem_of_cons, elem_of_nil in *; lia|]); by apply elem_of_nil in Hu.
  all: apply series_searched; by vm_compute.
Qed.
Print Assumptions C81_kept_refuted.
