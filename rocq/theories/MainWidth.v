(** * Path decompositions: results *)
From Verif Require Export WidthFacts MainParts.

Lemma front_decomposition adj g ps :
  wf_input adj g → undirected adj → pareto_front adj g ps →
  ∀ t w, (∃ p, p ∈ ps ∧ time p ≤ t ∧ (space p <= N.of_nat w)%N) ↔
         (∃ bags, decomposition adj g bags ∧ length bags ≤ t ∧ bags_within w bags).
Proof.
  intros Hin Hun (Hok & _ & Hcov) t w. rewrite Forall_forall in Hok. split.
  - intros (p & Hp & Ht & Hs). destruct (Hok p Hp) as (Hv & Ht' & Hs'). exists (bags_of adj (steps p)). split; [|split].
    + by apply bags_of_decomposition.
    + rewrite bags_of_length. unfold time_cost in Ht'. lia.
    + intros B HB. pose proof (bags_of_within adj (steps p) B HB). lia.
  - intros (bags & Hd & Hl & Hw). destruct (schedule_of_decomposition adj g bags Hin Hd w Hw) as (Hv & Hl' & Hs).
    destruct (Hcov _ Hv) as (p & Hp & Ht & Hs'). exists p. split; [done|]. unfold time_cost in Ht. lia.
Qed.

Lemma run_decompositions :
  ∀ adj g ps, wf_input adj g → undirected adj → (∃ b, listed g b) → searched adj g ps →
  ∀ t w, (∃ p, p ∈ ps ∧ time p ≤ t ∧ (space p <= N.of_nat w)%N) ↔
         (∃ bags, decomposition adj g bags ∧ length bags ≤ t ∧ bags_within w bags).
Proof.
  intros adj g ps Hin Hun Hl Hps. apply front_decomposition; [done|done|]. by apply searched_front.
Qed.

(** Without dependencies and with all nodes measured. *)
Lemma decomposition_plain adj g bags :
  wf_input adj g → (∀ v, v < length adj → listed g v) → (∀ b d, ¬ depends g b d) →
  decomposition adj g bags ↔ path_decomposition adj bags.
Proof.
  intros Hin Hall Hno.
  assert (∀ u v, v ∈ neighbours adj u → listed g u) as Hlu.
  { intros u v Hv. apply Hall. unfold neighbours in Hv. destruct (adj !! u) as [ns|] eqn:E; [by eapply lookup_lt_Some|].
    by apply elem_of_nil in Hv. }
  split.
  - intros [H1 H2 H3 H4 H5 H6 H7]. split; [done|done| | |done].
    + intros v Hv. by apply H3, Hall.
    + intros u v Hv. apply H4; [by eapply Hlu|done].
  - intros [H1 H2 H3 H4 H5]. split; [done|done| | |done| |].
    + intros b Hb. by apply H3, (node_range adj g Hin).
    + intros u v _ Hv. by apply H4.
    + intros i j A B v Hij HA HB Hnl HvA. exfalso. apply Hnl, Hall, (H2 A); [by eapply elem_of_list_lookup_2|done].
    + intros b d Hd. by destruct (Hno b d).
Qed.

Lemma run_pathwidth :
  ∀ adj g ps p, wf_input adj g → undirected adj → (∃ v, v < length adj) →
  (∀ v, v < length adj → listed g v) → (∀ b d, ¬ depends g b d) →
  searched adj g ps → last ps = Some p →
  (∃ bags, path_decomposition adj bags ∧ bags_within (N.to_nat (space p)) bags) ∧
  (∀ bags w, path_decomposition adj bags → bags_within w bags → (space p <= N.of_nat w)%N).
Proof.
  intros adj g ps p Hin Hun [v Hv] Hall Hno Hps Hlast.
  assert (pareto_front adj g ps) as Hf by (apply searched_front; [done|exists v; by apply Hall|done]).
  pose proof (front_decomposition adj g ps Hin Hun Hf) as H. split.
  - destruct (proj1 (H (time p) (N.to_nat (space p)))) as (bags & Hd & _ & Hw).
    + exists p. split; [by apply last_Some_elem_of|]. split; [done|lia].
    + exists bags. split; [by apply (decomposition_plain adj g)|done].
  - intros bags w Hd Hw. destruct (proj2 (H (length bags) w)) as (q & Hq & _ & Hs).
    + exists bags. split; [by apply (decomposition_plain adj g)|done].
    + destruct Hf as (_ & Ht & _). pose proof (tradeoff_last _ _ _ Ht Hlast Hq). lia.
Qed.

(** Whatever the settings. *)
Lemma run_width :
  ∀ adj g env do_search timeout nthreads bound prob bd fuel ps p,
  wf_input adj g → (∀ l, e_hash_order env l ≡ₚ l) → undirected adj →
  run bd fuel env adj g do_search timeout nthreads bound prob = Some (Val ps) → p ∈ ps →
  ∃ bags, decomposition adj g bags ∧ length bags = time p ∧ bags_within (N.to_nat (space p)) bags.
Proof.
  intros adj g env do_search timeout nthreads bound prob bd fuel ps p Hin Hho Hun Hr Hp.
  destruct (run_valid adj g env do_search timeout nthreads bound prob bd fuel _ Hin Hho Hr)
    as [(ps' & [= <-] & Hok & _)|[? _]]; [|done].
  rewrite Forall_forall in Hok. destruct (Hok p Hp) as (Hv & Ht & Hs). exists (bags_of adj (steps p)). split; [|split].
  - by apply bags_of_decomposition.
  - by rewrite bags_of_length.
  - rewrite Hs, Nat2N.id. apply bags_of_within.
Qed.

(** ** A line of nodes *)

Definition line (n : nat) : spacial :=
  map (λ i, filter (λ j, j = S i ∨ i = S j) (seq 0 n)) (seq 0 n).
Definition line_order (n : nat) : order := [map (λ i, (i, [])) (seq 0 n)].

Lemma line_length n : length (line n) = n.
Proof. unfold line. by rewrite map_length, seq_length. Qed.

Lemma line_neighbours n u v : v ∈ neighbours (line n) u ↔ u < n ∧ v < n ∧ (v = S u ∨ u = S v).
Proof.
  unfold neighbours. destruct (line n !! u) as [ns|] eqn:E; simpl.
  - unfold line in E. apply list_lookup_fmap_inv in E as (i & -> & Hi). apply lookup_seq in Hi as [-> Hu]. simpl.
    rewrite elem_of_list_filter, elem_of_seq. naive_solver lia.
  - apply lookup_ge_None in E. rewrite line_length in E. split; [by intros ?%elem_of_nil|lia].
Qed.

Lemma line_qubits n : qubits (line_order n) = seq 0 n.
Proof. unfold qubits, line_order. simpl. rewrite app_nil_r, map_map. simpl. apply map_id. Qed.

Lemma line_wf n : (N.of_nat n < 2 ^ 64 - 1)%N → wf_input (line n) (line_order n).
Proof.
  intros Hn. split; [split|split].
  - intros ns v Hns Hv. rewrite line_length. unfold line in Hns. apply elem_of_list_fmap in Hns as (i & -> & _).
    apply elem_of_list_filter in Hv as [_ Hv]. apply elem_of_seq in Hv. lia.
  - by rewrite line_length.
  - intros b. rewrite line_qubits, line_length, elem_of_seq. lia.
  - rewrite line_qubits. apply NoDup_seq.
  - intros b ds. simpl. by intros (i & [= -> ->] & _)%elem_of_list_fmap.
  - intros k layer b ds Hk. by destruct k.
Qed.

Lemma line_undirected n : undirected (line n).
Proof. intros u v. rewrite !line_neighbours. naive_solver. Qed.

Lemma line_independent n b d : ¬ depends (line_order n) b d.
Proof.
  intros (l & ds & Hl & Hb & Hd). apply elem_of_list_singleton in Hl as ->.
  apply elem_of_list_fmap in Hb as (i & [= -> ->] & _). by apply elem_of_nil in Hd.
Qed.

Lemma line_decomposition n :
  2 ≤ n → path_decomposition (line n) (map (λ i, [i; S i]) (seq 0 (n - 1))).
Proof.
  intros Hn.
  assert (∀ k B, map (λ i, [i; S i]) (seq 0 (n - 1)) !! k = Some B → k < n - 1 ∧ B = [k; S k]) as Hlk.
  { intros k B H. apply list_lookup_fmap_inv in H as (i & -> & Hi). apply lookup_seq in Hi as [-> ?]. done. }
  split.
  - intros B (i & -> & _)%elem_of_list_fmap. apply NoDup_cons. split; [|apply NoDup_singleton].
    rewrite elem_of_list_singleton. lia.
  - intros B v (i & -> & Hi%elem_of_seq)%elem_of_list_fmap. rewrite line_length, !elem_of_cons, elem_of_nil. lia.
  - intros v. rewrite line_length. intros Hv. exists (if decide (v < n - 1) then [v; S v] else [n - 2; S (n - 2)]). case_decide.
    + split; [apply elem_of_list_fmap; exists v; split; [done|apply elem_of_seq; lia]|left].
    + split; [apply elem_of_list_fmap; exists (n - 2); split; [done|apply elem_of_seq; lia]|].
      replace v with (S (n - 2)) by lia. right. left.
  - intros u v (Hu & Hv & [-> | ->])%line_neighbours.
    + exists [u; S u]. split; [apply elem_of_list_fmap; exists u; split; [done|apply elem_of_seq; lia]|].
      split; [left|right; left].
    + exists [v; S v]. split; [apply elem_of_list_fmap; exists v; split; [done|apply elem_of_seq; lia]|].
      split; [right; left|left].
  - intros i j k A B C v Hij Hjk [Hi ->]%Hlk [Hj ->]%Hlk [Hk ->]%Hlk. rewrite !elem_of_cons, elem_of_nil. lia.
Qed.

Lemma run_line :
  ∀ n ps p, 2 ≤ n → (N.of_nat n < 2 ^ 64 - 1)%N →
  searched (line n) (line_order n) ps → last ps = Some p → space p = 2%N.
Proof.
  intros n ps p Hn Hb Hps Hlast.
  assert (∀ v, v < length (line n) → listed (line_order n) v) as Hall.
  { intros v. rewrite line_length. intros Hv. apply listed_qubits. rewrite line_qubits. apply elem_of_seq. lia. }
  destruct (run_pathwidth (line n) (line_order n) ps p) as [(bags & Hd & Hw) Hmin]; [by apply line_wf|
    apply line_undirected|exists 0; rewrite line_length; lia|done|apply line_independent|done|done|].
  apply N.le_antisymm.
  - apply (Hmin _ 2 (line_decomposition n Hn)). intros B (i & -> & _)%elem_of_list_fmap. done.
  - destruct (pd_edges _ _ Hd 0 1) as (B & HB & H0 & H1); [apply line_neighbours; lia|].
    specialize (Hw B HB). assert (2 ≤ length B); [|lia].
    assert ([0; 1] ⊆+ B) as Hsub%submseteq_length; [|done]. apply NoDup_submseteq.
    + apply NoDup_cons. split; [|apply NoDup_singleton]. by rewrite elem_of_list_singleton.
    + intros v. rewrite !elem_of_cons, elem_of_nil. naive_solver.
Qed.
