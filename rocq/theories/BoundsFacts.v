(** * Lower bounds of the costs: proofs *)
From Verif Require Export BoundsSpec MainWidth.

Lemma subset_memory adj σ k l :
  k < length σ → NoDup l → (∀ v, v ∈ l → v < length adj ∧ occupies adj σ k v) → length l ≤ space_cost adj σ.
Proof.
  intros Hk Hnd Hl. etrans; [|by apply (memory_space adj σ k)]. unfold memory_at.
  apply submseteq_length, NoDup_submseteq; [done|]. intros v Hv. destruct (Hl v Hv) as [H1 H2].
  apply elem_of_list_filter. split; [done|]. apply elem_of_seq. lia.
Qed.

Section lower.
  Context (adj : spacial) (g : order) (σ : schedule) (Hin : wf_input adj g) (Hσ : valid_schedule g σ).

  Lemma step_memory M : M ∈ σ → length M ≤ space_cost adj σ.
  Proof.
    intros (k & HM)%elem_of_list_lookup. apply (subset_memory adj σ k).
    - by eapply lookup_lt_Some.
    - pose proof (lp_once _ _ (vs_legal _ _ Hσ)) as Hnd. rewrite <- (take_drop_middle σ k M HM) in Hnd.
      rewrite concat_app in Hnd. simpl in Hnd. apply NoDup_app in Hnd as (_ & _ & Hnd). by apply NoDup_app in Hnd as (? & _).
    - intros v Hv. split.
      + apply (node_range adj g Hin), (lp_listed _ _ (vs_legal _ _ Hσ)), elem_of_concat. exists M.
        split; [by eapply elem_of_list_lookup_2|done].
      + by eapply occupies_own.
  Qed.

  Lemma concat_length_le (τ : schedule) s : (∀ M, M ∈ τ → length M ≤ s) → length (concat τ) ≤ length τ * s.
  Proof.
    induction τ as [|M τ IH]; intros H; simpl; [lia|]. rewrite app_length.
    pose proof (H M (elem_of_list_here _ _)). assert (length (concat τ) ≤ length τ * s); [|lia].
    apply IH. intros N HN. apply H. by right.
  Qed.

  Lemma schedule_area : length (qubits g) ≤ time_cost σ * space_cost adj σ.
  Proof.
    etrans; [|apply concat_length_le, step_memory]. apply submseteq_length, NoDup_submseteq; [apply Hin|].
    intros b Hb. by apply (vs_complete _ _ Hσ), listed_qubits.
  Qed.

  Lemma schedule_clique K : clique adj K → (∃ b, b ∈ K ∧ listed g b) → length K ≤ space_cost adj σ.
  Proof.
    intros (Hnd & Hr & HK) (b & HbK & Hb). destruct (step_of g σ Hσ b Hb) as (k & M & HM & HbM).
    (* the first step in which a member is measured *)
    assert (∃ j N c, σ !! j = Some N ∧ c ∈ N ∧ c ∈ K ∧ ∀ v, v ∈ K → v ∉ concat (take j σ)) as (j & N & c & HN & HcN & HcK & Hfirst).
    { revert M b HM HbM HbK Hb. induction (lt_wf k) as [k _ IH]. intros M b HM HbM HbK Hb.
      destruct (decide (Exists (λ v, v ∈ concat (take k σ)) K)) as [He|He].
      - apply Exists_exists in He as (v & HvK & Hv). apply elem_of_take_concat in Hv as (j & N & Hj & HN & HvN).
        apply (IH j Hj N v); [done|done|done|]. apply (lp_listed _ _ (vs_legal _ _ Hσ)), elem_of_concat. exists N.
        split; [by eapply elem_of_list_lookup_2|done].
      - exists k, M, b. split; [done|]. split; [done|]. split; [done|]. intros v HvK Hv. apply He, Exists_exists. by exists v. }
    apply (subset_memory adj σ j); [by eapply lookup_lt_Some|done|]. intros v Hv. split; [by apply Hr|].
    split; [by apply Hfirst|]. assert (c ∈ concat (take (S j) σ)) as Hc.
    { apply elem_of_take_concat. exists j, N. split; [lia|done]. }
    destruct (decide (v = c)) as [->|Hne]; [by left|]. right. exists c. split; [done|]. by apply HK.
  Qed.

  Lemma schedule_first :
    (∃ b, listed g b) →
    ∃ b, listed g b ∧ (∀ d, ¬ depends g b d) ∧ length (closed_neighbourhood adj b) ≤ space_cost adj σ.
  Proof.
    intros [b0 Hb0]. destruct (step_of g σ Hσ b0 Hb0) as (k0 & M0 & HM0 & _).
    destruct σ as [|M τ] eqn:E; [done|]. destruct M as [|b M].
    { exfalso. eapply (lp_nonempty _ _ (vs_legal _ _ Hσ) []); [|done]. left. }
    assert (listed g b) as Hb.
    { apply (lp_listed _ _ (vs_legal _ _ Hσ)). simpl. left. }
    exists b. split; [done|]. split.
    - intros d Hd. pose proof (lp_order _ _ (vs_legal _ _ Hσ) 0 (b :: M) b d eq_refl (elem_of_list_here _ _) Hd) as H.
      simpl in H. by apply elem_of_nil in H.
    - apply (subset_memory adj _ 0); [simpl; lia|apply NoDup_remove_dups|].
      intros v Hv. unfold closed_neighbourhood in Hv. rewrite elem_of_remove_dups in Hv. split.
      + apply elem_of_cons in Hv as [->|Hv]; [by apply (node_range adj g Hin)|by eapply (neighbour_node adj g Hin)].
      + split; [by intros ?%elem_of_nil|]. apply elem_of_cons in Hv as [->|Hv].
        * left. simpl. left.
        * right. exists b. split; [simpl; left|done].
  Qed.
End lower.

Lemma run_lower :
  ∀ adj g env do_search timeout nthreads bound prob bd fuel ps p,
  wf_input adj g → (∀ l, e_hash_order env l ≡ₚ l) → (∃ b, listed g b) →
  run bd fuel env adj g do_search timeout nthreads bound prob = Some (Val ps) → p ∈ ps →
  (* no step measures more qubits than fit into the memory *)
  (N.of_nat (length (qubits g)) <= N.of_nat (time p) * space p)%N ∧
  (* before the first member of a clique is measured all of them are in memory *)
  (∀ K, clique adj K → (∃ b, b ∈ K ∧ listed g b) → (N.of_nat (length K) <= space p)%N) ∧
  (* for the first measurement a qubit without dependencies needs its neighbours *)
  (∃ b, listed g b ∧ (∀ d, ¬ depends g b d) ∧ (N.of_nat (length (closed_neighbourhood adj b)) <= space p)%N).
Proof.
  intros adj g env do_search timeout nthreads bound prob bd fuel ps p Hin Hho Hl Hr Hp.
  destruct (run_valid adj g env do_search timeout nthreads bound prob bd fuel _ Hin Hho Hr)
    as [(ps' & [= <-] & Hok & _)|[? _]]; [|done].
  rewrite Forall_forall in Hok. destruct (Hok p Hp) as (Hv & Ht & Hs). split; [|split].
  - pose proof (schedule_area adj g (steps p) Hin Hv). rewrite Ht, Hs. lia.
  - intros K HK Hb. pose proof (schedule_clique adj g (steps p) Hv K HK Hb). lia.
  - destruct (schedule_first adj g (steps p) Hin Hv Hl) as (b & H1 & H2 & H3). exists b. split; [done|]. split; [done|]. lia.
Qed.

(** ** Complete graphs *)

Lemma complete_length n : length (complete n) = n.
Proof. unfold complete. by rewrite map_length, seq_length. Qed.

Lemma complete_neighbours n u v : v ∈ neighbours (complete n) u ↔ u < n ∧ v < n ∧ v ≠ u.
Proof.
  unfold neighbours. destruct (complete n !! u) as [ns|] eqn:E; simpl.
  - unfold complete in E. apply list_lookup_fmap_inv in E as (i & -> & Hi). apply lookup_seq in Hi as [-> Hu]. simpl.
    rewrite elem_of_list_filter, elem_of_seq. naive_solver lia.
  - apply lookup_ge_None in E. rewrite complete_length in E. split; [by intros ?%elem_of_nil|lia].
Qed.

Lemma complete_wf n : (N.of_nat n < 2 ^ 64 - 1)%N → wf_input (complete n) (no_dependencies n).
Proof.
  intros Hn. pose proof (line_wf n Hn) as [_ Hg]. split; [split|].
  - intros ns v Hns Hv. rewrite complete_length. unfold complete in Hns. apply elem_of_list_fmap in Hns as (i & -> & _).
    apply elem_of_list_filter in Hv as [_ Hv]. apply elem_of_seq in Hv. lia.
  - by rewrite complete_length.
  - rewrite complete_length. by rewrite line_length in Hg.
Qed.

Lemma run_complete :
  ∀ n ps, 1 ≤ n → (N.of_nat n < 2 ^ 64 - 1)%N → searched (complete n) (no_dependencies n) ps →
  ∃ p, ps = [p] ∧ time p = 1 ∧ space p = N.of_nat n.
Proof.
  intros n ps Hn Hb Hps. pose proof (complete_wf n Hb) as Hin.
  assert (∀ v, v < n ↔ listed (no_dependencies n) v) as Hall.
  { intros v. rewrite listed_qubits. change (no_dependencies n) with (line_order n). rewrite line_qubits, elem_of_seq. lia. }
  assert (clique (complete n) (seq 0 n)) as HK.
  { split; [apply NoDup_seq|]. split; [intros v; rewrite complete_length, elem_of_seq; lia|].
    intros u v. rewrite !elem_of_seq, complete_neighbours. lia. }
  assert (pareto_front (complete n) (no_dependencies n) ps) as (Hok & Ht & Hcov).
  { apply searched_front; [done|exists 0; apply Hall; lia|done]. }
  assert (valid_schedule (no_dependencies n) [seq 0 n]) as Hv.
  { split; [split|].
    - intros S ->%elem_of_list_singleton. by destruct n; [lia|].
    - simpl. rewrite app_nil_r. apply NoDup_seq.
    - intros b. simpl. rewrite app_nil_r, elem_of_seq. intros H. apply Hall. lia.
    - intros k S b d _ _ H. by apply (line_independent n b d) in H.
    - intros b Hb'. simpl. rewrite app_nil_r. apply elem_of_seq. apply Hall in Hb'. lia. }
  destruct (Hcov _ Hv) as (p & Hp & Hpt & Hps'). unfold time_cost in Hpt. simpl in Hpt.
  rewrite Forall_forall in Hok.
  assert (∀ q, q ∈ ps → (N.of_nat n <= space q)%N ∧ 1 ≤ time q) as Hlow.
  { intros q Hq. destruct (Hok q Hq) as (Hvq & Htq & Hsq). split.
    - rewrite Hsq. pose proof (schedule_clique (complete n) (no_dependencies n) (steps q) Hvq (seq 0 n) HK) as H.
      rewrite seq_length in H. assert (n ≤ space_cost (complete n) (steps q)); [|lia]. apply H.
      exists 0. split; [apply elem_of_seq; lia|apply Hall; lia].
    - rewrite Htq. unfold time_cost. destruct (steps q) as [|S τ] eqn:E; simpl; [|lia].
      assert (listed (no_dependencies n) 0) as H0 by (apply Hall; lia).
      apply (vs_complete _ _ Hvq) in H0. by apply elem_of_nil in H0. }
  assert (space_cost (complete n) [seq 0 n] ≤ n) as Hup.
  { apply space_cost_lub. intros k _. unfold memory_at. etrans; [apply filter_length|]. by rewrite seq_length, complete_length. }
  assert (∀ q, q ∈ ps → q = p) as Hone.
  { intros q Hq. apply elem_of_list_lookup in Hq as (i & Hi). apply elem_of_list_lookup in Hp as (j & Hj).
    pose proof (Hlow q (elem_of_list_lookup_2 _ _ _ Hi)) as [Hq1 Hq2].
    destruct (lt_eq_lt_dec i j) as [[Hlt| ->]|Hlt].
    - destruct (Ht i j q p Hlt Hi Hj). lia.
    - congruence.
    - destruct (Ht j i p q Hlt Hj Hi). lia. }
  exists p. pose proof (Hlow p Hp) as [H1 H2]. split; [|split; lia].
  destruct ps as [|a [|b ps]]; [by apply elem_of_nil in Hp| |].
  - by rewrite (Hone a (elem_of_list_here _ _)).
  - exfalso. pose proof (Hone a (elem_of_list_here _ _)) as Ha.
    assert (b = p) as Hb' by (apply Hone; right; left). subst a b.
    destruct (Ht 0 1 p p); [lia|done|done|lia].
Qed.

(** ** Nodes without edges *)

Lemma edgeless_neighbours n u v : v ∉ neighbours (replicate n []) u.
Proof.
  unfold neighbours. destruct (replicate n [] !! u) as [ns|] eqn:E; simpl; [|by intros ?%elem_of_nil].
  apply lookup_replicate in E as [-> _]. by intros ?%elem_of_nil.
Qed.

Lemma edgeless_wf n : (N.of_nat n < 2 ^ 64 - 1)%N → wf_input (replicate n []) (no_dependencies n).
Proof.
  intros Hn. pose proof (line_wf n Hn) as [_ Hg]. split; [split|].
  - intros ns v Hns Hv. apply elem_of_replicate in Hns as [-> _]. by apply elem_of_nil in Hv.
  - by rewrite replicate_length.
  - rewrite replicate_length. by rewrite line_length in Hg.
Qed.

Lemma edgeless_decomposition n t w :
  1 ≤ w → n ≤ t * w → path_decomposition (replicate n []) (map (λ i, seq (i * w) (min w (n - i * w))) (seq 0 t)).
Proof.
  intros Hw Hn. split.
  - intros B (i & -> & _)%elem_of_list_fmap. apply NoDup_seq.
  - intros B v (i & -> & _)%elem_of_list_fmap. rewrite elem_of_seq, replicate_length. lia.
  - intros v. rewrite replicate_length. intros Hv.
    pose proof (Nat.div_mod v w ltac:(lia)) as Hd. pose proof (Nat.mod_upper_bound v w ltac:(lia)) as Hm.
    exists (seq (v / w * w) (min w (n - v / w * w))). split.
    + apply elem_of_list_fmap. exists (v / w). split; [done|]. apply elem_of_seq. split; [lia|]. simpl.
      apply Nat.div_lt_upper_bound; [lia|]. nia.
    + apply elem_of_seq. nia.
  - intros u v Hv. by apply edgeless_neighbours in Hv.
  - intros i j k A B C v Hij Hjk HA HB HC HvA HvC.
    apply list_lookup_fmap_inv in HA as (i' & -> & Hi). apply lookup_seq in Hi as [-> _].
    apply list_lookup_fmap_inv in HC as (k' & -> & Hk). apply lookup_seq in Hk as [-> _].
    apply list_lookup_fmap_inv in HB as (j' & -> & Hj). apply lookup_seq in Hj as [-> _].
    simpl in *. rewrite elem_of_seq in *. assert (i = k) as -> by nia. assert (j = k) as -> by lia. lia.
Qed.

Lemma run_edgeless :
  ∀ n ps, 1 ≤ n → (N.of_nat n < 2 ^ 64 - 1)%N → searched (replicate n []) (no_dependencies n) ps →
  ∀ t w, (∃ p, p ∈ ps ∧ time p ≤ t ∧ (space p <= N.of_nat w)%N) ↔ n ≤ t * w.
Proof.
  intros n ps Hn Hb Hps t w. pose proof (edgeless_wf n Hb) as Hin.
  assert (∀ v, v < n ↔ listed (no_dependencies n) v) as Hall.
  { intros v. rewrite listed_qubits. change (no_dependencies n) with (line_order n). rewrite line_qubits, elem_of_seq. lia. }
  assert (pareto_front (replicate n []) (no_dependencies n) ps) as Hf.
  { apply searched_front; [done|exists 0; apply Hall; lia|done]. }
  split.
  - intros (p & Hp & Ht & Hs). destruct Hf as (Hok & _). rewrite Forall_forall in Hok.
    destruct (Hok p Hp) as (Hv & Ht' & Hs'). pose proof (schedule_area _ _ _ Hin Hv) as Ha.
    change (no_dependencies n) with (line_order n) in Ha. rewrite line_qubits, seq_length in Ha.
    assert (space_cost (replicate n []) (steps p) ≤ w) by lia. nia.
  - intros Ha. apply (front_decomposition _ _ _ Hin); [|done|].
    { intros u v Hv. by apply edgeless_neighbours in Hv. }
    exists (map (λ i, seq (i * w) (min w (n - i * w))) (seq 0 t)). split; [|split].
    + apply (decomposition_plain _ _ _ Hin); [| |apply edgeless_decomposition; [nia|done]].
      * intros v. rewrite replicate_length. apply Hall.
      * intros b d. apply line_independent.
    + by rewrite map_length, seq_length.
    + intros B (i & -> & _)%elem_of_list_fmap. rewrite seq_length. lia.
Qed.
