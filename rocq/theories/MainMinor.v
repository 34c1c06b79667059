(** * Minors: results *)
From Verif Require Export MinorSpec MainEmbed MainCluster.

Section minor.
  Context (B : nat → list nat) (adj' : spacial) (g' : order) (adj : spacial) (g : order).
  Context (Hin' : wf_input adj' g') (E : minor_of B adj' g' adj g).
  Context (Hn : (N.of_nat (length adj) < 2 ^ 64 - 1)%N).

  (** A qubit of the minor is measured with the last one it stands for. *)
  Definition complete_in (A : list nat) (w : nat) : Prop := Forall (λ x, x ∈ A) (B w).
  Global Instance complete_in_dec A w : Decision (complete_in A w).
  Proof. unfold complete_in. apply _. Defined.

  Definition gathered (σ : schedule) (k : nat) : list nat :=
    filter (λ w, complete_in (concat (take (S k) σ)) w ∧ ¬ complete_in (concat (take k σ)) w) (qubits g').
  Definition contraction (σ : schedule) : schedule :=
    filter (λ M : step, M ≠ []) (map (gathered σ) (seq 0 (length σ))).

  Lemma elem_of_gathered σ k w :
    w ∈ gathered σ k ↔ complete_in (concat (take (S k) σ)) w ∧ ¬ complete_in (concat (take k σ)) w ∧ listed g' w.
  Proof. unfold gathered. rewrite elem_of_list_filter, listed_qubits. naive_solver. Qed.

  Lemma gathered_snoc σ M k : k < length σ → gathered (σ ++ [M]) k = gathered σ k.
  Proof. intros Hk. unfold gathered. by rewrite !take_app_le by lia. Qed.

  Lemma contraction_snoc σ M :
    contraction (σ ++ [M]) =
    contraction σ ++ (if decide (gathered (σ ++ [M]) (length σ) = []) then [] else [gathered (σ ++ [M]) (length σ)]).
  Proof.
    unfold contraction. rewrite app_length. cbn [length]. rewrite Nat.add_1_r, seq_S, map_app, filter_app. f_equal.
    - f_equal. apply map_ext_in. intros k Hk%in_seq. apply gathered_snoc. lia.
    - rewrite Nat.add_0_l. cbn [map]. rewrite filter_cons.
      destruct (decide (gathered (σ ++ [M]) (length σ) = [])) as [H|H]; [rewrite decide_False by auto|rewrite decide_True by done]; done.
  Qed.

  Lemma take_snoc σ (M : step) : take (length σ) (σ ++ [M]) = σ ∧ take (S (length σ)) (σ ++ [M]) = σ ++ [M].
  Proof. split; [by rewrite take_app|]. rewrite take_ge; [done|]. rewrite app_length. simpl. lia. Qed.

  Lemma complete_more σ M w : complete_in (concat σ) w → complete_in (concat (σ ++ [M])) w.
  Proof. intros H. eapply Forall_impl; [exact H|]. intros x Hx. cbn in *. rewrite concat_app, elem_of_app. by left. Qed.

  Lemma listed_below w : listed g' w → w < length adj'.
  Proof. intros H. apply (wf_range _ _ (proj2 Hin')). by apply listed_qubits. Qed.

  Lemma elem_of_contraction σ w : w ∈ concat (contraction σ) ↔ complete_in (concat σ) w ∧ listed g' w.
  Proof.
    induction σ as [|M σ IH] using rev_ind.
    { cbn. rewrite elem_of_nil. split; [done|]. intros [H Hl]. pose proof (mn_nonempty _ _ _ _ _ E w (listed_below w Hl)) as Hne.
      unfold complete_in in H. destruct (B w) as [|x l]; [done|]. apply Forall_cons in H as [H _]. by apply elem_of_nil in H. }
    rewrite contraction_snoc, concat_app, elem_of_app, IH.
    pose proof (elem_of_gathered (σ ++ [M]) (length σ) w) as H. destruct (take_snoc σ M) as [E1 E2]. rewrite E1, E2 in H.
    pose proof (complete_more σ M w) as Hm.
    assert (w ∈ concat (if decide (gathered (σ ++ [M]) (length σ) = []) then [] else [gathered (σ ++ [M]) (length σ)]) ↔
      w ∈ gathered (σ ++ [M]) (length σ)) as ->.
    { case_decide as D; [by rewrite D|]. cbn. by rewrite app_nil_r. }
    rewrite H. destruct (decide (complete_in (concat σ) w)); naive_solver.
  Qed.

  Lemma contraction_length σ : length (contraction σ) ≤ length σ.
  Proof. unfold contraction. etrans; [apply filter_length|]. by rewrite map_length, seq_length. Qed.

  Lemma contraction_legal σ : legal_prefix g σ → legal_prefix g' (contraction σ).
  Proof.
    induction σ as [|M σ IH] using rev_ind; intros Hl.
    { split; simpl; try done; try by intros ? ?%elem_of_nil. constructor. }
    pose proof Hl as Hfull. apply legal_snoc in Hl as (Hl & _). rewrite contraction_snoc.
    case_decide as D; [rewrite app_nil_r; by apply IH|].
    apply legal_snoc. split; [by apply IH|]. split; [done|].
    split; [apply NoDup_filter, (wf_nodup _ _ (proj2 Hin'))|].
    intros b (H1 & H2 & H3)%elem_of_gathered. destruct (take_snoc σ M) as [E1 E2]. rewrite E1 in H2. rewrite E2 in H1.
    split; [done|]. split.
    - by intros [? _]%elem_of_contraction.
    - intros d Hd. apply elem_of_contraction. split; [|apply (wf_depends_listed _ _ _ _ (proj2 Hin') Hd)].
      apply Forall_forall. intros x Hx. destruct (mn_later _ _ _ _ _ E b d Hd x Hx) as (y & Hy & Hyx).
      unfold complete_in in H1. rewrite Forall_forall in H1. specialize (H1 y Hy).
      apply elem_of_concat in H1 as (L & HL & HyL). apply elem_of_list_lookup in HL as (k & Hk).
      pose proof (later_before _ _ _ _ _ _ Hfull Hyx Hk HyL) as Hbefore.
      apply lookup_lt_Some in Hk. rewrite app_length in Hk. cbn in Hk. rewrite take_app_le in Hbefore by lia.
      apply elem_of_concat in Hbefore as (L' & HL' & Hx'). apply elem_of_concat. exists L'. split; [|done].
      apply elem_of_list_lookup in HL' as (q & Hq). apply lookup_take_Some in Hq as [Hq _]. by eapply elem_of_list_lookup_2.
  Qed.

  Lemma contraction_valid σ : valid_schedule g σ → valid_schedule g' (contraction σ).
  Proof.
    intros [Hl Hc]. split; [by apply contraction_legal|]. intros b Hb. apply elem_of_contraction. split; [|done].
    apply Forall_forall. intros x Hx. apply Hc. by apply (mn_listed _ _ _ _ _ E b).
  Qed.

  (** Among the qubits that a qubit in memory stands for, there is one in memory. *)
  Lemma contraction_occupies σ M w :
    legal_prefix g σ → ¬ (complete_in (concat σ) w ∧ listed g' w) → w < length adj' →
    needed adj' (concat (contraction (σ ++ [M]))) w → ∃ x, x ∈ B w ∧ occupies adj (σ ++ [M]) (length σ) x.
  Proof.
    intros Hl Hnot Hw Hneed. unfold occupies. destruct (take_snoc σ M) as [-> ->].
    assert (∀ x, x ∈ concat σ → x ∈ concat (σ ++ [M])) as Hmono by (intros x Hx; rewrite concat_app, elem_of_app; by left).
    assert (∃ z, z ∈ B w ∧ z ∉ concat σ) as (z & Hz & Hzσ).
    { destruct (decide (complete_in (concat σ) w)) as [Hc|Hc].
      - exfalso. apply Hnot. split; [done|]. unfold complete_in in Hc. rewrite Forall_forall in Hc.
        destruct Hneed as [[_ H]%elem_of_contraction|(u & [_ Hu]%elem_of_contraction & Hv)]; [done|].
        apply (mn_kept _ _ _ _ _ E u w Hu Hv). intros x Hx. by apply (lp_listed _ _ Hl), Hc.
      - apply not_Forall_Exists in Hc; [|intros ?; apply _]. apply Exists_exists in Hc as (z & Hz & ?). by exists z. }
    destruct Hneed as [[Hc _]%elem_of_contraction|(u & [Hc Hu]%elem_of_contraction & Hv)];
      unfold complete_in in Hc; rewrite Forall_forall in Hc.
    { exists z. split; [done|]. split; [done|]. left. by apply Hc. }
    destruct (mn_edges _ _ _ _ _ E u w Hu Hv) as (x & y & Hx & Hy & Hxy).
    assert (needed adj (concat (σ ++ [M])) y) as Hny.
    { destruct Hxy as [->|Hxy]; [left; by apply Hc|]. right. exists x. split; [by apply Hc|done]. }
    destruct (decide (y ∈ concat σ)) as [Hyσ|Hyσ]; [|by exists y].
    pose proof (mn_connected _ _ _ _ _ E w Hw y z Hy Hz) as Hpath. clear Hny Hxy Hy Hz.
    induction Hpath as [v|v y' z [Hy' HyB] _ IH]; [done|].
    destruct (decide (y' ∈ concat σ)) as [Hyk|Hyk]; [by apply IH|].
    exists y'. split; [done|]. split; [done|]. right. exists v. split; [by apply Hmono|done].
  Qed.

  Lemma contraction_space σ : legal_prefix g σ → space_cost adj' (contraction σ) ≤ space_cost adj σ.
  Proof.
    assert (N.of_nat (length adj') < 2 ^ 64 - 1)%N as Hn' by exact (proj2 (proj1 Hin')).
    induction σ as [|M σ IH] using rev_ind; intros Hl; [done|].
    apply legal_snoc in Hl as (Hl & _). specialize (IH Hl).
    rewrite (space_cost_snoc adj Hn). pose proof (contraction_snoc σ M) as Es.
    destruct (decide (gathered (σ ++ [M]) (length σ) = [])) as [D|D]; [rewrite Es, app_nil_r; lia|].
    rewrite Es at 1. rewrite (space_cost_snoc adj' Hn'). apply Nat.max_le_compat; [done|]. unfold memory_at.
    set (P := occupies adj (σ ++ [M]) (length σ)).
    set (pick_one := λ w, default 0 (head (filter P (B w)))).
    assert (∀ w, w ∈ filter (occupies adj' (contraction σ ++ [gathered (σ ++ [M]) (length σ)]) (length (contraction σ)))
      (seq 0 (length adj')) → w < length adj' ∧ pick_one w ∈ B w ∧ P (pick_one w)) as Hpick.
    { intros w [Ho Hw%elem_of_seq]%elem_of_list_filter. split; [lia|].
      unfold occupies in Ho. destruct (take_snoc (contraction σ) (gathered (σ ++ [M]) (length σ))) as [E1 E2].
      rewrite E1, E2, <- Es in Ho. destruct Ho as [H1 H2]. rewrite elem_of_contraction in H1.
      destruct (contraction_occupies σ M w Hl H1 ltac:(lia) H2) as (x & Hx & Hox). unfold pick_one.
      assert (x ∈ filter P (B w)) as Hf by (apply elem_of_list_filter; by split).
      destruct (filter P (B w)) as [|y l] eqn:Ef; [by apply elem_of_nil in Hf|]. cbn.
      assert (y ∈ filter P (B w)) as Hyf by (rewrite Ef; left). apply elem_of_list_filter in Hyf as [? ?]. by split. }
    rewrite <- (map_length pick_one). apply submseteq_length, NoDup_submseteq.
    - apply NoDup_fmap_2_strong; [|apply NoDup_filter, NoDup_seq]. intros u v Hu Hv Euv.
      destruct (Hpick u Hu) as (Hul & HuB & _). destruct (Hpick v Hv) as (Hvl & HvB & _).
      apply (mn_disjoint _ _ _ _ _ E u v (pick_one u) Hul Hvl); [done|by rewrite Euv].
    - intros x (w & -> & Hw)%elem_of_list_fmap. destruct (Hpick w Hw) as (Hwl & HwB & HwP).
      apply elem_of_list_filter. split; [done|]. apply elem_of_seq.
      pose proof (mn_range _ _ _ _ _ E w _ Hwl HwB). lia.
  Qed.
End minor.

(** ** Whole runs *)

(** Whatever a run for the large input returns, an uninterrupted search for the minor
    returns something at least as good. *)
Lemma run_minor :
  ∀ B adj' g' adj g qs env do_search timeout nthreads bound prob bd fuel ps,
  wf_input adj' g' → wf_input adj g → minor_of B adj' g' adj g → (∃ b, listed g' b) →
  searched adj' g' qs → (∀ l, e_hash_order env l ≡ₚ l) →
  run bd fuel env adj g do_search timeout nthreads bound prob = Some (Val ps) →
  ∀ p, p ∈ ps → ∃ q, q ∈ qs ∧ time q ≤ time p ∧ (space q <= space p)%N.
Proof.
  intros B adj' g' adj g qs env do_search timeout nthreads bound prob bd fuel ps Hin' Hin E Hne Hqs Hho Hr p Hp.
  destruct (run_valid _ _ _ _ _ _ _ _ _ _ _ Hin Hho Hr) as [(ps' & [= <-] & Hok & _)|[? _]]; [|done].
  rewrite Forall_forall in Hok. destruct (Hok p Hp) as (Hv & Ht & Hm).
  apply searched_front in Hqs as (_ & _ & Hc); [|done|done].
  destruct (Hc (contraction B g' (steps p))) as (q & Hq & H1 & H2).
  { by apply (contraction_valid B adj' g' adj g Hin' E (proj2 (proj1 Hin))). }
  exists q. split; [done|]. rewrite Ht, Hm. unfold time_cost in *.
  pose proof (contraction_length B g' (steps p)) as Hlen.
  pose proof (contraction_space B adj' g' adj g Hin' E (proj2 (proj1 Hin)) (steps p) (vs_legal _ _ Hv)). split; lia.
Qed.

(** Without search the number of steps is the least one already. *)
Lemma run_minor_time :
  ∀ B adj' g' adj g env' timeout' nthreads' bound' prob' bd' q env do_search timeout nthreads bound prob bd fuel ps,
  wf_input adj' g' → wf_input adj g → minor_of B adj' g' adj g →
  returns (λ fuel, run bd' fuel env' adj' g' false timeout' nthreads' bound' prob') [q] →
  (∀ l, e_hash_order env l ≡ₚ l) →
  run bd fuel env adj g do_search timeout nthreads bound prob = Some (Val ps) →
  ∀ p, p ∈ ps → time q ≤ time p.
Proof.
  intros B adj' g' adj g env' timeout' nthreads' bound' prob' bd' q env do_search timeout nthreads bound prob bd fuel ps
    Hin' Hin E Hq Hho Hr p Hp.
  destruct (run_valid _ _ _ _ _ _ _ _ _ _ _ Hin Hho Hr) as [(ps' & [= <-] & Hok & _)|[? _]]; [|done].
  rewrite Forall_forall in Hok. destruct (Hok p Hp) as (Hv & Ht & _).
  destruct (time_optimal_valid adj' g' Hin') as (q' & Hq' & _ & Hle & _).
  assert (q = q') as ->.
  { destruct Hq as [f1 H1]. destruct (Hq' bd') as [f2 H2]. specialize (H1 (max f1 f2) ltac:(lia)).
    specialize (H2 (max f1 f2) ltac:(lia)). cbn in H1. congruence. }
  etrans; [by apply Hle, (contraction_valid B adj' g' adj g Hin' E (proj2 (proj1 Hin)))|]. rewrite Ht. apply contraction_length.
Qed.

(** ** Minors of the graph alone *)

Lemma unordered_qubits n : qubits (unordered n) = seq 0 n.
Proof.
  unfold qubits, unordered. cbn [concat]. rewrite app_nil_r, map_map. cbn [fst]. apply map_id.
Qed.

Lemma unordered_listed n v : listed (unordered n) v ↔ v < n.
Proof. rewrite listed_qubits, unordered_qubits, elem_of_seq. lia. Qed.

Lemma unordered_depends n b d : ¬ depends (unordered n) b d.
Proof.
  intros (l & ds & Hl & Hb & Hd). apply elem_of_list_singleton in Hl as ->.
  apply elem_of_list_fmap in Hb as (v & [= -> ->] & _). by apply elem_of_nil in Hd.
Qed.

Lemma unordered_wf adj : wf_spacial adj → wf_input adj (unordered (length adj)).
Proof.
  intros Ha. split; [done|]. split.
  - intros b. rewrite unordered_qubits, elem_of_seq. lia.
  - rewrite unordered_qubits. apply NoDup_seq.
  - intros b ds Hb. cbn in Hb. by apply elem_of_list_fmap in Hb as (v & [= -> ->] & _).
  - intros k layer b ds Hk. by destruct k.
Qed.

Lemma graph_minor_of B adj' adj g :
  wf_spacial adj' → wf_input adj g → graph_minor B adj' adj g → minor_of B adj' (unordered (length adj')) adj g.
Proof.
  intros Ha Hin [H1 H2 H3 H4 H5].
  assert (∀ u v, v ∈ neighbours adj' u → v < length adj') as Hnb.
  { intros u v Hv. unfold neighbours in Hv. destruct (adj' !! u) as [ns|] eqn:Eu; [|by apply elem_of_nil in Hv].
    apply (proj1 Ha ns v); [by eapply elem_of_list_lookup_2|done]. }
  split; try done.
  - intros w x Hw Hx. apply (wf_range _ _ (proj2 Hin)), listed_qubits, (H1 w x Hw Hx).
  - intros u v _. apply H5.
  - intros w Hw%unordered_listed x. by apply H1.
  - intros u v _ Hv _. apply unordered_listed, (Hnb u v Hv).
  - intros b d []%unordered_depends.
Qed.

(** The least memory of a graph, without dependencies, is a lower bound for every input
    whose graph has it as a minor. *)
Lemma run_graph_minor :
  ∀ B adj' adj g qs q env do_search timeout nthreads bound prob bd fuel ps,
  wf_spacial adj' → wf_input adj g → graph_minor B adj' adj g → adj' ≠ [] →
  searched adj' (unordered (length adj')) qs → last qs = Some q → (∀ l, e_hash_order env l ≡ₚ l) →
  run bd fuel env adj g do_search timeout nthreads bound prob = Some (Val ps) →
  ∀ p, p ∈ ps → (space q <= space p)%N.
Proof.
  intros B adj' adj g qs q env do_search timeout nthreads bound prob bd fuel ps Ha Hin Hm Hne Hqs Hq Hho Hr p Hp.
  pose proof (unordered_wf adj' Ha) as Hin'.
  assert (∃ b, listed (unordered (length adj')) b) as Hex.
  { exists 0. apply unordered_listed. destruct adj'; [done|]. cbn. lia. }
  destruct (run_minor B adj' (unordered (length adj')) adj g qs env do_search timeout nthreads bound prob bd fuel ps
    Hin' Hin (graph_minor_of _ _ _ _ Ha Hin Hm) Hex Hqs Hho Hr p Hp) as (q' & Hq' & _ & Hle).
  etrans; [|exact Hle]. apply searched_front in Hqs as (_ & Ht & _); [|done|done].
  apply (MainParts.tradeoff_last qs q q' Ht Hq Hq').
Qed.

(** A grid as a minor. *)
Lemma run_grid_minor :
  ∀ B a b adj g env do_search timeout nthreads bound prob bd fuel ps,
  2 ≤ a → 2 ≤ b → (N.of_nat (a * b) < 2 ^ 64 - 1)%N → wf_input adj g → graph_minor B (grid a b) adj g →
  (∀ l, e_hash_order env l ≡ₚ l) →
  run bd fuel env adj g do_search timeout nthreads bound prob = Some (Val ps) →
  ∀ p, p ∈ ps → (N.of_nat (S (min a b)) <= space p)%N.
Proof.
  intros B a b adj g env do_search timeout nthreads bound prob bd fuel ps Ha Hb Hn Hin Hm Hho Hr p Hp.
  assert (wf_spacial (grid a b)) as Hg by (apply (grid_wf a b); [lia|lia|done]).
  pose proof (graph_minor_of _ _ _ _ Hg Hin Hm) as Hm'. pose proof (unordered_wf _ Hg) as Hin'.
  destruct (run_valid _ _ _ _ _ _ _ _ _ _ _ Hin Hho Hr) as [(ps' & [= <-] & Hok & _)|[? _]]; [|done].
  rewrite Forall_forall in Hok. destruct (Hok p Hp) as (Hv & _ & Hs). rewrite Hs.
  pose proof (contraction_space _ _ _ _ _ Hin' Hm' (proj2 (proj1 Hin)) (steps p) (vs_legal _ _ Hv)) as Hle.
  pose proof (contraction_valid _ _ _ _ _ Hin' Hm' (proj2 (proj1 Hin)) (steps p) Hv) as Hv'.
  assert (S (min a b) ≤ space_cost (grid a b) (contraction B (unordered (length (grid a b))) (steps p))); [|lia].
  apply (bramble_space (grid a b) (crosses a b)).
  - apply crosses_bramble; lia.
  - apply crosses_order; lia.
  - lia.
  - intros C v HC HvC. apply (vs_complete _ _ Hv'), unordered_listed. rewrite grid_length. eapply crosses_range; [..|exact HC|exact HvC]; lia.
  - intros C v HC HvC. rewrite grid_length. eapply crosses_range; [..|exact HC|exact HvC]; lia.
Qed.
