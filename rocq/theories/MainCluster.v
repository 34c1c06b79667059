(** * Numberings, brambles and cluster states: results *)
From Verif Require Export ClusterSpec MainParts MainMetamorphic MainOrder.
From Verif Require Import SpawnFacts.

(** ** Blocks of a numbering *)

Section blocks.
  Context (n c : nat) (f : nat → nat) (Hc : 1 ≤ c) (Hf : numbering n f).

  Definition block (j : nat) : list nat := filter (λ v, f v / c = j) (seq 0 n).
  Definition num_blocks : nat := (n + (c - 1)) / c.
  Definition blocks : schedule := map block (seq 0 num_blocks).

  Lemma elem_of_block j v : v ∈ block j ↔ v < n ∧ f v / c = j.
  Proof. unfold block. rewrite elem_of_list_filter, elem_of_seq. naive_solver lia. Qed.

  Lemma block_before m : m < n → m / c < num_blocks.
  Proof.
    intros Hm. unfold num_blocks. apply Nat.div_lt_upper_bound; [lia|].
    pose proof (Nat.div_mod (n + (c - 1)) c ltac:(lia)) as E.
    pose proof (Nat.mod_upper_bound (n + (c - 1)) c ltac:(lia)). lia.
  Qed.

  Lemma before_block j : j < num_blocks → j * c < n.
  Proof.
    intros Hj. unfold num_blocks in Hj.
    pose proof (Nat.mul_div_le (n + (c - 1)) c ltac:(lia)).
    assert (c * S j ≤ c * ((n + (c - 1)) / c)) by (apply Nat.mul_le_mono_l; lia). lia.
  Qed.

  Lemma numbering_onto m : m < n → ∃ v, v < n ∧ f v = m.
  Proof.
    intros Hm. assert (seq 0 n ≡ₚ map f (seq 0 n)) as E.
    { symmetry. apply submseteq_Permutation_length_eq; [by rewrite map_length|].
      apply NoDup_submseteq.
      - apply NoDup_fmap_2_strong; [|apply NoDup_seq]. intros u v Hu%elem_of_seq Hv%elem_of_seq. apply (proj2 Hf); lia.
      - intros x (v & -> & Hv)%elem_of_list_fmap. apply elem_of_seq in Hv. apply elem_of_seq.
        pose proof (proj1 Hf v). lia. }
    assert (m ∈ map f (seq 0 n)) as Hin by (rewrite <- E; apply elem_of_seq; lia).
    apply elem_of_list_fmap in Hin as (v & -> & Hv). apply elem_of_seq in Hv. exists v. split; [lia|done].
  Qed.

  Lemma blocks_take j : j ≤ num_blocks → take j blocks = map block (seq 0 j).
  Proof.
    intros Hj. unfold blocks. change (map block (seq 0 num_blocks)) with (block <$> seq 0 num_blocks).
    rewrite <- fmap_take. f_equal. replace num_blocks with (j + (num_blocks - j)) by lia.
    rewrite seq_app, take_app_alt; [done|]. by rewrite seq_length.
  Qed.

  Lemma elem_of_blocks j v : v ∈ concat (map block (seq 0 j)) ↔ v < n ∧ f v / c < j.
  Proof.
    rewrite elem_of_concat. split.
    - intros (M & HM & Hv). apply elem_of_list_fmap in HM as (i & -> & Hi). apply elem_of_seq in Hi.
      apply elem_of_block in Hv. lia.
    - intros [Hv Hj]. exists (block (f v / c)). split; [|by apply elem_of_block].
      apply elem_of_list_fmap. exists (f v / c). split; [done|]. apply elem_of_seq. lia.
  Qed.

  Lemma blocks_nodup j : NoDup (concat (map block (seq 0 j))).
  Proof.
    induction j as [|j IH]; [constructor|]. rewrite seq_S, map_app, concat_app. simpl. rewrite app_nil_r.
    apply NoDup_app. split; [done|]. split; [|apply NoDup_filter, NoDup_seq].
    intros v Hv%elem_of_blocks Hj%elem_of_block. lia.
  Qed.

  Lemma blocks_lookup j M : blocks !! j = Some M → j < num_blocks ∧ M = block j.
  Proof.
    intros H. unfold blocks in H. apply list_lookup_fmap_inv in H as (i & -> & Hi).
    apply lookup_seq in Hi as [-> Hi]. by rewrite Nat.add_0_l.
  Qed.

  Lemma blocks_valid g :
    wf_order n g → (∀ v, v < n → listed g v) → (∀ b d, depends g b d → f d / c < f b / c) → valid_schedule g blocks.
  Proof.
    intros Hwf Hl Hd. split; [split|].
    - intros M HM E. apply elem_of_list_fmap in HM as (j & -> & Hj). apply elem_of_seq in Hj.
      destruct (numbering_onto (j * c)) as (v & Hv & Ev); [apply before_block; lia|].
      assert (v ∈ block j) as H by (apply elem_of_block; split; [done|]; by rewrite Ev, Nat.div_mul by lia).
      rewrite E in H. by apply elem_of_nil in H.
    - apply blocks_nodup.
    - intros b Hb%elem_of_blocks. apply Hl, Hb.
    - intros j M b d HM Hb Hdep. apply blocks_lookup in HM as [Hj ->]. apply elem_of_block in Hb as [Hb <-].
      rewrite blocks_take by lia. apply elem_of_blocks. split; [|by apply Hd].
      apply (wf_range _ _ Hwf), listed_qubits. apply (wf_depends_listed _ _ _ _ Hwf Hdep).
    - intros b Hb. apply elem_of_blocks.
      assert (b < n) as Hbn by (apply (wf_range _ _ Hwf); by apply listed_qubits).
      split; [done|]. apply block_before, Hf, Hbn.
  Qed.

  Lemma blocks_space adj w : length adj = n → bandwidth w f adj → space_cost adj blocks ≤ c + w.
  Proof.
    intros Hn Hw. apply space_cost_lub. intros j Hj. unfold blocks in Hj. rewrite map_length, seq_length in Hj.
    unfold memory_at. rewrite <- (map_length f), <- (seq_length (c + w) (j * c)).
    apply submseteq_length, NoDup_submseteq.
    - apply NoDup_fmap_2_strong; [|apply NoDup_filter, NoDup_seq].
      intros u v [_ Hu%elem_of_seq]%elem_of_list_filter [_ Hv%elem_of_seq]%elem_of_list_filter. apply (proj2 Hf); lia.
    - intros x (v & -> & Hv)%elem_of_list_fmap. apply elem_of_list_filter in Hv as [[H1 H2] Hv]. apply elem_of_seq in Hv.
      rewrite !blocks_take in H1, H2 by lia. rewrite elem_of_blocks in H1.
      assert (∀ u, u ∈ concat (map block (seq 0 (S j))) → f u < j * c + c) as Hu.
      { intros u [_ Hu]%elem_of_blocks. pose proof (Nat.div_mod (f u) c ltac:(lia)) as E.
        pose proof (Nat.mod_upper_bound (f u) c ltac:(lia)).
        assert (c * (f u / c) ≤ c * j) by (apply Nat.mul_le_mono_l; lia). lia. }
      apply elem_of_seq. split.
      + destruct (decide (j ≤ f v / c)) as [Hle|Hgt]; [|exfalso; apply H1; lia].
        pose proof (Nat.mul_div_le (f v) c ltac:(lia)).
        assert (c * j ≤ c * (f v / c)) by (by apply Nat.mul_le_mono_l). lia.
      + destruct H2 as [H2|(u & H2 & Hv')]; [apply Hu in H2; lia|]. apply Hu in H2. apply Hw in Hv'. lia.
  Qed.
End blocks.

Lemma run_bandwidth :
  ∀ adj g f w c ps,
  wf_input adj g → (∀ v, v < length adj → listed g v) → 1 ≤ length adj →
  numbering (length adj) f → bandwidth w f adj → 1 ≤ c → (∀ b d, depends g b d → f d / c < f b / c) →
  searched adj g ps →
  ∃ p, p ∈ ps ∧ time p ≤ (length adj + (c - 1)) / c ∧ (space p <= N.of_nat (c + w))%N.
Proof.
  intros adj g f w c ps Hin Hl Hn Hf Hw Hc Hd Hps.
  apply searched_front in Hps as (_ & _ & Hcov); [|done|exists 0; by apply Hl].
  destruct (Hcov (blocks (length adj) c f)) as (p & Hp & Ht & Hm); [by apply (blocks_valid (length adj) c f Hc Hf g (proj2 Hin))|].
  exists p. split; [done|]. split.
  - unfold time_cost, blocks in Ht. by rewrite map_length, seq_length in Ht.
  - pose proof (blocks_space (length adj) c f Hc Hf adj w eq_refl Hw). lia.
Qed.

(** ** Brambles *)

Lemma line_connected adj (x : nat → nat) m :
  (∀ t u, t < m → u < m → (u = S t ∨ t = S u) → x u ∈ neighbours adj (x t)) → connected adj (map x (seq 0 m)).
Proof.
  intros Hx u v Hu Hv. apply elem_of_list_fmap in Hu as (i & -> & Hi), Hv as (j & -> & Hj). apply elem_of_seq in Hi, Hj.
  assert (∀ t, t < m → x t ∈ map x (seq 0 m)) as Hin.
  { intros t Ht. apply elem_of_list_fmap. exists t. split; [done|]. apply elem_of_seq. lia. }
  assert (∀ k t, t + k < m → rtc (λ y z, z ∈ neighbours adj y ∧ z ∈ map x (seq 0 m)) (x t) (x (t + k))) as Hup.
  { induction k as [|k IH]; intros t Ht; [by rewrite Nat.add_0_r|].
    eapply rtc_l; [|replace (t + S k) with (S t + k) by lia; apply IH; lia]. split; [apply Hx; lia|apply Hin; lia]. }
  assert (∀ k t, t + k < m → rtc (λ y z, z ∈ neighbours adj y ∧ z ∈ map x (seq 0 m)) (x (t + k)) (x t)) as Hdown.
  { induction k as [|k IH]; intros t Ht; [by rewrite Nat.add_0_r|].
    eapply rtc_r; [replace (t + S k) with (S t + k) by lia; apply IH; lia|]. split; [apply Hx; lia|apply Hin; lia]. }
  destruct (decide (i ≤ j)).
  - replace j with (i + (j - i)) by lia. apply Hup. lia.
  - replace i with (j + (i - j)) by lia. apply Hdown. lia.
Qed.

Lemma connected_union adj B C x :
  x ∈ B → x ∈ C → connected adj B → connected adj C → connected adj (B ++ C).
Proof.
  intros HB HC H1 H2.
  assert (∀ u v, rtc (λ y z, z ∈ neighbours adj y ∧ z ∈ B) u v → rtc (λ y z, z ∈ neighbours adj y ∧ z ∈ B ++ C) u v) as E1.
  { intros u v. apply rtc_subrel. intros y z [? ?]. split; [done|]. apply elem_of_app. by left. }
  assert (∀ u v, rtc (λ y z, z ∈ neighbours adj y ∧ z ∈ C) u v → rtc (λ y z, z ∈ neighbours adj y ∧ z ∈ B ++ C) u v) as E2.
  { intros u v. apply rtc_subrel. intros y z [? ?]. split; [done|]. apply elem_of_app. by right. }
  intros u v [Hu|Hu]%elem_of_app [Hv|Hv]%elem_of_app; auto.
  - etrans; [apply E1, H1; [done|exact HB]|apply E2, H2; done].
  - etrans; [apply E2, H2; [done|exact HC]|apply E1, H1; done].
Qed.

Lemma first_true (P : nat → Prop) `{∀ x, Decision (P x)} m : ¬ P 0 → P m → ∃ k, k < m ∧ ¬ P k ∧ P (S k).
Proof.
  intros H0 Hm. induction m as [|m IH]; [done|]. destruct (decide (P m)) as [H1|H1]; [|exists m; auto].
  destruct (IH H1) as (k & Hk & ?). exists k. split; [lia|done].
Qed.

(** There is a step during which a qubit of every set is in memory. *)
Lemma bramble_step adj Bs σ :
  bramble adj Bs → Bs ≠ [] → (∀ B v, B ∈ Bs → v ∈ B → v ∈ concat σ) →
  ∃ k, k < length σ ∧ ∀ B, B ∈ Bs → ∃ v, v ∈ B ∧ occupies adj σ k v.
Proof.
  intros [Hc Ht] Hne Hall.
  destruct (first_true (λ k, Exists (λ B, Forall (λ v, v ∈ concat (take k σ)) B) Bs) (length σ)) as (k & Hk & Hnot & Hyes).
  { intros (B & HB & Hf)%Exists_exists. destruct (Hc B HB) as [_ HBne]. destruct B as [|v B]; [done|].
    apply Forall_cons in Hf as [Hv _]. by apply elem_of_nil in Hv. }
  { destruct Bs as [|B Bs]; [done|]. apply Exists_cons_hd. apply Forall_forall. intros v Hv.
    rewrite take_ge by done. apply (Hall B); [left|done]. }
  exists k. split; [done|]. intros C HC. apply Exists_exists in Hyes as (B & HB & Hf). rewrite Forall_forall in Hf.
  assert (∃ w, w ∈ C ∧ w ∉ concat (take k σ)) as (w & Hw & Hwk).
  { destruct (decide (Forall (λ v, v ∈ concat (take k σ)) C)) as [HfC|HfC].
    - exfalso. apply Hnot, Exists_exists. by exists C.
    - apply not_Forall_Exists in HfC; [|intros ?; apply _]. apply Exists_exists in HfC as (w & Hw & ?). by exists w. }
  assert (∀ v, v ∈ concat (take k σ) → v ∈ concat (take (S k) σ)) as Hmono.
  { intros v (M & HM & Hv)%elem_of_concat. apply elem_of_concat. exists M. split; [|done].
    apply elem_of_list_lookup in HM as (q & Hq). apply lookup_take_Some in Hq as [Hq Hqk].
    apply elem_of_list_lookup. exists q. apply lookup_take_Some. split; [done|lia]. }
  destruct (Ht B C HB HC) as (u & v & Hu & Hv & Huv).
  assert (needed adj (concat (take (S k) σ)) v) as Hneed.
  { destruct Huv as [->|Huv]; [left; by apply Hf|]. right. exists u. split; [by apply Hf|done]. }
  destruct (decide (v ∈ concat (take k σ))) as [Hvk|Hvk]; [|by exists v].
  pose proof (proj1 (Hc C HC) v w Hv Hw) as Hpath. clear Hneed Huv Hv.
  induction Hpath as [v|v y w [Hy HyC] _ IH]; [done|].
  destruct (decide (y ∈ concat (take k σ))) as [Hyk|Hyk]; [by apply IH|].
  exists y. split; [done|]. split; [done|]. right. exists v. split; [by apply Hmono|done].
Qed.

Lemma bramble_space adj Bs σ m :
  bramble adj Bs → bramble_order m Bs → 1 ≤ m → (∀ B v, B ∈ Bs → v ∈ B → v ∈ concat σ) →
  (∀ B v, B ∈ Bs → v ∈ B → v < length adj) → m ≤ space_cost adj σ.
Proof.
  intros Hbr Hm H1 Hall Hn. destruct (decide (Bs = [])) as [->|Hne].
  { specialize (Hm [] (NoDup_nil_2)). cbn in Hm. assert (m ≤ 0); [|lia]. apply Hm. intros B HB. by apply elem_of_nil in HB. }
  destruct (bramble_step adj Bs σ Hbr Hne Hall) as (k & Hk & Hocc).
  etrans; [|by apply (memory_space adj σ k)]. unfold memory_at. apply Hm; [apply NoDup_filter, NoDup_seq|].
  intros B HB. destruct (Hocc B HB) as (v & Hv & Ho). exists v. split; [done|]. apply elem_of_list_filter. split; [done|].
  apply elem_of_seq. specialize (Hn B v HB Hv). lia.
Qed.

(** ** Grids *)

Lemma grid_qubits a b : qubits (grid_order a b) = seq 0 (a * b).
Proof.
  induction b as [|b IH]; [by rewrite Nat.mul_0_r|]. unfold qubits, grid_order in *.
  rewrite seq_S, map_app, concat_app, map_app, IH. cbn [map concat]. rewrite app_nil_r, Nat.add_0_l.
  replace (a * S b) with (a * b + a) by lia. rewrite seq_app, Nat.add_0_l. f_equal.
  rewrite map_map. cbn [fst]. replace (b * a) with (a * b) by lia.
  clear IH. generalize (a * b) as s. intros s. induction a as [|a IH]; [done|].
  rewrite !seq_S, map_app, IH. done.
Qed.

Section grid.
  Context (a b : nat) (Ha : 1 ≤ a) (Hb : 1 ≤ b).

  Lemma grid_length : length (grid a b) = a * b.
  Proof. unfold grid. by rewrite map_length, seq_length. Qed.

  Lemma grid_neighbours u v : v ∈ neighbours (grid a b) u ↔ u < a * b ∧ v < a * b ∧ grid_edge a u v.
  Proof.
    unfold neighbours. destruct (grid a b !! u) as [ns|] eqn:E; simpl.
    - unfold grid in E. apply list_lookup_fmap_inv in E as (i & -> & Hi). apply lookup_seq in Hi as [-> Hu]. simpl.
      rewrite elem_of_list_filter, elem_of_seq. naive_solver lia.
    - apply lookup_ge_None in E. rewrite grid_length in E. split; [by intros ?%elem_of_nil|lia].
  Qed.

  Lemma node_div j r : r < a → (j * a + r) / a = j.
  Proof. intros Hr. rewrite Nat.div_add_l by lia. rewrite Nat.div_small by done. lia. Qed.

  Lemma node_mod j r : r < a → (j * a + r) mod a = r.
  Proof. intros Hr. rewrite Nat.add_comm, Nat.mod_add by lia. by apply Nat.mod_small. Qed.

  Lemma node_lt j r : j < b → r < a → j * a + r < a * b.
  Proof. intros Hj Hr. nia. Qed.

  Lemma node_of v : v < a * b → v = v / a * a + v mod a ∧ v / a < b ∧ v mod a < a.
  Proof.
    intros Hv. pose proof (Nat.div_mod v a ltac:(lia)). pose proof (Nat.mod_upper_bound v a ltac:(lia)).
    split; [lia|]. split; [|done]. apply Nat.div_lt_upper_bound; lia.
  Qed.

  Lemma grid_entry k layer v ds :
    grid_order a b !! k = Some layer → (v, ds) ∈ layer →
    k < b ∧ ∃ r, r < a ∧ v = k * a + r ∧ ds = match k with 0 => [] | S i => [i * a + r] end.
  Proof.
    intros Hk Hv. unfold grid_order in Hk. apply list_lookup_fmap_inv in Hk as (j & -> & Hj).
    apply lookup_seq in Hj as [-> Hj]. apply elem_of_list_fmap in Hv as (r & [= -> ->] & Hr). apply elem_of_seq in Hr.
    split; [done|]. exists r. split; [lia|done].
  Qed.

  Lemma grid_take k : k ≤ b → take k (grid_order a b) = grid_order a k.
  Proof.
    intros Hk. unfold grid_order. change (map ?F (seq 0 ?m)) with (F <$> seq 0 m). rewrite <- fmap_take. f_equal.
    replace b with (k + (b - k)) by lia. rewrite seq_app, take_app_alt; [done|]. by rewrite seq_length.
  Qed.
  Lemma grid_listed v : listed (grid_order a b) v ↔ v < a * b.
  Proof. rewrite listed_qubits, grid_qubits, elem_of_seq. lia. Qed.

  Lemma grid_depends v d : depends (grid_order a b) v d → v = d + a ∧ v < a * b.
  Proof.
    intros (layer & ds & Hl & Hv & Hd). apply elem_of_list_lookup in Hl as (k & Hk).
    destruct (grid_entry _ _ _ _ Hk Hv) as (Hkb & r & Hr & -> & ->).
    split; [|by apply node_lt]. destruct k as [|k]; [by apply elem_of_nil in Hd|].
    apply elem_of_list_singleton in Hd as ->. lia.
  Qed.

  Lemma grid_wf : (N.of_nat (a * b) < 2 ^ 64 - 1)%N → wf_input (grid a b) (grid_order a b).
  Proof.
    intros Hn. split; [split|].
    - intros ns v Hns Hv. unfold grid in Hns. apply elem_of_list_fmap in Hns as (u & -> & _).
      apply elem_of_list_filter in Hv as [_ Hv]. apply elem_of_seq in Hv. rewrite grid_length. lia.
    - by rewrite grid_length.
    - rewrite grid_length. split.
      + intros v Hv. rewrite grid_qubits in Hv. apply elem_of_seq in Hv. lia.
      + rewrite grid_qubits. apply NoDup_seq.
      + intros v ds Hv. destruct (grid_order a b) as [|l g] eqn:E; [by apply elem_of_nil in Hv|]. cbn in Hv.
        destruct (grid_entry 0 l v ds) as (_ & r & _ & _ & ->); [by rewrite E|done|done].
      + intros k layer v ds Hk Hv. destruct (grid_entry _ _ _ _ Hk Hv) as (Hkb & r & Hr & -> & ->).
        split; [done|]. split; [apply NoDup_singleton|]. intros d Hd. apply elem_of_list_singleton in Hd as ->.
        rewrite grid_take by lia. rewrite grid_qubits. apply elem_of_seq. nia.
  Qed.

  Lemma columns_bandwidth : bandwidth a id (grid a b).
  Proof.
    intros u v (Hu & Hv & He)%grid_neighbours. unfold id.
    destruct (node_of u Hu) as (Eu & _ & Hur), (node_of v Hv) as (Ev & _ & Hvr).
    destruct He as [[E1 [E2|E2]]|[E1 [E2|E2]]].
    - rewrite E2 in Ev. lia.
    - rewrite E2 in Eu. lia.
    - rewrite <- E1 in Ev. lia.
    - rewrite <- E1 in Ev. lia.
  Qed.

  (** The numbers row by row. *)
  Definition by_rows (v : nat) : nat := (v mod a) * b + v / a.

  Lemma rows_numbering : numbering (a * b) by_rows.
  Proof.
    split.
    - intros v Hv. destruct (node_of v Hv) as (_ & Hj & Hr). unfold by_rows. nia.
    - intros u v Hu Hv E. destruct (node_of u Hu) as (Eu & Huj & _), (node_of v Hv) as (Ev & Hvj & _).
      unfold by_rows in E. assert (u mod a = v mod a) as Er by nia. rewrite Er in E. rewrite Eu, Ev, Er. nia.
  Qed.

  Lemma rows_bandwidth : bandwidth b by_rows (grid a b).
  Proof.
    intros u v (Hu & Hv & He)%grid_neighbours. unfold by_rows.
    destruct (node_of u Hu) as (_ & Huj & _), (node_of v Hv) as (_ & Hvj & _).
    destruct He as [[E1 [E2|E2]]|[E1 [E2|E2]]]; rewrite E1, E2; lia.
  Qed.

  Lemma rows_depends v d : depends (grid_order a b) v d → by_rows d / 1 < by_rows v / 1.
  Proof.
    intros [-> _]%grid_depends. rewrite !Nat.div_1_r. unfold by_rows.
    assert ((d + a) mod a = d mod a) as -> by (rewrite <- (Nat.mod_add d 1 a) by lia; f_equal; lia).
    assert ((d + a) / a = d / a + 1) as -> by (rewrite <- (Nat.div_add d 1 a) by lia; f_equal; lia). lia.
  Qed.

  Lemma columns_depends c v d : 1 ≤ c ≤ a → depends (grid_order a b) v d → id d / c < id v / c.
  Proof.
    intros Hc [-> _]%grid_depends. unfold id. apply Nat.lt_le_trans with ((d + c) / c).
    - assert ((d + c) / c = d / c + 1) as -> by (rewrite <- (Nat.div_add d 1 c) by lia; f_equal; lia). lia.
    - apply Nat.div_le_mono; lia.
  Qed.

  (** ** A bramble *)

  (** Without the last row and the last column: a row and a column. *)
  Definition cross (r j : nat) : list nat :=
    map (λ t, t * a + r) (seq 0 (b - 1)) ++ map (λ s, j * a + s) (seq 0 (a - 1)).
  Definition last_column : list nat := map (λ s, (b - 1) * a + s) (seq 0 a).
  Definition last_row : list nat := map (λ t, t * a + (a - 1)) (seq 0 (b - 1)).
  Definition crosses : list (list nat) :=
    last_column :: last_row :: concat (map (λ r, map (cross r) (seq 0 (b - 1))) (seq 0 (a - 1))).

  Lemma column_edge j t u :
    j < b → t < a → u < a → (u = S t ∨ t = S u) → j * a + u ∈ neighbours (grid a b) (j * a + t).
  Proof.
    intros Hj Ht Hu Htu. apply grid_neighbours. split; [by apply node_lt|]. split; [by apply node_lt|].
    right. by rewrite !node_div, !node_mod.
  Qed.

  Lemma row_edge r t u :
    r < a → t < b → u < b → (u = S t ∨ t = S u) → u * a + r ∈ neighbours (grid a b) (t * a + r).
  Proof.
    intros Hr Ht Hu Htu. apply grid_neighbours. split; [by apply node_lt|]. split; [by apply node_lt|].
    left. by rewrite !node_div, !node_mod.
  Qed.

  Lemma elem_of_cross r j v :
    v ∈ cross r j ↔ (∃ t, t < b - 1 ∧ v = t * a + r) ∨ (∃ s, s < a - 1 ∧ v = j * a + s).
  Proof.
    unfold cross. rewrite elem_of_app, !elem_of_list_fmap. setoid_rewrite elem_of_seq. naive_solver lia.
  Qed.

  Lemma elem_of_last_column v : v ∈ last_column ↔ ∃ s, s < a ∧ v = (b - 1) * a + s.
  Proof. unfold last_column. rewrite elem_of_list_fmap. setoid_rewrite elem_of_seq. naive_solver lia. Qed.

  Lemma elem_of_last_row v : v ∈ last_row ↔ ∃ t, t < b - 1 ∧ v = t * a + (a - 1).
  Proof. unfold last_row. rewrite elem_of_list_fmap. setoid_rewrite elem_of_seq. naive_solver lia. Qed.

  Lemma elem_of_crosses B :
    B ∈ crosses ↔ B = last_column ∨ B = last_row ∨ ∃ r j, r < a - 1 ∧ j < b - 1 ∧ B = cross r j.
  Proof.
    unfold crosses. rewrite !elem_of_cons, elem_of_concat. setoid_rewrite elem_of_list_fmap. split.
    - intros [?|[?|(M & (r & -> & Hr) & HB)]]; [auto|auto|]. right. right.
      apply elem_of_list_fmap in HB as (j & -> & Hj). apply elem_of_seq in Hr, Hj. exists r, j. split; [lia|]. split; [lia|done].
    - intros [?|[?|(r & j & Hr & Hj & ->)]]; [auto|auto|]. right. right. exists (map (cross r) (seq 0 (b - 1))). split.
      + exists r. split; [done|]. apply elem_of_seq. lia.
      + apply elem_of_list_fmap. exists j. split; [done|]. apply elem_of_seq. lia.
  Qed.

  Context (Ha2 : 2 ≤ a) (Hb2 : 2 ≤ b).

  Lemma cross_connected r j : r < a - 1 → j < b - 1 → connected (grid a b) (cross r j).
  Proof.
    intros Hr Hj. unfold cross. apply (connected_union _ _ _ (j * a + r)).
    - apply elem_of_list_fmap. exists j. split; [done|]. apply elem_of_seq. lia.
    - apply elem_of_list_fmap. exists r. split; [done|]. apply elem_of_seq. lia.
    - apply line_connected. intros t u Ht Hu. apply row_edge; lia.
    - apply line_connected. intros t u Ht Hu. apply column_edge; lia.
  Qed.

  Lemma crosses_bramble : bramble (grid a b) crosses.
  Proof.
    split.
    - intros B [->|[->|(r & j & Hr & Hj & ->)]]%elem_of_crosses; split.
      + apply line_connected. intros t u Ht Hu. apply column_edge; lia.
      + intros E. assert ((b - 1) * a + 0 ∈ last_column) as H by (apply elem_of_last_column; exists 0; split; [lia|done]).
        rewrite E in H. by apply elem_of_nil in H.
      + apply line_connected. intros t u Ht Hu. apply row_edge; lia.
      + intros E. assert (0 * a + (a - 1) ∈ last_row) as H by (apply elem_of_last_row; exists 0; split; [lia|done]).
        rewrite E in H. by apply elem_of_nil in H.
      + by apply cross_connected.
      + intros E. assert (j * a + r ∈ cross r j) as H by (apply elem_of_cross; left; by exists j).
        rewrite E in H. by apply elem_of_nil in H.
    - assert (∀ B x, x ∈ B → touching (grid a b) B B) as Hself by (intros B x Hx; exists x, x; auto).
      assert (∀ r j, r < a - 1 → j < b - 1 → j * a + r ∈ cross r j) as Hmid.
      { intros r j Hr Hj. apply elem_of_cross. left. by exists j. }
      intros B C [->|[->|(r & j & Hr & Hj & ->)]]%elem_of_crosses [->|[->|(r' & j' & Hr' & Hj' & ->)]]%elem_of_crosses.
      + apply (Hself _ ((b - 1) * a + 0)), elem_of_last_column. exists 0. split; [lia|done].
      + exists ((b - 1) * a + (a - 1)), ((b - 2) * a + (a - 1)). split; [|split].
        * apply elem_of_last_column. exists (a - 1). split; [lia|done].
        * apply elem_of_last_row. exists (b - 2). split; [lia|done].
        * right. apply row_edge; lia.
      + exists ((b - 1) * a + r'), ((b - 2) * a + r'). split; [|split].
        * apply elem_of_last_column. exists r'. split; [lia|done].
        * apply elem_of_cross. left. exists (b - 2). split; [lia|done].
        * right. apply row_edge; lia.
      + exists ((b - 2) * a + (a - 1)), ((b - 1) * a + (a - 1)). split; [|split].
        * apply elem_of_last_row. exists (b - 2). split; [lia|done].
        * apply elem_of_last_column. exists (a - 1). split; [lia|done].
        * right. apply row_edge; lia.
      + apply (Hself _ (0 * a + (a - 1))), elem_of_last_row. exists 0. split; [lia|done].
      + exists (j' * a + (a - 1)), (j' * a + (a - 2)). split; [|split].
        * apply elem_of_last_row. exists j'. split; [lia|done].
        * apply elem_of_cross. right. exists (a - 2). split; [lia|done].
        * right. apply column_edge; lia.
      + exists ((b - 2) * a + r), ((b - 1) * a + r). split; [|split].
        * apply elem_of_cross. left. exists (b - 2). split; [lia|done].
        * apply elem_of_last_column. exists r. split; [lia|done].
        * right. apply row_edge; lia.
      + exists (j * a + (a - 2)), (j * a + (a - 1)). split; [|split].
        * apply elem_of_cross. right. exists (a - 2). split; [lia|done].
        * apply elem_of_last_row. exists j. split; [lia|done].
        * right. apply column_edge; lia.
      + exists (j' * a + r), (j' * a + r). split; [|split].
        * apply elem_of_cross. left. exists j'. split; [lia|done].
        * apply elem_of_cross. right. exists r. split; [lia|done].
        * by left.
  Qed.

  Lemma crosses_range B v : B ∈ crosses → v ∈ B → v < a * b.
  Proof.
    intros [->|[->|(r & j & Hr & Hj & ->)]]%elem_of_crosses HvB.
    - apply elem_of_last_column in HvB as (s & ? & ->). apply node_lt; lia.
    - apply elem_of_last_row in HvB as (t & ? & ->). apply node_lt; lia.
    - apply elem_of_cross in HvB as [(t & ? & ->)|(s & ? & ->)]; apply node_lt; lia.
  Qed.

  Lemma missed (f : nat → nat) (l : list nat) m : length l < m → ∃ i, i < m ∧ i ∉ map f l.
  Proof.
    intros Hm. destruct (decide (Forall (λ i, i ∈ map f l) (seq 0 m))) as [Hall|Hn].
    - exfalso. assert (length (seq 0 m) ≤ length (map f l)) as Hle.
      { apply submseteq_length, NoDup_submseteq; [apply NoDup_seq|]. by rewrite Forall_forall in Hall. }
      rewrite seq_length, map_length in Hle. lia.
    - apply not_Forall_Exists in Hn; [|intros x; apply _]. apply Exists_exists in Hn as (i & Hi & Hp).
      apply elem_of_seq in Hi. exists i. split; [lia|done].
  Qed.

  Lemma crosses_order : bramble_order (S (min a b)) crosses.
  Proof.
    intros H Hnd Hhit.
    destruct (Hhit last_column) as (h1 & H1 & H1'); [apply elem_of_crosses; auto|].
    destruct (Hhit last_row) as (h2 & H2 & H2'); [apply elem_of_crosses; auto|].
    apply elem_of_last_column in H1 as (s & Hs & ->). apply elem_of_last_row in H2 as (t & Ht & ->).
    set (L := filter (λ v, v / a < b - 1 ∧ v mod a < a - 1) H).
    assert (min (a - 1) (b - 1) ≤ length L) as HL.
    { destruct (decide (min (a - 1) (b - 1) ≤ length L)) as [|Hlt]; [done|]. exfalso.
      destruct (missed (λ v, v mod a) L (a - 1)) as (r & Hr & Hrn); [lia|].
      destruct (missed (λ v, v / a) L (b - 1)) as (j & Hj & Hjn); [lia|].
      destruct (Hhit (cross r j)) as (h & Hh & HhH); [apply elem_of_crosses; right; right; by exists r, j|].
      apply elem_of_cross in Hh as [(t' & Ht' & ->)|(s' & Hs' & ->)].
      - apply Hrn, elem_of_list_fmap. exists (t' * a + r). split; [rewrite node_mod; lia|].
        apply elem_of_list_filter. split; [|done]. rewrite node_div, node_mod by lia. done.
      - apply Hjn, elem_of_list_fmap. exists (j * a + s'). split; [rewrite node_div; lia|].
        apply elem_of_list_filter. split; [|done]. rewrite node_div, node_mod by lia. done. }
    assert (length ((b - 1) * a + s :: t * a + (a - 1) :: L) ≤ length H) as Hle.
    { apply submseteq_length, NoDup_submseteq.
      - constructor; [|constructor; [|by apply NoDup_filter]].
        + rewrite elem_of_cons. intros [E|[[E _] _]%elem_of_list_filter].
          * apply (f_equal (λ v, v / a)) in E. rewrite !node_div in E by lia. lia.
          * rewrite node_div in E by lia. lia.
        + intros [[_ E] _]%elem_of_list_filter. rewrite node_mod in E by lia. lia.
      - intros x [->|[->|[_ Hx]%elem_of_list_filter]%elem_of_cons]%elem_of_cons; done. }
    cbn [length] in Hle. lia.
  Qed.
End grid.

(** ** Whole runs *)

Lemma run_bramble :
  ∀ adj g Bs m env do_search timeout nthreads bound prob bd fuel ps,
  wf_input adj g → bramble adj Bs → bramble_order m Bs → (∀ B v, B ∈ Bs → v ∈ B → listed g v) → (∃ b, listed g b) →
  (∀ l, e_hash_order env l ≡ₚ l) →
  run bd fuel env adj g do_search timeout nthreads bound prob = Some (Val ps) →
  ∀ p, p ∈ ps → (N.of_nat m <= space p)%N.
Proof.
  intros adj g Bs m env do_search timeout nthreads bound prob bd fuel ps Hin Hbr Hm Hl Hne Hho Hr p Hp.
  destruct (run_valid _ _ _ _ _ _ _ _ _ _ _ Hin Hho Hr) as [(ps' & [= <-] & Hok & _)|[? _]]; [|done].
  rewrite Forall_forall in Hok. destruct (Hok p Hp) as (Hv & Ht & Hs). destruct (decide (1 ≤ m)); [|lia].
  assert (m ≤ space_cost adj (steps p)); [|lia]. eapply bramble_space; [done|done|done|..].
  - intros B v HB HvB. apply (vs_complete _ _ Hv). by eapply Hl.
  - intros B v HB HvB. apply (wf_range _ _ (proj2 Hin)), listed_qubits. by eapply Hl.
Qed.

Lemma run_grid :
  ∀ a b ps,
  2 ≤ a → 2 ≤ b → (N.of_nat (a * b) < 2 ^ 64 - 1)%N → searched (grid a b) (grid_order a b) ps →
  (* the memory decreases from 2 a to a + 1 if fewer qubits are measured at the same time *)
  (∀ c, 1 ≤ c ≤ a → ∃ p, p ∈ ps ∧ time p ≤ (a * b + (c - 1)) / c ∧ (space p <= N.of_nat (a + c))%N) ∧
  (* the least memory *)
  (∀ p, last ps = Some p → space p = N.of_nat (S (min a b))).
Proof.
  intros a b ps Ha Hb Hn Hps. assert (wf_input (grid a b) (grid_order a b)) as Hin by (apply grid_wf; [lia|lia|done]).
  assert (1 ≤ a * b) as Hab by nia.
  assert (∀ v, v < length (grid a b) → listed (grid_order a b) v) as Hl.
  { intros v Hv. rewrite grid_length in Hv. apply grid_listed; [lia|lia|done]. }
  assert (∀ c, 1 ≤ c ≤ a → ∃ p, p ∈ ps ∧ time p ≤ (a * b + (c - 1)) / c ∧ (space p <= N.of_nat (a + c))%N) as H1.
  { intros c Hc. destruct (run_bandwidth (grid a b) (grid_order a b) id a c ps) as (p & Hp & Ht & Hs); [done|done|..].
    - by rewrite grid_length.
    - split; unfold id; auto.
    - apply columns_bandwidth; lia.
    - lia.
    - intros v d. apply columns_depends; lia.
    - done.
    - rewrite grid_length in Ht. exists p. split; [done|]. split; [done|]. lia. }
  split; [done|]. intros p Hp.
  assert (∃ q, q ∈ ps ∧ (space q <= N.of_nat (S b))%N) as (q2 & Hq2 & Hs2).
  { destruct (run_bandwidth (grid a b) (grid_order a b) (by_rows a b) b 1 ps) as (q & Hq & _ & Hs); [done|done|..].
    - by rewrite grid_length.
    - rewrite grid_length. apply rows_numbering; lia.
    - apply rows_bandwidth; lia.
    - lia.
    - intros v d. apply rows_depends; lia.
    - done.
    - exists q. split; [done|]. lia. }
  destruct (H1 1) as (q1 & Hq1 & _ & Hs1); [lia|].
  assert (∃ x, listed (grid_order a b) x) as Hne by (exists 0; by apply Hl; rewrite grid_length).
  destruct (searched_front _ _ _ Hin Hne Hps) as (Hok & Htr & _).
  pose proof (MainParts.tradeoff_last _ _ _ Htr Hp Hq1) as L1. pose proof (MainParts.tradeoff_last _ _ _ Htr Hp Hq2) as L2.
  rewrite Forall_forall in Hok. destruct (Hok p) as (Hv & _ & Hs); [by apply last_Some_elem_of|].
  assert (S (min a b) ≤ space_cost (grid a b) (steps p)) as Hlow; [|lia].
  assert (∀ B v, B ∈ crosses a b → v ∈ B → v < a * b) as Hrange.
  { intros B v. apply crosses_range; lia. }
  eapply bramble_space; [apply crosses_bramble; lia|apply crosses_order; lia|lia|..].
  - intros B v HB HvB. apply (vs_complete _ _ Hv), grid_listed; [lia|lia|]. by eapply Hrange.
  - intros B v HB HvB. rewrite grid_length. by eapply Hrange.
Qed.

(** Without dependencies, or with other ones, no run needs less. *)
Lemma run_grid_lower :
  ∀ a b g env do_search timeout nthreads bound prob bd fuel ps,
  2 ≤ a → 2 ≤ b → wf_input (grid a b) g → (∀ v, v < a * b → listed g v) →
  (∀ l, e_hash_order env l ≡ₚ l) →
  run bd fuel env (grid a b) g do_search timeout nthreads bound prob = Some (Val ps) →
  ∀ p, p ∈ ps → (N.of_nat (S (min a b)) <= space p)%N.
Proof.
  intros a b g env do_search timeout nthreads bound prob bd fuel ps Ha Hb Hin Hl Hho Hr.
  apply (run_bramble (grid a b) g (crosses a b) (S (min a b)) env do_search timeout nthreads bound prob bd fuel ps); [done|..].
  - apply crosses_bramble; lia.
  - apply crosses_order; lia.
  - intros B v HB HvB. apply Hl. eapply crosses_range; [..|exact HB|exact HvB]; lia.
  - exists 0. apply Hl. nia.
  - done.
  - done.
Qed.

(** Without search: column by column. *)
Lemma run_grid_time :
  ∀ a b env timeout nthreads bound prob bd p,
  1 ≤ a → 2 ≤ b → (N.of_nat (a * b) < 2 ^ 64 - 1)%N →
  returns (λ fuel, run bd fuel env (grid a b) (grid_order a b) false timeout nthreads bound prob) [p] →
  same_schedule (steps p) (map (λ j, seq (j * a) a) (seq 0 b)) ∧ time p = b ∧ space p = N.of_nat (2 * a).
Proof.
  intros a b env timeout nthreads bound prob bd p Ha Hb Hn Hp.
  assert (wf_input (grid a b) (grid_order a b)) as Hin by (apply grid_wf; [lia|lia|done]).
  destruct (time_optimal_valid _ _ Hin) as (q & Hq & (Hv & Et & Em) & _ & _ & _ & Hcan).
  assert (p = q) as ->.
  { destruct Hp as [f1 H1]. destruct (Hq bd) as [f2 H2]. specialize (H1 (max f1 f2) ltac:(lia)).
    specialize (H2 (max f1 f2) ltac:(lia)). cbn in H1. congruence. }
  assert (layers (grid_order a b) = map (λ j, seq (j * a) a) (seq 0 b)) as El.
  { unfold layers, grid_order. rewrite map_map. apply map_ext. intros j. rewrite map_map. cbn [fst].
    assert (∀ m s t, map (λ r, s + r) (seq t m) = seq (s + t) m) as H.
    { clear. intros m s. induction m as [|m IH]; intros t; [done|]. cbn. f_equal. rewrite <- Nat.add_succ_r. apply IH. }
    by rewrite H, Nat.add_0_r. }
  assert (same_schedule (steps q) (map (λ j, seq (j * a) a) (seq 0 b))) as Es.
  { replace (map (λ j, seq (j * a) a) (seq 0 b)) with (filter (λ M : step, M ≠ []) (layers (grid_order a b))).
    - apply Hcan. intros k layer layer' v ds Hk Hk' Hvd.
      destruct (grid_entry a b ltac:(lia) ltac:(lia) _ _ _ _ Hk' Hvd) as (_ & r & Hr & -> & ->). exists (k * a + r).
      split; [left|]. unfold grid_order in Hk. apply list_lookup_fmap_inv in Hk as (j & -> & Hj).
      apply lookup_seq in Hj as [-> _]. rewrite map_map. cbn [fst]. apply elem_of_list_fmap. exists r. split; [done|].
      apply elem_of_seq. lia.
    - rewrite El. apply filter_all. intros M (j & -> & _)%elem_of_list_fmap. destruct a; [lia|done]. }
  split; [done|]. split.
  { rewrite Et. unfold time_cost. by rewrite (Forall2_length _ _ _ Es), map_length, seq_length. }
  rewrite Em, (space_cost_same _ _ _ Es). f_equal. apply Nat.le_antisymm.
  - assert (same_schedule (map (λ j, seq (j * a) a) (seq 0 b)) (blocks (a * b) a id)) as E2.
    { unfold same_schedule, blocks. replace (num_blocks (a * b) a) with b.
      2: { unfold num_blocks. rewrite (Nat.mul_comm a b), Nat.div_add_l, Nat.div_small by lia. lia. }
      apply Forall2_fmap, Forall_Forall2_diag, Forall_forall. intros j Hj. apply elem_of_seq in Hj.
      apply NoDup_Permutation; [apply NoDup_seq|apply NoDup_filter, NoDup_seq|]. intros v.
      rewrite elem_of_block by lia. rewrite elem_of_seq. unfold id. split.
      - intros Hvj. split; [nia|]. symmetry. apply (Nat.div_unique v a j (v - j * a)); lia.
      - intros [_ <-]. pose proof (Nat.div_mod v a ltac:(lia)). pose proof (Nat.mod_upper_bound v a ltac:(lia)). lia. }
    rewrite (space_cost_same _ _ _ E2). replace (2 * a) with (a + a) by lia.
    apply blocks_space; [lia|by split|apply grid_length|apply columns_bandwidth; lia].
  - etrans; [|apply (memory_space _ _ 0); rewrite map_length, seq_length; lia].
    rewrite <- (seq_length (2 * a) 0) at 1. unfold memory_at. rewrite grid_length.
    apply submseteq_length, NoDup_submseteq; [apply NoDup_seq|]. intros v Hv2. apply elem_of_seq in Hv2.
    apply elem_of_list_filter. split; [|apply elem_of_seq; nia]. split; [by intros ?%elem_of_nil|].
    destruct b as [|b]; [lia|]. cbn [seq map take concat]. rewrite app_nil_r, Nat.mul_0_l.
    destruct (decide (v < a)) as [Hva|Hva]; [left; apply elem_of_seq; lia|]. right. exists (v - a).
    split; [apply elem_of_seq; lia|]. apply grid_neighbours; [lia|lia|]. split; [nia|]. split; [nia|]. left.
    rewrite (Nat.mod_small (v - a)), (Nat.div_small (v - a)) by lia.
    assert (v = 1 * a + (v - a)) as Ev by lia. split.
    + rewrite Ev at 2. rewrite Nat.add_comm, Nat.mod_add, Nat.mod_small by lia. done.
    + left. rewrite Ev at 1. rewrite Nat.div_add_l, Nat.div_small by lia. lia.
Qed.
