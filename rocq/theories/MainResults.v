(** * The benchmark crate: main facts *)
From stdpp Require Import strings.
From Verif Require Export ResultsFacts.
From Verif Require Import Spec.

(** ** Graphs *)

(** Simple undirected graph with the nodes [0, .., size - 1]. *)
Definition simple_graph (size : nat) (adj : spacial) : Prop :=
  length adj = size ∧ (∀ ns, ns ∈ adj → NoDup ns) ∧
  ∀ u v, v ∈ neighbours adj u → u < size ∧ v < size ∧ u ≠ v ∧ u ∈ neighbours adj v.

(** The generator of uniform samples stays in [[0, 1)]. *)
Definition unit_samples (rng : Rng) : Prop :=
  ∀ k, SFleb f64_zero (r_uniform rng k) = true ∧ SFltb (r_uniform rng k) f64_one = true.

(** The probability of an edge or a correction. *)
Definition density_value (d : Density) (size : nat) (x : f64) : Prop :=
  match d with
  | Constant f => x = f
  | ReziprocalLinear f => 2 ≤ size ∧ x = f64_div f (f64_sub (f64_of_usize (N.of_nat size)) f64_one)
  | ReziprocalSquareRoot f =>
      2 ≤ size ∧ x = f64_div f (f64_sqrt (f64_sub (f64_of_usize (N.of_nat size)) f64_one))
  end.

Lemma density_get_value d size x : density_get d size = Val x ↔ density_value d size x.
Proof.
  destruct d as [f|f|f]; simpl; [split; [by intros [= ->]|by intros ->]|..];
    (destruct (Nat.ltb_spec 1 size); split; [by intros [= <-]|by intros [_ ->]|done|lia]).
Qed.

Lemma random_graph :
  ∀ rng d x size k, size = 0 ∨ density_value d size x →
  ∃ adj, get_graph rng d size k = Val (adj, k + length (node_pairs size)) ∧ simple_graph size adj ∧
    ∀ i u v, node_pairs size !! i = Some (u, v) →
      v ∈ neighbours adj u ↔ SFltb (r_uniform rng (k + i)) x = true.
Proof.
  intros rng d x size k Hd. rewrite <- density_get_value in Hd. eexists. split; [by apply get_graph_spec|].
  assert (∀ a b, (a, b) ∈ chosen rng x k (node_pairs size) → a < b ∧ b < size) as Hes.
  { intros a b Hab. apply node_pairs_elem. eapply elem_of_submseteq; [exact Hab|].
    apply sublist_submseteq, chosen_sublist. }
  split; [split; [apply graph_of_length|split]|].
  - intros ns Hns. unfold graph_of in Hns. apply elem_of_list_fmap in Hns as (w & -> & _).
    apply graph_of_nodup; [intros a b Hab; by apply Hes|]. eapply submseteq_NoDup; [apply sublist_submseteq, chosen_sublist|].
    apply node_pairs_nodup.
  - intros u v Huv. pose proof Huv as Hvu. rewrite graph_of_neighbours in Huv by done.
    assert (u ∈ neighbours (graph_of size (chosen rng x k (node_pairs size))) v) as Hs.
    { rewrite graph_of_neighbours by done. tauto. }
    destruct Huv as [H|H]; destruct (Hes _ _ H); split_and!; try done; lia.
  - intros i u v Hi. rewrite graph_of_neighbours by done. rewrite !chosen_elem. split.
    + intros [(j & Hj & Hs)|(j & Hj & Hs)].
      * by rewrite (NoDup_lookup _ _ _ _ (node_pairs_nodup size) Hj Hi) in Hs.
      * apply elem_of_list_lookup_2, node_pairs_elem in Hi, Hj. lia.
    + intros Hs. left. by exists i.
Qed.

Lemma simple_wf size adj : simple_graph size adj → (N.of_nat size < 2 ^ 64 - 1)%N → wf_spacial adj.
Proof.
  intros (Hl & _ & Hn) Hs. split; [|by rewrite Hl]. intros ns v (u & Hu)%elem_of_list_lookup_1 Hv.
  rewrite Hl. eapply (Hn u v). unfold neighbours. by rewrite Hu.
Qed.

Lemma density_get_panics d size : density_get d size = Panic ↔ size ≤ 1 ∧ ∀ f, d ≠ Constant f.
Proof.
  destruct d as [f|f|f]; simpl.
  - split; [done|]. intros [_ H]. by destruct (H f).
  - destruct (Nat.ltb_spec 1 size); split; [done|lia|done|done].
  - destruct (Nat.ltb_spec 1 size); split; [done|lia|done|done].
Qed.

Lemma random_graph_panics :
  ∀ rng d size k,
  get_graph rng d size k = Panic ↔ size = 1 ∧ ∀ f, d ≠ Constant f.
Proof.
  intros rng d size k. destruct (Nat.eq_dec size 0) as [->|Hs]; [split; [done|lia]|].
  destruct (density_get d size) as [x|] eqn:E.
  - rewrite (get_graph_spec rng d x) by auto. split; [done|]. intros [-> Hd].
    assert (density_get d 1 = Panic) as E' by (by apply density_get_panics). congruence.
  - split.
    + intros _. apply density_get_panics in E as [? ?]. split; [lia|done].
    + intros _. unfold get_graph. destruct (Nat.eqb_spec size 0); [done|]. by rewrite E.
Qed.

Lemma node_pairs_index size u v : u < v → v < size → ∃ i, node_pairs size !! i = Some (u, v).
Proof. intros H1 H2. apply elem_of_list_lookup_1, node_pairs_elem. done. Qed.

Lemma random_graph_extremes :
  ∀ rng size k, unit_samples rng →
  (∃ adj k', get_graph rng (Constant f64_zero) size k = Val (adj, k') ∧ ∀ u, neighbours adj u = []) ∧
  (∃ adj k', get_graph rng (Constant f64_one) size k = Val (adj, k') ∧
     ∀ u v, v ∈ neighbours adj u ↔ u < size ∧ v < size ∧ u ≠ v).
Proof.
  intros rng size k Hu. split.
  - destruct (random_graph rng (Constant f64_zero) f64_zero size k) as (adj & E & (Hl & _ & Hn) & Hi); [by right|].
    eexists _, _. split; [exact E|]. intros u. destruct (neighbours adj u) as [|v ns] eqn:En; [done|]. exfalso.
    assert (v ∈ neighbours adj u) as Hv by (rewrite En; by left).
    assert (∀ i, SFltb (r_uniform rng i) f64_zero = false) as Hz.
    { intros i. destruct (Hu i) as [H0 _]. destruct (r_uniform rng i) as [s|[]| |[] m e]; done. }
    destruct (Hn u v Hv) as (H1 & H2 & H3 & Hv'). destruct (decide (u < v)) as [Huv|Huv].
    + destruct (node_pairs_index size u v) as [i Hpi]; [lia..|]. apply Hi in Hpi. rewrite Hz in Hpi. by apply Hpi in Hv.
    + destruct (node_pairs_index size v u) as [i Hpi]; [lia..|]. apply Hi in Hpi. rewrite Hz in Hpi. by apply Hpi in Hv'.
  - destruct (random_graph rng (Constant f64_one) f64_one size k) as (adj & E & (Hl & _ & Hn) & Hi); [by right|].
    eexists _, _. split; [exact E|]. intros u v. split; [intros Hv; by apply Hn in Hv as (? & ? & ? & _)|].
    intros (H1 & H2 & H3). destruct (decide (u < v)) as [Huv|Huv].
    + destruct (node_pairs_index size u v) as [i Hpi]; [lia..|]. apply Hi in Hpi. apply Hpi. apply Hu.
    + destruct (node_pairs_index size v u) as [i Hpi]; [lia..|]. apply Hi in Hpi. apply Hn, Hpi, Hu.
Qed.

(** ** Orders *)

(** The corrections that are handed to [induced_order::get_order], together with
    the order in which the qubits are chosen: every qubit is chosen exactly once,
    and a correction depends on an earlier chosen qubit than the corrected one. *)
Lemma random_corrections :
  ∀ rng x size k, (∀ k n, 0 < n → r_range rng k n < n) →
  ∃ frames map k',
    (∀ fuel, size < fuel → get_frames fuel rng x size k = Some (Val (frames, map, k'))) ∧
    rectangular size frames ∧ map ≡ₚ seq 0 size ∧
    (∀ c p, corrected frames c p → ∃ q, p < q ∧ map !! q = Some c) ∧
    ((∀ k, SFltb (r_uniform rng k) x = true) → ∀ c p,
       corrected frames c p ↔ ∃ q, p < q ∧ map !! q = Some c) ∧
    ((∀ k, SFltb (r_uniform rng k) x = false) → ∀ c p, ¬ corrected frames c p).
Proof.
  intros rng x size k Hrng. destruct (get_frames_spec rng x size k Hrng) as (frames & map & k' & Hf & Hr & Hp & Hc & Ha & Hn).
  exists frames, map, k'. split; [done|]. split; [done|]. split; [done|].
  assert (∀ c p, (p < size ∧ c < size ∧ c ∉ take (S p) map) ↔ ∃ q, p < q ∧ map !! q = Some c) as Heq.
  { intros c p. split.
    - intros (H1 & H2 & H3). assert (c ∈ map) as (q & Hq)%elem_of_list_lookup_1 by (rewrite Hp; apply elem_of_seq; lia).
      exists q. split; [|done]. destruct (decide (p < q)); [done|]. exfalso. apply H3.
      apply (elem_of_list_lookup_2 _ q). rewrite lookup_take by lia. exact Hq.
    - intros (q & H1 & H2). apply lookup_lt_Some in H2 as Hlt. pose proof (Permutation_length Hp) as Hlen.
      rewrite seq_length in Hlen. split; [lia|]. split.
      + assert (c ∈ seq 0 size) as Hs by (rewrite <- Hp; by eapply elem_of_list_lookup_2).
        apply elem_of_seq in Hs. lia.
      + intros (i & Hi)%elem_of_list_lookup_1. apply lookup_take_Some in Hi as [Hi Hlt'].
        pose proof (NoDup_seq 0 size) as Hnd. rewrite <- Hp in Hnd.
        pose proof (NoDup_lookup _ _ _ _ Hnd Hi H2). lia. }
  split; [|split; [|done]].
  - intros c p H. apply Heq. by apply Hc.
  - intros Hall c p. rewrite <- Heq. by apply Ha.
Qed.

Lemma random_order :
  ∀ induced rng d x size k, (∀ k n, 0 < n → r_range rng k n < n) → density_value d size x → 1 ≤ size →
  ∃ frames map k', rectangular size frames ∧ map ≡ₚ seq 0 size ∧
    (∀ c p, corrected frames c p → ∃ q, p < q ∧ map !! q = Some c) ∧
    ∀ fuel, size < fuel → get_order fuel induced rng d size k = Some (Val (induced frames map, k')).
Proof.
  intros induced rng d x size k Hrng Hd Hs. rewrite <- density_get_value in Hd. destruct (random_corrections rng x size k Hrng) as (frames & map & k' & Hf & Hr & Hp & Hc & _).
  exists frames, map, k'. split; [done|]. split; [done|]. split; [done|]. intros fuel Hfu.
  unfold get_order. destruct (Nat.eqb_spec size 0); [lia|]. rewrite Hd. cbn [rbind]. by rewrite Hf.
Qed.
