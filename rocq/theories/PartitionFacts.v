(** * The items of [Partition] in terms of positions *)
From Verif Require Export Combinatoric CombinatoricFacts Spec.

Lemma combinations_spec k (l s : list nat) :
  s ∈ combinations k l ↔ s `sublist_of` l ∧ length s = k.
Proof.
  revert k s; induction l as [|x l IH]; intros k s; destruct k as [|k]; simpl.
  - rewrite elem_of_list_singleton. split; [by intros ->|]. intros [_ ?]. by destruct s.
  - rewrite elem_of_nil. split; [done|]. intros [H%sublist_nil_r ?]. by subst.
  - rewrite elem_of_list_singleton. split; [intros ->; split; [apply sublist_nil_l|done]|].
    intros [_ ?]. by destruct s.
  - rewrite elem_of_app, elem_of_list_fmap. split.
    + intros [(s' & -> & Hs)|Hs].
      * apply IH in Hs as [Hs <-]. split; [by constructor|done].
      * apply IH in Hs as [Hs Hl]. split; [by constructor|done].
    + intros [Hs Hl]. apply sublist_cons_r in Hs as [Hs|(s' & -> & Hs)].
      * right. by apply IH.
      * left. exists s'. split; [done|]. apply IH. simpl in Hl. split; [done|lia].
Qed.

Lemma NoDup_combinations k l : NoDup l → NoDup (combinations k l).
Proof.
  revert k; induction l as [|x l IH]; intros [|k] Hl; simpl;
    try apply NoDup_singleton; [apply NoDup_nil_2|].
  apply NoDup_cons in Hl as [Hx Hl]. apply NoDup_app. split_and!.
  - apply NoDup_fmap_2; [|by apply IH]. by intros ?? [= ->].
  - intros s. rewrite elem_of_list_fmap. intros (s' & -> & _) H.
    apply combinations_spec in H as [H _]. apply Hx. eapply sublist_elem; [done|left].
  - by apply IH.
Qed.

Lemma powerset_spec n s : s ∈ powerset n ↔ s `sublist_of` seq 0 n.
Proof.
  unfold powerset. rewrite elem_of_list_In, in_concat. setoid_rewrite in_map_iff. split.
  - intros (c & (k & <- & Hk) & H). apply elem_of_list_In, combinations_spec in H. tauto.
  - intros H. exists (combinations (length s) (seq 0 n)). split.
    + exists (length s). split; [done|]. apply in_seq.
      apply sublist_length in H. rewrite seq_length in H. lia.
    + by apply elem_of_list_In, combinations_spec.
Qed.

Lemma powerset_sorted n i j s t :
  i < j → powerset n !! i = Some s → powerset n !! j = Some t → length s ≤ length t.
Proof.
  unfold powerset. generalize (S n). intros m Hij.
  assert (∀ m z i j s t, i < j →
    concat (map (λ k, combinations k (seq 0 n)) (seq z m)) !! i = Some s →
    concat (map (λ k, combinations k (seq 0 n)) (seq z m)) !! j = Some t →
    length s ≤ length t) as H; [|by apply H].
  clear. intros m. induction m as [|m IH]; intros z i j s t Hij; [done|].
  simpl. rewrite !lookup_app_Some. intros [Hi|[Hi Hi']] [Hj|[Hj Hj']].
  - apply elem_of_list_lookup_2, combinations_spec in Hi as [_ <-].
    apply elem_of_list_lookup_2, combinations_spec in Hj as [_ <-]. done.
  - apply elem_of_list_lookup_2, combinations_spec in Hi as [_ <-].
    apply elem_of_list_lookup_2, elem_of_list_In, in_concat in Hj' as (c & Hc & Ht).
    apply in_map_iff in Hc as (k & <- & Hk). apply in_seq in Hk.
    apply elem_of_list_In, combinations_spec in Ht as [_ <-]. lia.
  - apply lookup_lt_Some in Hj. lia.
  - eapply (IH (S z)); [|done..]. lia.
Qed.

Lemma NoDup_powerset n : NoDup (powerset n).
Proof.
  unfold powerset. generalize (S n). intros m.
  assert (∀ z, NoDup (concat (map (λ k, combinations k (seq 0 n)) (seq z m)))) as H; [|apply H].
  induction m as [|m IH]; intros z; simpl; [apply NoDup_nil_2|].
  apply NoDup_app. split_and!; [apply NoDup_combinations, NoDup_seq| |apply IH].
  intros s H1 H2. apply combinations_spec in H1 as [_ H1].
  apply elem_of_list_In, in_concat in H2 as (c & Hc & H2).
  apply in_map_iff in Hc as (k & <- & Hk). apply in_seq in Hk.
  apply elem_of_list_In, combinations_spec in H2 as [_ H2]. lia.
Qed.

Lemma pick_cons {A} (Q : nat → bool) i x (l : list A) :
  pick_from i Q (x :: l) = if Q i then x :: pick_from (S i) Q l else pick_from (S i) Q l.
Proof. done. Qed.

Lemma pick_from_ext {A} i (Q Q' : nat → bool) (l : list A) :
  (∀ k, i ≤ k → Q k = Q' k) → pick_from i Q l = pick_from i Q' l.
Proof.
  revert i. induction l as [|x l IH]; intros i H; [done|]. simpl.
  rewrite (H i) by done. rewrite (IH (S i)); [done|]. intros. apply H. lia.
Qed.

Lemma pick_from_none {A} i (Q : nat → bool) (l : list A) :
  (∀ k, Q k = false) → pick_from i Q l = [].
Proof. intros H. revert i. induction l as [|x l IH]; intros i; [done|]. simpl. by rewrite H. Qed.
Lemma pick_from_all {A} i (Q : nat → bool) (l : list A) :
  (∀ k, Q k = true) → pick_from i Q l = l.
Proof.
  intros H. revert i. induction l as [|x l IH]; intros i; [done|]. simpl. by rewrite H, IH.
Qed.

Lemma sublist_seq_cons i n p s :
  p :: s `sublist_of` seq i n → i ≤ p ∧ s `sublist_of` seq (S p) (i + n - S p).
Proof.
  revert i. induction n as [|n IH]; intros i H; simpl in H.
  - by apply sublist_nil_r in H.
  - apply sublist_cons_r in H as [H|(s' & [= -> ->] & H)].
    + apply IH in H as [? H]. split; [lia|]. by replace (i + S n - S p) with (S i + n - S p) by lia.
    + split; [done|]. by replace (i + S n - S i) with n by lia.
Qed.

Lemma partition_map_pick {A} i s (l : list A) :
  s `sublist_of` seq i (length l) →
  partition_map i s l = (pick_from i (λ k, bool_decide (k ∈ s)) l,
                         pick_from i (λ k, bool_decide (k ∉ s)) l).
Proof.
  revert i s. induction l as [|x l IH]; intros i s Hs; [done|].
  destruct s as [|p s].
  - rewrite partition_map_nil. f_equal.
    + rewrite pick_from_none; [done|]. intros. apply bool_decide_eq_false_2, not_elem_of_nil.
    + rewrite pick_from_all; [done|]. intros. apply bool_decide_eq_true_2, not_elem_of_nil.
  - pose proof Hs as Hs'. apply sublist_seq_cons in Hs' as [Hip Hs'].
    cbn [partition_map]. destruct (Nat.eqb_spec p i) as [->|Hne].
    + replace (i + length (x :: l) - S i) with (length l) in Hs' by (simpl; lia).
      rewrite (IH (S i) s) by done. simpl.
      rewrite (bool_decide_eq_true_2 (i ∈ i :: s)) by left.
      rewrite (bool_decide_eq_false_2 (i ∉ i :: s)) by (intros H; apply H; left).
      f_equal; [f_equal|].
      * apply pick_from_ext. intros k Hk. apply bool_decide_ext. rewrite elem_of_cons.
        split; [tauto|]. intros [->|?]; [lia|done].
      * apply pick_from_ext. intros k Hk. apply bool_decide_ext. rewrite elem_of_cons.
        split; [|tauto]. intros Hn [->|?]; [lia|done].
    + assert (p :: s `sublist_of` seq (S i) (length l)) as Hs2.
      { simpl in Hs. apply sublist_cons_r in Hs as [Hs|(s' & [= -> ->] & Hs)]; [done|lia]. }
      rewrite (IH (S i) (p :: s)) by done. simpl.
      assert (i ∉ p :: s) as Hi.
      { intros Hi. eapply sublist_elem in Hi; [|exact Hs2]. apply elem_of_seq in Hi. lia. }
      rewrite (bool_decide_eq_false_2 (i ∈ p :: s)) by done.
      rewrite (bool_decide_eq_true_2 (i ∉ p :: s)) by done. done.
Qed.

Lemma partition_new_iter {A} (l : list A) k :
  Nat.iter k (λ p, (partition_next p).1) (partition_new l (length l))
  = mkPartition l (drop k (powerset (length l))).
Proof.
  induction k as [|k IH]; [by rewrite drop_0|].
  change (Nat.iter (S k) ?f ?x) with (f (Nat.iter k f x)). rewrite IH.
  unfold partition_next. simpl. destruct (drop k (powerset (length l))) as [|s r] eqn:E; simpl.
  - apply (f_equal length) in E. rewrite drop_length in E. simpl in E.
    by rewrite (drop_ge _ (S k)) by lia.
  - f_equal. rewrite <- Nat.add_1_r, <- drop_drop, E. done.
Qed.

Lemma partition_items {A} (l : list A) k :
  (partition_next (Nat.iter k (λ p, (partition_next p).1) (partition_new l (length l)))).2
  = (λ s : list nat, (pick (λ i, bool_decide (i ∈ s)) l, pick (λ i, bool_decide (i ∉ s)) l))
      <$> powerset (length l) !! k.
Proof.
  rewrite partition_new_iter. unfold partition_next. simpl.
  rewrite <- (Nat.add_0_r k) at 2. rewrite <- lookup_drop.
  destruct (drop k (powerset (length l))) as [|s r] eqn:E; [done|]. simpl. f_equal.
  apply partition_map_pick. apply powerset_spec.
  assert (s ∈ drop k (powerset (length l))) as Hs by (rewrite E; left).
  apply elem_of_list_lookup_1 in Hs as [i Hi]. rewrite lookup_drop in Hi.
  by eapply elem_of_list_lookup_2.
Qed.

Lemma powerset_length n : length (powerset n) = 2 ^ n.
Proof.
  pose proof (splits_count (seq 0 n)) as H. rewrite seq_length in H. rewrite <- H.
  rewrite <- powerset_all_splits, map_length. by rewrite seq_length.
Qed.

Lemma powerset_first n : powerset n !! 0 = Some [].
Proof. unfold powerset. simpl. by destruct (seq 0 n). Qed.

Lemma powerset_last n : last (powerset n) = Some (seq 0 n).
Proof.
  unfold powerset. rewrite seq_S, map_app, concat_app. simpl. rewrite app_nil_r.
  assert (∀ i m, combinations m (seq i m) = [seq i m]) as E.
  { assert (∀ l k, length l < k → combinations k l = []) as E0.
    { induction l as [|x l IH]; intros [|k] Hk; simpl in *; try lia; [done|].
      by rewrite (IH k), (IH (S k)) by lia. }
    intros i m. revert i. induction m as [|m IH]; intros i; [done|]. simpl.
    rewrite IH, E0; [done|]. rewrite seq_length. lia. }
  rewrite E. apply last_snoc.
Qed.
