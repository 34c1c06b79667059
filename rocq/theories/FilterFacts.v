(** * The filter and the sort at the end of [search] *)
From Verif Require Export Search TimeFacts.
From Coq Require Import Sorting.Sorted.
From Verif Require Export Spec.

(** The lowest memory of a result with fewer than [k] steps. *)
Fixpoint lowest (res : MappedPaths) (k : nat) : N :=
  match k with
  | 0 => usize_max
  | S k => match res !! k with Some (m, _) => N.min m (lowest res k) | None => lowest res k end
  end.

Lemma lowest_le res t m q k : res !! t = Some (m, q) → t < k → (lowest res k <= m)%N.
Proof.
  intros Hr. induction k as [|k IH]; intros Hk; [lia|]. simpl.
  destruct (decide (t = k)) as [->|Hne].
  - rewrite Hr. lia.
  - specialize (IH ltac:(lia)). destruct (res !! k) as [[m' q']|]; lia.
Qed.

Lemma lowest_max res k : (lowest res k <= usize_max)%N.
Proof. induction k as [|k IH]; simpl; [lia|]. destruct (res !! k) as [[m q]|]; lia. Qed.

Lemma lowest_witness res k :
  lowest res k = usize_max ∨ ∃ t q, t < k ∧ res !! t = Some (lowest res k, q).
Proof.
  induction k as [|k IH]; simpl; [by left|].
  assert (lowest res k = usize_max ∨ (∃ t q, t < S k ∧ res !! t = Some (lowest res k, q))) as IH'.
  { destruct IH as [->|(t & q & ? & ?)]; [by left|]. right. exists t, q. eauto with lia. }
  destruct (res !! k) as [[m q]|] eqn:E; [|done].
  destruct (N.min_spec m (lowest res k)) as [[? ->]|[? ->]]; [|done].
  right. exists k, q. eauto with lia.
Qed.

Lemma lowest_lt res k m :
  (m < lowest res k)%N ↔
  (m < usize_max)%N ∧ ∀ t m' q, t < k → res !! t = Some (m', q) → (m < m')%N.
Proof.
  split.
  - intros Hm. split; [pose proof (lowest_max res k); lia|].
    intros t m' q Ht Hr. pose proof (lowest_le res t m' q k Hr Ht). lia.
  - intros [H1 H2]. destruct (lowest_witness res k) as [->|(t & q & Ht & Hr)]; [done|]. eauto.
Qed.

(** ** The filter *)

Lemma filter_prefix res n k :
  k ≤ n + 1 →
  ∃ f best,
    ofold (filter_body res) (seq 0 k) (∅, replicate (n + 1) usize_max) = Val (f, best) ∧
    length best = n + 1 ∧
    (∀ j, k ≤ j → j < n + 1 → best !! j = Some (lowest res k)) ∧
    (∀ t e, f !! t = Some e ↔ t < k ∧ res !! t = Some e ∧ (e.1 < lowest res t)%N).
Proof.
  induction k as [|k IH]; intros Hk.
  - exists ∅, (replicate (n + 1) usize_max). split; [done|]. split; [apply replicate_length|].
    split.
    + intros j _ Hj. simpl. by apply lookup_replicate_2.
    + intros t e. rewrite lookup_empty. split; [done|]. lia.
  - destruct IH as (f & best & E & Hlen & Hb & Hf); [lia|].
    rewrite seq_S, ofold_app, E. cbn [obind ofold]. unfold filter_body at 1. simpl.
    destruct (res !! k) as [[m q]|] eqn:Er.
    + unfold index. rewrite (Hb k) by lia. cbn [obind].
      destruct (m <? lowest res k)%N eqn:El.
      * apply N.ltb_lt in El. eexists _, _. split; [cbn [obind]; reflexivity|]. split.
        { rewrite app_length, take_length, replicate_length. lia. }
        split.
        { intros j Hj1 Hj2. rewrite lookup_app_r by (rewrite take_length; lia).
          rewrite lookup_replicate_2 by (rewrite take_length; lia). f_equal. lia. }
        intros t e. rewrite lookup_insert_Some, Hf. split.
        -- intros [[<- <-]|(Hne & H1 & H2 & H3)]; [|eauto with lia]. eauto with lia.
        -- intros (H1 & H2 & H3). destruct (decide (k = t)) as [<-|Hne]; [left|right].
           ++ rewrite Er in H2. by injection H2.
           ++ split; [done|]. split; [lia|done].
      * apply N.ltb_ge in El. eexists _, _. split; [cbn [obind]; reflexivity|]. split; [done|].
        split.
        { intros j Hj1 Hj2. rewrite Hb by lia. f_equal. lia. }
        intros t e. rewrite Hf. split.
        -- intros (H1 & H2 & H3). eauto with lia.
        -- intros (H1 & H2 & H3). destruct (decide (k = t)) as [<-|Hne]; [|eauto with lia].
           rewrite Er in H2. injection H2 as <-. simpl in H3. lia.
    + eexists _, _. split; [cbn [obind]; reflexivity|]. split; [done|]. split.
      { intros j Hj1 Hj2. apply Hb; lia. }
      intros t e. rewrite Hf. split.
      * intros (H1 & H2 & H3). eauto with lia.
      * intros (H1 & H2 & H3). destruct (decide (k = t)) as [<-|Hne]; [congruence|eauto with lia].
Qed.

(** The filter never panics; it keeps an entry iff its memory is below the
    memory of all entries with fewer steps (and below [usize::MAX]). *)
Lemma filter_results_spec n res :
  ∃ f, filter_results n res = Val f ∧
    ∀ t m q, f !! t = Some (m, q) ↔
      t ≤ n ∧ res !! t = Some (m, q) ∧ (m < usize_max)%N ∧
      ∀ t' m' q', t' < t → res !! t' = Some (m', q') → (m < m')%N.
Proof.
  destruct (filter_prefix res n (n + 1)) as (f & best & E & _ & _ & Hf); [lia|].
  exists f. unfold filter_results. rewrite replicate_length, E. split; [done|].
  intros t m q. rewrite Hf, lowest_lt. simpl. split.
  - intros (H1 & H2 & H3 & H4). eauto with lia.
  - intros (H1 & H2 & H3 & H4). eauto with lia.
Qed.

(** ** The sort *)

Lemma insert_by_time_perm p l : insert_by_time p l ≡ₚ p :: l.
Proof.
  induction l as [|q l IH]; simpl; [done|]. destruct (time p <=? time q); [done|].
  rewrite IH. apply Permutation_swap.
Qed.

Lemma sort_by_time_perm l : sort_by_time l ≡ₚ l.
Proof. induction l as [|p l IH]; simpl; [done|]. by rewrite insert_by_time_perm, IH. Qed.

Lemma insert_by_time_sorted p l :
  StronglySorted (λ a b, time a ≤ time b) l →
  StronglySorted (λ a b, time a ≤ time b) (insert_by_time p l).
Proof.
  induction 1 as [|q l Hs IH Hall]; simpl; [repeat constructor|].
  destruct (time p <=? time q) eqn:E.
  - apply Nat.leb_le in E. constructor; [by constructor|]. constructor; [done|].
    eapply Forall_impl; [done|]. simpl. lia.
  - apply Nat.leb_gt in E. constructor; [done|].
    rewrite insert_by_time_perm. constructor; [lia|done].
Qed.

Lemma sort_by_time_sorted l : StronglySorted (λ a b, time a ≤ time b) (sort_by_time l).
Proof. induction l as [|p l IH]; simpl; [constructor|]. by apply insert_by_time_sorted. Qed.

(** Sorted rearrangements of a list with distinct times are equal. *)
Lemma sorted_unique (l1 l2 : list path) :
  StronglySorted (λ a b, time a ≤ time b) l1 → StronglySorted (λ a b, time a ≤ time b) l2 →
  l1 ≡ₚ l2 → NoDup (map time l1) → l1 = l2.
Proof.
  revert l2. induction l1 as [|p l1 IH]; intros l2 Hs1 Hs2 Hp Hnd.
  - by apply Permutation_nil_l in Hp.
  - destruct l2 as [|q l2]; [by apply Permutation_nil_r in Hp|].
    inversion Hs1 as [|? ? Hs1' Ha1]; subst. inversion Hs2 as [|? ? Hs2' Ha2]; subst.
    apply NoDup_cons in Hnd as [Hni Hnd].
    assert (p = q) as <-.
    { rewrite Forall_forall in Ha1, Ha2.
      assert (p ∈ q :: l2) as H1 by (rewrite <- Hp; left).
      assert (q ∈ p :: l1) as H2 by (rewrite Hp; left).
      apply elem_of_cons in H1 as [->|H1]; [done|]. apply elem_of_cons in H2 as [->|H2]; [done|].
      specialize (Ha1 q H2). specialize (Ha2 p H1). destruct Hni.
      replace (time p) with (time q) by lia. by apply elem_of_list_fmap_1. }
    f_equal. apply IH; [done|done| |done]. by eapply Permutation_cons_inv.
Qed.

(** ** The returned list *)

Definition to_path (e : nat * (N * Steps)) : path := MkPath e.1 e.2.1 e.2.2.

Section finish.
  Context (ho : list (nat * (N * Steps)) → list (nat * (N * Steps))) (Hho : ∀ l, ho l ≡ₚ l).

  (** What [finish] returns. *)
  Lemma finish_spec n res :
    ∃ ps, finish ho n res = Val ps ∧
      StronglySorted (λ a b, time a ≤ time b) ps ∧
      NoDup (map time ps) ∧
      ∀ p, p ∈ ps ↔
        time p ≤ n ∧ res !! time p = Some (space p, steps p) ∧ (space p < usize_max)%N ∧
        ∀ t' m' q', t' < time p → res !! t' = Some (m', q') → (space p < m')%N.
  Proof.
    destruct (filter_results_spec n res) as (f & E & Hf).
    unfold finish. rewrite E. cbn [obind]. eexists. split; [reflexivity|].
    split; [apply sort_by_time_sorted|]. split.
    - rewrite sort_by_time_perm, Hho, map_map. simpl. change (λ x, x.1) with (@fst nat (N * Steps)).
      apply NoDup_fst_map_to_list.
    - intros p. rewrite sort_by_time_perm, Hho. destruct p as [t m q]. simpl. rewrite <- Hf.
      rewrite elem_of_list_fmap. split.
      + intros ([t' [m' q']] & [= -> -> ->] & Hi). by apply elem_of_map_to_list in Hi.
      + intros Hi. exists (t, (m, q)). split; [done|]. by apply elem_of_map_to_list.
  Qed.

  Lemma finish_tradeoff n res ps : finish ho n res = Val ps → tradeoff ps.
  Proof.
    destruct (finish_spec n res) as (ps' & E & Hs & Hnd & Hin). rewrite E. intros [= <-].
    intros i j p q Hij Hp Hq.
    assert (time p ≤ time q) as Hle.
    { clear -Hs Hij Hp Hq. revert i j Hij Hp Hq. induction Hs as [|x l Hs IH Hall]; intros [|i] [|j] Hij Hp Hq;
        try done; try lia.
      - simpl in *. injection Hp as <-. rewrite Forall_forall in Hall.
        apply Hall. by eapply elem_of_list_lookup_2.
      - eapply (IH i j); [lia|done|done]. }
    assert (time p ≠ time q).
    { intros Heq. assert (map time ps' !! i = Some (time p)) as H1 by (by rewrite list_lookup_fmap, Hp).
      assert (map time ps' !! j = Some (time q)) as H2 by (by rewrite list_lookup_fmap, Hq).
      rewrite Heq in H1. pose proof (NoDup_lookup _ _ _ _ Hnd H1 H2). lia. }
    split; [lia|].
    apply elem_of_list_lookup_2, Hin in Hp as (_ & Hp & _).
    apply elem_of_list_lookup_2, Hin in Hq as (_ & _ & _ & Hq).
    eapply Hq; [|done]. lia.
  Qed.

  (** Every entry is matched by a returned path. *)
  Lemma finish_matches n res ps t m q :
    finish ho n res = Val ps → res !! t = Some (m, q) → t ≤ n → (m < usize_max)%N →
    ∃ p, p ∈ ps ∧ time p ≤ t ∧ (space p <= m)%N.
  Proof.
    destruct (finish_spec n res) as (ps' & E & _ & _ & Hin). rewrite E. intros [= <-].
    revert m q. induction t as [t IH] using lt_wf_ind. intros m q Hr Ht Hm.
    destruct (N.lt_ge_cases m (lowest res t)) as [Hlt|Hge].
    - exists (MkPath t m q). simpl. split; [|lia]. apply Hin. simpl.
      apply lowest_lt in Hlt. tauto.
    - destruct (lowest_witness res t) as [El|(t' & q' & Ht' & Hr')]; [lia|].
      destruct (IH t' Ht' _ q' Hr') as (p & Hp & H1 & H2); [lia|lia|].
      exists p. split; [done|]. lia.
  Qed.
End finish.

(** The result does not depend on the iteration order of the map. *)
Lemma finish_hash_order ho ho' n res :
  (∀ l, ho l ≡ₚ l) → (∀ l, ho' l ≡ₚ l) → finish ho n res = finish ho' n res.
Proof.
  intros H1 H2. unfold finish. destruct (filter_results n res) as [f|]; [|done]. cbn [obind].
  f_equal. apply sorted_unique.
  - apply sort_by_time_sorted.
  - apply sort_by_time_sorted.
  - by rewrite !sort_by_time_perm, H1, H2.
  - rewrite sort_by_time_perm, H1, map_map. simpl. change (λ x, x.1) with (@fst nat (N * Steps)).
    apply NoDup_fst_map_to_list.
Qed.
