(** * Facts about [Partition] *)
From Verif Require Export Combinatoric.

Section splits.
  Context {A : Type}.
  Implicit Types l a b : list A.

  (** Splits of [l] with [k] elements on the left, in the order of the code. *)
  Fixpoint splits (k : nat) (l : list A) : list (list A * list A) :=
    match k, l with
    | 0, _ => [([], l)]
    | S _, [] => []
    | S k', x :: l' =>
        map (λ r, (x :: r.1, r.2)) (splits k' l') ++
        map (λ r, (r.1, x :: r.2)) (splits k l')
    end.

  Definition all_splits (l : list A) : list (list A * list A) :=
    concat (map (λ k, splits k l) (seq 0 (S (length l)))).

  (** [l] is a shuffle of [a] and [b]. *)
  Inductive shuffle : list A → list A → list A → Prop :=
  | shuffle_nil : shuffle [] [] []
  | shuffle_left x l a b : shuffle l a b → shuffle (x :: l) (x :: a) b
  | shuffle_right x l a b : shuffle l a b → shuffle (x :: l) a (x :: b).

  Lemma partition_map_nil i l : partition_map i [] l = ([], l).
  Proof. revert i; induction l as [|x l IH]; intros i; [done|]. simpl. by rewrite IH. Qed.

  Lemma combinations_bound k (l : list nat) s x :
    s ∈ combinations k l → x ∈ s → x ∈ l.
  Proof.
    revert k s; induction l as [|y l IH]; intros k s; destruct k as [|k]; simpl.
    - rewrite elem_of_list_singleton. intros ->. by rewrite elem_of_nil.
    - by rewrite elem_of_nil.
    - rewrite elem_of_list_singleton. intros ->. by rewrite elem_of_nil.
    - rewrite elem_of_app, elem_of_list_fmap. intros [(s' & -> & Hs)|Hs].
      + rewrite !elem_of_cons. intros [->|Hx]; [by left|right; eauto].
      + rewrite elem_of_cons. intros Hx. right. eauto.
  Qed.

  Lemma partition_map_splits k i l :
    map (λ s, partition_map i s l) (combinations k (seq i (length l))) = splits k l.
  Proof.
    revert k i; induction l as [|x l IH]; intros k i; destruct k as [|k]; simpl; try done.
    - by rewrite partition_map_nil.
    - rewrite map_app, map_map. f_equal.
      + rewrite <- (IH k (S i)), map_map. apply map_ext. intros s. by rewrite Nat.eqb_refl.
      + rewrite <- (IH (S k) (S i)), map_map. apply map_ext_in. intros s Hs.
        destruct s as [|p s]; [done|].
        assert (p ∈ seq (S i) (length l)) as Hp.
        { eapply combinations_bound; [by apply elem_of_list_In|]. left. }
        apply elem_of_seq in Hp.
        destruct (Nat.eqb_spec p i); [lia|done].
  Qed.

  Lemma powerset_all_splits l :
    map (λ s, partition_map 0 s l) (powerset (length l)) = all_splits l.
  Proof.
    unfold powerset, all_splits. rewrite concat_map, map_map. f_equal.
    apply map_ext. intros k. apply partition_map_splits.
  Qed.

  Lemma shuffle_nil_l l : shuffle l [] l.
  Proof. induction l; by constructor. Qed.

  Lemma splits_shuffle k l a b :
    (a, b) ∈ splits k l ↔ shuffle l a b ∧ length a = k.
  Proof.
    revert k a b; induction l as [|x l IH]; intros k a b; destruct k as [|k]; simpl.
    - rewrite elem_of_list_singleton. split.
      + intros [= -> ->]. split; [constructor|done].
      + intros [H ?]. by inversion H.
    - rewrite elem_of_nil. split; [done|]. intros [H ?]. inversion H; subst. done.
    - rewrite elem_of_list_singleton. split.
      + intros [= -> ->]. split; [apply shuffle_nil_l|done].
      + intros [H Hl]. destruct a; [|done]. clear IH Hl. f_equal.
        revert H. generalize (x :: l). intros l' H.
        remember [] as a. revert Heqa. induction H; intros; [done|done|f_equal; eauto].
    - rewrite elem_of_app, !elem_of_list_fmap. split.
      + intros [([a' b'] & [= -> ->] & H)|([a' b'] & [= -> ->] & H)]; simpl.
        * apply IH in H as [H ->]. split; [by constructor|done].
        * apply IH in H as [H Hl]. split; [by constructor|done].
      + intros [H Hl]. inversion H; subst.
        * left. eexists (_, _). split; [done|]. apply IH. split; [done|]. simpl in *. lia.
        * right. eexists (_, _). split; [done|]. by apply IH.
  Qed.

  Lemma shuffle_perm l a b : shuffle l a b → l ≡ₚ a ++ b.
  Proof.
    induction 1; [done|by simpl; f_equiv|].
    etrans; [by apply Permutation_skip|]. by apply Permutation_middle.
  Qed.

  Lemma shuffle_length l a b : shuffle l a b → length l = length a + length b.
  Proof. intros H%shuffle_perm. by rewrite H, app_length. Qed.

  Lemma all_splits_shuffle l a b : (a, b) ∈ all_splits l ↔ shuffle l a b.
  Proof.
    unfold all_splits. rewrite elem_of_list_In, in_concat. setoid_rewrite in_map_iff.
    split.
    - intros (s & (k & <- & Hk) & H). apply elem_of_list_In, splits_shuffle in H. tauto.
    - intros H. exists (splits (length a) l). split.
      + exists (length a). split; [done|]. apply in_seq.
        apply shuffle_length in H. lia.
      + apply elem_of_list_In, splits_shuffle. done.
  Qed.

  Lemma shuffle_sublist l a b : shuffle l a b → a `sublist_of` l ∧ b `sublist_of` l.
  Proof.
    induction 1 as [|x l a b H [IH1 IH2]|x l a b H [IH1 IH2]]; [by split| |].
    - split; by constructor.
    - split; by constructor.
  Qed.

  Lemma sublist_elem a l x : a `sublist_of` l → x ∈ a → x ∈ l.
  Proof.
    intros H. apply sublist_submseteq in H. apply submseteq_Permutation in H as [k Hk].
    intros Hx. rewrite Hk. apply elem_of_app. by left.
  Qed.

  Lemma shuffle_of_sublist l a b :
    NoDup l → a `sublist_of` l → b `sublist_of` l → a ++ b ≡ₚ l → shuffle l a b.
  Proof.
    revert a b. induction l as [|x l IH]; intros a b Hnd Ha Hb Hp.
    - apply sublist_nil_r in Ha as ->. apply sublist_nil_r in Hb as ->. constructor.
    - apply NoDup_cons in Hnd as [Hx Hnd].
      apply sublist_cons_r in Ha as [Ha|(a' & -> & Ha)];
      apply sublist_cons_r in Hb as [Hb|(b' & -> & Hb)].
      + exfalso. assert (x ∈ a ++ b) as Hin by (rewrite Hp; left).
        apply elem_of_app in Hin as [Hin|Hin]; apply Hx; eapply sublist_elem; [exact Ha|done|exact Hb|done].
      + constructor. apply IH; [done..|]. apply Permutation_cons_inv with x.
        rewrite <- Hp. by apply Permutation_middle.
      + constructor. apply IH; [done..|]. by apply Permutation_cons_inv with x.
      + exfalso. assert (NoDup ((x :: a') ++ x :: b')) as Hn.
        { rewrite Hp. by constructor. }
        apply NoDup_app in Hn as (_ & Hn & _). apply (Hn x); left.
  Qed.

  Lemma NoDup_all_splits l : NoDup l → NoDup (all_splits l).
  Proof.
    intros Hl.
    assert (∀ k, NoDup (splits k l)) as Hs.
    { induction l as [|x l IH]; intros [|k]; simpl; try apply NoDup_singleton; [apply NoDup_nil_2|].
      apply NoDup_cons in Hl as [Hx Hl]. specialize (IH Hl).
      apply NoDup_app. split_and!.
      - apply NoDup_fmap_2; [|done]. by intros [] [] [= -> ->].
      - intros [a b]. rewrite !elem_of_list_fmap.
        intros ([a1 b1] & [= -> ->] & H1) ([a2 b2] & [= <- ->] & H2).
        apply splits_shuffle in H2 as [H2 _]. apply shuffle_sublist in H2 as [H2 _].
        apply Hx. eapply sublist_elem; [done|left].
      - apply NoDup_fmap_2; [|done]. by intros [] [] [= -> ->]. }
    unfold all_splits. generalize 0 (S (length l)). intros i n. revert i.
    induction n as [|n IH]; intros i; simpl; [apply NoDup_nil_2|].
    apply NoDup_app. split_and!; [done| |done].
    intros [a b] H1 H2. apply splits_shuffle in H1 as [_ H1].
    apply elem_of_list_In, in_concat in H2 as (s & Hs2 & H2).
    apply in_map_iff in Hs2 as (k & <- & Hk). apply in_seq in Hk.
    apply elem_of_list_In, splits_shuffle in H2 as [_ H2]. lia.
  Qed.

  Lemma splits_length_gt k l : length l < k → splits k l = [].
  Proof.
    revert k; induction l as [|x l IH]; intros [|k] Hk; simpl in *; try lia; [done|].
    by rewrite (IH k), (IH (S k)) by lia.
  Qed.

  Lemma splits_full l : splits (length l) l = [(l, [])].
  Proof.
    induction l as [|x l IH]; [done|]. simpl. by rewrite IH, splits_length_gt by lia.
  Qed.

  Lemma all_splits_last l :
    all_splits l = concat (map (λ k, splits k l) (seq 0 (length l))) ++ [(l, [])].
  Proof.
    unfold all_splits. rewrite seq_S, map_app, concat_app. simpl.
    by rewrite splits_full.
  Qed.

  Lemma all_splits_head l : ∃ r, all_splits l = ([], l) :: r.
  Proof. eexists. unfold all_splits. simpl. destruct l; done. Qed.

  Lemma elem_before_last l a b :
    (a, b) ∈ concat (map (λ k, splits k l) (seq 0 (length l))) → b ≠ [].
  Proof.
    rewrite elem_of_list_In, in_concat. intros (s & Hs & H).
    apply in_map_iff in Hs as (k & <- & Hk). apply in_seq in Hk.
    apply elem_of_list_In, splits_shuffle in H as [H1 H2].
    apply shuffle_length in H1. intros ->. simpl in *. lia.
  Qed.
End splits.

Lemma splits_count {A} (l : list A) :
  length (all_splits l) = 2 ^ length l.
Proof.
  (* all masks *)
  assert (∀ n (l : list A), length l < n →
    length (concat (map (λ k, splits k l) (seq 0 n))) = 2 ^ length l) as H.
  { clear l. intros n l. revert n. induction l as [|x l IH]; intros n Hn.
    - destruct n; [simpl in *; lia|]. simpl.
      assert (∀ i m, concat (map (λ k, splits (A:=A) k []) (seq (S i) m)) = []) as E.
      { intros i m; revert i; induction m; intros; simpl; [done|]. apply IHm. }
      by rewrite E.
    - destruct n as [|n]; [simpl in *; lia|]. simpl in Hn. simpl length at 2.
      rewrite Nat.pow_succ_r'.
      assert (length (concat (map (λ k, splits k (x :: l)) (seq 0 (S n)))) =
              length (concat (map (λ k, splits k l) (seq 0 n))) +
              length (concat (map (λ k, splits k l) (seq 0 (S n))))) as ->.
      { rewrite <- !cons_seq, !map_cons, !concat_cons, !app_length.
        assert (length (splits 0 (x :: l)) = 1) as -> by done.
        assert (length (splits 0 l) = 1) as -> by (destruct l; done).
        rewrite <- seq_shift, !map_map.
        cut (∀ ks, length (concat (map (λ k, splits (S k) (x :: l)) ks)) =
          length (concat (map (λ k, splits k l) ks)) +
          length (concat (map (λ k, splits (S k) l) ks))).
        { intros ->. lia. }
        induction ks as [|k ks IHks]; [done|].
        rewrite !map_cons, !concat_cons, !app_length, IHks. simpl.
        rewrite app_length, !map_length. lia. }
      rewrite (IH n), (IH (S n)) by lia. lia. }
  apply H. lia.
Qed.

(** Sub-lists used by the search: every non-empty part of [l] is the right
    component of some split. *)
Lemma shuffle_filter {A} (P : A → Prop) `{∀ x, Decision (P x)} (l : list A) :
  shuffle l (filter (λ x, ¬ P x) l) (filter P l).
Proof.
  induction l as [|x l IH]; [constructor|].
  destruct (decide (P x)).
  - rewrite (filter_cons_True P), (filter_cons_False (λ x, ¬ P x)) by tauto. by constructor.
  - rewrite (filter_cons_False P), (filter_cons_True (λ x, ¬ P x)) by tauto. by constructor.
Qed.

(** Sub-lists of a duplicate free list are determined by their elements. *)
Lemma sublist_same {A} (l a b : list A) :
  NoDup l → a `sublist_of` l → b `sublist_of` l → a ≡ₚ b → a = b.
Proof.
  revert a b. induction l as [|x l IH]; intros a b Hnd Ha Hb Hp.
  - apply sublist_nil_r in Ha as ->. by apply sublist_nil_r in Hb as ->.
  - apply NoDup_cons in Hnd as [Hx Hnd].
    assert (∀ c, c `sublist_of` l → x ∉ c) as Hno.
    { intros c Hc Hxc. apply Hx. by eapply sublist_elem. }
    apply sublist_cons_r in Ha as [Ha|(a' & -> & Ha)];
    apply sublist_cons_r in Hb as [Hb|(b' & -> & Hb)].
    + by apply IH.
    + exfalso. apply (Hno a Ha). rewrite Hp. left.
    + exfalso. apply (Hno b Hb). rewrite <- Hp. left.
    + f_equal. apply IH; [done..|]. by eapply Permutation_cons_inv.
Qed.
