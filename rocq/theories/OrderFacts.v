(** * The order in which a sweep comes across the schedules *)
From Coq Require Export Sorted.
From Verif Require Export FirstFacts.

(** Two schedules with a common beginning: the first continues with at least as many
    measurements in one step. *)
Definition larger (x y : schedule * N) : Prop :=
  ∀ p A B σ τ, x.1 = p ++ A :: σ → y.1 = p ++ B :: τ → length B ≤ length A.

Lemma StronglySorted_app_2 {A} (R : A → A → Prop) l k :
  StronglySorted R l → StronglySorted R k → (∀ x y, x ∈ l → y ∈ k → R x y) → StronglySorted R (l ++ k).
Proof.
  intros Hl Hk H. induction Hl as [|x l Hl IH Hx]; [done|]. simpl. constructor.
  - apply IH. intros a b Ha Hb. apply H; [by right|done].
  - rewrite Forall_app. split; [done|]. apply Forall_forall. intros y Hy. apply H; [left|done].
Qed.

Lemma StronglySorted_suffix {A} (R : A → A → Prop) l k : StronglySorted R (l ++ k) → StronglySorted R k.
Proof. induction l as [|x l IH]; [done|]. simpl. inversion 1; subst. by apply IH. Qed.

Lemma all_splits_sorted {A} (l : list A) :
  StronglySorted (λ x y : list A * list A, length y.2 ≤ length x.2) (all_splits l).
Proof.
  unfold all_splits. generalize 0 (S (length l)). intros i n. revert i.
  induction n as [|n IH]; intros i; simpl; [constructor|].
  assert (∀ x y, x ∈ splits i l → y ∈ splits i l ++ concat (map (λ k, splits k l) (seq (S i) n)) →
    length y.2 ≤ length x.2) as Hle.
  { intros [a b] [c d] H1 H2. simpl. apply splits_shuffle in H1 as [H1 Ha].
    assert (shuffle l c d ∧ i ≤ length c) as [H3 Hc].
    { apply elem_of_app in H2 as [H2|H2].
      - apply splits_shuffle in H2 as [? ->]. done.
      - rewrite elem_of_list_In, in_concat in H2. destruct H2 as (s & Hs & H2).
        apply in_map_iff in Hs as (k & <- & Hk). apply in_seq in Hk.
        apply elem_of_list_In, splits_shuffle in H2 as [? ->]. split; [done|lia]. }
    apply shuffle_perm, Permutation_length in H1. apply shuffle_perm, Permutation_length in H3.
    rewrite app_length in H1, H3. lia. }
  apply StronglySorted_app_2; [|apply IH|].
  - assert (∀ k, (∀ x, x ∈ k → x ∈ splits i l) →
      StronglySorted (λ x y : list A * list A, length y.2 ≤ length x.2) k) as H; [|by apply H].
    induction k as [|x k IHk]; intros Hk; constructor.
    + apply IHk. intros y Hy. apply Hk. by right.
    + apply Forall_forall. intros y Hy. apply Hle; [apply Hk; left|].
      apply elem_of_app. left. apply Hk. by right.
  - intros x y Hx Hy. apply Hle; [done|]. apply elem_of_app. by right.
Qed.

Lemma shuffle_unique {A} (l a a' b : list A) : NoDup l → shuffle l a b → shuffle l a' b → a = a'.
Proof.
  intros Hnd H1. revert a' Hnd. induction H1 as [|x l a b H1 IH|x l a b H1 IH]; intros a' Hnd H2.
  - by inversion H2.
  - apply NoDup_cons in Hnd as [Hx Hnd]. inversion H2 as [|? ? c d H3|? ? c d H3]; subst.
    + f_equal. by apply IH.
    + exfalso. apply Hx. apply shuffle_perm in H1. rewrite H1. apply elem_of_app. right. left.
  - apply NoDup_cons in Hnd as [Hx Hnd]. inversion H2 as [|? ? c d H3|? ? c d H3]; subst.
    + exfalso. apply Hx. apply shuffle_perm in H3. rewrite H3. apply elem_of_app. right. left.
    + by apply IH.
Qed.

Section order.
  Context (adj : spacial) (g : order) (Hin : wf_input adj g).
  Notation node := (node adj g).
  Notation visits := (visits (FI := scheduler_focus_iterator Debug)).
  Notation visits_root := (visits_root (FI := scheduler_focus_iterator Debug)).

  Lemma node_sorted p s a b l a' b' :
    node p s → items s = (a, b) :: l → (a', b') ∈ l → length b' ≤ length b ∧ b' ≠ b.
  Proof.
    intros Hn Hi Hl. pose proof Hn as [_ _ (v & Hv)]. rewrite Hi in Hv. split.
    - pose proof (all_splits_sorted (mset s)) as Hs. rewrite Hv in Hs. apply StronglySorted_suffix in Hs.
      inversion Hs as [|? ? _ Hf]; subst. rewrite Forall_forall in Hf. by apply (Hf (a', b')).
    - intros ->. pose proof (node_nodup adj g _ _ Hn) as Hnd.
      pose proof (NoDup_all_splits (mset s) Hnd) as Hnd'. rewrite Hv in Hnd'.
      apply NoDup_app in Hnd' as (_ & _ & Hnd'). apply NoDup_cons in Hnd' as [Hnot _].
      assert (shuffle (mset s) a b) as H1 by (apply (node_item adj g p); [done|]; rewrite Hi; left).
      assert (shuffle (mset s) a' b) as H2 by (apply (node_item adj g p); [done|]; rewrite Hi; by right).
      by rewrite (shuffle_unique _ _ _ _ Hnd H1 H2) in Hnot.
  Qed.

  (** What is visited from a node starts with one of its items, unless it ends there. *)
  Lemma visits_first p s ps q m :
    node p s → visits p s ps → (q, m) ∈ ps → q = p ∨ ∃ a b τ, (a, b) ∈ items s ∧ q = p ++ b :: τ.
  Proof.
    intros Hn Hv. revert Hn. induction Hv as [p s s' E|p s s' c i ps qs E Hps _ _ IH2]; intros Hn Hq.
    - left. destruct (at_leaf s') as [l|]; [|by apply elem_of_nil in Hq].
      by apply elem_of_list_singleton in Hq as [= -> ->].
    - destruct (items_cases adj g Hin p s Hn) as [[_ E']|(a & b & l & c' & Ei & Hb & Hc & _ & E')];
        specialize (E' Debug); simpl in E; rewrite E' in E; [done|]. injection E as <- <- <-.
      rewrite Ei. apply elem_of_app in Hq as [Hq|Hq].
      + right. destruct (visits_prefix _ _ _ _ _ Hps Hq) as [τ ->].
        exists a, b, τ. split; [left|]. by rewrite <- app_assoc.
      + destruct (IH2 (advance_node adj g _ _ Hn) Hq) as [->|(a' & b' & τ & Hi & ->)]; [by left|].
        right. exists a', b', τ. split; [|done]. rewrite advance_items, Ei in Hi. by right.
  Qed.

  Lemma larger_siblings p s a b l x y :
    node p s → items s = (a, b) :: l → (∃ τ, x.1 = (p ++ [b]) ++ τ) →
    (y.1 = p ∨ ∃ a' b' τ, (a', b') ∈ l ∧ y.1 = p ++ b' :: τ) → larger x y.
  Proof.
    intros Hn Hi (τ & Hx) Hy p0 A B σ τ' Ex Ey. rewrite Hx, <- app_assoc in Ex. simpl in Ex.
    assert (y.1 = p ∨ ∃ b' τ, length b' ≤ length b ∧ b' ≠ b ∧ y.1 = p ++ b' :: τ) as Hy'.
    { destruct Hy as [?|(a' & b' & τ0 & Hl & ?)]; [by left|]. right.
      destruct (node_sorted _ _ _ _ _ _ _ Hn Hi Hl). by exists b', τ0. }
    clear Hy Hx. apply app_eq_inv in Ex as [(k & -> & E)|(k & -> & E)].
    - destruct k as [|z k]; simpl in E.
      + rewrite app_nil_r in *. injection E as <- ->. destruct Hy' as [Hy|(b' & τ0 & Hle & _ & Hy)]; rewrite Hy in Ey.
        * exfalso. apply (f_equal length) in Ey. rewrite app_length in Ey. simpl in Ey. lia.
        * apply app_inv_head in Ey. by injection Ey as -> _.
      + injection E as <- ->. destruct Hy' as [Hy|(b' & τ0 & Hle & _ & Hy)]; rewrite Hy, <- ?app_assoc in Ey; simpl in Ey;
          apply app_inv_head in Ey; by injection Ey as -> _.
    - destruct k as [|z k]; simpl in E.
      + rewrite app_nil_r in *. injection E as -> ->. destruct Hy' as [Hy|(b' & τ0 & Hle & _ & Hy)]; rewrite Hy in Ey.
        * exfalso. apply (f_equal length) in Ey. rewrite app_length in Ey. simpl in Ey. lia.
        * apply app_inv_head in Ey. by injection Ey as -> _.
      + injection E as -> E. exfalso. destruct Hy' as [Hy|(b' & τ0 & _ & Hne & Hy)]; rewrite Hy in Ey.
        * apply (f_equal length) in Ey. rewrite !app_length in Ey. simpl in Ey. lia.
        * rewrite <- app_assoc in Ey. apply app_inv_head in Ey. injection Ey as ?. done.
  Qed.

  Lemma visits_larger p s ps : node p s → visits p s ps → StronglySorted larger ps.
  Proof.
    intros Hn Hv. revert Hn. induction Hv as [p s s' E|p s s' c i ps qs E Hps IH1 Hqs IH2]; intros Hn.
    - destruct (at_leaf s'); repeat constructor.
    - destruct (items_cases adj g Hin p s Hn) as [[_ E']|(a & b & l & c' & Ei & Hb & Hc & _ & E')];
        specialize (E' Debug); simpl in E; rewrite E' in E; [done|]. injection E as <- <- <-.
      pose proof (advance_node adj g _ _ Hn) as Ha.
      apply StronglySorted_app_2; [by apply IH1|by apply IH2|]. intros [x m] [y m'] Hx Hy.
      apply (larger_siblings p s a b l); [done|done|by eapply visits_prefix|].
      destruct (visits_first _ _ _ _ _ Ha Hqs Hy) as [->|(a' & b' & τ & Hi & ->)]; [by left|right].
      exists a', b', τ. split; [|done]. by rewrite advance_items, Ei in Hi.
  Qed.

  Lemma visits_root_first s ps q m :
    node [] s → visits_root [] s ps → (q, m) ∈ ps → ∃ a b τ, (a, b) ∈ items s ∧ q = b :: τ.
  Proof.
    intros Hn Hv. revert Hn. induction Hv as [s s' E|s s' c i ps qs E Hps _ IH2]; intros Hn Hq.
    - by apply elem_of_nil in Hq.
    - destruct (items_cases adj g Hin [] s Hn) as [[_ E']|(a & b & l & c' & Ei & Hb & Hc & _ & E')];
        specialize (E' Debug); simpl in E; rewrite E' in E; [done|]. injection E as <- <- <-.
      rewrite Ei. apply elem_of_app in Hq as [Hq|Hq].
      + destruct (visits_prefix _ _ _ _ _ Hps Hq) as [τ ->]. exists a, b, τ. split; [left|done].
      + destruct (IH2 (advance_node adj g _ _ Hn) Hq) as (a' & b' & τ & Hi & ->).
        exists a', b', τ. split; [|done]. rewrite advance_items, Ei in Hi. by right.
  Qed.

  Lemma visits_root_larger s ps : node [] s → visits_root [] s ps → StronglySorted larger ps.
  Proof.
    intros Hn Hv. revert Hn. induction Hv as [s s' E|s s' c i ps qs E Hps Hqs IH2]; intros Hn.
    - constructor.
    - destruct (items_cases adj g Hin [] s Hn) as [[_ E']|(a & b & l & c' & Ei & Hb & Hc & _ & E')];
        specialize (E' Debug); simpl in E; rewrite E' in E; [done|]. injection E as <- <- <-.
      pose proof (advance_node adj g _ _ Hn) as Ha.
      apply StronglySorted_app_2; [exact (visits_larger _ _ _ Hc Hps)|by apply IH2|]. intros [x m] [y m'] Hx Hy.
      apply (larger_siblings [] s a b l); [done|done|by eapply visits_prefix|]. right.
      destruct (visits_root_first _ _ _ _ Ha Hqs Hy) as (a' & b' & τ & Hi & ->).
      exists a', b', τ. split; [|done]. by rewrite advance_items, Ei in Hi.
  Qed.
End order.

Lemma StronglySorted_lookup {A} (R : A → A → Prop) l i j x y :
  StronglySorted R l → i < j → l !! i = Some x → l !! j = Some y → R x y.
Proof.
  intros Hs. revert i j. induction Hs as [|z l Hs IH Hz]; intros i j Hij Hi Hj; [done|].
  destruct j as [|j]; [lia|]. simpl in Hj. destruct i as [|i]; simpl in Hi.
  - injection Hi as ->. rewrite Forall_forall in Hz. apply Hz. by eapply elem_of_list_lookup_2.
  - apply (IH i j); [lia|done|done].
Qed.

(** ** C77: the order of the sweep *)

Lemma sweep_order :
  ∀ adj g, wf_input adj g →
  ∃ t all, from_dependency_graph g (dependency_buffer_new (length adj)) None = Val t ∧
    (∀ bd, returns (λ fuel, get_all_paths (H := scheduler_focus_iterator bd) fuel []
                              (mkScheduler t (graph_new adj))) all) ∧
    (* of two schedules with a common beginning, that which measures more in the next
       step comes first *)
    ∀ i j p A B σ τ m m', i < j →
      all !! i = Some (p ++ A :: σ, m) → all !! j = Some (p ++ B :: τ, m') → length B ≤ length A.
Proof.
  intros adj g Hin. destruct (search_root adj g Hin) as (root & Er & Hn & _).
  destruct (scheduler_sweep adj g (dependency_buffer_new (length adj)) Hin) as (t & all & Et & Hv & _).
  { unfold dependency_buffer_new. by rewrite replicate_length. }
  unfold search_scheduler in Er. rewrite Et in Er. cbn [obind] in Er. injection Er as <-.
  exists t, all. split; [done|]. split; [intros bd; apply collect_returns, Hv|].
  intros i j p A B σ τ m m' Hij Hi Hj.
  eapply (StronglySorted_lookup larger all i j (p ++ A :: σ, m) (p ++ B :: τ, m')); try done.
  by eapply visits_root_larger.
Qed.
