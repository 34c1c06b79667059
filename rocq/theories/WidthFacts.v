(** * Path decompositions: proofs *)
From Verif Require Export WidthSpec Metamorphic.

Lemma elem_of_take_concat (σ : schedule) k b :
  b ∈ concat (take k σ) ↔ ∃ j M, j < k ∧ σ !! j = Some M ∧ b ∈ M.
Proof.
  rewrite elem_of_concat. split.
  - intros (M & HM & Hb). apply elem_of_list_lookup in HM as (j & Hj). apply lookup_take_Some in Hj as [Hj Hlt].
    by exists j, M.
  - intros (j & M & Hj & HM & Hb). exists M. split; [|done]. apply elem_of_list_lookup. exists j.
    by apply lookup_take_Some.
Qed.

Lemma elem_of_drop_concat (σ : schedule) k b :
  b ∈ concat (drop k σ) ↔ ∃ j M, k ≤ j ∧ σ !! j = Some M ∧ b ∈ M.
Proof.
  rewrite elem_of_concat. split.
  - intros (M & HM & Hb). apply elem_of_list_lookup in HM as (j & Hj). rewrite lookup_drop in Hj.
    exists (k + j), M. split; [lia|done].
  - intros (j & M & Hj & HM & Hb). exists M. split; [|done]. apply elem_of_list_lookup. exists (j - k).
    rewrite lookup_drop. by replace (k + (j - k)) with j by lia.
Qed.

(** A qubit is measured in one step only. *)
Lemma step_not_before g σ k M b :
  legal_prefix g σ → σ !! k = Some M → b ∈ M → b ∉ concat (take k σ).
Proof.
  intros Hl HM Hb Hin. pose proof (lp_once _ _ Hl) as Hnd.
  rewrite <- (take_drop_middle σ k M HM) in Hnd. rewrite concat_app in Hnd. apply NoDup_app in Hnd as (_ & Hnd & _).
  apply (Hnd b Hin). simpl. apply elem_of_app. by left.
Qed.

(** ** From schedules to decompositions *)

Section bags_of.
  Context (adj : spacial) (g : order) (σ : schedule).
  Context (Hin : wf_input adj g) (Hun : undirected adj) (Hσ : valid_schedule g σ).

  Definition bags_of : list bag :=
    map (λ k, filter (occupies adj σ k) (seq 0 (length adj))) (seq 0 (length σ)).

  Lemma bags_of_lookup k B :
    bags_of !! k = Some B ↔ k < length σ ∧ B = filter (occupies adj σ k) (seq 0 (length adj)).
  Proof.
    unfold bags_of. split.
    - intros H. apply list_lookup_fmap_inv in H as (j & -> & Hj). apply lookup_seq in Hj as [-> ?]. done.
    - intros [Hk ->]. apply list_lookup_fmap_Some. exists k. split; [|done]. apply lookup_seq. lia.
  Qed.

  Lemma bag_elem k v : v ∈ filter (occupies adj σ k) (seq 0 (length adj)) ↔ occupies adj σ k v ∧ v < length adj.
  Proof. rewrite elem_of_list_filter, elem_of_seq. split; intros [? ?]; split; try done; lia. Qed.

  Lemma node_range b : listed g b → b < length adj.
  Proof. intros H. apply (wf_range _ _ (proj2 Hin)). by apply listed_qubits. Qed.

  Lemma neighbour_node u v : v ∈ neighbours adj u → v < length adj.
  Proof.
    unfold neighbours. destruct (adj !! u) as [ns|] eqn:E; simpl; [|by intros ?%elem_of_nil].
    intros Hv. apply (proj1 (proj1 Hin) ns); [by eapply elem_of_list_lookup_2|done].
  Qed.

  Lemma bags_of_in k B v : bags_of !! k = Some B → v ∈ B ↔ occupies adj σ k v ∧ v < length adj.
  Proof. intros [_ ->]%bags_of_lookup. apply bag_elem. Qed.

  Lemma bags_of_exists k : k < length σ → ∃ B, bags_of !! k = Some B.
  Proof. intros Hk. eexists. apply bags_of_lookup. by split. Qed.

  Lemma step_of b : listed g b → ∃ k M, σ !! k = Some M ∧ b ∈ M.
  Proof.
    intros Hb. pose proof (vs_complete _ _ Hσ b Hb) as (M & HM & HbM)%elem_of_concat.
    apply elem_of_list_lookup in HM as (k & Hk). by exists k, M.
  Qed.

  Lemma needed_mono A A' v : (∀ u, u ∈ A → u ∈ A') → needed adj A v → needed adj A' v.
  Proof. intros H [?|(u & ? & ?)]; [left; by apply H|right; exists u; split; [by apply H|done]]. Qed.

  Lemma take_mono i j b : i ≤ j → b ∈ concat (take i σ) → b ∈ concat (take j σ).
  Proof. intros Hij. rewrite !elem_of_take_concat. intros (l & M & Hl & HM). exists l, M. split; [lia|done]. Qed.

  Lemma occupies_own k M b : σ !! k = Some M → b ∈ M → occupies adj σ k b.
  Proof.
    intros HM Hb. split; [eapply step_not_before; [apply Hσ|done|done]|]. left. apply elem_of_take_concat.
    exists k, M. split; [lia|done].
  Qed.

  Lemma bags_of_decomposition : decomposition adj g bags_of.
  Proof.
    split.
    - intros B (k & HB)%elem_of_list_lookup. apply bags_of_lookup in HB as [_ ->]. apply NoDup_filter, NoDup_seq.
    - intros B v (k & HB)%elem_of_list_lookup Hv. by apply (bags_of_in k B v HB) in Hv as [_ ?].
    - intros b Hb. destruct (step_of b Hb) as (k & M & HM & HbM).
      destruct (bags_of_exists k) as (B & HB); [by eapply lookup_lt_Some|]. exists B.
      split; [by eapply elem_of_list_lookup_2|]. apply (bags_of_in k B b HB). split; [by eapply occupies_own|by apply node_range].
    - intros u v Hu Hv. destruct (step_of u Hu) as (i & M & HM & HuM). pose proof (lookup_lt_Some _ _ _ HM) as Hi.
      destruct (decide (v ∈ concat (take i σ))) as [Hin'|Hnot].
      + apply elem_of_take_concat in Hin' as (j & N & Hj & HN & HvN).
        destruct (bags_of_exists j) as (B & HB); [by eapply lookup_lt_Some|]. exists B.
        split; [by eapply elem_of_list_lookup_2|]. rewrite !(bags_of_in j B _ HB). split; split.
        * split.
          -- intros H. eapply (step_not_before g σ i M u); [apply Hσ|done|done|]. eapply take_mono; [|exact H]. lia.
          -- right. exists v. split; [|by apply Hun]. apply elem_of_take_concat. exists j, N. split; [lia|done].
        * by apply node_range.
        * by eapply occupies_own.
        * by eapply neighbour_node.
      + destruct (bags_of_exists i) as (B & HB); [done|]. exists B.
        split; [by eapply elem_of_list_lookup_2|]. rewrite !(bags_of_in i B _ HB). split; split.
        * by eapply occupies_own.
        * by apply node_range.
        * split; [done|]. right. exists u. split; [|done]. apply elem_of_take_concat. exists i, M. split; [lia|done].
        * by eapply neighbour_node.
    - intros i j k A B C v Hij Hjk HA HB HC. rewrite (bags_of_in i A v HA), (bags_of_in j B v HB), (bags_of_in k C v HC).
      intros [[_ H1] _] [[H2 _] H3]. split; [|done]. split.
      + intros H. apply H2. by eapply take_mono.
      + eapply needed_mono; [|exact H1]. intros u. apply take_mono. lia.
    - intros i j A B v Hij HA HB Hno. rewrite (bags_of_in i A v HA), (bags_of_in j B v HB).
      intros [[_ H1] H3]. split; [|done]. split.
      + intros (l & M & _ & HM & Hv)%elem_of_take_concat. apply Hno, (lp_listed _ _ (vs_legal _ _ Hσ)), elem_of_concat.
        exists M. split; [by eapply elem_of_list_lookup_2|done].
      + eapply needed_mono; [|exact H1]. intros u. apply take_mono. lia.
    - intros b d Hd. assert (listed g b) as Hb by (destruct Hd as (l & ds & ? & ? & _); by exists l, ds).
      destruct (step_of b Hb) as (k & M & HM & HbM).
      destruct (bags_of_exists k) as (B & HB); [by eapply lookup_lt_Some|]. exists k, B. split; [done|]. split.
      + apply (bags_of_in k B b HB). split; [by eapply occupies_own|by apply node_range].
      + intros j C Hj HC. rewrite (bags_of_in j C d HC). intros [[H _] _]. apply H.
        eapply take_mono; [exact Hj|]. by eapply (lp_order _ _ (vs_legal _ _ Hσ) k M b d).
  Qed.

  Lemma bags_of_length : length bags_of = length σ.
  Proof. unfold bags_of. by rewrite map_length, seq_length. Qed.

  Lemma bags_of_within : bags_within (space_cost adj σ) bags_of.
  Proof.
    intros B (k & HB)%elem_of_list_lookup. apply bags_of_lookup in HB as [Hk ->]. by apply memory_space.
  Qed.
End bags_of.

(** ** From decompositions to schedules *)

Section schedule_of.
  Context (adj : spacial) (g : order) (bags : list bag).
  Context (Hin : wf_input adj g) (Hd : decomposition adj g bags).
  Notation n := (length adj).

  (** The measured qubits whose last bag has number [k]. *)
  Definition last_in (k : nat) : step :=
    filter (λ b, b ∈ default [] (bags !! k) ∧ b ∉ concat (drop (S k) bags)) (qubits g).

  Fixpoint schedule_to (k : nat) : schedule :=
    match k with
    | 0 => []
    | S k => schedule_to k ++ if decide (last_in k = []) then [] else [last_in k]
    end.

  Lemma last_in_elem k b :
    b ∈ last_in k ↔ listed g b ∧ (∃ B, bags !! k = Some B ∧ b ∈ B) ∧ ∀ j C, k < j → bags !! j = Some C → b ∉ C.
  Proof.
    unfold last_in. rewrite elem_of_list_filter, elem_of_drop_concat, <- listed_qubits. split.
    - intros [[H1 H2] H3]. split; [done|]. split.
      + destruct (bags !! k) as [B|] eqn:E; simpl in H1; [by exists B|by apply elem_of_nil in H1].
      + intros j C Hj HC Hb. apply H2. by exists j, C.
    - intros (H1 & (B & HB & Hb) & H3). split; [|done]. rewrite HB. split; [done|].
      intros (j & C & Hj & HC & Hb'). eapply H3; [|exact HC|exact Hb']. lia.
  Qed.

  Lemma schedule_to_elem k b : b ∈ concat (schedule_to k) ↔ ∃ j, j < k ∧ b ∈ last_in j.
  Proof.
    induction k as [|k IH]; simpl.
    - split; [by intros ?%elem_of_nil|intros (j & ? & _); lia].
    - rewrite concat_app, elem_of_app, IH. assert (concat (if decide (last_in k = []) then [] else [last_in k]) = last_in k) as ->.
      { case_decide as E; simpl; [done|by rewrite app_nil_r]. }
      split.
      + intros [(j & Hj & Hb)|Hb]; [exists j; split; [lia|done]|exists k; split; [lia|done]].
      + intros (j & Hj & Hb). destruct (decide (j = k)) as [->|]; [by right|]. left. exists j. split; [lia|done].
  Qed.

  Lemma schedule_to_length k : length (schedule_to k) ≤ k.
  Proof. induction k as [|k IH]; simpl; [done|]. rewrite app_length. case_decide; simpl; lia. Qed.

  Lemma last_exists b : listed g b → ∃ k, k < length bags ∧ b ∈ last_in k.
  Proof.
    intros Hb. destruct (dc_nodes _ _ _ Hd b Hb) as (B & (i & HB)%elem_of_list_lookup & HbB).
    assert (∀ m i B, bags !! i = Some B → b ∈ B → length bags ≤ m + i → ∃ k, k < length bags ∧ b ∈ last_in k) as H.
    { clear i B HB HbB. induction m as [|m IH]; intros i B HB HbB Hm.
      { apply lookup_lt_Some in HB. lia. }
      destruct (decide (b ∈ concat (drop (S i) bags))) as [Hl|Hl].
      - apply elem_of_drop_concat in Hl as (j & C & Hj & HC & HbC). apply (IH j C); [done|done|lia].
      - exists i. split; [by eapply lookup_lt_Some|]. apply last_in_elem. split; [done|]. split; [by exists B|].
        intros j C Hj HC HbC. apply Hl, elem_of_drop_concat. exists j, C. split; [lia|done]. }
    by apply (H (length bags) i B); [| |lia].
  Qed.

  Lemma last_unique i j b : b ∈ last_in i → b ∈ last_in j → i = j.
  Proof.
    rewrite !last_in_elem. intros (_ & (A & HA & HbA) & H1) (_ & (B & HB & HbB) & H2).
    destruct (lt_eq_lt_dec i j) as [[Hlt|]|Hlt]; [by destruct (H1 j B Hlt HB)|done|by destruct (H2 i A Hlt HA)].
  Qed.

  Lemma last_enabled k b : k ≤ length bags → b ∈ last_in k → enabled g (concat (schedule_to k)) b.
  Proof.
    intros Hk Hb. pose proof (proj1 (last_in_elem _ _) Hb) as (Hl & (B & HB & HbB) & Hlast). split; [done|]. split.
    - rewrite schedule_to_elem. intros (j & Hj & Hbj). pose proof (last_unique _ _ _ Hb Hbj). lia.
    - intros d Hdep. rewrite schedule_to_elem.
      assert (listed g d) as Hld.
      { destruct Hdep as (l & ds & Hli & Hbd & Hdd). apply elem_of_list_lookup in Hli as (i & Hi).
        apply listed_qubits. destruct i as [|i].
        - assert (ds = []) as ->; [|by apply elem_of_nil in Hdd].
          apply (wf_first _ _ (proj2 Hin) b). destruct g as [|l' g']; [done|]. simpl in Hi. injection Hi as ->. done.
        - destruct (wf_later _ _ (proj2 Hin) i l b ds Hi Hbd) as (_ & _ & H). specialize (H d Hdd).
          unfold qubits in *. apply elem_of_list_fmap in H as (e & -> & He). apply elem_of_list_fmap. exists e. split; [done|].
          apply elem_of_concat in He as (la & Hla & He). apply elem_of_concat. exists la. split; [|done].
          apply elem_of_list_lookup in Hla as (x & Hx). apply lookup_take_Some in Hx as [Hx _]. by eapply elem_of_list_lookup_2. }
      destruct (last_exists d Hld) as (j & Hj & Hdj). exists j. split; [|done].
      destruct (dc_respects _ _ _ Hd b d Hdep) as (i & C & HC & HbC & Hno).
      assert (i ≤ k) as Hik.
      { destruct (decide (i ≤ k)) as [|Hgt]; [done|]. exfalso. apply (Hlast i C); [lia|done|done]. }
      apply last_in_elem in Hdj as (_ & (D & HD & HdD) & _).
      destruct (decide (j < i)) as [Hji|Hji]; [lia|]. destruct (Hno j D); [lia|done|done].
  Qed.

  Lemma schedule_to_legal k : k ≤ length bags → legal_prefix g (schedule_to k).
  Proof.
    induction k as [|k IH]; intros Hk; simpl.
    { split; simpl; try done; try by intros ? ?%elem_of_nil. constructor. }
    case_decide as E; [rewrite app_nil_r; apply IH; lia|].
    apply legal_snoc. split; [apply IH; lia|]. split; [done|]. split.
    - apply NoDup_filter, (proj2 Hin).
    - intros b Hb. apply last_enabled; [lia|done].
  Qed.

  (** What is occupied while the qubits with last bag number [k] are measured is in this bag. *)
  Lemma occupied_in_bag k B v :
    bags !! k = Some B → v ∉ concat (schedule_to k) → needed adj (concat (schedule_to (S k))) v → v ∈ B.
  Proof.
    intros HB Hnot Hneed.
    assert (∀ u, u ∈ concat (schedule_to (S k)) → listed g u ∧ ∃ j, j ≤ k ∧ u ∈ last_in j) as Hel.
    { intros u (j & Hj & Hu)%schedule_to_elem. split; [by apply last_in_elem in Hu as [? _]|]. exists j. split; [lia|done]. }
    (* a bag up to number [k] that contains [v] *)
    assert (∃ i A, i ≤ k ∧ bags !! i = Some A ∧ v ∈ A) as (i & A & Hik & HA & HvA).
    { destruct Hneed as [Hv|(u & Hu & Hv)].
      - destruct (Hel v Hv) as (_ & j & Hj & (_ & (A & HA & HvA) & _)%last_in_elem). by exists j, A.
      - destruct (Hel u Hu) as (Hlu & j & Hj & (_ & _ & Hlast)%last_in_elem).
        destruct (dc_edges _ _ _ Hd u v Hlu Hv) as (A & (i & HA)%elem_of_list_lookup & HuA & HvA). exists i, A.
        split; [|done]. destruct (decide (i ≤ j)); [lia|]. destruct (Hlast i A); [lia|done|done]. }
    destruct (decide (v ∈ qubits g)) as [Hl|Hl].
    - apply listed_qubits in Hl. destruct (last_exists v Hl) as (j & Hj & Hvj).
      assert (k ≤ j) as Hkj.
      { destruct (decide (k ≤ j)) as [|Hlt]; [done|]. exfalso. apply Hnot, schedule_to_elem. exists j. split; [lia|done]. }
      apply last_in_elem in Hvj as (_ & (C & HC & HvC) & _).
      exact (dc_connected _ _ _ Hd i k j A B C v Hik Hkj HA HB HC HvA HvC).
    - apply (dc_kept _ _ _ Hd i k A B v Hik HA HB); [|done]. by rewrite listed_qubits.
  Qed.

  Lemma schedule_to_space k w : k ≤ length bags → bags_within w bags → space_cost adj (schedule_to k) ≤ w.
  Proof.
    intros Hk Hw. induction k as [|k IH]; [unfold space_cost; simpl; lia|].
    specialize (IH ltac:(lia)). simpl schedule_to. case_decide as E; [by rewrite app_nil_r|].
    rewrite (space_cost_snoc adj (proj2 (proj1 Hin))). apply Nat.max_lub; [done|].
    destruct (lookup_lt_is_Some_2 bags k) as (B & HB); [lia|].
    etrans; [|apply (Hw B); by eapply elem_of_list_lookup_2]. unfold memory_at.
    apply submseteq_length, NoDup_submseteq; [apply NoDup_filter, NoDup_seq|].
    intros v [[H1 H2] _]%elem_of_list_filter. rewrite take_app_alt in H1 by done.
    rewrite take_ge in H2 by (rewrite app_length; simpl; lia). apply (occupied_in_bag k B); [done|done|].
    simpl. by rewrite decide_False.
  Qed.

  Lemma schedule_of_decomposition w :
    bags_within w bags →
    valid_schedule g (schedule_to (length bags)) ∧ length (schedule_to (length bags)) ≤ length bags ∧
    space_cost adj (schedule_to (length bags)) ≤ w.
  Proof.
    intros Hw. split; [|split; [apply schedule_to_length|by apply schedule_to_space]].
    split; [by apply schedule_to_legal|]. intros b Hb. apply schedule_to_elem.
    by apply last_exists.
  Qed.
End schedule_of.
