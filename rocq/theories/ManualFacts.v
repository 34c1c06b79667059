(** * Manual scheduling: histories of [PathGenerator] and [Scheduler] *)
From Verif Require Export SchedulerFacts GraphFacts.

Section generator.
  Context {T : Type} `{LawfulMeasurableSet T} (n : nat) (g : order) (Hg : wf_order n g).

  Record gen_inv (σ : schedule) (t : PathGenerator T) : Prop := {
    gi_once : NoDup (concat σ);
    gi_listed : ∀ b, b ∈ concat σ → listed g b;
    gi_closed : closed g (concat σ);
    gi_time : time_inv g (concat σ) (ms_set (measurable t)) (deps_counter t) (dependents t)
  }.

  Lemma gen_inv_new buf t :
    length buf = n → from_dependency_graph g buf None = Val t → gen_inv [] t.
  Proof.
    intros Hb Ht. destruct (from_dependency_graph_spec (T := T) n g buf Hg)
      as (m & dc & look & E & -> & Hlen & Hinv); [lia|].
    rewrite E in Ht. injection Ht as <-. split.
    - apply NoDup_nil_2.
    - by intros ? ?%elem_of_nil.
    - by intros ? ? ?%elem_of_nil.
    - simpl. by rewrite ms_set_init.
  Qed.

  (** The three possible answers to an instruction. *)
  Lemma time_focus_cases σ t M :
    gen_inv σ t →
    let m := ms_set (measurable t) in
    (length m < length M ∧ ∀ bd, time_focus_inplace bd t M = Panic ∧ time_focus bd t M = Panic) ∨
    (length M ≤ length m ∧ NoDup M ∧ (∀ b, b ∈ M → b ∈ m) ∧
     ∃ t', (∀ bd, time_focus_inplace bd t M = Val (t', Ok tt) ∧ time_focus bd t M = Val (Ok t')) ∧
       gen_inv (σ ++ [M]) t') ∨
    (length M ≤ length m ∧ ¬ (NoDup M ∧ ∀ b, b ∈ M → b ∈ m) ∧
     ∃ left, left ≠ [] ∧ M ≡ₚ filter (λ b, b ∈ M) m ++ left ∧
       ∀ bd, time_focus_inplace bd t M = Val (t, Err (mkNotMeasurable left)) ∧
             time_focus bd t M = Val (Err (mkNotMeasurable left))).
  Proof.
    intros [H1 H2 H3 Hti] m. pose proof (ti_nodup _ _ _ _ _ Hti) as Hm. fold m in Hm.
    unfold time_focus_inplace, time_focus. fold m.
    destruct (decide (length m < length M)) as [Hlt|Hge].
    { left. split; [done|]. intros bd. rewrite time_partition_unfold.
      by rewrite (proj2 (Nat.ltb_lt _ _) Hlt). }
    right. destruct (decide (NoDup M)) as [Hnd|Hnd].
    2:{ right. split; [lia|]. split; [tauto|].
        destruct (time_partition_err m M) as (left & E & Hl & Hp); [done|lia|tauto|].
        exists left. split; [done|]. split; [done|]. intros bd. by rewrite E. }
    destruct (decide (Forall (λ b, b ∈ m) M)) as [Hsub|Hsub].
    2:{ right. split; [lia|]. rewrite Forall_forall in Hsub. split; [tauto|].
        destruct (time_partition_err m M) as (left & E & Hl & Hp); [done|lia|tauto|].
        exists left. split; [done|]. split; [done|]. intros bd. by rewrite E. }
    left. rewrite Forall_forall in Hsub. split; [lia|]. split; [done|]. split; [done|].
    destruct (time_inv_update n g (concat σ) m _ _ M (filter (λ e, e ∉ M) m) Hg H3 Hti)
      as (dc' & nw & E & Hinv); [done|done|by apply NoDup_filter| |].
    { intros b. rewrite elem_of_list_filter. tauto. }
    eexists. split.
    { intros bd. rewrite time_partition_ok by done. cbn [obind].
      unfold time_focus_unchecked. rewrite E. cbn [obind]. split; reflexivity. }
    assert (concat (σ ++ [M]) = concat σ ++ M) as Hc.
    { rewrite concat_app. simpl. by rewrite app_nil_r. }
    assert (∀ b, b ∈ M → enabled g (concat σ) b) as Hen.
    { intros b Hb. by apply (ti_set _ _ _ _ _ Hti), Hsub. }
    split; rewrite Hc.
    - apply NoDup_app. split; [done|]. split; [|done]. intros b Hb1 Hb2. by apply (Hen b).
    - intros b. rewrite elem_of_app. intros [?|Hb]; [by apply H2|]. by apply Hen.
    - intros b d. rewrite !elem_of_app. intros [Hb|Hb] Hd; left; [by eapply H3|]. by eapply Hen.
    - simpl. by rewrite ms_set_init.
  Qed.

  Lemma generator_inv σ t : generator_reached n g σ t → gen_inv σ t.
  Proof.
    induction 1 as [buf t Hb Ht|bd σ t M t' _ IH Ht|bd σ t M t' _ IH Ht].
    - by eapply gen_inv_new.
    - destruct (time_focus_cases σ t M IH) as [(_ & E)|[(_ & _ & _ & t1 & E & ?)|(_ & _ & l & _ & _ & E)]];
        destruct (E bd) as [E1 _]; rewrite E1 in Ht; [done| |done]. by injection Ht as <-.
    - destruct (time_focus_cases σ t M IH) as [(_ & E)|[(_ & _ & _ & t1 & E & ?)|(_ & _ & l & _ & _ & E)]];
        destruct (E bd) as [_ E1]; rewrite E1 in Ht; [done| |done]. by injection Ht as <-.
  Qed.

  (** ** Counting *)

  Lemma deps_counter_dom σ t b :
    gen_inv σ t → is_Some (deps_counter t !! b) ↔
    listed g b ∧ b ∉ concat σ ∧ b ∉ ms_set (measurable t).
  Proof.
    intros [H1 H2 H3 Hti]. rewrite (ti_deps _ _ _ _ _ Hti), (ti_set _ _ _ _ _ Hti).
    destruct (missing g (concat σ) b) as [|k] eqn:Em.
    - split; [by intros [? ?]|]. intros (Hl & Hn & He). exfalso. apply He.
      split; [done|]. split; [done|]. intros d Hd. rewrite missing_zero in Em. apply Em.
      by apply (depends_deps_of n g Hg).
    - split; [|by eexists]. intros _.
      assert (¬ ∀ d, d ∈ deps_of g b → d ∈ concat σ) as Hno.
      { intros Hall. apply missing_zero in Hall. lia. }
      split; [|split].
      + destruct (decide (listed g b)) as [|Hnl]; [done|]. exfalso. apply Hno.
        rewrite (deps_of_unlisted g) by done. by intros ? ?%elem_of_nil.
      + intros Hb. apply Hno. intros d Hd. eapply H3; [done|]. by apply (depends_deps_of n g Hg).
      + intros (_ & _ & He). apply Hno. intros d Hd. apply He. by apply (depends_deps_of n g Hg).
  Qed.

  Lemma remaining_count σ t :
    gen_inv σ t →
    num_remaining_nodes t =
    length (filter (λ b, b ∉ concat σ ∧ b ∉ ms_set (measurable t)) (qubits g)).
  Proof.
    intros Hi. unfold num_remaining_nodes, size, map_size.
    rewrite <- (fmap_length fst). apply Permutation_length, NoDup_Permutation.
    - apply NoDup_fst_map_to_list.
    - apply NoDup_filter, Hg.
    - intros b. rewrite elem_of_list_filter, <- listed_qubits.
      rewrite elem_of_list_fmap. split.
      + intros ([b' c] & -> & Hc). apply elem_of_map_to_list in Hc. simpl.
        assert (is_Some (deps_counter t !! b')) as Hs by (by eexists).
        apply (deps_counter_dom σ t b' Hi) in Hs. tauto.
      + intros Hb. assert (is_Some (deps_counter t !! b)) as [c Hc].
        { apply (deps_counter_dom σ t b Hi). tauto. }
        exists (b, c). split; [done|]. by apply elem_of_map_to_list.
  Qed.

  Lemma unmeasured_count σ t :
    gen_inv σ t →
    length (filter (λ b, b ∉ concat σ) (qubits g))
    = num_remaining_nodes t + length (ms_set (measurable t)).
  Proof.
    intros Hi. rewrite (remaining_count σ t Hi). pose proof Hi as [H1 H2 H3 Hti].
    apply filter_length_app; [apply Hg|apply Hti| |].
    - intros b Hb. rewrite <- listed_qubits. apply (ti_set _ _ _ _ _ Hti) in Hb as Hb'.
      destruct Hb' as (? & ? & ?). tauto.
    - tauto.
  Qed.

  Lemma has_unmeasureable_spec σ t :
    gen_inv σ t →
    has_unmeasureable t = true ↔
    ∃ b, listed g b ∧ b ∉ concat σ ∧ b ∉ ms_set (measurable t).
  Proof.
    intros Hi. unfold has_unmeasureable. rewrite negb_true_iff, Nat.eqb_neq.
    rewrite map_size_non_empty_iff. split.
    - intros Hne. apply map_choose in Hne as (b & c & Hc). exists b.
      apply (deps_counter_dom σ t b Hi). by eexists.
    - intros (b & Hb). apply (deps_counter_dom σ t b Hi) in Hb as [c Hc]. intros E.
      rewrite E in Hc. by apply lookup_empty_Some in Hc.
  Qed.
End generator.

Section scheduler.
  Context {T : Type} `{LawfulMeasurableSet T} (adj : spacial) (g : order) (Hin : wf_input adj g).
  Let Hg : wf_order (length adj) g := proj2 Hin.

  Lemma sched_gen_inv σ (s : Scheduler T) : sched_inv adj g σ s → gen_inv g σ (s_time s).
  Proof. intros [? ? ? ? _]. by split. Qed.

  Lemma scheduler_focus_cases σ (s : Scheduler T) M :
    sched_inv adj g σ s →
    let m := ms_set (measurable (s_time s)) in
    (length m < length M ∧
       ∀ bd, scheduler_focus_inplace bd s M = Panic ∧ scheduler_focus bd s M = Panic) ∨
    (length M ≤ length m ∧ NoDup M ∧ (∀ b, b ∈ M → b ∈ m) ∧
     ∃ s', (∀ bd, scheduler_focus_inplace bd s M = Val (s', Ok tt) ∧
                  scheduler_focus bd s M = Val (Ok s')) ∧
       (∀ bd, time_focus_inplace bd (s_time s) M = Val (s_time s', Ok tt)) ∧
       sched_inv adj g (σ ++ [M]) s') ∨
    (length M ≤ length m ∧ ¬ (NoDup M ∧ ∀ b, b ∈ M → b ∈ m) ∧
     ∃ left, left ≠ [] ∧ M ≡ₚ filter (λ b, b ∈ M) m ++ left ∧
       (∀ bd, time_focus_inplace bd (s_time s) M = Val (s_time s, Err (mkNotMeasurable left))) ∧
       ∀ bd, scheduler_focus_inplace bd s M = Val (s, Err (ENotMeasurable (mkNotMeasurable left))) ∧
             scheduler_focus bd s M = Val (Err (ENotMeasurable (mkNotMeasurable left)))).
  Proof.
    intros Hi m. destruct (time_focus_cases (length adj) g Hg σ (s_time s) M (sched_gen_inv σ s Hi))
      as [(Hl & E)|[(Hl & Hnd & Hsub & t' & E & Hgi)|(Hl & Hno & left & Hne & Hp & E)]].
    - left. split; [done|]. intros bd. unfold scheduler_focus_inplace, scheduler_focus.
      destruct (E bd) as [-> ->]. done.
    - right. left. split; [done|]. split; [done|]. split; [done|].
      destruct (scheduler_focus_inplace_ok adj g Hin σ s M Hi) as (s' & E1 & E2 & Hi'); [done..|].
      exists s'. split; [intros bd; split; done|]. split; [|done].
      intros bd. pose proof (E1 bd) as E1'. unfold scheduler_focus_inplace in E1'.
      destruct (E bd) as [Et _]. rewrite Et in *. cbn [obind] in E1'.
      destruct (space_focus_inplace bd (s_space s) M) as [[gr [|]]|]; [|done..].
      injection E1' as <-. done.
    - right. right. split; [done|]. split; [done|]. exists left. split; [done|]. split; [done|].
      split; [intros bd; apply E|].
      intros bd. unfold scheduler_focus_inplace, scheduler_focus. destruct (E bd) as [-> ->].
      cbn [obind]. by destruct s.
  Qed.

  Lemma scheduler_reached_inv σ (s : Scheduler T) :
    scheduler_reached adj g σ s → sched_inv adj g σ s.
  Proof.
    induction 1 as [buf t Hb Ht|bd σ s M s' _ IH Hs|bd σ s M s' e _ IH Hs|bd σ s M s' _ IH Hs].
    - apply (gen_inv_new (length adj) g Hg) in Ht as [? ? ? ?]; [|done]. split; [done..|].
      exact (graph_at_new adj (proj2 (proj1 Hin))).
    - destruct (scheduler_focus_cases σ s M IH)
        as [(_ & E)|[(_ & _ & _ & s1 & E & _ & ?)|(_ & _ & l & _ & _ & _ & E)]];
        destruct (E bd) as [E1 _]; rewrite E1 in Hs; [done| |done]. by injection Hs as <-.
    - destruct (scheduler_focus_cases σ s M IH)
        as [(_ & E)|[(_ & _ & _ & s1 & E & _ & ?)|(_ & _ & l & _ & _ & _ & E)]];
        destruct (E bd) as [E1 _]; rewrite E1 in Hs; [done|done|]. by injection Hs as <- _.
    - destruct (scheduler_focus_cases σ s M IH)
        as [(_ & E)|[(_ & _ & _ & s1 & E & _ & ?)|(_ & _ & l & _ & _ & _ & E)]];
        destruct (E bd) as [_ E1]; rewrite E1 in Hs; [done| |done]. by injection Hs as <-.
  Qed.

  Lemma graph_at_states σ v :
    v < length adj →
    nodes (graph_at adj σ) !! v = Some (state_of adj (concat σ) v, neighbours adj v).
  Proof. intros Hv. unfold graph_at, graph_mid. simpl. rewrite app_nil_r. by apply rep_lookup. Qed.
End scheduler.
