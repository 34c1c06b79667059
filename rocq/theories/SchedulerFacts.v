(** * Facts about [Scheduler] *)
From Verif Require Export Scheduler TimeFacts.

(** ** Completeness of a prefix *)

Lemma stuck_complete n g P :
  wf_order n g → (∀ b, ¬ enabled g P b) → ∀ b, listed g b → b ∈ P.
Proof.
  intros Hwf Hno.
  assert (∀ k b, b ∈ qubits (take k g) → b ∈ P) as H.
  { induction k as [|k IH]; intros b Hb; [by apply elem_of_nil in Hb|].
    destruct (g !! k) as [layer|] eqn:Hk.
    - rewrite (take_S_r g k layer) in Hb by done. rewrite qubits_app, elem_of_app in Hb.
      destruct Hb as [Hb|Hb]; [by apply IH|].
      unfold qubits in Hb. simpl in Hb. rewrite app_nil_r in Hb.
      apply elem_of_list_fmap in Hb as ([b' ds] & -> & Hb). simpl.
      destruct (decide (b' ∈ P)) as [|HnP]; [done|]. exfalso.
      assert ((b', ds) ∈ concat g) as Hin.
      { apply elem_of_concat. exists layer. split; [|done]. by eapply elem_of_list_lookup_2. }
      apply (Hno b'). split; [apply listed_entry; by exists ds|]. split; [done|].
      intros d Hd. apply (depends_deps_of n g Hwf) in Hd.
      rewrite (deps_of_entry n g Hwf b' ds) in Hd by done.
      destruct (wf_entry n g Hwf k layer b' ds) as (_ & Hq & _); [done..|].
      by apply IH, Hq.
    - apply lookup_ge_None in Hk. rewrite take_ge in Hb by lia. apply IH.
      by rewrite take_ge. }
  intros b Hb. apply (H (length g)). rewrite take_ge by done. by apply listed_qubits.
Qed.

Section scheduler.
  Context (adj : spacial) (g : order).

  (** The scheduler after the (possibly empty) instructions [σ]. *)
  Record sched_inv `{MeasurableSet T} (σ : schedule) (s : Scheduler T) : Prop := {
    si_once : NoDup (concat σ);
    si_listed : ∀ b, b ∈ concat σ → listed g b;
    si_closed : closed g (concat σ);
    si_time : time_inv g (concat σ) (ms_set (measurable (s_time s)))
                (deps_counter (s_time s)) (dependents (s_time s));
    si_space : s_space s = graph_at adj σ
  }.

  Context (Hin : wf_input adj g).
  Let Hadj : wf_spacial adj := proj1 Hin.
  Let Hg : wf_order (length adj) g := proj2 Hin.

  Lemma listed_lt b : listed g b → b < length adj.
  Proof. by apply listed_range. Qed.

  Lemma space_focus_spec σ S :
    NoDup S → (∀ v, v ∈ S → v < length adj) → (∀ v, v ∈ S → v ∉ concat σ) →
    ∀ bd, space_focus_inplace bd (graph_at adj σ) S = Val (graph_at adj (σ ++ [S]), Ok tt).
  Proof.
    destruct Hadj as [Hr Hs]. intros HS Hlt Hnew []; simpl.
    - by apply graph_focus_inplace_spec.
    - by rewrite graph_focus_inplace_unchecked_spec.
  Qed.

  Lemma sched_step_data `{LawfulMeasurableSet T} σ (s : Scheduler T) S rest :
    sched_inv σ s → NoDup S → (∀ b, b ∈ S → b ∈ ms_set (measurable (s_time s))) →
    NoDup rest → (∀ b, b ∈ rest ↔ b ∈ ms_set (measurable (s_time s)) ∧ b ∉ S) →
    ∃ dc' nw,
      (∀ bd, update_unchecked bd (dependents (s_time s)) (deps_counter (s_time s)) S rest
             = Val (dc', rest ++ nw)) ∧
      (∀ bd, space_focus_inplace bd (s_space s) S = Val (graph_at adj (σ ++ [S]), Ok tt)) ∧
      sched_inv (σ ++ [S])
        (mkScheduler (mkPathGenerator (ms_init (T := T) (rest ++ nw)) dc' (dependents (s_time s)))
           (graph_at adj (σ ++ [S]))).
  Proof.
    intros [Honce Hlist Hcl Htime Hspace] HS Hsub Hnd Hrest.
    destruct (time_inv_update (length adj) g (concat σ) _ _ _ S rest Hg Hcl Htime)
      as (dc' & nw & E & Hinv); [done..|].
    exists dc', nw. split; [done|].
    assert (∀ b, b ∈ S → enabled g (concat σ) b) as Hen.
    { intros b Hb. by apply (ti_set _ _ _ _ _ Htime), Hsub. }
    split.
    { intros bd. rewrite Hspace. apply space_focus_spec; [done| |].
      - intros b Hb. apply listed_lt. by apply Hen.
      - intros b Hb. by apply Hen. }
    assert (concat (σ ++ [S]) = concat σ ++ S) as Hc.
    { rewrite concat_app. simpl. by rewrite app_nil_r. }
    split; simpl; rewrite ?Hc.
    - apply NoDup_app. split_and!; [done| |done]. intros b Hb1 Hb2. by apply (Hen b).
    - intros b. rewrite elem_of_app. intros [?|Hb]; [by apply Hlist|]. by apply Hen.
    - intros b d. rewrite !elem_of_app. intros [Hb|Hb] Hd; left; [by eapply Hcl|].
      by eapply Hen.
    - by rewrite ms_set_init.
    - done.
  Qed.

  Lemma scheduler_focus_inplace_ok `{LawfulMeasurableSet T} σ (s : Scheduler T) S :
    sched_inv σ s → NoDup S → (∀ b, b ∈ S → b ∈ ms_set (measurable (s_time s))) →
    ∃ s', (∀ bd, scheduler_focus_inplace bd s S = Val (s', Ok tt)) ∧
          (∀ bd, scheduler_focus bd s S = Val (Ok s')) ∧ sched_inv (σ ++ [S]) s'.
  Proof.
    intros Hinv HS Hsub. set (m := ms_set (measurable (s_time s))).
    pose proof (ti_nodup _ _ _ _ _ (si_time _ _ Hinv)) as Hm. fold m in Hm.
    destruct (sched_step_data σ s S (filter (λ e, e ∉ S) m) Hinv HS Hsub)
      as (dc' & nw & E1 & E2 & Hinv').
    { by apply NoDup_filter. }
    { intros b. rewrite elem_of_list_filter. unfold m. tauto. }
    eexists. split; [|split; [|exact Hinv']].
    - intros bd. unfold scheduler_focus_inplace, time_focus_inplace. fold m.
      rewrite time_partition_ok by done. cbn [obind]. rewrite E1. cbn [obind].
      rewrite E2. done.
    - intros bd. unfold scheduler_focus, time_focus, time_focus_unchecked. fold m.
      rewrite time_partition_ok by done. cbn [obind]. rewrite E1. cbn [obind].
      rewrite E2. done.
  Qed.

  (** ** Initial scheduler *)

  Lemma search_scheduler_spec `{LawfulMeasurableSet T} :
    ∃ t, from_dependency_graph (T := T) g (dependency_buffer_new (length adj)) None = Val t ∧
      measurable t = ms_init (map fst (default [] (head g))) ∧
      sched_inv [] (mkScheduler t (graph_new adj)).
  Proof.
    destruct (from_dependency_graph_spec (T := T) (length adj) g
                (dependency_buffer_new (length adj)) Hg)
      as (m & dc & look & E & -> & Hlen & Hinv).
    { unfold dependency_buffer_new. by rewrite replicate_length. }
    eexists. split; [done|]. split; [done|]. split.
    - apply NoDup_nil_2.
    - by intros ? ?%elem_of_nil.
    - by intros ? ? ?%elem_of_nil.
    - simpl. by rewrite ms_set_init.
    - exact (graph_at_new adj (proj2 Hadj)).
  Qed.

  (** ** Nodes of the search tree *)

  (** What the iterator of a node will still yield. *)
  Definition items (s : Scheduler (Partition nat)) : list (list nat * list nat) :=
    map (λ sub, partition_map 0 sub (pset (measurable (s_time s)))) (piter (measurable (s_time s))).

  Definition mset (s : Scheduler (Partition nat)) : list nat := pset (measurable (s_time s)).

  Record node (σ : schedule) (s : Scheduler (Partition nat)) : Prop := {
    nd_legal : legal_prefix g σ;
    nd_inv : sched_inv σ s;
    nd_items : ∃ visited, all_splits (mset s) = visited ++ items s
  }.

  Definition fresh (s : Scheduler (Partition nat)) : Prop := items s = all_splits (mset s).

  Lemma node_enabled σ s b : node σ s → b ∈ mset s ↔ enabled g (concat σ) b.
  Proof. intros [_ H _]. apply (ti_set _ _ _ _ _ (si_time _ _ H)). Qed.

  Lemma node_nodup σ s : node σ s → NoDup (mset s).
  Proof. intros [_ H _]. apply (ti_nodup _ _ _ _ _ (si_time _ _ H)). Qed.

  (** An item of a node. *)
  Lemma node_item σ s a b : node σ s → (a, b) ∈ items s → shuffle (mset s) a b.
  Proof.
    intros [_ _ (v & Hv)] Hi. apply all_splits_shuffle. rewrite Hv. apply elem_of_app. by right.
  Qed.

  (** The advanced node. *)
  Definition advance (s : Scheduler (Partition nat)) : Scheduler (Partition nat) :=
    mkScheduler
      (mkPathGenerator (mkPartition (mset s) (tail (piter (measurable (s_time s)))))
         (deps_counter (s_time s)) (dependents (s_time s)))
      (s_space s).

  Lemma advance_items s : items (advance s) = tail (items s).
  Proof. unfold items, advance, mset. simpl. by destruct (piter _). Qed.

  Lemma advance_node σ s : node σ s → node σ (advance s).
  Proof.
    intros [Hl [H1 H2 H3 H4 H5] (v & Hv)]. split; [done|by split|].
    rewrite advance_items. change (mset (advance s)) with (mset s). rewrite Hv.
    destruct (items s) as [|i l]; [by exists v|]. exists (v ++ [i]). by rewrite <- app_assoc.
  Qed.

  Lemma legal_step σ s a b :
    node σ s → (a, b) ∈ items s → b ≠ [] → legal_prefix g (σ ++ [b]).
  Proof.
    intros Hn Hi Hb. apply (node_item σ) in Hi; [|done].
    pose proof (shuffle_perm _ _ _ Hi) as Hp. pose proof (node_nodup _ _ Hn) as Hnd.
    apply legal_snoc. split; [apply Hn|]. split; [done|]. split.
    - rewrite Hp in Hnd. by apply NoDup_app in Hnd as (_ & _ & ?).
    - intros x Hx. apply (node_enabled σ s x Hn). rewrite Hp. apply elem_of_app. by right.
  Qed.

  (** One step of the iterator of a node, in both build profiles. *)
  Lemma scheduler_next_spec σ s :
    node σ s →
    match items s with
    | [] => ∀ bd, scheduler_next_and_focus bd s = Val (advance s, None)
    | (a, []) :: _ => ∀ bd, scheduler_next_and_focus bd s = Val (advance s, None)
    | (a, b) :: _ =>
        ∃ child, (∀ bd, scheduler_next_and_focus bd s = Val (advance s, Some (child, b))) ∧
          node (σ ++ [b]) child ∧ fresh child
    end.
  Proof.
    intros Hn. pose proof (advance_node σ s Hn) as Hadv.
    unfold items at 1. unfold scheduler_next_and_focus, time_next_and_focus, partition_next.
    destruct (piter (measurable (s_time s))) as [|sub rest] eqn:Eit; simpl.
    - intros bd. unfold advance, mset. rewrite Eit. simpl.
      destruct s as [[[set it] dc look] sp]. simpl in *. by subst.
    - destruct (partition_map 0 sub (pset (measurable (s_time s)))) as [a b] eqn:Ep.
      assert ((a, b) ∈ items s) as Hi.
      { unfold items. rewrite Eit. simpl. rewrite Ep. left. }
      assert (advance s = mkScheduler
        (mkPathGenerator (mkPartition (pset (measurable (s_time s))) rest)
           (deps_counter (s_time s)) (dependents (s_time s))) (s_space s)) as Ea.
      { unfold advance, mset. by rewrite Eit. }
      destruct b as [|x b]; [intros bd; cbn [obind]; by rewrite Ea|].
      set (S := x :: b) in *.
      pose proof (node_item _ _ _ _ Hn Hi) as Hsh. pose proof (shuffle_perm _ _ _ Hsh) as Hp.
      pose proof (node_nodup _ _ Hn) as Hnd. rewrite Hp in Hnd.
      apply NoDup_app in Hnd as (Hnd1 & Hdis & Hnd2).
      destruct (sched_step_data (T := Partition nat) σ s S a) as (dc' & nw & E1 & E2 & Hinv').
      + apply Hn.
      + done.
      + intros y Hy. change (y ∈ mset s). rewrite Hp. apply elem_of_app. by right.
      + done.
      + intros y. change (y ∈ a ↔ y ∈ mset s ∧ y ∉ S). rewrite Hp, elem_of_app.
        specialize (Hdis y). tauto.
      + eexists. split; [|split].
        * intros bd. unfold time_focus_unchecked. cbn [deps_counter dependents].
          rewrite E1. cbn [obind s_space]. rewrite E2. cbn [obind]. by rewrite Ea.
        * split; [apply (legal_step σ s a S Hn Hi); unfold S; discriminate| |].
          -- exact Hinv'.
          -- exists []. unfold items, mset. simpl. by rewrite powerset_all_splits.
        * unfold fresh, items, mset. simpl. by rewrite powerset_all_splits.
  Qed.

  (** After an item with nothing to measure there are no more items. *)
  Lemma items_last σ s a l : node σ s → items s = (a, []) :: l → l = [].
  Proof.
    intros [_ _ (v & Hv)] Hi. rewrite Hi, all_splits_last in Hv.
    destruct l as [|[c d] l _] using rev_ind; [done|]. exfalso.
    rewrite app_comm_cons, app_assoc in Hv. apply app_inj_tail in Hv as [Hv _].
    eapply (elem_before_last (mset s) a []); [|done]. rewrite Hv.
    apply elem_of_app. right. left.
  Qed.

  Lemma fresh_root (t : PathGenerator (Partition nat)) m :
    measurable t = ms_init m → sched_inv [] (mkScheduler t (graph_new adj)) →
    node [] (mkScheduler t (graph_new adj)) ∧ fresh (mkScheduler t (graph_new adj)).
  Proof.
    intros Hm Hinv. assert (fresh (mkScheduler t (graph_new adj))) as Hf.
    { unfold fresh, items, mset. simpl. rewrite Hm. simpl. apply powerset_all_splits. }
    split; [|done]. split; [apply legal_nil|done|]. exists []. by rewrite Hf.
  Qed.

  (** An empty measurable set means that the schedule is complete. *)
  Lemma leaf_valid σ s : node σ s → mset s = [] → valid_schedule g σ.
  Proof.
    intros Hn Hs. split; [apply Hn|].
    apply (stuck_complete (length adj) g (concat σ) Hg).
    intros b Hb. apply (node_enabled σ s b Hn) in Hb. rewrite Hs in Hb. by apply elem_of_nil in Hb.
  Qed.

  Lemma valid_leaf σ s : node σ s → valid_schedule g σ → mset s = [].
  Proof.
    intros Hn [_ Hv]. destruct (mset s) as [|b l] eqn:E; [done|].
    assert (b ∈ mset s) as Hb by (rewrite E; left).
    apply (node_enabled σ s b Hn) in Hb as (H1 & H2 & _). destruct H2. by apply Hv.
  Qed.

  Lemma leaf_deps σ s : node σ s → mset s = [] → deps_counter (s_time s) = ∅.
  Proof.
    intros Hn Hs. pose proof (leaf_valid σ s Hn Hs) as [_ Hv].
    apply map_eq. intros b. rewrite lookup_empty.
    rewrite (ti_deps _ _ _ _ _ (si_time _ _ (nd_inv _ _ Hn))).
    assert (missing g (concat σ) b = 0) as ->; [|done].
    apply missing_zero. intros d Hd. apply Hv.
    apply (depends_listed (length adj) g Hg b). by apply (depends_deps_of (length adj) g Hg).
  Qed.
End scheduler.
