(** * The paths of a full sweep *)
From Verif Require Export SweepFacts.

Global Instance same_schedule_dec σ τ : Decision (same_schedule σ τ).
Proof. unfold same_schedule. apply _. Defined.

(** How often a schedule was recorded. *)
Definition times {L} (σ : schedule) (ps : list (schedule * L)) : nat :=
  length (filter (λ q, same_schedule q.1 σ) ps).

Lemma times_app {L} σ (ps qs : list (schedule * L)) : times σ (ps ++ qs) = times σ ps + times σ qs.
Proof. unfold times. by rewrite filter_app, app_length. Qed.

Definition agrees (p σ : schedule) : Prop := same_schedule p (take (length p) σ).
Global Instance agrees_dec p σ : Decision (agrees p σ).
Proof. unfold agrees. apply _. Defined.

Definition hits (p σ : schedule) (its : list (list nat * list nat)) : nat :=
  length (filter (λ it : list nat * list nat, it.2 ≠ [] ∧ agrees (p ++ [it.2]) σ) its).

Lemma agrees_snoc p b σ :
  agrees (p ++ [b]) σ ↔ agrees p σ ∧ ∃ M, σ !! length p = Some M ∧ b ≡ₚ M.
Proof.
  unfold agrees. rewrite app_length. simpl. rewrite Nat.add_1_r. destruct (σ !! length p) as [M|] eqn:E.
  - rewrite (take_S_r _ _ M) by done. split.
    + intros H. apply Forall2_app_inv in H as [H1 H2].
      * split; [done|]. exists M. split; [done|]. by inversion H2.
      * rewrite take_length. apply lookup_lt_Some in E. lia.
    + intros [H1 (M' & [= <-] & HM)]. apply Forall2_app; [done|]. by constructor.
  - split.
    + intros H%Forall2_length. apply lookup_ge_None in E.
      rewrite app_length, take_ge in H by lia. simpl in H. lia.
    + intros [_ (M & ? & _)]. done.
Qed.

Lemma agrees_same p σ : same_schedule p σ → agrees p σ.
Proof.
  intros H. unfold agrees. rewrite take_ge; [done|]. by rewrite (same_schedule_length _ _ H).
Qed.

Section enum.
  Context (adj : spacial) (g : order) (Hin : wf_input adj g).
  Notation n := (length adj).
  Notation node := (node adj g).
  Notation cost := (cost adj).
  Let Hg : wf_order n g := proj2 Hin.

  Definition leaf_hit (p σ : schedule) (s : Scheduler (Partition nat)) : nat :=
    if decide (mset s = [] ∧ same_schedule p σ) then 1 else 0.

  Lemma hits_fresh p s σ :
    node p s → SchedulerFacts.fresh s → valid_schedule g σ →
    hits p σ (items s) + leaf_hit p σ s = if decide (agrees p σ) then 1 else 0.
  Proof.
    intros Hn Hf Hv. destruct (decide (agrees p σ)) as [Ha|Ha].
    - destruct (decide (length p = length σ)) as [Hl|Hl].
      + assert (same_schedule p σ) as Hs.
        { unfold agrees in Ha. by rewrite Hl, take_ge in Ha. }
        assert (mset s = []) as Em.
        { eapply (valid_leaf adj g p); [done|]. eapply valid_same; [|exact Hv]. by apply same_schedule_sym. }
        unfold leaf_hit. rewrite decide_True by done. unfold hits.
        rewrite Hf, Em. change (all_splits []) with [([] : list nat, [] : list nat)].
        rewrite filter_cons_False; [done|]. simpl. tauto.
      + assert (length p < length σ) as Hlt.
        { apply Forall2_length in Ha. rewrite take_length in Ha. lia. }
        destruct (lookup_lt_is_Some_2 σ (length p)) as [M HM]; [done|].
        assert (leaf_hit p σ s = 0) as ->.
        { unfold leaf_hit. rewrite decide_False; [done|]. intros [_ Hs%same_schedule_length]. lia. }
        rewrite Nat.add_0_r. unfold hits.
        assert (legal_prefix g (p ++ [M])) as Hlp.
        { apply (legal_same g (take (S (length p)) σ)).
          - rewrite (take_S_r _ _ M) by done. apply same_schedule_app; [|apply same_schedule_refl].
            by apply same_schedule_sym.
          - apply (legal_prefix_app g _ (drop (S (length p)) σ)). rewrite take_drop. apply Hv. }
        destruct (fresh_item adj g p s M Hn Hf Hlp) as (a & b & Hab & Hp).
        apply legal_snoc in Hlp as (_ & HMne & _ & _).
        assert (∀ it, it ∈ filter (λ it : list nat * list nat, it.2 ≠ [] ∧ agrees (p ++ [it.2]) σ) (items s)
          ↔ it ∈ [(a, b)]) as Hex.
        { intros [c d]. rewrite elem_of_list_filter, elem_of_list_singleton. simpl. split.
          - intros [[_ Hag] Hcd]. apply agrees_snoc in Hag as [_ (M' & HM' & Hd)].
            rewrite HM in HM'. injection HM' as <-.
            apply (node_item adj g p) in Hcd; [|done]. apply (node_item adj g p) in Hab; [|done].
            pose proof (node_nodup _ _ _ _ Hn) as Hnd.
            pose proof (shuffle_sublist _ _ _ Hcd) as [Hc1 Hd1].
            pose proof (shuffle_sublist _ _ _ Hab) as [Ha1 Hb1].
            assert (d = b) as ->.
            { apply (sublist_same (mset s)); [done..|]. by rewrite Hd, Hp. }
            f_equal. apply (sublist_same (mset s)); [done..|].
            apply shuffle_perm in Hcd. apply shuffle_perm in Hab. rewrite Hcd in Hab.
            by apply Permutation_app_inv_r in Hab.
          - intros [= -> ->]. split; [|done]. split.
            + intros ->. by apply Permutation_nil_l in Hp.
            + apply agrees_snoc. split; [done|]. by exists M. }
        apply (Permutation_length (l' := [(a, b)])). apply NoDup_Permutation; [|apply NoDup_singleton|done].
        apply NoDup_filter. rewrite Hf. apply NoDup_all_splits, (node_nodup _ _ _ _ Hn).
    - assert (leaf_hit p σ s = 0) as ->.
      { unfold leaf_hit. rewrite decide_False; [done|]. intros [_ Hs]. by apply Ha, agrees_same. }
      rewrite Nat.add_0_r. unfold hits.
      destruct (filter _ (items s)) as [|it l] eqn:E; [done|]. exfalso.
      assert (it ∈ it :: l) as H by left. rewrite <- E in H. apply elem_of_list_filter in H as [[_ H] _].
      by apply agrees_snoc in H as [? _].
  Qed.

  (** Unmeasured nodes. *)
  Definition unmeasured (p : schedule) : nat := length (qubits g) - length (concat p).

  Definition leaf_one (s : Scheduler (Partition nat)) : nat := match mset s with [] => 1 | _ => 0 end.

  Lemma unmeasured_snoc p b : unmeasured (p ++ [b]) = unmeasured p - length b.
  Proof. unfold unmeasured. rewrite concat_app, app_length. simpl. rewrite app_nil_r. lia. Qed.

  Lemma mset_unmeasured p s : node p s → length (mset s) ≤ unmeasured p.
  Proof.
    intros Hn. unfold unmeasured. assert (length (concat p ++ mset s) ≤ length (qubits g)) as H.
    { apply submseteq_length, NoDup_submseteq.
      - apply NoDup_app. split; [apply Hn|]. split; [|by eapply node_nodup].
        intros x Hx Hx'. by apply (node_enabled _ _ _ _ x Hn) in Hx' as (_ & ? & _).
      - intros x. rewrite elem_of_app. intros [Hx|Hx]; apply listed_qubits.
        + by eapply lp_listed; [apply Hn|].
        + by apply (node_enabled _ _ _ _ x Hn) in Hx as (? & _). }
    rewrite app_length in H. lia.
  Qed.

  Lemma mset_independent p s :
    (∀ b d, ¬ depends g b d) → node p s → length (mset s) = unmeasured p.
  Proof.
    intros Hind Hn. unfold unmeasured. assert (concat p ++ mset s ≡ₚ qubits g) as H.
    { apply NoDup_Permutation.
      - apply NoDup_app. split; [apply Hn|]. split; [|by eapply node_nodup].
        intros x Hx Hx'. by apply (node_enabled _ _ _ _ x Hn) in Hx' as (_ & ? & _).
      - apply Hg.
      - intros x. rewrite elem_of_app, <- listed_qubits. split.
        + intros [Hx|Hx]; [by eapply lp_listed; [apply Hn|]|].
          by apply (node_enabled _ _ _ _ x Hn) in Hx as (? & _).
        + intros Hx. destruct (decide (x ∈ concat p)); [by left|]. right.
          apply (node_enabled _ _ _ _ x Hn). split; [done|]. split; [done|]. intros d Hd. by apply Hind in Hd. }
    apply Permutation_length in H. rewrite app_length in H. lia.
  Qed.

  Lemma fresh_weight p s :
    node p s → SchedulerFacts.fresh s →
    sum_list (map (item_weight (unmeasured p)) (items s)) + leaf_one s ≤ ordered_bell (unmeasured p) ∧
    ((∀ b d, ¬ depends g b d) →
     sum_list (map (item_weight (unmeasured p)) (items s)) + leaf_one s = ordered_bell (unmeasured p)).
  Proof.
    intros Hn Hf. rewrite Hf. unfold leaf_one.
    pose proof (mset_unmeasured p s Hn) as Hle. pose proof (mset_independent p s) as Hind.
    destruct (mset s) as [|x l] eqn:Em.
    - simpl. split.
      + assert (∀ k, 1 ≤ ordered_bell k) as Hpos.
        { intros k. destruct k as [|k]; [done|]. rewrite ordered_bell_S by done. simpl. lia. }
        apply Hpos.
      + intros H. specialize (Hind H Hn). simpl in Hind. by rewrite <- Hind.
    - rewrite Nat.add_0_r. split; [by apply all_splits_bell|].
      intros H. rewrite <- (Hind H Hn). by apply all_splits_bell_eq.
  Qed.

  (** ** Big steps of the sweep *)

  Record enumerated (p : schedule) (s : Scheduler (Partition nat)) (ps : list (schedule * N)) : Prop := {
    en_visits : ∀ bd, visits (FI := scheduler_focus_iterator bd) p s ps;
    en_valid : ∀ q m, (q, m) ∈ ps → valid_schedule g q ∧ m = cost q;
    en_times : ∀ σ, valid_schedule g σ → times σ ps = hits p σ (items s) + leaf_hit p σ s;
    en_bound : length ps ≤ sum_list (map (item_weight (unmeasured p)) (items s)) + leaf_one s;
    en_exact : (∀ b d, ¬ depends g b d) →
      length ps = sum_list (map (item_weight (unmeasured p)) (items s)) + leaf_one s
  }.

  Lemma no_more_hits p σ s : no_more s → hits p σ (items s) = 0.
  Proof.
    intros Hno. unfold hits. destruct (filter _ (items s)) as [|[a b] l] eqn:E; [done|]. exfalso.
    assert ((a, b) ∈ (a, b) :: l) as H by left. rewrite <- E in H.
    apply elem_of_list_filter in H as [[H _] Hi]. by apply H, (Hno a).
  Qed.

  Lemma no_more_weight u s : no_more s → sum_list (map (item_weight u) (items s)) = 0.
  Proof.
    intros Hno. unfold no_more in Hno. induction (items s) as [|[a b] l IH]; [done|]. simpl.
    rewrite IH; [|by intros a' b' H; apply (Hno a'); right]. unfold item_weight. simpl.
    rewrite (Hno a b) by left. done.
  Qed.

  Lemma enumerate p s : node p s → ∃ ps, enumerated p s ps.
  Proof.
    remember (sweight s) as w eqn:Ew. revert p s Ew. induction (lt_wf w) as [w _ IHw].
    intros p s Ew. remember (nitems s) as k eqn:Ek. revert s Ew Ek.
    induction k as [|k IHk]; intros s Ew Ek Hn;
      destruct (items_cases adj g Hin p s Hn) as [[Hno E]|(a & b & l & child & Ei & Hb & Hcn & Hcf & E)].
    1,3: exists (if decide (mset s = []) then [(p, cost p)] else []); split.
    all: try (intros bd; pose proof (visits_end (FI := scheduler_focus_iterator bd) p s (advance s) (E bd)) as Hv;
        cbn [at_leaf scheduler_focus_iterator] in Hv; case_decide as Em;
        [rewrite (leaf_some adj g p (advance s)) in Hv; [done|by apply advance_node|done]
        |rewrite (leaf_none (advance s)) in Hv; [done|done]]).
    all: try (intros q m Hq; case_decide as Em; [|by apply elem_of_nil in Hq];
        apply elem_of_list_singleton in Hq as [= -> ->]; split; [by eapply leaf_valid|done]).
    all: try (intros σ Hσ; rewrite no_more_hits by done; unfold leaf_hit, times; simpl; case_decide as Em;
        [destruct (decide (same_schedule p σ)); [rewrite decide_True, filter_cons_True by done; done
          |rewrite decide_False, filter_cons_False by tauto; done]
        |rewrite decide_False by tauto; done]).
    all: try (rewrite no_more_weight by done; unfold leaf_one; case_decide as Em;
        [rewrite Em; simpl; lia|destruct (mset s); simpl; lia || done]).
    all: try (intros _; rewrite no_more_weight by done; unfold leaf_one; case_decide as Em;
        [rewrite Em; done|by destruct (mset s)]).
    all: destruct (scheduler_next_measure Debug s (advance s) (Some (child, b)) (E Debug))
        as (Hw & (Hk & _ & Hlt & _) & _).
    - lia.
    - destruct (IHw (sweight child)) with (p := p ++ [b]) (s := child) as (ps & Hps); [lia|done|done|].
      destruct (IHk (advance s)) as (qs & Hqs); [lia|lia|by apply advance_node|].
      exists (ps ++ qs). destruct Hps as [P1 P2 P3 P4 P5], Hqs as [Q1 Q2 Q3 Q4 Q5].
      destruct (fresh_weight _ _ Hcn Hcf) as [W1 W2].
      assert (mset s ≠ []) as Hms.
      { apply (mset_continue adj g p s b Hn). apply Hcn. }
      assert (item_weight (unmeasured p) (a, b) = ordered_bell (unmeasured (p ++ [b]))) as Eib.
      { unfold item_weight. simpl. rewrite unmeasured_snoc. by destruct b. }
      split.
      + intros bd. eapply visits_child; [apply E|done|done].
      + intros q m. rewrite elem_of_app. intros [?|?]; auto.
      + intros σ Hσ. rewrite times_app, P3, Q3, hits_fresh by done. unfold hits.
        rewrite advance_items, Ei. simpl. change (leaf_hit p σ (advance s)) with (leaf_hit p σ s).
        destruct (decide (agrees (p ++ [b]) σ)) as [Ha|Ha].
        * rewrite filter_cons_True by done. simpl. lia.
        * rewrite filter_cons_False by (simpl; tauto). lia.
      + rewrite app_length. rewrite advance_items, Ei in Q4. rewrite Ei. cbn [map sum_list_with tail] in *.
        change (leaf_one (advance s)) with (leaf_one s) in Q4. simpl in *. rewrite Eib. lia.
      + intros Hind. specialize (P5 Hind). specialize (Q5 Hind). specialize (W2 Hind).
        rewrite app_length. rewrite advance_items, Ei in Q5. rewrite Ei.
        change (leaf_one (advance s)) with (leaf_one s) in Q5. simpl in *. rewrite Eib. lia.
  Qed.
End enum.
