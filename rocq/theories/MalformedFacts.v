(** * Dependency graphs that are not well-formed *)
From Verif Require Export RunFacts GreedyFacts.

Lemma filter_sub {A} (Q : A → Prop) `{!∀ x, Decision (Q x)} (l : list A) : filter Q l `sublist_of` l.
Proof.
  induction l as [|x l IH]; [done|]. destruct (decide (Q x)).
  - rewrite filter_cons_True by done. by constructor.
  - rewrite filter_cons_False by done. by constructor.
Qed.

Lemma sub_elem {A} (l k : list A) x : l `sublist_of` k → x ∈ l → x ∈ k.
Proof. intros H Hx. by eapply elem_of_submseteq, sublist_submseteq. Qed.

Lemma sub_nodup {A} (l k : list A) : l `sublist_of` k → NoDup k → NoDup l.
Proof.
  induction 1 as [|x l k Hs IH|x l k Hs IH]; intros Hk; [done| |].
  - apply NoDup_cons in Hk as [H1 H2]. apply NoDup_cons. split; [|by apply IH].
    intros Hx. apply H1. by eapply sub_elem.
  - apply NoDup_cons in Hk as [H1 H2]. by apply IH.
Qed.

(** ** The repaired graph *)

Section repaired.
  Lemma repaired_from_lookup seen rest k :
    repaired_from seen rest !! k
    = filter (usable (seen ++ qubits (take k (repaired_from seen rest)))) <$> rest !! k.
  Proof.
    revert seen rest. induction k as [|k IH]; intros seen [|layer rest]; try done.
    - simpl. unfold qubits. simpl. by rewrite app_nil_r.
    - simpl. rewrite IH. f_equal. f_equal. f_equal.
      unfold qubits. simpl. by rewrite map_app, app_assoc.
  Qed.

  Lemma repaired_lookup g k :
    repaired g !! S k = filter (usable (qubits (take (S k) (repaired g)))) <$> g !! S k.
  Proof.
    destruct g as [|first rest]; [done|]. simpl. rewrite repaired_from_lookup. f_equal. f_equal. f_equal.
    unfold qubits. simpl. rewrite map_app, map_map. done.
  Qed.

  Lemma repaired_head g : default [] (head (repaired g)) = map (λ e, (e.1, [])) (default [] (head g)).
  Proof. by destruct g. Qed.

  Lemma repaired_length g : length (repaired g) = length g.
  Proof.
    destruct g as [|first rest]; [done|]. simpl. f_equal. generalize (map fst first).
    induction rest as [|l rest IH]; intros seen; [done|]. simpl. by rewrite IH.
  Qed.

  Lemma qubits_repaired_sub g : qubits (repaired g) `sublist_of` qubits g.
  Proof.
    destruct g as [|first rest]; [done|]. unfold qubits. simpl. rewrite !map_app, map_map. simpl.
    apply sublist_app; [done|]. generalize (map fst first).
    induction rest as [|l rest IH]; intros seen; [done|]. simpl. rewrite !map_app.
    apply sublist_app; [|apply IH]. apply fmap_sublist, filter_sub.
  Qed.

  Context (g : order) (Hnd : NoDup (qubits g)).

  Lemma repaired_listed b : b ∈ qubits (repaired g) → b ∈ qubits g.
  Proof. intros Hb. eapply sub_elem; [apply qubits_repaired_sub|done]. Qed.

  Lemma repaired_wf n : (∀ b, b ∈ qubits g → b < n) → wf_order n (repaired g).
  Proof.
    intros Hr. split.
    - intros b Hb. by apply Hr, repaired_listed.
    - eapply sub_nodup; [apply qubits_repaired_sub|done].
    - intros b ds. rewrite repaired_head. intros H.
      apply elem_of_list_fmap in H as ([b' ds'] & [= -> ->] & _). done.
    - intros k layer b ds Hk Hb. rewrite repaired_lookup in Hk.
      apply fmap_Some in Hk as (layer' & Hk & ->). apply elem_of_list_filter in Hb as [(H1 & H2 & H3) _].
      simpl in *. split; [done|]. split; [done|]. by apply Forall_forall.
  Qed.

  Notation g' := (repaired g).

  (** The qubits that are removed. *)
  Definition stuck (b : nat) : Prop := b ∈ qubits g ∧ b ∉ qubits g'.
  Global Instance stuck_dec b : Decision (stuck b).
  Proof. unfold stuck. apply _. Defined.

  (** The position of the layer of a qubit. *)
  Lemma layer_of b : b ∈ qubits g → ∃ k layer ds, g !! k = Some layer ∧ (b, ds) ∈ layer.
  Proof.
    intros Hb. apply listed_qubits in Hb as (layer & ds & Hl & Hb).
    apply elem_of_list_lookup in Hl as [k Hk]. by exists k, layer, ds.
  Qed.

  Lemma entry_unique' b ds ds' : (b, ds) ∈ concat g → (b, ds') ∈ concat g → ds = ds'.
  Proof.
    intros H1 H2. unfold qubits in Hnd.
    apply elem_of_list_lookup in H1 as [i Hi]. apply elem_of_list_lookup in H2 as [j Hj].
    assert (i = j) as ->; [|congruence].
    apply (NoDup_lookup (fst <$> concat g) i j b); [done| |];
      rewrite list_lookup_fmap; [by rewrite Hi|by rewrite Hj].
  Qed.

  Lemma qubits_snoc (h : order) k layer : h !! k = Some layer → qubits (take (S k) h) = qubits (take k h) ++ map fst layer.
  Proof.
    intros Hk. rewrite (take_S_r h k layer) by done. rewrite qubits_app. unfold qubits at 2. simpl.
    by rewrite app_nil_r.
  Qed.

  (** Layers do not overlap. *)
  Lemma layer_disjoint j k lj lk b ds ds' :
    g !! j = Some lj → g !! k = Some lk → (b, ds) ∈ lj → (b, ds') ∈ lk → j = k.
  Proof.
    assert (∀ j k lj lk, g !! j = Some lj → g !! k = Some lk → b ∈ map fst lj → b ∈ map fst lk → ¬ j < k) as Hlt.
    { clear j k lj lk. intros j k lj lk Hj Hk Hbj Hbk Hjk.
      rewrite <- (take_drop k g) in Hnd. rewrite qubits_app in Hnd. apply NoDup_app in Hnd as (_ & Hd & _).
      apply (Hd b).
      - unfold qubits. apply elem_of_list_fmap in Hbj as (e & -> & He). apply elem_of_list_fmap. exists e.
        split; [done|]. apply elem_of_concat. exists lj. split; [|done].
        apply elem_of_list_lookup. exists j. by rewrite lookup_take.
      - unfold qubits. apply elem_of_list_fmap in Hbk as (e & -> & He). apply elem_of_list_fmap. exists e.
        split; [done|]. apply elem_of_concat. exists lk. split; [|done].
        apply elem_of_list_lookup. exists 0. rewrite lookup_drop. by rewrite Nat.add_0_r. }
    intros Hj Hk Hbj Hbk.
    assert (b ∈ map fst lj) by (apply elem_of_list_fmap; by exists (b, ds)).
    assert (b ∈ map fst lk) by (apply elem_of_list_fmap; by exists (b, ds')).
    assert (¬ j < k) by (by eapply Hlt). assert (¬ k < j) by (by eapply Hlt). lia.
  Qed.

  (** Which qubits of a layer remain. *)
  Lemma kept_first b ds layer : g !! 0 = Some layer → (b, ds) ∈ layer → b ∈ qubits g'.
  Proof.
    destruct g as [|first rest]; [done|]. simpl. intros [= ->] Hb. unfold qubits. simpl.
    rewrite map_app, map_map, elem_of_app. left. simpl. apply elem_of_list_fmap. by exists (b, ds).
  Qed.

  Lemma repaired_entry_layer k layer b :
    g !! k = Some layer → b ∈ qubits g' → b ∈ map fst layer →
    ∃ layer', g' !! k = Some layer' ∧ b ∈ map fst layer'.
  Proof.
    intros Hk Hb Hbk. apply listed_qubits in Hb as (layer' & ds' & Hl & Hb).
    apply elem_of_list_lookup in Hl as [j Hj].
    assert (∃ lj ds, g !! j = Some lj ∧ (b, ds) ∈ lj) as (lj & ds & Hlj & Hds).
    { destruct j as [|j].
      - destruct g as [|first rest]; [done|]. simpl in Hj. injection Hj as <-.
        apply elem_of_list_fmap in Hb as ([b' ds] & [= -> ->] & Hb). by exists first, ds.
      - rewrite repaired_lookup in Hj. apply fmap_Some in Hj as (lj & Hj & ->).
        apply elem_of_list_filter in Hb as [_ Hb]. by exists lj, ds'. }
    apply elem_of_list_fmap in Hbk as ([b' ds''] & -> & Hbk). simpl in *.
    assert (j = k) as -> by (by eapply layer_disjoint). exists layer'. split; [done|].
    apply elem_of_list_fmap. by exists (b', ds').
  Qed.

  Lemma kept_later k b ds layer :
    g !! S k = Some layer → (b, ds) ∈ layer →
    b ∈ qubits g' ↔ usable (qubits (take (S k) g')) (b, ds).
  Proof.
    intros Hk Hb. split.
    - intros Hq. destruct (repaired_entry_layer (S k) layer b) as (layer' & Hk' & Hb'); [done..| |].
      { apply elem_of_list_fmap. by exists (b, ds). }
      rewrite repaired_lookup, Hk in Hk'. simpl in Hk'. injection Hk' as <-.
      apply elem_of_list_fmap in Hb' as ([b' ds'] & -> & Hb'). simpl in *.
      apply elem_of_list_filter in Hb' as [Hu Hb'].
      assert (ds = ds') as ->; [|done].
      apply (entry_unique' b'); apply elem_of_concat; exists layer; (split; [by eapply elem_of_list_lookup_2|done]).
    - intros Hu. apply listed_qubits. exists (filter (usable (qubits (take (S k) g'))) layer), ds.
      split; [|by apply elem_of_list_filter].
      apply elem_of_list_lookup. exists (S k). by rewrite repaired_lookup, Hk.
  Qed.

  Lemma not_stuck_later k b ds layer :
    g !! S k = Some layer → (b, ds) ∈ layer →
    ¬ stuck b ↔ usable (qubits (take (S k) g')) (b, ds).
  Proof.
    intros Hk Hb. rewrite <- (kept_later k b ds layer Hk Hb). unfold stuck.
    assert (b ∈ qubits g) as Hq.
    { apply listed_qubits. exists layer, ds. split; [by eapply elem_of_list_lookup_2|done]. }
    destruct (decide (b ∈ qubits g')); tauto.
  Qed.

  (** ** The dependents of a remaining qubit *)

  Definition look_of (h : order) (j u : nat) : list nat :=
    map fst (filter (λ e, u ∈ e.2) (concat (drop (S j) h))).

  Lemma look_repaired j u :
    filter (λ b, ¬ stuck b) (look_of g j u) = look_of g' j u.
  Proof.
    unfold look_of. remember (length g - S j) as d eqn:Hd. revert j Hd.
    induction d as [|d IH]; intros j Hd.
    - rewrite !drop_ge; [done|rewrite repaired_length; lia|lia].
    - destruct (lookup_lt_is_Some_2 g (S j)) as [layer Hl]; [lia|].
      pose proof (repaired_lookup g j) as Hl'. rewrite Hl in Hl'. simpl in Hl'.
      rewrite (drop_S g layer (S j)) by done. rewrite (drop_S g' _ (S j) Hl').
      cbn [concat]. rewrite !filter_app, !map_app, filter_app. f_equal; [|apply IH; lia].
      pose proof (λ b ds, not_stuck_later j b ds layer Hl) as Hs. clear -Hs.
      induction layer as [|[b ds] layer IHl]; [done|].
      assert (filter (λ b, ¬ stuck b) (map fst (filter (λ e : nat * list nat, u ∈ e.2) layer)) =
        map fst (filter (λ e : nat * list nat, u ∈ e.2) (filter (usable (qubits (take (S j) g'))) layer))) as IHl'.
      { apply IHl. intros b' ds' H. apply Hs. by right. }
      clear IHl. specialize (Hs b ds ltac:(left)).
      destruct (decide (usable (qubits (take (S j) g')) (b, ds))) as [Hu|Hu].
      + rewrite (filter_cons_True (usable _)) by done. destruct (decide (u ∈ ds)).
        * rewrite !(filter_cons_True (λ e : nat * list nat, u ∈ e.2)) by done. simpl.
          rewrite filter_cons_True by (by apply Hs). by f_equal.
        * by rewrite !(filter_cons_False (λ e : nat * list nat, u ∈ e.2)).
      + rewrite (filter_cons_False (usable _)) by done. destruct (decide (u ∈ ds)).
        * rewrite (filter_cons_True (λ e : nat * list nat, u ∈ e.2)) by done. simpl.
          rewrite filter_cons_False; [done|]. intros H. by apply Hu, Hs.
        * by rewrite (filter_cons_False (λ e : nat * list nat, u ∈ e.2)).
  Qed.

  Lemma look_of_nodup j u : NoDup (look_of g j u).
  Proof.
    unfold look_of. eapply sub_nodup; [apply fmap_sublist, filter_sub|].
    rewrite <- (take_drop (S j) g), qubits_app in Hnd. by apply NoDup_app in Hnd as (_ & _ & ?).
  Qed.

  (** ** The effective dependencies of a removed qubit *)

  Definition position_of (b : nat) : nat :=
    match list_find (λ layer, b ∈ map fst layer) g with Some (k, _) => k | None => 0 end.

  Lemma position_of_spec k layer b ds : g !! k = Some layer → (b, ds) ∈ layer → position_of b = k.
  Proof.
    intros Hk Hb. unfold position_of.
    destruct (list_find _ _) as [[j lay]|] eqn:E.
    - apply list_find_Some in E as (Hj & Hbj & _).
      apply elem_of_list_fmap in Hbj as ([b' ds'] & -> & Hbj). by eapply layer_disjoint.
    - apply list_find_None in E. rewrite Forall_forall in E. exfalso. apply (E layer).
      + by eapply elem_of_list_lookup_2.
      + apply elem_of_list_fmap. by exists (b, ds).
  Qed.

  Lemma deps_of_entry' b ds : (b, ds) ∈ concat g → deps_of g b = ds.
  Proof.
    intros Hi. unfold deps_of. destruct (list_find _ _) as [[i [b' ds']]|] eqn:E.
    - apply list_find_Some in E as (Hi' & Hb & _). simpl in *. subst.
      eapply entry_unique'; [|done]. by eapply elem_of_list_lookup_2.
    - apply list_find_None in E. rewrite Forall_forall in E. by destruct (E _ Hi).
  Qed.

  Definition effective (b : nat) : list nat :=
    remove_dups (filter (λ d, d ∈ qubits (take (position_of b) g')) (deps_of g b)).

  Lemma effective_elem k layer b ds u :
    g !! k = Some layer → (b, ds) ∈ layer →
    u ∈ effective b ↔ u ∈ ds ∧ u ∈ qubits (take k g').
  Proof.
    intros Hk Hb. unfold effective. rewrite elem_of_remove_dups, elem_of_list_filter.
    rewrite (position_of_spec k layer b ds) by done. rewrite (deps_of_entry' b ds); [tauto|].
    apply elem_of_concat. exists layer. split; [by eapply elem_of_list_lookup_2|done].
  Qed.

  Lemma stuck_layer b : stuck b → ∃ k layer ds, g !! S k = Some layer ∧ (b, ds) ∈ layer ∧
    ¬ usable (qubits (take (S k) g')) (b, ds).
  Proof.
    intros Hs. pose proof Hs as [Hb Hb']. destruct (layer_of b Hb) as (k & layer & ds & Hk & Hds).
    destruct k as [|k]; [by destruct Hb'; eapply kept_first|].
    exists k, layer, ds. split; [done|]. split; [done|]. rewrite <- (not_stuck_later k b ds layer); tauto.
  Qed.

  Lemma effective_short b : stuck b → length (effective b) < length (deps_of g b) ∨ effective b = [].
  Proof.
    intros Hs. destruct (stuck_layer b Hs) as (k & layer & ds & Hk & Hb & Hu).
    pose proof (λ u, effective_elem (S k) layer b ds u Hk Hb) as Hel.
    assert (deps_of g b = ds) as ->.
    { apply deps_of_entry', elem_of_concat. exists layer. split; [by eapply elem_of_list_lookup_2|done]. }
    destruct (decide (length (effective b) < length ds)) as [|Hlen]; [by left|right].
    destruct (decide (ds = [])) as [->|Hne].
    { destruct (effective b) as [|u l]; [done|]. destruct (Hel u) as [H _].
      destruct H as [H _]; [left|]. by apply elem_of_nil in H. }
    exfalso. apply Hu.
    assert (effective b ≡ₚ ds) as Hp.
    { apply submseteq_Permutation_length_le; [lia|]. apply NoDup_submseteq; [apply NoDup_remove_dups|].
      intros u Hu'. by apply Hel. }
    split; [done|]. simpl. split.
    - rewrite <- Hp. apply NoDup_remove_dups.
    - apply Forall_forall. intros d Hd. rewrite <- Hp in Hd. by apply Hel in Hd as [_ ?].
  Qed.

  (** A removed qubit is a dependent of its effective dependencies. *)
  Lemma look_stuck j lay u dsu b :
    g !! j = Some lay → (u, dsu) ∈ lay → u ∈ qubits g' → stuck b →
    b ∈ look_of g j u ↔ u ∈ effective b.
  Proof.
    intros Hj Hu Hkept Hs. destruct (stuck_layer b Hs) as (k & layer & ds & Hk & Hb & _).
    rewrite (effective_elem (S k) layer b ds u Hk Hb). unfold look_of.
    rewrite elem_of_list_fmap. split.
    - intros ([b' ds'] & -> & H). apply elem_of_list_filter in H as [Hud H]. simpl in *.
      apply elem_of_concat in H as (l' & Hl' & H). apply elem_of_list_lookup in Hl' as [i Hi].
      rewrite lookup_drop in Hi.
      assert (S j + i = S k) as Hjk by (by eapply layer_disjoint). rewrite Hjk, Hk in Hi. injection Hi as <-.
      assert (ds = ds') as ->.
      { apply (entry_unique' b'); apply elem_of_concat; exists layer; (split; [by eapply elem_of_list_lookup_2|done]). }
      split; [done|].
      destruct (repaired_entry_layer j lay u) as (lay' & Hj' & Hu'); [done..| |].
      { apply elem_of_list_fmap. by exists (u, dsu). }
      apply elem_of_list_fmap in Hu' as (e & -> & He). unfold qubits. apply elem_of_list_fmap.
      exists e. split; [done|]. apply elem_of_concat. exists lay'. split; [|done].
      apply elem_of_list_lookup. exists j. rewrite lookup_take by lia. done.
    - intros [Hd Hq]. exists (b, ds). split; [done|]. apply elem_of_list_filter. split; [done|].
      apply listed_qubits in Hq as (l' & ds' & Hl' & Hu'). apply elem_of_list_lookup in Hl' as [i Hi].
      apply lookup_take_Some in Hi as [Hi Hik].
      assert (∃ li ds, g !! i = Some li ∧ (u, ds) ∈ li) as (li & ds'' & Hli & Hds).
      { destruct i as [|i].
        - destruct g as [|first rest]; [done|]. simpl in Hi. injection Hi as <-.
          apply elem_of_list_fmap in Hu' as ([b' ds2] & [= -> ->] & Hb'). by exists first, ds2.
        - rewrite repaired_lookup in Hi. apply fmap_Some in Hi as (li & Hli & ->).
          apply elem_of_list_filter in Hu' as [_ Hu']. by exists li, ds'. }
      assert (i = j) as -> by (by eapply layer_disjoint).
      apply elem_of_concat. exists layer. split; [|done].
      apply elem_of_list_lookup. exists (k - j). rewrite lookup_drop. by replace (S j + (k - j)) with (S k) by lia.
  Qed.
End repaired.

(** ** Generators of the two graphs *)

Section twin.
  Context (n : nat) (g : order) (Hr : ∀ b, b ∈ qubits g → b < n) (Hnd : NoDup (qubits g)).
  Notation g' := (repaired g).
  Notation stuck := (stuck g).
  Let Hg' : wf_order n g' := repaired_wf g Hnd n Hr.

  Definition agree (dc dc' : DepsCounters) : Prop := ∀ b, ¬ stuck b → dc !! b = dc' !! b.

  (** The counter of a removed qubit: it never becomes 0. *)
  Definition left_over (P : list nat) (b : nat) : nat :=
    length (deps_of g b) - length (filter (λ d, d ∈ P) (effective g b)).
  Definition pinned (P : list nat) (dc : DepsCounters) : Prop :=
    ∀ b, stuck b → dc !! b = Some (N.of_nat (left_over P b)).

  Definition looks (look look' : Dependents) : Prop :=
    ∀ u, u ∈ qubits g' → ∃ L, look !! u = Some L ∧ NoDup L ∧
      look' !! u = Some (filter (λ b, ¬ stuck b) L) ∧ ∀ b, stuck b → (b ∈ L ↔ u ∈ effective g b).

  Lemma twin_inner bd L dc dc' new dc1' new1 :
    NoDup L → agree dc dc' →
    (∀ b, stuck b → b ∈ L → ∃ k, dc !! b = Some (N.of_nat (S (S k)))) →
    ofold (update_dependent bd) (filter (λ b, ¬ stuck b) L) (dc', new) = Val (dc1', new1) →
    ∃ dc1, ofold (update_dependent bd) L (dc, new) = Val (dc1, new1) ∧ agree dc1 dc1' ∧
      (∀ b, stuck b → dc1 !! b = if decide (b ∈ L) then N.pred <$> dc !! b else dc !! b).
  Proof.
    revert dc dc' new. induction L as [|b L IH]; intros dc dc' new HL Hag Hst.
    - intros [= <- <-]. exists dc. split; [done|]. split; [done|]. intros b Hb.
      rewrite decide_False; [done|apply not_elem_of_nil].
    - apply NoDup_cons in HL as [HbL HL]. destruct (decide (stuck b)) as [Hb|Hb].
      + rewrite filter_cons_False by tauto. intros E.
        destruct (Hst b Hb) as [k Hk]; [left|]. simpl. unfold update_dependent at 1. simpl.
        rewrite Hk. unfold sub_usize.
        destruct (N.leb_spec 1 (N.of_nat (S (S k)))) as [_|?]; [|lia]. cbn [obind].
        destruct (N.eqb_spec (N.of_nat (S (S k)) - 1) 0) as [?|_]; [lia|]. cbn [obind].
        destruct (IH (<[b := (N.of_nat (S (S k)) - 1)%N]> dc) dc' new HL) as (dc1 & E1 & H1 & H2); [| |done|].
        { intros c Hc. rewrite lookup_insert_ne; [by apply Hag|]. intros ->. done. }
        { intros c Hc HcL. rewrite lookup_insert_ne; [by apply Hst; [|right]|]. intros ->. done. }
        exists dc1. split; [done|]. split; [done|]. intros c Hc. rewrite (H2 c Hc).
        destruct (decide (c = b)) as [->|Hne].
        * rewrite decide_False by done. rewrite lookup_insert, decide_True by left. rewrite Hk.
          change (Some (N.of_nat (S (S k)) - 1)%N = Some (N.pred (N.of_nat (S (S k))))). f_equal. lia.
        * rewrite lookup_insert_ne by done. destruct (decide (c ∈ L)).
          -- by rewrite decide_True by (by right).
          -- rewrite decide_False; [done|]. by intros [->|?]%elem_of_cons.
      + rewrite filter_cons_True by done. simpl. unfold update_dependent at 1 3. simpl.
        rewrite (Hag b Hb). destruct (dc' !! b) as [c|] eqn:Ec; [|done].
        destruct (sub_usize bd c 1) as [c1|]; [|done]. cbn [obind].
        assert (∀ dcn dcn' newn, agree dcn dcn' → (∀ x, x ≠ b → dcn !! x = dc !! x) →
          ofold (update_dependent bd) (filter (λ b, ¬ stuck b) L) (dcn', newn) = Val (dc1', new1) →
          ∃ dc1, ofold (update_dependent bd) L (dcn, newn) = Val (dc1, new1) ∧ agree dc1 dc1' ∧
            (∀ x, stuck x → dc1 !! x = if decide (x ∈ b :: L) then N.pred <$> dc !! x else dc !! x)) as Hgo.
        { intros dcn dcn' newn Hagn Hsame E. destruct (IH dcn dcn' newn HL Hagn) as (dc1 & E1 & H1 & H2); [|done|].
          - intros x Hx HxL. rewrite Hsame; [by apply Hst; [|right]|]. intros ->. done.
          - exists dc1. split; [done|]. split; [done|]. intros x Hx. rewrite (H2 x Hx).
            assert (x ≠ b) by (intros ->; done). rewrite Hsame by done.
            destruct (decide (x ∈ L)).
            + by rewrite decide_True by (by right).
            + rewrite decide_False; [done|]. by intros [->|?]%elem_of_cons. }
        destruct (c1 =? 0)%N; cbn [obind]; apply Hgo.
        * intros x Hx. destruct (decide (x = b)) as [->|]; [by rewrite !lookup_delete|].
          rewrite !lookup_delete_ne by done. by apply Hag.
        * intros x Hx. by rewrite lookup_delete_ne.
        * intros x Hx. destruct (decide (x = b)) as [->|]; [by rewrite !lookup_insert|].
          rewrite !lookup_insert_ne by done. by apply Hag.
        * intros x Hx. by rewrite lookup_insert_ne.
  Qed.

  Lemma filter_in_snoc (P l : list nat) u :
    NoDup l → u ∉ P →
    length (filter (λ d, d ∈ P ++ [u]) l)
    = length (filter (λ d, d ∈ P) l) + (if decide (u ∈ l) then 1 else 0).
  Proof.
    intros Hl Hu. induction l as [|d l IH]; [done|]. apply NoDup_cons in Hl as [Hd Hl]. specialize (IH Hl).
    destruct (decide (d = u)) as [->|Hne].
    - rewrite filter_cons_True by (apply elem_of_app; right; left).
      rewrite (filter_cons_False _ u) by done. rewrite (decide_True (P := u ∈ u :: l)) by left.
      rewrite decide_False in IH by done. simpl. lia.
    - assert ((if decide (u ∈ d :: l) then 1 else 0) = (if decide (u ∈ l) then 1 else 0)) as ->.
      { destruct (decide (u ∈ d :: l)) as [H|H], (decide (u ∈ l)) as [H'|H']; try done; exfalso.
        - apply elem_of_cons in H as [?|?]; [congruence|done].
        - apply H. by right. }
      destruct (decide (d ∈ P)).
      + rewrite filter_cons_True by (apply elem_of_app; by left). rewrite (filter_cons_True _ d) by done. simpl. lia.
      + rewrite filter_cons_False; [|rewrite elem_of_app, elem_of_list_singleton; tauto].
        rewrite (filter_cons_False _ d) by done. lia.
  Qed.

  Lemma twin_update bd P M look look' dc dc' new dc1' new1 :
    looks look look' → agree dc dc' → pinned P dc →
    NoDup M → (∀ u, u ∈ M → u ∉ P ∧ u ∈ qubits g') →
    update_unchecked bd look' dc' M new = Val (dc1', new1) →
    ∃ dc1, update_unchecked bd look dc M new = Val (dc1, new1) ∧ agree dc1 dc1' ∧ pinned (P ++ M) dc1.
  Proof.
    intros Hlook. unfold update_unchecked. revert P dc dc' new.
    induction M as [|u M IH]; intros P dc dc' new Hag Hpin HM HMP.
    - intros [= <- <-]. exists dc. rewrite app_nil_r. done.
    - apply NoDup_cons in HM as [Hu HM]. cbn [ofold]. destruct (HMP u) as [HuP Huq]; [left|].
      destruct (Hlook u Huq) as (L & E1 & HL & E2 & Hst).
      unfold index at 1 3. rewrite E1, E2. cbn [obind].
      destruct (ofold (update_dependent bd) (filter (λ b, ¬ stuck b) L) (dc', new)) as [[dcm' newm]|] eqn:Em; [|done].
      cbn [obind]. intros E.
      assert (∀ b, stuck b → u ∈ effective g b →
        length (filter (λ d, d ∈ P ++ [u]) (effective g b)) ≤ length (effective g b) ∧
        length (effective g b) < length (deps_of g b)) as Hlen.
      { intros b Hb Hub. split; [apply filter_length|].
        destruct (effective_short g Hnd b Hb) as [?|He]; [done|]. rewrite He in Hub. by apply elem_of_nil in Hub. }
      destruct (twin_inner bd L dc dc' new dcm' newm HL Hag) as (dcm & E3 & Hag' & Hst'); [|done|].
      { intros b Hb HbL. rewrite (Hpin b Hb). apply (Hst b Hb) in HbL. destruct (Hlen b Hb HbL) as [H1 H2].
        rewrite filter_in_snoc in H1; [|apply NoDup_remove_dups|done]. rewrite decide_True in H1 by done.
        exists (left_over P b - 2). do 2 f_equal. unfold left_over. lia. }
      rewrite E3. cbn [obind].
      destruct (IH (P ++ [u]) dcm dcm' newm Hag') as (dc1 & E4 & H1 & H2); [|done| |done|].
      { intros b Hb. rewrite (Hst' b Hb), (Hpin b Hb).
        assert (left_over (P ++ [u]) b = left_over P b - (if decide (u ∈ effective g b) then 1 else 0)) as ->.
        { unfold left_over. rewrite filter_in_snoc; [|apply NoDup_remove_dups|done]. lia. }
        destruct (decide (b ∈ L)) as [HbL|HbL].
        - apply (Hst b Hb) in HbL. rewrite decide_True by done.
          change (Some (N.pred (N.of_nat (left_over P b))) = Some (N.of_nat (left_over P b - 1))). f_equal. lia.
        - rewrite decide_False; [|by rewrite <- (Hst b Hb)]. f_equal. f_equal. lia. }
      { intros v Hv. destruct (HMP v) as [H1 H2]; [by right|]. split; [|done].
        rewrite elem_of_app, elem_of_list_singleton. intros [?| ->]; done. }
      exists dc1. split; [done|]. split; [done|]. by rewrite <- app_assoc in H2.
  Qed.

  (** The two generators just after their construction. *)
  Lemma twin_start `{LawfulMeasurableSet T} buf :
    n ≤ length buf →
    ∃ t t', from_dependency_graph (T := T) g buf None = Val t ∧
      from_dependency_graph (T := T) g' buf None = Val t' ∧
      measurable t = measurable t' ∧ looks (dependents t) (dependents t') ∧
      agree (deps_counter t) (deps_counter t') ∧ pinned [] (deps_counter t).
  Proof.
    intros Hlen.
    destruct (from_dependency_graph_spec (T := T) n g' buf Hg' Hlen) as (m' & dc' & look' & E' & Hm' & Hlen' & Hinv').
    rewrite E'. rewrite repaired_head, map_map in Hm'. simpl in Hm'.
    destruct g as [|first rest] eqn:Eg.
    { simpl in *. injection E' as E1 <- <-. subst m'.
      eexists _, _. split; [done|]. split; [done|]. simpl. split; [apply ms_default_init|].
      split; [intros u Hu; rewrite Eg in Hu; by apply elem_of_nil in Hu|]. split; [done|].
      intros b [Hb _]. rewrite Eg in Hb. by apply elem_of_nil in Hb. }
    assert (∀ b, b ∈ map fst first → b < n) as Hr1.
    { intros b Hb. apply Hr. unfold qubits. simpl. rewrite map_app, elem_of_app. by left. }
    assert (∀ b, b ∈ qubits rest → b < n) as Hr2.
    { intros b Hb. apply Hr. unfold qubits. simpl. rewrite map_app, elem_of_app. by right. }
    pose proof Hnd as Hnd'. unfold qubits in Hnd'. simpl in Hnd'. rewrite map_app in Hnd'.
    apply NoDup_app in Hnd' as (Hnd1 & Hdis & Hnd2).
    destruct (first_loop_spec rest first buf) as (look1 & E1 & L1 & Hin1 & Hout1).
    { intros e He. eapply Nat.lt_le_trans; [|exact Hlen]. apply Hr1, elem_of_list_fmap. by exists e. }
    destruct (rest_loop_spec rest look1 ∅) as (look & dc & E2 & L2 & Hin2 & Hout2 & Hdc1 & Hdc2); [|done|].
    { intros b Hb. rewrite L1. eapply Nat.lt_le_trans; [by apply Hr2|done]. }
    assert (∀ j lay u dsu, g !! j = Some lay → (u, dsu) ∈ lay → look !! u = Some (look_of g j u)) as Hl.
    { intros j lay u dsu Hj Hu. rewrite Eg in Hj.
      assert (u ∈ map fst lay) as Huf by (apply elem_of_list_fmap; by exists (u, dsu)).
      destruct j as [|j]; simpl in Hj.
      - injection Hj as ->. rewrite Hout2; [|by apply Hdis]. rewrite Hin1 by done.
        unfold look_of. rewrite Eg. done.
      - rewrite (Hin2 (take j rest) lay (drop (S j) rest)); [|by rewrite take_drop_middle|done].
        unfold look_of. rewrite Eg. done. }
    eexists _, _. split.
    { unfold from_dependency_graph. rewrite E1. cbn [obind]. rewrite E2. cbn [obind]. done. }
    split; [done|]. simpl. split; [by rewrite Hm'|].
    rewrite <- Eg in *. split; [|split].
    - intros u Hu. pose proof (repaired_listed g u Hu) as Hu'.
      destruct (layer_of g u Hu') as (j & lay & dsu & Hj & Hdsu).
      exists (look_of g j u). split; [by eapply Hl|]. split; [by apply look_of_nodup|]. split.
      + rewrite look_repaired by done. rewrite (ti_look _ _ _ _ _ Hinv' u) by (by apply listed_qubits).
        f_equal. destruct (repaired_entry_layer g Hnd j lay u) as (lay' & Hj' & Hu2); [done..| |].
        { apply elem_of_list_fmap. by exists (u, dsu). }
        rewrite <- (dependents_rest n g' Hg' (take j g') lay' (drop (S j) g') u); [done| |done].
        by rewrite take_drop_middle.
      + intros b Hb. by eapply look_stuck.
    - intros b Hb. rewrite (ti_deps _ _ _ _ _ Hinv' b), missing_nil.
      destruct (decide (b ∈ qubits g)) as [Hq|Hq].
      + assert (b ∈ qubits g') as Hq'.
        { destruct (decide (b ∈ qubits g')); [done|]. by destruct Hb. }
        destruct (layer_of g b Hq) as (k & lay & ds & Hk & Hds).
        destruct (repaired_entry_layer g Hnd k lay b) as (lay' & Hk' & Hb'); [done..| |].
        { apply elem_of_list_fmap. by exists (b, ds). }
        apply elem_of_list_fmap in Hb' as ([b' ds'] & -> & Hb'). simpl in *.
        rewrite (deps_of_entry n g' Hg' b' ds').
        2:{ apply elem_of_concat. exists lay'. split; [by eapply elem_of_list_lookup_2|done]. }
        destruct k as [|k].
        * rewrite (proj1 (proj2 (proj2 (wf_entry n g' Hg' 0 lay' b' ds' Hk' Hb'))) eq_refl). simpl.
          rewrite Hdc2; [done|]. apply Hdis. rewrite Eg in Hk. injection Hk as ->.
          apply elem_of_list_fmap. by exists (b', ds).
        * rewrite repaired_lookup, Hk in Hk'. simpl in Hk'. injection Hk' as <-.
          apply elem_of_list_filter in Hb' as [(Hne & _ & _) Hb']. simpl in Hne.
          rewrite (Hdc1 b' ds').
          2:{ rewrite Eg in Hk. simpl in Hk. apply elem_of_concat. exists lay.
              split; [by eapply elem_of_list_lookup_2|done]. }
          by destruct ds' as [|d ds'].
      + rewrite deps_of_unlisted.
        2:{ rewrite listed_qubits. intros H'. by apply Hq, repaired_listed. }
        simpl. rewrite Hdc2; [done|]. intros H'. apply Hq. rewrite Eg. unfold qubits. simpl.
        rewrite map_app, elem_of_app. by right.
    - intros b Hb. destruct (stuck_layer g Hnd b Hb) as (k & lay & ds & Hk & Hds & _).
      rewrite (Hdc1 b ds).
      2:{ rewrite Eg in Hk. simpl in Hk. apply elem_of_concat. exists lay.
          split; [by eapply elem_of_list_lookup_2|done]. }
      unfold left_over. rewrite (deps_of_entry' g Hnd b ds).
      2:{ apply elem_of_concat. exists lay. split; [by eapply elem_of_list_lookup_2|done]. }
      do 2 f_equal. assert (filter (λ d, d ∈ []) (effective g b) = []) as ->; [|simpl; lia].
      induction (effective g b) as [|d l IH]; [done|].
      rewrite filter_cons_False; [done|]. apply not_elem_of_nil.
  Qed.
End twin.

(** ** Schedulers and searches of the two graphs *)

Section simulation.
  Context (adj : spacial) (g : order) (Hadj : wf_spacial adj).
  Context (Hr : ∀ b, b ∈ qubits g → b < length adj) (Hnd : NoDup (qubits g)).
  Notation n := (length adj).
  Notation g' := (repaired g).
  Let Hg' : wf_order n g' := repaired_wf g Hnd n Hr.
  Let Hin' : wf_input adj g' := conj Hadj Hg'.

  Record twin {T} (P : list nat) (s s' : Scheduler T) : Prop := {
    tw_space : s_space s = s_space s';
    tw_set : measurable (s_time s) = measurable (s_time s');
    tw_looks : looks g (dependents (s_time s)) (dependents (s_time s'));
    tw_agree : agree g (deps_counter (s_time s)) (deps_counter (s_time s'));
    tw_pinned : pinned g P (deps_counter (s_time s))
  }.

  Lemma twin_update_all P M look look' dc dc' new dc1' new1 :
    looks g look look' → agree g dc dc' → pinned g P dc →
    NoDup M → (∀ u, u ∈ M → u ∉ P ∧ u ∈ qubits g') →
    (∀ bd, update_unchecked bd look' dc' M new = Val (dc1', new1)) →
    ∃ dc1, (∀ bd, update_unchecked bd look dc M new = Val (dc1, new1)) ∧
      agree g dc1 dc1' ∧ pinned g (P ++ M) dc1.
  Proof.
    intros H1 H2 H3 H4 H5 H6.
    destruct (twin_update g Hnd Debug P M look look' dc dc' new dc1' new1) as (dc1 & E1 & A1 & P1); [done..|].
    destruct (twin_update g Hnd Release P M look look' dc dc' new dc1' new1) as (dc2 & E2 & A2 & P2); [done..|].
    assert (dc1 = dc2) as ->.
    { apply map_eq. intros b. destruct (decide (stuck g b)) as [Hb|Hb].
      - by rewrite (P1 b Hb), (P2 b Hb).
      - by rewrite (A1 b Hb), (A2 b Hb). }
    exists dc2. split; [by intros []|]. done.
  Qed.

  Lemma twin_data `{LawfulMeasurableSet T} σ (s s' : Scheduler T) M rest :
    sched_inv adj g' σ s' → twin (concat σ) s s' → NoDup M →
    (∀ b, b ∈ M → b ∈ ms_set (measurable (s_time s'))) →
    NoDup rest → (∀ b, b ∈ rest ↔ b ∈ ms_set (measurable (s_time s')) ∧ b ∉ M) →
    ∃ dc' dc nw,
      (∀ bd, update_unchecked bd (dependents (s_time s')) (deps_counter (s_time s')) M rest
             = Val (dc', rest ++ nw)) ∧
      (∀ bd, update_unchecked bd (dependents (s_time s)) (deps_counter (s_time s)) M rest
             = Val (dc, rest ++ nw)) ∧
      (∀ bd, space_focus_inplace bd (s_space s') M = Val (graph_at adj (σ ++ [M]), Ok tt)) ∧
      sched_inv adj g' (σ ++ [M])
        (mkScheduler (mkPathGenerator (ms_init (T := T) (rest ++ nw)) dc' (dependents (s_time s')))
           (graph_at adj (σ ++ [M]))) ∧
      twin (concat (σ ++ [M]))
        (mkScheduler (mkPathGenerator (ms_init (T := T) (rest ++ nw)) dc (dependents (s_time s)))
           (graph_at adj (σ ++ [M])))
        (mkScheduler (mkPathGenerator (ms_init (T := T) (rest ++ nw)) dc' (dependents (s_time s')))
           (graph_at adj (σ ++ [M]))).
  Proof.
    intros Hinv [T1 T2 T3 T4 T5] HM Hsub Hrest Hrest'.
    destruct (sched_step_data adj g' Hin' σ s' M rest Hinv HM Hsub Hrest Hrest') as (dc' & nw & E1 & E2 & Hinv').
    destruct (twin_update_all (concat σ) M _ _ _ _ rest dc' (rest ++ nw) T3 T4 T5 HM) as (dc & E3 & A & P).
    { intros u Hu. apply Hsub, (ti_set _ _ _ _ _ (si_time _ _ _ _ Hinv)) in Hu as (H1 & H2 & _).
      split; [done|]. by apply listed_qubits. }
    { exact E1. }
    exists dc', dc, nw. split; [done|]. split; [done|]. split; [done|]. split; [done|].
    split; simpl; try done. rewrite concat_app. simpl. by rewrite app_nil_r.
  Qed.

  Lemma twin_next σ s s' :
    node adj g' σ s' → twin (concat σ) s s' →
    match items s' with
    | [] | (_, []) :: _ =>
        (∀ bd, scheduler_next_and_focus bd s = Val (advance s, None)) ∧
        (∀ bd, scheduler_next_and_focus bd s' = Val (advance s', None))
    | (a, b) :: _ =>
        ∃ child child',
          (∀ bd, scheduler_next_and_focus bd s = Val (advance s, Some (child, b))) ∧
          (∀ bd, scheduler_next_and_focus bd s' = Val (advance s', Some (child', b))) ∧
          node adj g' (σ ++ [b]) child' ∧ SchedulerFacts.fresh child' ∧
          twin (concat (σ ++ [b])) child child'
    end.
  Proof.
    intros Hn Ht. unfold items at 1. unfold scheduler_next_and_focus, time_next_and_focus, partition_next.
    rewrite (tw_set _ _ _ Ht).
    destruct (piter (measurable (s_time s'))) as [|sub rest] eqn:Eit; simpl.
    - split; intros bd; unfold advance, mset; [rewrite (tw_set _ _ _ Ht)|]; rewrite Eit; simpl.
      + by destruct (measurable (s_time s')); simpl in *; subst.
      + by destruct (measurable (s_time s')); simpl in *; subst.
    - destruct (partition_map 0 sub (pset (measurable (s_time s')))) as [a b] eqn:Ep.
      assert ((a, b) ∈ items s') as Hi.
      { unfold items. rewrite Eit. simpl. rewrite Ep. left. }
      assert (advance s' = mkScheduler
        (mkPathGenerator (mkPartition (pset (measurable (s_time s'))) rest)
           (deps_counter (s_time s')) (dependents (s_time s'))) (s_space s')) as Ea'.
      { unfold advance, mset. by rewrite Eit. }
      assert (advance s = mkScheduler
        (mkPathGenerator (mkPartition (pset (measurable (s_time s'))) rest)
           (deps_counter (s_time s)) (dependents (s_time s))) (s_space s)) as Ea.
      { unfold advance, mset. rewrite (tw_set _ _ _ Ht). by rewrite Eit. }
      destruct b as [|x b]; [split; intros bd; cbn [obind]; by rewrite ?Ea, ?Ea'|].
      set (M := x :: b) in *.
      pose proof (node_item _ _ _ _ _ _ Hn Hi) as Hsh. pose proof (shuffle_perm _ _ _ Hsh) as Hp.
      pose proof (node_nodup _ _ _ _ Hn) as HndM. rewrite Hp in HndM.
      apply NoDup_app in HndM as (Hnd1 & Hdis & Hnd2).
      destruct (twin_data (T := Partition nat) σ s s' M a) as (dc' & dc & nw & E1 & E2 & E3 & Hinv' & Ht').
      + apply Hn.
      + done.
      + done.
      + intros y Hy. change (y ∈ mset s'). rewrite Hp. apply elem_of_app. by right.
      + done.
      + intros y. change (y ∈ a ↔ y ∈ mset s' ∧ y ∉ M). rewrite Hp, elem_of_app.
        specialize (Hdis y). tauto.
      + eexists _, _. split; [|split; [|split; [|split; [|exact Ht']]]].
        * intros bd. unfold time_focus_unchecked. cbn [deps_counter dependents].
          rewrite E2. cbn [obind s_space]. rewrite (tw_space _ _ _ Ht), E3. cbn [obind]. by rewrite Ea, (tw_space _ _ _ Ht).
        * intros bd. unfold time_focus_unchecked. cbn [deps_counter dependents].
          rewrite E1. cbn [obind s_space]. rewrite E3. cbn [obind]. by rewrite Ea'.
        * split; [apply (legal_step adj g' σ s' a M Hn Hi); unfold M; discriminate| |].
          -- exact Hinv'.
          -- exists []. unfold items, mset. simpl. by rewrite powerset_all_splits.
        * unfold SchedulerFacts.fresh, items, mset. simpl. by rewrite powerset_all_splits.
  Qed.

  Lemma advance_twin P s s' : twin P s s' → twin P (advance s) (advance s').
  Proof.
    intros [H1 H2 H3 H4 H5]. split; simpl; try done. unfold mset. by rewrite H2.
  Qed.

  (** ** The time optimal path *)

  Lemma time_optimal_twin bd fuel :
    get_time_optimal bd fuel adj g = get_time_optimal bd fuel adj g'.
  Proof.
    unfold get_time_optimal.
    destruct (twin_start n g Hr Hnd (T := list nat) (dependency_buffer_new n))
      as (t & t' & E & E' & H1 & H2 & H3 & H4).
    { unfold dependency_buffer_new. by rewrite replicate_length. }
    rewrite E, E'.
    destruct (search_scheduler_spec adj g' Hin' (T := list nat)) as (t2 & E2 & _ & Hinv).
    rewrite E' in E2. injection E2 as <-.
    assert (∀ fuel σ s s' mm, sched_inv adj g' σ s' → twin (concat σ) s s' →
      loop (time_optimal_body bd) fuel (s, σ, mm) = loop (time_optimal_body bd) fuel (s', σ, mm)) as Hloop.
    { clear fuel E E' H1 H2 H3 H4 Hinv. intros fuel. induction fuel as [|fuel IH]; intros σ s s' mm Hinv Ht; [done|]. simpl.
      rewrite (tw_set _ _ _ Ht). destruct (measurable (s_time s')) as [|x M] eqn:Em; [done|].
      pose proof (ti_nodup _ _ _ _ _ (si_time _ _ _ _ Hinv)) as Hm. simpl in Hm. rewrite Em in Hm.
      destruct (twin_data (T := list nat) σ s s' (x :: M) (filter (λ e, e ∉ x :: M) (x :: M)))
        as (dc' & dc & nw & E1 & E2 & E3 & Hinv' & Ht'); [done..| | | |].
      { intros b Hb. simpl. by rewrite Em. }
      { by apply NoDup_filter. }
      { intros b. simpl. rewrite Em, elem_of_list_filter. tauto. }
      unfold scheduler_focus_inplace, time_focus_inplace. simpl.
      rewrite (tw_set _ _ _ Ht), Em, (tw_space _ _ _ Ht).
      rewrite time_partition_ok by done. cbn [obind]. rewrite E1, E2. cbn [obind].
      rewrite E3. cbn [obind s_space]. apply IH; [exact Hinv'|exact Ht']. }
    rewrite (Hloop fuel [] (mkScheduler t (graph_new adj)) (mkScheduler t' (graph_new adj)));
      [done|exact Hinv|]. by split.
  Qed.

  (** ** The search *)

  Inductive twins : schedule → list (Scheduler (Partition nat)) → list (Scheduler (Partition nat)) → Prop :=
  | twins_nil p : twins p [] []
  | twins_cons p s s' ss ss' :
      twin (concat p) s s' → twins (pop p) ss ss' → twins p (s :: ss) (s' :: ss').

  Record alike (x x' : SearchState) : Prop := {
    al_twins : twins (ss_path x') (current (ss_scheduler x) :: stack (ss_scheduler x))
                 (current (ss_scheduler x') :: stack (ss_scheduler x'));
    al_path : ss_path x = ss_path x';
    al_best : ss_best x = ss_best x';
    al_results : ss_results x = ss_results x'
  }.

  Lemma minimum_length_twin p M c c' :
    node adj g' (p ++ [M]) c' → twin (concat (p ++ [M])) c c' →
    min_length c' p ≤ min_length c p ≤ n.
  Proof.
    intros Hn Ht. pose proof (min_length_le adj g' Hin' p M c' Hn) as Hle.
    unfold min_length in *. unfold minimum_path_length, time_at_leaf in *. rewrite (tw_set _ _ _ Ht).
    destruct (pset (measurable (s_time c'))) as [|x l] eqn:Em; [split; [lia|exact Hle]|].
    destruct (has_unmeasureable (s_time c)) eqn:Eu.
    - destruct (has_unmeasureable (s_time c')) eqn:Eu'; [split; [lia|exact Hle]|]. split; [lia|].
      assert (∃ b, stuck g b) as [b Hb].
      { unfold has_unmeasureable in Eu. destruct (Nat.eqb_spec (size (deps_counter (s_time c))) 0) as [|Hs]; [done|].
        destruct (map_choose (deps_counter (s_time c))) as (b & k & Hk).
        { intros E0. by rewrite E0, map_size_empty in Hs. }
        exists b. destruct (decide (stuck g b)) as [|Hb]; [done|].
        rewrite (tw_agree _ _ _ Ht b Hb) in Hk. unfold has_unmeasureable in Eu'.
        destruct (Nat.eqb_spec (size (deps_counter (s_time c'))) 0) as [Hs'|]; [|done].
        apply map_size_empty_inv in Hs'. rewrite Hs', lookup_empty in Hk. done. }
      assert (x ∈ mset c') as Hx by (unfold mset; rewrite Em; left).
      apply (node_enabled adj g' _ _ x Hn) in Hx as (Hx1 & Hx2 & _).
      apply listed_qubits in Hx1. destruct Hb as [Hb1 Hb2].
      assert (∀ y, y ∈ concat (p ++ [M]) → y ∈ qubits g') as Hc'.
      { intros y Hy. apply listed_qubits. by apply (lp_listed _ _ (nd_legal _ _ _ _ Hn)). }
      assert (length (concat (p ++ [M]) ++ [b; x]) ≤ n) as Hlen.
      { apply bounded_length.
        - apply NoDup_app. split; [apply Hn|]. split.
          + intros y Hy. rewrite elem_of_cons, elem_of_list_singleton. intros [->| ->]; [|done].
            by apply Hb2, Hc'.
          + apply NoDup_cons. split; [|apply NoDup_singleton]. intros ->%elem_of_list_singleton. done.
        - intros v. rewrite elem_of_app, elem_of_cons, elem_of_list_singleton. intros [Hv|[->| ->]]; apply Hr.
          + by apply repaired_listed, Hc'.
          + done.
          + by apply repaired_listed. }
      rewrite app_length in Hlen. simpl in Hlen.
      pose proof (concat_length_ge (p ++ [M]) (lp_nonempty _ _ (nd_legal _ _ _ _ Hn))) as Hge.
      rewrite app_length in Hge. simpl in Hge. lia.
    - assert (has_unmeasureable (s_time c') = false) as E0; [|rewrite E0 in *; split; [lia|exact Hle]].
      unfold has_unmeasureable in *. apply negb_false_iff, Nat.eqb_eq, map_size_empty_iff in Eu.
      apply negb_false_iff, Nat.eqb_eq, map_size_empty_iff, map_eq. intros b. rewrite lookup_empty.
      destruct (decide (stuck g b)) as [Hb|Hb].
      + rewrite (ti_deps _ _ _ _ _ (si_time _ _ _ _ (nd_inv _ _ _ _ Hn)) b).
        assert (missing g' (concat (p ++ [M])) b = 0) as ->; [|done].
        apply missing_zero. rewrite deps_of_unlisted; [by intros ? ?%elem_of_nil|].
        rewrite listed_qubits. apply Hb.
      + by rewrite <- (tw_agree _ _ _ Ht b Hb), Eu, lookup_empty.
  Qed.

  Lemma items_cases_twin p cur cur' :
    node adj g' p cur' → twin (concat p) cur cur' →
    (no_more cur' ∧ ∀ bd, scheduler_next_and_focus bd cur = Val (advance cur, None)) ∨
    (∃ a b l child child', items cur' = (a, b) :: l ∧ b ≠ [] ∧ node adj g' (p ++ [b]) child' ∧
       SchedulerFacts.fresh child' ∧ twin (concat (p ++ [b])) child child' ∧
       (∀ bd, scheduler_next_and_focus bd cur = Val (advance cur, Some (child, b))) ∧
       ∀ bd, scheduler_next_and_focus bd cur' = Val (advance cur', Some (child', b))).
  Proof.
    intros Hn Ht. pose proof (twin_next p cur cur' Hn Ht) as Hs.
    destruct (items cur') as [|[a [|x b]] l] eqn:E.
    - left. split; [|apply Hs]. intros a b Hi. rewrite E in Hi. by apply elem_of_nil in Hi.
    - left. split; [|apply Hs]. pose proof (items_last adj g' p cur' a l Hn E) as ->.
      intros a' b' Hi. rewrite E in Hi. apply elem_of_list_singleton in Hi. congruence.
    - right. destruct Hs as (child & child' & E1 & E2 & H1 & H2 & H3). by exists a, (x :: b), l, child, child'.
  Qed.

  Lemma at_leaf_twin P s s' : twin P s s' → scheduler_at_leaf s = scheduler_at_leaf s'.
  Proof. intros [H1 H2 _ _ _]. unfold scheduler_at_leaf. by rewrite H1, H2. Qed.

  Lemma pop_snoc' {A} (l : list A) x : pop (l ++ [x]) = l.
  Proof. unfold pop. rewrite app_length. simpl. rewrite Nat.add_sub. apply take_app. Qed.

  Definition outcome (r r' : SearchState + SearchState) : Prop :=
    match r, r' with
    | inl a, inl a' | inr a, inr a' => alike a a'
    | _, _ => False
    end.

  Section step.
    Context (start : list N).
    Context (cur : Scheduler (Partition nat)) (st : list (Scheduler (Partition nat))).
    Context (cur' : Scheduler (Partition nat)) (st' : list (Scheduler (Partition nat))).
    Context (p : schedule) (best : list N) (res : MappedPaths).
    Notation x := (mkSearchState (mkSweep cur st) p best res).
    Notation x' := (mkSearchState (mkSweep cur' st') p best res).
    Context (Hok : ok adj g' [] x') (Hbk : books adj start x') (Hal : alike x x').

    Lemma step_node : node adj g' p cur'.
    Proof. eapply chain_node, (ok_chain _ _ _ _ Hok). Qed.
    Lemma step_twin : twin (concat p) cur cur'.
    Proof. pose proof (al_twins _ _ Hal) as H. by inversion H. Qed.
    Lemma step_twins : twins (pop p) st st'.
    Proof. pose proof (al_twins _ _ Hal) as H. by inversion H. Qed.

    (** Leaving the current node. *)
    Lemma step_back :
      no_more cur' →
      ∃ r r', match st with
        | t :: ts =>
            let* '(p', best', res') := backward (scheduler_at_leaf (advance cur)) p best res in
            Val (inl (mkSearchState (mkSweep t ts) p' best' res'))
        | [] => Val (inr (mkSearchState (mkSweep (advance cur) []) p best res))
        end = Val r ∧ iter_rel adj g' true x' r' ∧ outcome r r'.
    Proof.
      intros Hno. pose proof step_node as Hn. pose proof step_twin as Ht. pose proof step_twins as Hts. destruct st as [|t ts].
      - inversion Hts; subst. eexists _, _. split; [done|]. split; [by apply it_done|].
        split; simpl; try done; constructor; [by apply advance_twin|constructor].
      - inversion Hts as [|? ? t' ? ts' Ht1 Ht2]; subst.
        rewrite (at_leaf_twin (concat p) (advance cur) (advance cur')) by (by apply advance_twin).
        destruct (mset cur') as [|y m] eqn:Em.
        + rewrite (leaf_some adj g' p (advance cur')); [|by apply advance_node|done].
          rewrite (backward_leaf adj); [|apply Hok|apply (legal_length adj g' Hin'), Hn].
          eexists _, _. split; [done|]. split; [by apply it_leaf|]. split; simpl; try done; by constructor.
        + rewrite (leaf_none (advance cur')) by (change (mset (advance cur')) with (mset cur'); by rewrite Em).
          eexists _, _. split; [done|]. split; [apply it_back; [done|by rewrite Em]|].
          split; simpl; try done; by constructor.
    Qed.

    Section child.
      Context (a b : list nat) (l : list (list nat * list nat)) (child child' : Scheduler (Partition nat)).
      Context (Hi : items cur' = (a, b) :: l) (Hb : b ≠ []) (Hc : node adj g' (p ++ [b]) child').
      Context (Hf : SchedulerFacts.fresh child') (Htc : twin (concat (p ++ [b])) child child').
      Context (Hnx : ∀ bd, scheduler_next_and_focus bd cur' = Val (advance cur', Some (child', b))).

      Lemma child_bound :
        ∃ m m', best !! min_length child p = Some m ∧ best !! min_length child' p = Some m' ∧ (m <= m')%N.
      Proof.
        destruct (minimum_length_twin p b child child' Hc Htc) as [H1 H2].
        pose proof (ok_best _ _ _ _ Hok) as Hlen. simpl in Hlen.
        destruct (lookup_lt_is_Some_2 best (min_length child p)) as [m Hm]; [lia|].
        destruct (lookup_lt_is_Some_2 best (min_length child' p)) as [m' Hm']; [lia|].
        exists m, m'. split; [done|]. split; [done|]. by apply (bk_anti _ _ _ Hbk _ _ _ _ H1).
      Qed.

      Lemma child_cost : max_memory (s_space child) = cost adj (p ++ [b]).
      Proof. rewrite (tw_space _ _ _ Htc). by rewrite (node_space _ _ _ _ Hc). Qed.

      Lemma child_skip :
        ∃ r', iter_rel adj g' true x' (inl r') ∧ alike (mkSearchState (mkSweep (advance cur) st) p best res) r'.
      Proof.
        pose proof step_node as Hn. pose proof step_twin as Ht. pose proof step_twins as Hts.
        destruct child_bound as (m & m' & Hm & Hm' & Hle). eexists. split.
        - destruct (N.le_gt_cases m' (cost adj (p ++ [b]))).
          + by eapply it_prune.
          + by eapply it_skip.
        - split; simpl; try done; constructor; [by apply advance_twin|done].
      Qed.

      Lemma child_push m :
        best !! min_length child p = Some m → (cost adj (p ++ [b]) < m)%N →
        ∃ r', iter_rel adj g' true x' (inl r') ∧
          alike (mkSearchState (mkSweep child (advance cur :: st)) (p ++ [b]) best res) r'.
      Proof.
        pose proof step_node as Hn. pose proof step_twin as Ht. pose proof step_twins as Hts.
        intros Hm Hlt. destruct child_bound as (m1 & m' & Hm1 & Hm' & Hle).
        rewrite Hm in Hm1. injection Hm1 as <-. eexists. split.
        - eapply it_push; try done. lia.
        - split; simpl; try done; constructor; [done|]. rewrite pop_snoc'.
          constructor; [by apply advance_twin|done].
      Qed.
    End child.

    Lemma search_step :
      ∃ r r', (∀ bd, search_iteration bd x = Val r) ∧ iter_rel adj g' true x' r' ∧ outcome r r'.
    Proof.
      pose proof step_node as Hn. pose proof step_twin as Ht. pose proof step_twins as Hts.
      unfold search_iteration, sweep_next. simpl.
      destruct (items_cases_twin p cur cur' Hn Ht) as [[Hno E]|(a & b & l & child & child' & Hi & Hb & Hc & Hf & Htc & E & E')].
      - destruct (step_back Hno) as (r & r' & Er & Hr' & Ho). exists r, r'. split; [|done].
        intros bd. rewrite E. cbn [obind]. rewrite <- Er. by destruct st.
      - destruct (child_bound b child child' Hc Htc) as (m & m' & Hm & Hm' & Hle).
        destruct (N.leb_spec m (cost adj (p ++ [b]))) as [Hl|Hl].
        + destruct (child_skip a b l child child' Hi Hb Hc Htc E') as (r' & Hr' & Ha).
          eexists (inl _), (inl r'). split; [|split; [exact Hr'|exact Ha]].
          intros bd. rewrite E. cbn [obind]. unfold forward, index. cbn [current].
          unfold min_length in Hm. rewrite Hm. cbn [obind]. rewrite (child_cost b child child' Hc Htc).
          apply N.leb_le in Hl. by rewrite Hl.
        + destruct (child_push a b l child child' Hi Hb Hc Hf Htc E' m Hm Hl) as (r' & Hr' & Ha).
          eexists (inl _), (inl r'). split; [|split; [exact Hr'|exact Ha]].
          intros bd. rewrite E. cbn [obind]. unfold forward, index. cbn [current].
          unfold min_length in Hm. rewrite Hm. cbn [obind]. rewrite (child_cost b child child' Hc Htc).
          apply N.leb_gt in Hl. by rewrite Hl.
    Qed.

    Lemma probabilistic_step acc smp drawn :
      never_panics acc → ∃ d r r', (∀ bd, probabilistic_iteration bd acc smp (drawn, x) = Val (with_drawn d r)) ∧
        iter_rel adj g' true x' r' ∧ outcome r r'.
    Proof.
      intros Hcalm.
      pose proof step_node as Hn. pose proof step_twin as Ht. pose proof step_twins as Hts.
      unfold probabilistic_iteration, sweep_next. cbn [ss_scheduler current stack].
      destruct (items_cases_twin p cur cur' Hn Ht) as [[Hno E]|(a & b & l & child & child' & Hi & Hb & Hc & Hf & Htc & E & E')].
      - destruct (step_back Hno) as (r & r' & Er & Hr' & Ho). exists drawn, r, r'. split; [|done].
        intros bd. cbn [next_and_focus scheduler_focus_iterator]. rewrite E. cbn [obind]. destruct st as [|t ts].
        + injection Er as <-. simpl. done.
        + cbn [at_leaf scheduler_focus_iterator ss_path ss_best ss_results].
          destruct (backward (scheduler_at_leaf (advance cur)) p best res) as [[[p1 b1] r1]|] eqn:Eb; [|done].
          cbn [obind] in Er. injection Er as <-. cbn [obind]. rewrite Eb. done.
      - destruct (child_bound b child child' Hc Htc) as (m & m' & Hm & Hm' & Hle).
        pose proof (ok_best _ _ _ _ Hok) as Hlen. simpl in Hlen.
        destruct (lookup_lt_is_Some_2 best n) as [lb Hlb]; [lia|].
        assert (last best = Some lb) as Hlast.
        { rewrite last_lookup, Hlen. by replace (pred (n + 1)) with n by lia. }
        assert (∀ lcm lmm, ∃ d, probabilistic_forward b (mkSweep child (advance cur :: st)) best p lcm lmm smp drawn acc
            = Val (mkSweep (advance cur) st, p, d, false) ∨
          (probabilistic_forward b (mkSweep child (advance cur :: st)) best p lcm lmm smp drawn acc
            = Val (mkSweep child (advance cur :: st), p ++ [b], d, false) ∧ (cost adj (p ++ [b]) < m)%N)) as Hfw.
        { intros lcm lmm. unfold probabilistic_forward, index. cbn [current]. unfold min_length in Hm. rewrite Hm.
          cbn [obind]. rewrite (child_cost b child child' Hc Htc). destruct (N.leb_spec m (cost adj (p ++ [b]))) as [Hl|Hl].
          - exists drawn. by left.
          - rewrite Hlast. cbn [obind].
            destruct (acc _ _ _ _ _ _ _ _) as [acc'|] eqn:Ea; [|by apply Hcalm in Ea]. cbn [obind].
            destruct (SFleb f64_one acc'); [eexists; by right|].
            destruct (SFltb (smp drawn.1) acc'); eexists; [by right|by left]. }
        destruct (Hfw (current_memory (s_space cur)) (max_memory (s_space cur))) as [d [Hs|[Hs Hl]]].
        + destruct (child_skip a b l child child' Hi Hb Hc Htc E') as (r' & Hr' & Ha).
          eexists d, (inl _), (inl r'). split; [|split; [exact Hr'|exact Ha]].
          intros bd. cbn [next_and_focus scheduler_focus_iterator]. rewrite E. cbn [obind ss_best ss_path ss_results stack].
          rewrite Hs. cbn [obind]. done.
        + destruct (child_push a b l child child' Hi Hb Hc Hf Htc E' m Hm Hl) as (r' & Hr' & Ha).
          eexists d, (inl _), (inl r'). split; [|split; [exact Hr'|exact Ha]].
          intros bd. cbn [next_and_focus scheduler_focus_iterator]. rewrite E. cbn [obind ss_best ss_path ss_results stack].
          rewrite Hs. cbn [obind]. done.
    Qed.
  End step.

  (** A state that some search of the repaired graph with an accept function has, too. *)
  Definition similar (x : SearchState) : Prop :=
    ∃ x', ok adj g' [] x' ∧ books adj (replicate (n + 1) usize_max) x' ∧ sound adj g' (ss_results x') ∧ alike x x'.

  Lemma similar_next (r r' : SearchState + SearchState) (x' : SearchState) :
    ok adj g' [] x' → books adj (replicate (n + 1) usize_max) x' → sound adj g' (ss_results x') →
    iter_rel adj g' true x' r' → outcome r r' → similar (match r with inl s | inr s => s end).
  Proof.
    intros H1 H2 H3 Hi Ho.
    pose proof (iter_rel_ok _ _ _ _ _ _ H1 Hi) as H1'.
    pose proof (iter_rel_books adj g' Hin' [] _ _ _ _ H1 H2 Hi) as H2'.
    pose proof (iter_rel_sound adj g' Hin' [] _ _ _ H1 H3 Hi) as H3'.
    destruct r as [a|a], r' as [a'|a']; try done; by exists a'.
  Qed.

  Lemma search_iteration_similar x :
    similar x → ∃ r, (∀ bd, search_iteration bd x = Val r) ∧ similar (match r with inl s | inr s => s end).
  Proof.
    intros (x' & H1 & H2 & H3 & Ha).
    destruct x as [[cur st] p best res], x' as [[cur' st'] p' best' res'].
    pose proof (al_path _ _ Ha) as E1. pose proof (al_best _ _ Ha) as E2. pose proof (al_results _ _ Ha) as E3.
    simpl in E1, E2, E3. subst p' best' res'.
    destruct (search_step _ _ _ _ _ _ _ _ H1 H2 Ha) as (r & r' & E & Hi & Ho).
    exists r. split; [done|]. by eapply similar_next.
  Qed.

  Lemma probabilistic_iteration_similar acc smp drawn x :
    never_panics acc → similar x → ∃ d r, (∀ bd, probabilistic_iteration bd acc smp (drawn, x) = Val (with_drawn d r)) ∧
      similar (match r with inl s | inr s => s end).
  Proof.
    intros Hcalm (x' & H1 & H2 & H3 & Ha).
    destruct x as [[cur st] p best res], x' as [[cur' st'] p' best' res'].
    pose proof (al_path _ _ Ha) as E1. pose proof (al_best _ _ Ha) as E2. pose proof (al_results _ _ Ha) as E3.
    simpl in E1, E2, E3. subst p' best' res'.
    destruct (probabilistic_step _ _ _ _ _ _ _ _ H1 H2 Ha acc smp drawn Hcalm) as (d & r & r' & E & Hi & Ho).
    exists d, r. split; [done|]. by eapply similar_next.
  Qed.

  Lemma search_start_similar :
    ∃ root, search_scheduler adj g = Val root ∧ similar (search_init (sweep_new root) n).
  Proof.
    destruct (twin_start n g Hr Hnd (T := Partition nat) (dependency_buffer_new n))
      as (t & t' & E & E' & H1 & H2 & H3 & H4).
    { unfold dependency_buffer_new. by rewrite replicate_length. }
    destruct (search_root adj g' Hin') as (root' & Er & Hn & Hf).
    unfold search_scheduler in *. rewrite E. rewrite E' in Er. cbn [obind] in *. injection Er as <-.
    eexists. split; [done|]. exists (search_init (sweep_new (mkScheduler t' (graph_new adj))) n).
    split; [|split; [|split]]; [| | |split].
    - split; [by apply chain_base|]. apply replicate_length.
    - apply books_start, antitone_replicate; done.
    - apply sound_empty.
    - simpl. constructor; [|constructor]. split; simpl; [reflexivity|exact H1|exact H2|exact H3|exact H4].
    - done.
    - done.
    - done.
  Qed.
End simulation.
