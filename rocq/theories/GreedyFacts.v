(** * Time optimal schedules *)
From Verif Require Export RunFacts.

(** Every step measures everything that is enabled. *)
Definition greedy (g : order) (p : schedule) : Prop :=
  ∀ k M, p !! k = Some M → ∀ b, b ∈ M ↔ enabled g (concat (take k p)) b.

Lemma greedy_nil g : greedy g [].
Proof. intros k M H. by rewrite lookup_nil in H. Qed.

Lemma greedy_snoc g p M :
  greedy g p → (∀ b, b ∈ M ↔ enabled g (concat p) b) → greedy g (p ++ [M]).
Proof.
  intros Hp HM k B Hk. destruct (decide (k < length p)) as [Hlt|Hge].
  - rewrite lookup_app_l in Hk by done. rewrite take_app_le by lia. by apply Hp.
  - rewrite lookup_app_r in Hk by lia. destruct (k - length p) eqn:E; [|done].
    injection Hk as <-. rewrite take_app_alt by lia. done.
Qed.

Lemma elem_of_take_S {A} (l : list (list A)) k x :
  x ∈ concat (take (S k) l) ↔ x ∈ concat (take k l) ∨ ∃ M, l !! k = Some M ∧ x ∈ M.
Proof.
  destruct (l !! k) as [M|] eqn:E.
  - rewrite (take_S_r _ _ _ E), concat_app, elem_of_app. simpl. rewrite app_nil_r. naive_solver.
  - assert (length l ≤ k) by (by apply lookup_ge_None). rewrite !take_ge by lia. naive_solver.
Qed.

(** The greedy schedule is ahead of every other one. *)
Lemma greedy_ahead g p σ :
  greedy g p → legal_prefix g σ →
  ∀ k, k ≤ length p → ∀ b, b ∈ concat (take k σ) → b ∈ concat (take k p).
Proof.
  intros Hp Hσ k. induction k as [|k IH]; intros Hk b; [by rewrite !take_0|].
  rewrite !elem_of_take_S. intros [Hb|(M & HM & Hb)].
  - left. apply IH; [lia|done].
  - destruct (lookup_lt_is_Some_2 p k) as [B HB]; [lia|].
    destruct (decide (b ∈ concat (take k p))) as [?|Hnot]; [by left|right].
    exists B. split; [done|]. apply (Hp k B HB). split; [|split; [done|]].
    + apply (lp_listed _ _ Hσ). apply elem_of_concat. exists M.
      split; [by eapply elem_of_list_lookup_2|done].
    + intros d Hd. apply IH; [lia|]. by eapply (lp_order _ _ Hσ).
Qed.

Lemma greedy_optimal g p σ :
  greedy g p → legal_prefix g p → valid_schedule g σ → length p ≤ length σ.
Proof.
  intros Hg Hl [Hσ Hc]. destruct (decide (length p ≤ length σ)) as [|Hlt]; [done|]. exfalso.
  destruct (lookup_lt_is_Some_2 p (length σ)) as [M HM]; [lia|].
  destruct M as [|b M]; [by eapply (lp_nonempty _ _ Hl); [eapply elem_of_list_lookup_2|]|].
  assert (enabled g (concat (take (length σ) p)) b) as (H1 & H2 & _) by (apply (Hg _ _ HM); left).
  apply H2, (greedy_ahead g p σ); [done|done|lia|]. rewrite take_ge by lia. by apply Hc.
Qed.

(** ** Dependency chains *)

Lemma chained_snoc g l b d : chained g (l ++ [d]) → depends g b d → chained g (l ++ [d; b]).
Proof.
  induction l as [|x l IH]; simpl; intros Hc Hd; [done|].
  destruct l as [|y l]; simpl in *; [tauto|]. destruct Hc as [H1 H2]. split; [done|]. by apply IH.
Qed.

(** In a valid schedule the members of a chain are measured in different steps. *)
Lemma chained_length g σ l :
  valid_schedule g σ → chained g l → (∀ b, b ∈ l → listed g b) → length l ≤ length σ.
Proof.
  intros [Hσ Hc].
  assert (∀ l k, chained g l → (∀ b, b ∈ l → listed g b) →
    (∀ b, head l = Some b → b ∉ concat (take k σ)) → l ≠ [] → k + length l ≤ length σ) as Hgen.
  { clear l. induction l as [|b l IH]; intros k Hch Hl Hh Hne; [done|].
    assert (b ∈ concat σ) as Hb by (apply Hc, Hl; left).
    apply elem_of_concat in Hb as (M & HM & HbM). apply elem_of_list_lookup in HM as [i Hi].
    assert (k ≤ i) as Hki.
    { destruct (decide (k ≤ i)) as [|Hlt]; [done|]. exfalso. apply (Hh b); [done|].
      apply elem_of_concat. exists M. split; [|done].
      apply (elem_of_list_lookup_2 _ i). rewrite lookup_take by lia. done. }
    pose proof (lookup_lt_Some _ _ _ Hi).
    destruct l as [|c l]; [simpl; lia|]. simpl in Hch. destruct Hch as [Hd Hch].
    assert (S k + length (c :: l) ≤ length σ); [|simpl in *; lia].
    apply IH; [done| |clear Hne|done].
    - intros x Hx. apply Hl. by right.
    - intros c' [= <-] Hin'. rewrite elem_of_concat in Hin'. destruct Hin' as (B & HB & HcB).
      apply elem_of_list_lookup in HB as [j Hj].
      assert (j < S k) as Hjk.
      { apply lookup_lt_Some in Hj. rewrite take_length in Hj. lia. }
      rewrite lookup_take in Hj by done.
      pose proof (lp_order _ _ Hσ j B c b Hj HcB Hd) as Hbin.
      apply elem_of_concat in Hbin as (B' & HB' & HbB'). apply (Hh b); [done|].
      apply elem_of_concat. exists B'. split; [|done].
      apply elem_of_list_lookup in HB' as [j' Hj'].
      pose proof (lookup_lt_Some _ _ _ Hj') as Hlt. rewrite take_length in Hlt.
      rewrite lookup_take in Hj' by lia. apply (elem_of_list_lookup_2 _ j').
      rewrite lookup_take by lia. done. }
  intros Hch Hl. destruct l as [|b l]; [simpl; lia|].
  apply (Hgen (b :: l) 0); [done|done| |done]. intros b' _. rewrite take_0. simpl.
  by intros ?%elem_of_nil.
Qed.

(** The greedy schedule has a chain through all its steps. *)
Lemma greedy_chain n g p :
  wf_order n g → greedy g p → ∀ k M b, p !! k = Some M → b ∈ M →
  ∃ l, length l = k ∧ chained g (l ++ [b]) ∧ ∀ c, c ∈ l → listed g c.
Proof.
  intros Hwf Hp k. induction k as [|k IH]; intros M b HM Hb.
  - exists []. split; [done|]. split; [done|]. by intros ? ?%elem_of_nil.
  - destruct (lookup_lt_is_Some_2 p k) as [B HB].
    { apply lookup_lt_Some in HM. lia. }
    apply (Hp _ _ HM) in Hb as (Hl & Hnot & Hd).
    assert (¬ Forall (λ d, d ∈ concat (take k p)) (deps_of g b)) as Hno.
    { intros Hall. rewrite Forall_forall in Hall. apply Hnot, elem_of_take_S. right.
      exists B. split; [done|]. apply (Hp _ _ HB). split; [done|]. split.
      - intros Hb'. apply Hnot, elem_of_take_S. by left.
      - intros d Hd'. by apply Hall, (depends_deps_of n g Hwf). }
    apply not_Forall_Exists in Hno; [|apply _]. apply Exists_exists in Hno as (d & Hd1 & Hd2).
    apply (depends_deps_of n g Hwf) in Hd1. pose proof (Hd d Hd1) as Hd3.
    apply elem_of_take_S in Hd3 as [?|(B' & HB' & Hd3)]; [done|].
    destruct (IH B' d HB' Hd3) as (l & Hlen & Hch & Hls).
    exists (l ++ [d]). split; [rewrite app_length; simpl; lia|]. split.
    + rewrite <- app_assoc. simpl. by apply chained_snoc.
    + intros c. rewrite elem_of_app, elem_of_list_singleton. intros [?| ->]; [by apply Hls|].
      apply (Hp _ _ HB') in Hd3. apply Hd3.
Qed.

(** ** [get_time_optimal] *)

Section greedy.
  Context (adj : spacial) (g : order) (Hin : wf_input adj g).
  Notation n := (length adj).
  Notation cost := (cost adj).

  Lemma time_optimal_spec bd fuel o :
    get_time_optimal bd fuel adj g = Some o →
    ∃ p, o = Val [MkPath (length p) (cost p) p] ∧ valid_schedule g p ∧ greedy g p.
  Proof.
    unfold get_time_optimal.
    destruct (search_scheduler_spec adj g Hin (T := list nat)) as (t & -> & _ & Hinv).
    match goal with |- context [loop ?b ?f ?s] => destruct (loop b f s) as [o'|] eqn:E end; [|done].
    set (Q := λ o : out (Steps * N), ∃ p, o = Val (p, cost p) ∧ valid_schedule g p ∧ greedy g p).
    assert (Q o') as (p & -> & Hv & Hp).
    { eapply (loop_inv _ (λ s : Scheduler (list nat) * Steps * N,
        sched_inv adj g s.1.2 s.1.1 ∧ legal_prefix g s.1.2 ∧ greedy g s.1.2 ∧ s.2 = cost s.1.2) Q);
        [| |exact E].
      - clear E. intros [[sch p] mm]. simpl. intros (Hi & Hl & Hgr & ->).
        pose proof (ti_set _ _ _ _ _ (si_time _ _ _ _ Hi)) as Hset. simpl in Hset.
        pose proof (ti_nodup _ _ _ _ _ (si_time _ _ _ _ Hi)) as Hnd. simpl in Hnd.
        unfold time_optimal_body. destruct (measurable (s_time sch)) as [|x M] eqn:Em.
        + exists p. split; [done|]. split; [|done]. split; [done|].
          apply (stuck_complete n g (concat p) (proj2 Hin)). intros b Hb. apply Hset in Hb.
          by apply elem_of_nil in Hb.
        + destruct (scheduler_focus_inplace_ok adj g Hin p sch (x :: M) Hi Hnd) as (s' & E1 & _ & Hi').
          { intros b Hb. simpl. by rewrite Em. }
          rewrite E1. cbn [obind]. split; [exact Hi'|]. split.
          { apply legal_snoc. split; [done|]. split; [done|]. split; [done|]. intros b. apply Hset. }
          split; [apply greedy_snoc; [done|apply Hset]|].
          rewrite (si_space _ _ _ _ Hi'). simpl. unfold SearchFacts.cost.
          rewrite (space_cost_snoc adj (proj2 (proj1 Hin))). lia.
      - simpl. split; [exact Hinv|]. split; [apply legal_nil|]. split; [apply greedy_nil|].
        unfold SearchFacts.cost, space_cost. done. }
    intros [= <-]. exists p. done.
  Qed.
End greedy.

(** ** Canonical layers *)

Lemma qubits_layers g : qubits g = concat (layers g).
Proof.
  unfold qubits, layers. induction g as [|l g IH]; [done|]. simpl. by rewrite map_app, IH.
Qed.

Lemma filter_prefix_take (L : schedule) m :
  (∀ k M, L !! k = Some M → M ≠ [] ↔ k < m) → filter (λ M : step, M ≠ []) L = take m L.
Proof.
  revert m. induction L as [|M L IH]; intros m Hm; [by rewrite take_nil|].
  destruct m as [|m]; simpl.
  - assert (¬ (M ≠ [])) as HM by (rewrite (Hm 0 M eq_refl); lia).
    rewrite (filter_cons_False (λ M : step, M ≠ [])) by done.
    rewrite (IH 0); [done|]. intros k B Hk. rewrite (Hm (S k) B Hk). lia.
  - assert (M ≠ []) as HM by (rewrite (Hm 0 M eq_refl); lia).
    rewrite (filter_cons_True (λ M : step, M ≠ [])) by done. f_equal. apply IH.
    intros k B Hk. rewrite (Hm (S k) B Hk). lia.
Qed.

Lemma layer_lookup g k M : layers g !! k = Some M ↔ ∃ layer, g !! k = Some layer ∧ M = map fst layer.
Proof.
  unfold layers. rewrite list_lookup_fmap. destruct (g !! k) as [l|]; simpl.
  - split; [intros [= <-]; by exists l|]. by intros (l' & [= <-] & ->).
  - split; [done|]. by intros (l' & ? & _).
Qed.

Lemma listed_layer g b : listed g b ↔ ∃ k M, layers g !! k = Some M ∧ b ∈ M.
Proof.
  split.
  - intros (layer & ds & Hl & Hb). apply elem_of_list_lookup in Hl as [k Hk].
    exists k, (map fst layer). split; [apply layer_lookup; eauto|].
    apply elem_of_list_fmap. by exists (b, ds).
  - intros (k & M & (layer & Hk & ->)%layer_lookup & Hb).
    apply elem_of_list_fmap in Hb as ([b' ds] & -> & Hb).
    exists layer, ds. split; [by eapply elem_of_list_lookup_2|done].
Qed.

Lemma layer_unique g i j M B b :
  NoDup (qubits g) → layers g !! i = Some M → layers g !! j = Some B → b ∈ M → b ∈ B → i = j.
Proof.
  rewrite qubits_layers. revert i j. generalize (layers g). clear g.
  induction l as [|C l IH]; intros i j Hnd Hi Hj HM HB; [done|].
  simpl in Hnd. apply NoDup_app in Hnd as (_ & Hdis & Hnd).
  destruct i as [|i], j as [|j]; simpl in *; [done| | |].
  - injection Hi as ->. exfalso. eapply Hdis; [done|]. apply elem_of_concat.
    exists B. split; [by eapply elem_of_list_lookup_2|done].
  - injection Hj as ->. exfalso. eapply Hdis; [done|]. apply elem_of_concat.
    exists M. split; [by eapply elem_of_list_lookup_2|done].
  - f_equal. by eapply IH.
Qed.

Lemma layers_take g k : layers (take k g) = take k (layers g).
Proof. unfold layers. by rewrite <- fmap_take. Qed.

Lemma canonical_enabled n g k b :
  wf_order n g → canonical g →
  enabled g (concat (take k (layers g))) b ↔ ∃ M, layers g !! k = Some M ∧ b ∈ M.
Proof.
  intros Hwf Hcan. pose proof (wf_nodup _ _ Hwf) as Hnd. split.
  - intros (Hl & Hnot & Hd). apply listed_layer in Hl as (j & M & Hj & Hb).
    destruct (decide (j < k)) as [Hlt|Hge].
    { exfalso. apply Hnot, elem_of_concat. exists M. split; [|done].
      apply (elem_of_list_lookup_2 _ j). by rewrite lookup_take. }
    destruct (decide (j = k)) as [->|Hne]; [by exists M|]. exfalso.
    destruct j as [|j]; [lia|].
    apply layer_lookup in Hj as (layer' & Hj & ->).
    apply elem_of_list_fmap in Hb as ([b' ds] & -> & Hb).
    destruct (lookup_lt_is_Some_2 g j) as [layer Hlayer].
    { apply lookup_lt_Some in Hj. lia. }
    destruct (Hcan _ _ _ _ _ Hlayer Hj Hb) as (d & Hd1 & Hd2).
    assert (d ∈ concat (take k (layers g))) as Hdin.
    { apply Hd. exists layer', ds. split; [by eapply elem_of_list_lookup_2|done]. }
    apply elem_of_concat in Hdin as (B & HB & HdB). apply elem_of_list_lookup in HB as [i Hi].
    pose proof (lookup_lt_Some _ _ _ Hi) as Hik. rewrite take_length in Hik.
    rewrite lookup_take in Hi by lia.
    assert (layers g !! j = Some (map fst layer)) as Hj' by (apply layer_lookup; eauto).
    pose proof (layer_unique _ _ _ _ _ _ Hnd Hi Hj' HdB Hd2). lia.
  - intros (M & Hk & Hb). split; [apply listed_layer; eauto|]. split.
    + intros Hin. apply elem_of_concat in Hin as (B & HB & HbB).
      apply elem_of_list_lookup in HB as [i Hi].
      pose proof (lookup_lt_Some _ _ _ Hi) as Hik. rewrite take_length in Hik.
      rewrite lookup_take in Hi by lia.
      pose proof (layer_unique _ _ _ _ _ _ Hnd Hi Hk HbB Hb). lia.
    + intros d (layer & ds & Hl & Hbd & Hd).
      apply elem_of_list_lookup in Hl as [j Hj].
      assert (j = k) as ->.
      { eapply (layer_unique g j k (map fst layer) M b); [done| |done| |done].
        - apply layer_lookup. eauto.
        - apply elem_of_list_fmap. by exists (b, ds). }
      destruct k as [|k].
      * assert (ds = []) as ->; [|by apply elem_of_nil in Hd].
        eapply (wf_first _ _ Hwf). destruct g as [|l g]; [done|]. simpl in *. by injection Hj as ->.
      * destruct (wf_later _ _ Hwf k layer b ds Hj Hbd) as (_ & _ & H).
        specialize (H d Hd). by rewrite qubits_layers, layers_take in H.
Qed.

Lemma greedy_layers n g p :
  wf_order n g → canonical g → greedy g p → valid_schedule g p →
  same_schedule p (filter (λ M : step, M ≠ []) (layers g)).
Proof.
  intros Hwf Hcan Hp [Hl Hc].
  assert (∀ k, k ≤ length p → ∀ b, b ∈ concat (take k p) ↔ b ∈ concat (take k (layers g))) as Hpre.
  { intros k. induction k as [|k IH]; intros Hk b; [by rewrite !take_0|].
    rewrite !elem_of_take_S, IH by lia.
    destruct (lookup_lt_is_Some_2 p k) as [M HM]; [lia|].
    assert (b ∈ M ↔ ∃ B, layers g !! k = Some B ∧ b ∈ B) as HMB.
    { rewrite (Hp k M HM b), <- (canonical_enabled n g k b Hwf Hcan).
      assert (∀ c, c ∈ concat (take k p) ↔ c ∈ concat (take k (layers g))) as Heq by (apply IH; lia).
      unfold enabled. rewrite Heq. split; intros (H1 & H2 & H3); (split; [done|split; [done|]]);
        intros d Hd; apply Heq; by apply H3. }
    rewrite <- HMB. split; intros [?|H]; [by left| |by left|].
    - destruct H as (M' & HM' & Hb). right. congruence.
    - right. by exists M. }
  assert (∀ k M, p !! k = Some M → ∃ B, layers g !! k = Some B ∧ M ≡ₚ B) as Hstep.
  { intros k M HM. pose proof (lookup_lt_Some _ _ _ HM) as Hk.
    assert (∀ b, b ∈ M ↔ ∃ B, layers g !! k = Some B ∧ b ∈ B) as HMB.
    { intros b. rewrite (Hp k M HM b), <- (canonical_enabled n g k b Hwf Hcan).
      assert (∀ c, c ∈ concat (take k p) ↔ c ∈ concat (take k (layers g))) as Heq by (apply Hpre; lia).
      unfold enabled. rewrite Heq. split; intros (H1 & H2 & H3); (split; [done|split; [done|]]);
        intros d Hd; apply Heq; by apply H3. }
    assert (M ≠ []) as Hne by (eapply lp_nonempty, elem_of_list_lookup_2; done).
    destruct (layers g !! k) as [B|] eqn:EB.
    - exists B. split; [done|]. apply NoDup_Permutation.
      + pose proof (lp_once _ _ Hl) as Hnd. apply elem_of_list_split_length in HM as (l1 & l2 & -> & _).
        rewrite concat_app in Hnd. simpl in Hnd. apply NoDup_app in Hnd as (_ & _ & Hnd).
        by apply NoDup_app in Hnd as (? & _).
      + pose proof (wf_nodup _ _ Hwf) as Hnd. rewrite qubits_layers in Hnd.
        apply elem_of_list_split_length in EB as (l1 & l2 & EB & _).
        rewrite EB, concat_app in Hnd. simpl in Hnd. apply NoDup_app in Hnd as (_ & _ & Hnd).
        by apply NoDup_app in Hnd as (? & _).
      + intros b. rewrite HMB. naive_solver.
    - destruct M as [|b M]; [done|]. destruct (proj1 (HMB b)) as (B & ? & _); [left|done]. }
  rewrite (filter_prefix_take _ (length p)).
  - apply Forall2_same_length_lookup. split.
    + rewrite take_length. destruct (decide (p = [])) as [->|Hne]; [done|].
      destruct (lookup_lt_is_Some_2 p (length p - 1)) as [M HM].
      { destruct p; [done|]. simpl. lia. }
      apply Hstep in HM as (B & HB & _). apply lookup_lt_Some in HB. lia.
    + intros k M B HM HB. pose proof (lookup_lt_Some _ _ _ HM). rewrite lookup_take in HB by lia.
      apply Hstep in HM as (B' & HB' & ?). congruence.
  - intros k B HB. split.
    + intros Hne. destruct B as [|b B]; [done|].
      assert (b ∈ concat (take (length p) (layers g))) as Hb.
      { apply (Hpre (length p)); [lia|]. rewrite take_ge by lia. apply Hc, listed_layer.
        exists k, (b :: B). split; [done|left]. }
      apply elem_of_concat in Hb as (C & HC & HbC). apply elem_of_list_lookup in HC as [i Hi].
      pose proof (lookup_lt_Some _ _ _ Hi) as Hik. rewrite take_length in Hik.
      rewrite lookup_take in Hi by lia.
      assert (i = k); [|lia]. eapply layer_unique; [apply Hwf|done|done|done|left].
    + intros Hk. destruct (lookup_lt_is_Some_2 p k Hk) as [M HM].
      pose proof (lp_nonempty _ _ Hl M (elem_of_list_lookup_2 _ _ _ HM)) as Hne.
      apply Hstep in HM as (B' & HB' & HMB). assert (B' = B) as -> by congruence.
      intros ->. apply Permutation_nil_r in HMB. done.
Qed.

(** ** The deterministic search finds a time optimal path first *)

Section first.
  Context (adj : spacial) (g : order) (Hin : wf_input adj g).
  Notation n := (length adj).
  Notation cost := (cost adj).
  Notation iter_rel := (iter_rel adj g).
  Notation ok := (ok adj g []).

  (** The first descent: nothing found yet, nothing pruned yet. *)
  Record descent (k : nat) (s : SearchState) : Prop := {
    ds_results : ss_results s = ∅;
    ds_best : ss_best s = replicate (n + 1) usize_max;
    ds_fresh : SchedulerFacts.fresh (current (ss_scheduler s));
    ds_greedy : greedy g (ss_path s);
    ds_length : length (ss_path s) = k;
    ds_stack : stack (ss_scheduler s) = [] → k = 0
  }.

  (** A path with the least number of steps has been found. *)
  Definition found (res : MappedPaths) : Prop :=
    ∃ p m, valid_schedule g p ∧ greedy g p ∧ res !! length p = Some (m, p).

  Definition has_key (res : MappedPaths) : Prop :=
    ∃ p e, valid_schedule g p ∧ greedy g p ∧ res !! length p = Some e.

  Lemma iter_rel_has_key rand s r :
    iter_rel rand s r → has_key (ss_results s) →
    has_key (ss_results (match r with inl s' | inr s' => s' end)).
  Proof.
    intros H (q & e & H1 & H2 & H3). destruct H; simpl in *; try by exists q, e.
    destruct (decide (length p = length q)) as [E|E].
    - exists q, (cost p, p). by rewrite E, lookup_insert.
    - exists q, e. by rewrite lookup_insert_ne.
  Qed.

  Lemma descent_step k s r :
    ok s → descent k s → iter_rel false s r →
    match r with
    | inl s' => descent (S k) s' ∨ (has_key (ss_results s') ∧ ∃ p, valid_schedule g p ∧ greedy g p ∧ k = length p)
    | inr s' => ss_results s' = ∅ ∧ ∀ b, ¬ listed g b
    end.
  Proof.
    intros [Hch Hlen] [Hres Hbest Hf Hgr Hk Hst] H.
    pose proof (chain_node _ _ _ _ _ _ Hch) as Hn. destruct H; simpl in *.
    - split; [done|]. apply chain_single in Hch as ->.
      assert (mset cur = []) as Em.
      { destruct (all_splits_head (mset cur)) as [r Hr]. unfold SchedulerFacts.fresh in Hf.
        apply (H [] (mset cur)). rewrite Hf, Hr. left. }
      pose proof (leaf_valid adj g Hin _ _ Hn Em) as [_ Hc]. intros b Hb. specialize (Hc b Hb).
      simpl in Hc. by apply elem_of_nil in Hc.
    - destruct (all_splits_head (mset cur)) as [r Hr]. unfold SchedulerFacts.fresh in Hf.
      destruct H0. apply (H [] (mset cur)). rewrite Hf, Hr. left.
    - right. pose proof (leaf_valid adj g Hin _ _ Hn H0) as Hv. split; [|by exists p].
      exists p, (cost p, p). by rewrite lookup_insert.
    - left. destruct (all_splits_head (mset cur)) as [r Hr]. unfold SchedulerFacts.fresh in Hf.
      rewrite Hf, Hr in H. injection H as <- <- <-. split; simpl; try done.
      + apply greedy_snoc; [done|]. intros b. apply (node_enabled adj g p cur b Hn).
      + rewrite app_length. simpl. lia.
    - subst best. apply lookup_replicate in H2 as [-> _].
      pose proof (cost_lt_max adj g Hin (p ++ [b])). lia.
    - done.
  Qed.
End first.
