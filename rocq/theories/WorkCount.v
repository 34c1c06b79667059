(** * The number of nodes of a sweep *)
From Verif Require Export WorkFacts.

Definition count_same (σ : schedule) (qs : list schedule) : nat :=
  length (filter (λ q, same_schedule q σ) qs).

Lemma count_same_app σ ps qs : count_same σ (ps ++ qs) = count_same σ ps + count_same σ qs.
Proof. unfold count_same. by rewrite filter_app, app_length. Qed.

Lemma count_same_cons σ q qs :
  count_same σ (q :: qs) = (if decide (same_schedule q σ) then 1 else 0) + count_same σ qs.
Proof.
  unfold count_same. destruct (decide (same_schedule q σ)); [by rewrite filter_cons_True|by rewrite filter_cons_False].
Qed.

Lemma count_same_one σ qs :
  count_same σ qs = 1 →
  ∃ i q, qs !! i = Some q ∧ same_schedule q σ ∧ ∀ j q', qs !! j = Some q' → same_schedule q' σ → j = i.
Proof.
  induction qs as [|q qs IH]; [done|]. rewrite count_same_cons. case_decide as Hs.
  - intros H. exists 0, q. split; [done|]. split; [done|]. intros [|j] q' Hj Hs'; [done|]. exfalso.
    simpl in Hj. apply elem_of_list_lookup_2 in Hj.
    assert (q' ∈ filter (λ q, same_schedule q σ) qs) as He by (by apply elem_of_list_filter).
    unfold count_same in H. destruct (filter _ qs); [by apply elem_of_nil in He|simpl in H; lia].
  - intros (i & q1 & H1 & H2 & H3)%IH. exists (S i), q1. split; [done|]. split; [done|].
    intros [|j] q' Hj Hs'; simpl in Hj; [by simplify_eq|]. f_equal. eauto.
Qed.

(** ** Weights *)

(** The most nodes of a subtree with [u] unmeasured qubits, its root included. *)
Definition subtree (u : nat) : nat := 2 * ordered_bell u - (if u =? 0 then 1 else 0).

Definition step_weight {A} (u : nat) (it : list A * list A) : nat :=
  match it.2 with [] => 0 | _ => subtree (u - length it.2) end.

Lemma ordered_bell_pos u : 1 ≤ ordered_bell u.
Proof. destruct u as [|u]; [done|]. rewrite ordered_bell_S by done. simpl. lia. Qed.

Lemma all_splits_steps {A} (l : list A) u :
  sum_list (map (step_weight u) (all_splits l))
  = sum_list (map (λ k, choose (length l) k * subtree (u - (length l - k))) (seq 0 (length l))).
Proof.
  rewrite all_splits_last, map_app, sum_list_with_app. simpl. rewrite !Nat.add_0_r.
  rewrite concat_map, sum_list_concat, !map_map. f_equal. apply map_ext_in. intros k Hk.
  apply in_seq in Hk. rewrite (sum_list_const _ _ (subtree (u - (length l - k)))).
  - by rewrite splits_length_choose.
  - intros [a b] Hab. apply splits_shuffle in Hab as [Hs Ha]. apply shuffle_length in Hs.
    unfold step_weight. simpl in *. destruct b as [|y b]; [simpl in *; lia|]. do 2 f_equal. lia.
Qed.

Lemma steps_full n :
  n ≠ 0 →
  sum_list (map (λ k, choose n k * subtree k) (seq 0 n)) + 1 = subtree n.
Proof.
  intros Hn. unfold subtree at 2. destruct (Nat.eqb_spec n 0) as [|_]; [done|].
  rewrite (ordered_bell_S n Hn). destruct n as [|n]; [done|]. cbn [seq map sum_list_with]. rewrite choose_0.
  change (subtree 0) with 1. change (ordered_bell 0) with 1.
  assert (∀ l, (∀ k, k ∈ l → k ≠ 0) →
    sum_list (map (λ k, choose (S n) k * subtree k) l) = 2 * sum_list (map (λ k, choose (S n) k * ordered_bell k) l)) as H.
  { induction l as [|k l IH]; intros Hl; [done|]. cbn [map sum_list_with]. rewrite IH by (intros; apply Hl; by right).
    unfold subtree. destruct (Nat.eqb_spec k 0) as [E|_]; [by destruct (Hl k); [left|]|].
    unfold id in *. nia. }
  unfold id in *. rewrite H by (intros k Hk%elem_of_seq; lia). lia.
Qed.

Lemma all_splits_subtree_eq {A} (l : list A) :
  l ≠ [] → sum_list (map (step_weight (length l)) (all_splits l)) + 1 = subtree (length l).
Proof.
  intros Hl. assert (length l ≠ 0) as Hn by (by destruct l). rewrite all_splits_steps.
  rewrite <- (steps_full _ Hn). do 2 f_equal. apply map_ext_in. intros k Hk. apply in_seq in Hk.
  do 2 f_equal. lia.
Qed.

Lemma subtree_pos u : 1 ≤ subtree u.
Proof. unfold subtree. pose proof (ordered_bell_pos u). destruct (u =? 0); lia. Qed.

Lemma all_splits_subtree {A} (l : list A) u :
  l ≠ [] → length l ≤ u → sum_list (map (step_weight u) (all_splits l)) + 1 ≤ subtree u.
Proof.
  intros Hl Hu. assert (length l ≠ 0) by (by destruct l). rewrite all_splits_steps.
  rewrite <- (steps_full u) by lia.
  assert (seq 0 u = seq 0 (u - length l) ++ seq (u - length l) (length l)) as ->.
  { rewrite <- seq_app. f_equal. lia. }
  rewrite map_app.
  rewrite sum_list_with_app. simpl. set (d := u - length l).
  assert (sum_list (map (λ k, choose (length l) k * subtree (u - (length l - k))) (seq 0 (length l)))
    ≤ sum_list (map (λ k, choose u k * subtree k) (seq d (length l)))); [|lia].
  replace (seq d (length l)) with (map (λ k, d + k) (seq 0 (length l))).
  - rewrite map_map. apply sum_list_le. intros k Hk. apply elem_of_seq in Hk.
    replace (u - (length l - k)) with (d + k) by (unfold d; lia). apply Nat.mul_le_mono_r.
    replace u with (d + length l) by (unfold d; lia). apply choose_shift.
  - clearbody d. clear. induction (length l) as [|n IH]; [done|].
    rewrite !seq_S, map_app. simpl. by rewrite IH.
Qed.

(** ** Bounds of the ordered Bell numbers *)

Lemma choose_big n k : n < k → choose n k = 0.
Proof. revert k. induction n as [|n IH]; intros [|k] Hk; simpl; try lia. rewrite !IH; lia. Qed.

Lemma choose_pred n : choose (S n) n = S n.
Proof.
  induction n as [|n IH]; [done|]. cbn [choose] in *. pose proof (choose_full (S n)) as H. cbn [choose] in H.
  destruct n as [|n]; [done|]. cbn [choose] in *. lia.
Qed.

Lemma sum_seq_S (f : nat → nat) a n :
  sum_list (map f (seq a (S n))) = sum_list (map f (seq a n)) + f (a + n).
Proof. rewrite seq_S, map_app, sum_list_with_app. simpl. unfold id. lia. Qed.

Lemma sum_seq_shift (f : nat → nat) a n :
  sum_list (map f (seq (S a) n)) = sum_list (map (λ k, f (S k)) (seq a n)).
Proof. revert a. induction n as [|n IH]; intros a; [done|]. simpl. by rewrite IH. Qed.

Lemma sum_seq_plus (f h : nat → nat) a n :
  sum_list (map (λ k, f k + h k) (seq a n)) = sum_list (map f (seq a n)) + sum_list (map h (seq a n)).
Proof. revert a. induction n as [|n IH]; intros a; [done|]. simpl. rewrite IH. unfold id. lia. Qed.

Lemma sum_seq_times (f : nat → nat) x a n :
  sum_list (map (λ k, x * f k) (seq a n)) = x * sum_list (map f (seq a n)).
Proof. revert a. induction n as [|n IH]; intros a; [simpl; lia|]. simpl. rewrite IH. unfold id. nia. Qed.

Lemma binomial x n : sum_list (map (λ k, choose n k * x ^ k) (seq 0 (S n))) = (x + 1) ^ n.
Proof.
  induction n as [|n IH]; [done|].
  change (seq 0 (S (S n))) with (0 :: seq 1 (S n)).
  change (sum_list (map (λ k, choose (S n) k * x ^ k) (0 :: seq 1 (S n))))
    with (choose (S n) 0 * x ^ 0 + sum_list (map (λ k, choose (S n) k * x ^ k) (seq 1 (S n)))).
  rewrite sum_seq_shift.
  rewrite (map_ext _ (λ k, x * (choose n k * x ^ k) + choose n (S k) * x ^ S k))
    by (intros k; cbn [choose Nat.pow]; nia).
  rewrite sum_seq_plus, sum_seq_times, IH.
  assert (sum_list (map (λ k, choose n k * x ^ k) (seq 0 (S n)))
    = 1 + sum_list (map (λ k, choose n (S k) * x ^ S k) (seq 0 (S n)))) as H.
  { rewrite <- (sum_seq_shift (λ k, choose n k * x ^ k) 0 (S n)). rewrite (sum_seq_S _ 1 n).
    rewrite (choose_big n (1 + n)) by lia. rewrite Nat.mul_0_l, Nat.add_0_r.
    change (seq 0 (S n)) with (0 :: seq 1 n).
    change (sum_list (map (λ k, choose n k * x ^ k) (0 :: seq 1 n)))
      with (choose n 0 * x ^ 0 + sum_list (map (λ k, choose n k * x ^ k) (seq 1 n))).
    rewrite choose_0. simpl. lia. }
  rewrite IH in H. rewrite choose_0. change ((x + 1) ^ S n) with ((x + 1) * (x + 1) ^ n).
  change (x ^ 0) with 1. nia.
Qed.

Lemma ordered_bell_fact n : fact n ≤ ordered_bell n.
Proof.
  induction n as [|n IH]; [done|]. rewrite ordered_bell_S by done. rewrite sum_seq_S. simpl (0 + n).
  rewrite choose_pred. cbn [fact]. nia.
Qed.

Lemma ordered_bell_power n : ordered_bell n ≤ n ^ n.
Proof.
  induction n as [n IH] using lt_wf_ind. destruct n as [|n]; [done|]. rewrite ordered_bell_S by done.
  pose proof (binomial n (S n)) as Hbin. rewrite Nat.add_1_r in Hbin. rewrite <- Hbin, (sum_seq_S _ 0 (S n)).
  assert (sum_list (map (λ k, choose (S n) k * ordered_bell k) (seq 0 (S n)))
    ≤ sum_list (map (λ k, choose (S n) k * n ^ k) (seq 0 (S n)))); [|lia].
  apply sum_list_le. intros k Hk%elem_of_seq. apply Nat.mul_le_mono_l.
  etrans; [apply IH; lia|]. apply Nat.pow_le_mono_l. lia.
Qed.

Section count.
  Context (adj : spacial) (g : order) (Hin : wf_input adj g).
  Notation n := (length adj).
  Notation node := (node adj g).
  Let Hg : wf_order n g := proj2 Hin.

  Lemma hits_legal p s σ :
    node p s → SchedulerFacts.fresh s → legal_prefix g σ →
    hits p σ (items s) + (if decide (same_schedule p σ) then 1 else 0) = if decide (agrees p σ) then 1 else 0.
  Proof.
    intros Hn Hf Hv. destruct (decide (agrees p σ)) as [Ha|Ha].
    - destruct (decide (length p = length σ)) as [Hl|Hl].
      + assert (same_schedule p σ) as Hs.
        { unfold agrees in Ha. by rewrite Hl, take_ge in Ha. }
        rewrite decide_True by done. unfold hits.
        destruct (filter _ (items s)) as [|it l] eqn:E; [done|]. exfalso.
        assert (it ∈ it :: l) as H by left. rewrite <- E in H. apply elem_of_list_filter in H as [[_ H] _].
        apply agrees_snoc in H as [_ (M & HM & _)]. apply lookup_lt_Some in HM. lia.
      + assert (length p < length σ) as Hlt.
        { apply Forall2_length in Ha. rewrite take_length in Ha. lia. }
        destruct (lookup_lt_is_Some_2 σ (length p)) as [M HM]; [done|].
        rewrite decide_False by (intros Hs%same_schedule_length; lia).
        rewrite Nat.add_0_r. unfold hits.
        assert (legal_prefix g (p ++ [M])) as Hlp.
        { apply (legal_same g (take (S (length p)) σ)).
          - rewrite (take_S_r _ _ M) by done. apply same_schedule_app; [|apply same_schedule_refl].
            by apply same_schedule_sym.
          - apply (legal_prefix_app g _ (drop (S (length p)) σ)). by rewrite take_drop. }
        destruct (fresh_item adj g p s M Hn Hf Hlp) as (a & b & Hab & Hp).
        apply legal_snoc in Hlp as (_ & HMne & _ & _).
        assert (∀ it, it ∈ filter (λ it : list nat * list nat, it.2 ≠ [] ∧ agrees (p ++ [it.2]) σ) (items s)
          ↔ it ∈ [(a, b)]) as Hex.
        { intros [c d]. rewrite elem_of_list_filter, elem_of_list_singleton. simpl. split.
          - intros [[_ Hag] Hcd]. apply agrees_snoc in Hag as [_ (M' & HM' & Hd)].
            rewrite HM in HM'. injection HM' as <-.
            apply (node_item adj g p) in Hcd; [|done]. apply (node_item adj g p) in Hab; [|done].
            pose proof (node_nodup _ _ _ _ Hn) as Hnd.
            pose proof (shuffle_sublist _ _ _ Hcd) as [Hc1 Hd1].
            pose proof (shuffle_sublist _ _ _ Hab) as [Ha1 Hb1].
            assert (d = b) as ->.
            { apply (sublist_same (mset s)); [done..|]. by rewrite Hd, Hp. }
            f_equal. apply (sublist_same (mset s)); [done..|].
            apply shuffle_perm in Hcd. apply shuffle_perm in Hab. rewrite Hcd in Hab.
            by apply Permutation_app_inv_r in Hab.
          - intros [= -> ->]. split; [|done]. split.
            + intros ->. by apply Permutation_nil_l in Hp.
            + apply agrees_snoc. split; [done|]. by exists M. }
        apply (Permutation_length (l' := [(a, b)])). apply NoDup_Permutation; [|apply NoDup_singleton|done].
        apply NoDup_filter. rewrite Hf. apply NoDup_all_splits, (node_nodup _ _ _ _ Hn).
    - rewrite decide_False by (intros Hs; by apply Ha, agrees_same).
      rewrite Nat.add_0_r. unfold hits.
      destruct (filter _ (items s)) as [|it l] eqn:E; [done|]. exfalso.
      assert (it ∈ it :: l) as H by left. rewrite <- E in H. apply elem_of_list_filter in H as [[_ H] _].
      by apply agrees_snoc in H as [? _].
  Qed.

  Lemma fresh_steps p s :
    node p s → SchedulerFacts.fresh s →
    sum_list (map (step_weight (unmeasured g p)) (items s)) + 1 ≤ subtree (unmeasured g p) ∧
    ((∀ b d, ¬ depends g b d) →
     sum_list (map (step_weight (unmeasured g p)) (items s)) + 1 = subtree (unmeasured g p)).
  Proof.
    intros Hn Hf. rewrite Hf.
    pose proof (mset_unmeasured adj g p s Hn) as Hle. pose proof (mset_independent adj g Hin p s) as Hind.
    destruct (mset s) as [|x l] eqn:Em.
    - simpl. split; [apply subtree_pos|].
      intros H. specialize (Hind H Hn). simpl in Hind. by rewrite <- Hind.
    - split; [by apply all_splits_subtree|].
      intros H. rewrite <- (Hind H Hn). by apply all_splits_subtree_eq.
  Qed.

  Record explored (p : schedule) (s : Scheduler (Partition nat)) (qs : list schedule) : Prop := {
    xp_explores : ∀ bd, explores (FI := scheduler_focus_iterator bd) p s qs;
    xp_legal : ∀ q, q ∈ qs → beginning g q;
    xp_once : ∀ σ, legal_prefix g σ → count_same σ qs = hits p σ (items s);
    xp_bound : length qs ≤ sum_list (map (step_weight (unmeasured g p)) (items s));
    xp_exact : (∀ b d, ¬ depends g b d) →
      length qs = sum_list (map (step_weight (unmeasured g p)) (items s))
  }.

  Lemma no_more_steps u s : no_more s → sum_list (map (step_weight u) (items s)) = 0.
  Proof.
    intros Hno. unfold no_more in Hno. induction (items s) as [|[a b] l IH]; [done|]. simpl.
    rewrite IH; [|by intros a' b' H; apply (Hno a'); right]. unfold step_weight. simpl.
    rewrite (Hno a b) by left. done.
  Qed.

  Lemma explore_end p s : node p s → no_more s →
    (∀ bd, scheduler_next_and_focus bd s = Val (advance s, None)) → explored p s [].
  Proof.
    intros Hn Hno E. split.
    - intros bd. apply (ex_end (FI := scheduler_focus_iterator bd) p s (advance s)), E.
    - by intros q ?%elem_of_nil.
    - intros σ _. by rewrite no_more_hits.
    - simpl. lia.
    - intros _. by rewrite no_more_steps.
  Qed.

  Lemma explore p s : node p s → ∃ qs, explored p s qs.
  Proof.
    remember (sweight s) as w eqn:Ew. revert p s Ew. induction (lt_wf w) as [w _ IHw].
    intros p s Ew. remember (nitems s) as k eqn:Ek. revert s Ew Ek.
    induction k as [|k IHk]; intros s Ew Ek Hn;
      destruct (items_cases adj g Hin p s Hn) as [[Hno E]|(a & b & l & child & Ei & Hb & Hcn & Hcf & E)].
    1,3: exists []; by apply explore_end.
    all: destruct (scheduler_next_measure Debug s (advance s) (Some (child, b)) (E Debug))
        as (Hw & (Hk & _ & Hlt & _) & _).
    - lia.
    - destruct (IHw (sweight child)) with (p := p ++ [b]) (s := child) as (ps & Hps); [lia|done|done|].
      destruct (IHk (advance s)) as (qs & Hqs); [lia|lia|by apply advance_node|].
      exists ((p ++ [b]) :: ps ++ qs). destruct Hps as [P1 P2 P3 P4 P5], Hqs as [Q1 Q2 Q3 Q4 Q5].
      destruct (fresh_steps _ _ Hcn Hcf) as [W1 W2].
      assert (step_weight (unmeasured g p) (a, b) = subtree (unmeasured g (p ++ [b]))) as Eib.
      { unfold step_weight. simpl. rewrite unmeasured_snoc. by destruct b. }
      split.
      + intros bd. eapply ex_child; [apply E|done|done].
      + intros q. rewrite elem_of_cons, elem_of_app. intros [-> |[?|?]]; [|auto..].
        split; [apply Hcn|]. by destruct p.
      + intros σ Hσ. rewrite count_same_cons, count_same_app, P3, Q3 by done.
        pose proof (hits_legal _ _ σ Hcn Hcf Hσ) as Hh. rewrite Nat.add_assoc, (Nat.add_comm _ (hits (p ++ [b]) σ _)), Hh.
        unfold hits. rewrite advance_items, Ei. simpl.
        destruct (decide (agrees (p ++ [b]) σ)) as [Ha|Ha].
        * by rewrite filter_cons_True.
        * by rewrite filter_cons_False by (simpl; tauto).
      + cbn [length]. rewrite app_length. rewrite advance_items, Ei in Q4. rewrite Ei. simpl in *. rewrite Eib.
        unfold id in *. lia.
      + intros Hind. specialize (P5 Hind). specialize (Q5 Hind). specialize (W2 Hind).
        cbn [length]. rewrite app_length. rewrite advance_items, Ei in Q5. rewrite Ei. simpl in *. rewrite Eib.
        unfold id in *. lia.
  Qed.

  (** The whole tree. *)
  Lemma explore_root s :
    node [] s → SchedulerFacts.fresh s →
    ∃ qs, (∀ bd, explores (FI := scheduler_focus_iterator bd) [] s qs) ∧
      (∀ q, q ∈ qs → beginning g q) ∧
      (∀ σ, beginning g σ → ∃ i q, qs !! i = Some q ∧ same_schedule q σ ∧
         ∀ j q', qs !! j = Some q' → same_schedule q' σ → j = i) ∧
      length qs + 1 ≤ subtree (length (qubits g)) ∧
      ((∀ b d, ¬ depends g b d) → length qs + 1 = subtree (length (qubits g))).
  Proof.
    intros Hn Hf. destruct (explore [] s Hn) as (qs & [X1 X2 X3 X4 X5]).
    destruct (fresh_steps [] s Hn Hf) as [W1 W2].
    assert (unmeasured g [] = length (qubits g)) as Hu by (unfold unmeasured; simpl; lia). rewrite Hu in *.
    exists qs. split; [done|]. split; [done|]. split; [|split; [lia|]].
    - intros σ [Hσ Hne]. apply count_same_one. rewrite X3 by done.
      pose proof (hits_legal [] s σ Hn Hf Hσ) as Hh.
      rewrite decide_False in Hh by (intros H; inversion H; by subst).
      rewrite decide_True in Hh by constructor. lia.
    - intros H. rewrite (X5 H). by apply W2.
  Qed.
End count.

Lemma explores_generator bd p s qs :
  explores (FI := scheduler_focus_iterator bd) p s qs → explores (FI := time_focus_iterator bd) p (s_time s) qs.
Proof.
  induction 1 as [p s s' E|p s s' c i ps qs E _ IH1 _ IH2].
  - simpl in *. unfold scheduler_next_and_focus in E.
    destruct (time_next_and_focus bd (s_time s)) as [[t r]|] eqn:Et; [|done]. cbn [obind] in E.
    destruct r as [[nt M]|].
    { destruct (space_focus_inplace _ _ _) as [[gr r]|]; [|done]. by destruct r. }
    injection E as <-. by apply (ex_end (FI := time_focus_iterator bd) p _ t).
  - simpl in E. unfold scheduler_next_and_focus in E.
    destruct (time_next_and_focus bd (s_time s)) as [[t r]|] eqn:Et; [|done]. cbn [obind] in E.
    destruct r as [[nt M]|]; [|done].
    destruct (space_focus_inplace _ _ _) as [[gr r]|]; [|done]. destruct r; [|done].
    injection E as <- <- <-. by apply (ex_child (FI := time_focus_iterator bd) p _ t nt M).
Qed.

Lemma beginnings_le g k k' : beginnings g k → beginnings g k' → k ≤ k'.
Proof.
  intros (qs & <- & H1 & H2) (rs & <- & H3 & H4).
  assert (∃ js, Forall2 (λ q j, ∃ r, rs !! j = Some r ∧ same_schedule r q) qs js) as [js Hjs].
  { clear H2. induction qs as [|q qs IH]; [by exists []|].
    destruct IH as [js Hjs]; [intros; apply H1; by right|].
    destruct (H4 q) as (j & r & Hj & Hr & _); [apply H1; left|]. exists (j :: js). constructor; [|done]. by exists r. }
  rewrite (Forall2_length _ _ _ Hjs), <- (seq_length (length rs) 0). apply submseteq_length, NoDup_submseteq.
  - apply NoDup_alt. intros i i' j Hi Hi'.
    destruct (Forall2_lookup_r _ _ _ _ _ Hjs Hi) as (q & Hq & r & Hr & Hs).
    destruct (Forall2_lookup_r _ _ _ _ _ Hjs Hi') as (q' & Hq' & r' & Hr' & Hs').
    rewrite Hr in Hr'. injection Hr' as <-.
    destruct (H2 q) as (i0 & q0 & _ & _ & Hu); [by eapply H1, elem_of_list_lookup_2|].
    rewrite (Hu i q Hq) by apply same_schedule_refl. rewrite (Hu i' q' Hq'); [done|].
    eapply same_schedule_trans; [by apply same_schedule_sym|done].
  - intros j Hj. apply elem_of_list_lookup in Hj as [i Hi].
    destruct (Forall2_lookup_r _ _ _ _ _ Hjs Hi) as (q & Hq & r & Hr & Hs).
    apply elem_of_seq. apply lookup_lt_Some in Hr. lia.
Qed.

Lemma beginnings_unique g k k' : beginnings g k → beginnings g k' → k = k'.
Proof. intros H1 H2. apply Nat.le_antisymm; by apply (beginnings_le g). Qed.
