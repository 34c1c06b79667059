(** * Bookkeeping and coverage of the search *)
From Verif Require Export SearchFacts FilterFacts.

Definition antitone (best : list N) : Prop :=
  ∀ i j a b, i ≤ j → best !! i = Some a → best !! j = Some b → (b <= a)%N.

Lemma antitone_replicate k a : antitone (replicate k a).
Proof. intros i j x y _ [-> _]%lookup_replicate [-> _]%lookup_replicate. done. Qed.

Lemma legal_prefix_app g σ τ : legal_prefix g (σ ++ τ) → legal_prefix g σ.
Proof.
  induction τ as [|M τ IH] using rev_ind; [by rewrite app_nil_r|].
  rewrite app_assoc, legal_snoc. intros [H _]. by apply IH.
Qed.

Section cover.
  Context (adj : spacial) (g : order) (Hin : wf_input adj g) (base : schedule).
  Notation n := (length adj).
  Notation node := (node adj g).
  Notation cost := (cost adj).
  Notation best_leaf := (best_leaf adj).
  Notation iter_rel := (iter_rel adj g).
  Notation ok := (ok adj g base).
  Let Hg : wf_order n g := proj2 Hin.

  Lemma cost_same σ τ : same_schedule σ τ → cost σ = cost τ.
  Proof. intros H. unfold SearchFacts.cost. f_equal. by apply space_cost_same. Qed.

  Lemma cost_prefix σ τ : (cost σ <= cost (σ ++ τ))%N.
  Proof.
    unfold SearchFacts.cost. pose proof (space_cost_prefix adj (proj2 (proj1 Hin)) σ τ). lia.
  Qed.

  Lemma cost_lt_max σ : (cost σ < usize_max)%N.
  Proof.
    unfold SearchFacts.cost. pose proof (space_cost_le adj (proj2 (proj1 Hin)) σ). pose proof (proj2 (proj1 Hin)) as Hs.
    unfold usize_max, usize_mod. lia.
  Qed.

  Lemma best_leaf_lookup p best i a :
    length best = n + 1 → length p ≤ n →
    best_leaf p best !! i = Some a ↔
    (i < length p ∧ best !! i = Some a) ∨ (i = length p ∧ a = cost p) ∨
    (length p < i ∧ ∃ b, best !! i = Some b ∧ a = N.min b (cost p)).
  Proof.
    intros Hb Hp. unfold SearchFacts.best_leaf, lower_from.
    destruct (decide (i < length p + 1)) as [Hi|Hi].
    - rewrite lookup_app_l by (rewrite take_length, insert_length; lia).
      rewrite lookup_take by done.
      destruct (decide (i = length p)) as [->|Hne].
      + rewrite list_lookup_insert by lia. split; [intros [= <-]; auto|].
        intros [[? _]|[[_ ->]|[? _]]]; [lia|done|lia].
      + rewrite list_lookup_insert_ne by done. split; [intros ?; left; split; [lia|done]|].
        intros [[_ ?]|[[? _]|[? _]]]; [done|lia|lia].
    - rewrite lookup_app_r by (rewrite take_length, insert_length; lia).
      rewrite take_length, insert_length, Nat.min_l by lia.
      rewrite list_lookup_fmap, lookup_drop.
      replace (length p + 1 + (i - (length p + 1))) with i by lia.
      rewrite list_lookup_insert_ne by lia. split.
      + intros H. right; right. split; [lia|].
        destruct (best !! i) as [b|]; [|done]. injection H as <-. by exists b.
      + intros [[? _]|[[? _]|(_ & b & -> & ->)]]; [lia|lia|done].
  Qed.

  (** A node with a legal continuation is not a leaf. *)
  Lemma mset_continue p s M : node p s → legal_prefix g (p ++ [M]) → mset s ≠ [].
  Proof.
    intros Hn (_ & HM & _ & Hen)%legal_snoc Em. destruct M as [|x M]; [done|].
    assert (x ∈ mset s) as Hx by (apply (node_enabled adj g p s x Hn), Hen; left).
    rewrite Em in Hx. by apply elem_of_nil in Hx.
  Qed.

  (** A fresh node has an item for every legal continuation. *)
  Lemma fresh_item p s M :
    node p s → SchedulerFacts.fresh s → legal_prefix g (p ++ [M]) →
    ∃ a b, (a, b) ∈ items s ∧ b ≡ₚ M.
  Proof.
    intros Hn Hf (_ & HM & Hnd & Hen)%legal_snoc.
    pose proof (node_nodup _ _ _ _ Hn) as Hns.
    exists (filter (λ x, x ∉ M) (mset s)), (filter (λ x, x ∈ M) (mset s)). split.
    - rewrite Hf. apply all_splits_shuffle. apply (shuffle_filter (λ x, x ∈ M)).
    - apply NoDup_Permutation; [by apply NoDup_filter|done|].
      intros x. rewrite elem_of_list_filter. split; [tauto|]. intros Hx. split; [done|].
      by apply (node_enabled _ _ _ _ x Hn), Hen.
  Qed.

  (** ** [best_memory] and the results *)

  Record books (start : list N) (s : SearchState) : Prop := {
    bk_anti : antitone (ss_best s);
    bk_start : ∀ t a b, ss_best s !! t = Some a → start !! t = Some b → (a <= b)%N;
    bk_wit : ∀ t a, ss_best s !! t = Some a →
               start !! t = Some a ∨ ∃ t' q, t' ≤ t ∧ ss_results s !! t' = Some (a, q);
    bk_res : ∀ t a m q, ss_best s !! t = Some a → ss_results s !! t = Some (m, q) → (a <= m)%N;
    bk_leaf : mset (current (ss_scheduler s)) = [] → stack (ss_scheduler s) ≠ [] →
                ∀ a, ss_best s !! length (ss_path s) = Some a → (cost (ss_path s) < a)%N
  }.

  Lemma iter_rel_books rand start s r :
    ok s → books start s → iter_rel rand s r →
    books start (match r with inl s' | inr s' => s' end).
  Proof.
    intros [Hch Hlen] [Ha Hs Hw Hr Hl]. destruct 1; simpl in *.
    - split; simpl; try done.
    - split; simpl; try done. intros Em Hts.
      pose proof (chain_node _ _ _ _ _ _ Hch) as Hn.
      apply chain_pop in Hch as (q & M & -> & -> & Hch').
      exfalso. eapply (mset_continue q t M); [by eapply chain_node|apply Hn|done].
    - pose proof (chain_node _ _ _ _ _ _ Hch) as Hn.
      pose proof (legal_length adj g Hin _ (nd_legal _ _ _ _ Hn)) as Hp.
      assert (∀ i a, best_leaf p best !! i = Some a → ∃ b, best !! i = Some b ∧ (a <= b)%N) as Hlow.
      { intros i a Hi. apply best_leaf_lookup in Hi; [|done|done].
        destruct Hi as [[_ Hi]|[[-> ->]|(_ & b & Hi & ->)]].
        - exists a. split; [done|lia].
        - destruct (lookup_lt_is_Some_2 best (length p)) as [b Hb]; [lia|].
          exists b. split; [done|]. specialize (Hl H0 ltac:(done) b Hb). lia.
        - exists b. split; [done|lia]. }
      split; simpl.
      + intros i j a b Hij Hi Hj.
        apply best_leaf_lookup in Hi; [|done|done]. pose proof Hj as Hj'.
        apply best_leaf_lookup in Hj; [|done|done].
        destruct Hi as [[Hip Hi]|[[-> ->]|(Hip & b' & Hi & ->)]].
        * destruct (Hlow j b Hj') as (c & Hc & ?). specialize (Ha i j a c Hij Hi Hc). lia.
        * destruct Hj as [[? _]|[[-> ->]|(_ & c & _ & ->)]]; lia.
        * destruct Hj as [[? _]|[[? _]|(_ & c & Hc & ->)]]; [lia|lia|].
          specialize (Ha i j b' c Hij Hi Hc). lia.
      + intros i a b Hi Hb. destruct (Hlow i a Hi) as (c & Hc & ?).
        specialize (Hs i c b Hc Hb). lia.
      + intros i a Hi. apply best_leaf_lookup in Hi; [|done|done].
        assert (∀ b, best !! i = Some b → (b < cost p)%N ∨ i < length p →
          start !! i = Some b ∨ ∃ t' q, t' ≤ i ∧ <[length p:=(cost p, p)]> res !! t' = Some (b, q)) as Hkeep.
        { intros b Hb Hlt. destruct (Hw i b Hb) as [?|(t' & q & Ht' & Hres)]; [by left|right].
          exists t', q. split; [done|]. rewrite lookup_insert_ne; [done|]. intros <-.
          destruct Hlt as [Hlt|?]; [|lia].
          destruct (lookup_lt_is_Some_2 best (length p)) as [c Hc]; [lia|].
          pose proof (Hr _ _ _ _ Hc Hres). specialize (Hl H0 ltac:(done) c Hc). lia. }
        destruct Hi as [[Hip Hi]|[[-> ->]|(Hip & b' & Hi & ->)]].
        * by apply Hkeep; [|right].
        * right. exists (length p), p. by rewrite lookup_insert.
        * destruct (N.le_gt_cases (cost p) b') as [Hle|Hlt].
          -- right. exists (length p), p. rewrite lookup_insert. split; [lia|].
             do 2 f_equal. lia.
          -- rewrite N.min_l by lia. apply Hkeep; [done|by left].
      + intros i a m q Hi. destruct (Hlow i a Hi) as (c & Hc & ?).
        rewrite lookup_insert_Some. intros [[<- [= <- <-]]|[Hne Hres]].
        * apply best_leaf_lookup in Hi; [|done|done].
          destruct Hi as [[? _]|[[_ ->]|[? _]]]; lia.
        * specialize (Hr i c m q Hc Hres). lia.
      + intros Em Hts. exfalso.
        apply chain_pop in Hch as (q & M & -> & _ & Hch').
        eapply (mset_continue q t M); [by eapply chain_node|apply Hn|done].
    - split; simpl; try done. intros Em Hst a' Hb.
      assert (min_length child p = length (p ++ [b])) as Eml.
      { destruct (min_length_cases adj g Hin p b child H1) as [(_ & _ & ->)|[(? & _)|(? & _)]]; [|done|done].
        rewrite app_length. done. }
      rewrite Eml in H3. congruence.
    - split; simpl; done.
    - split; simpl; done.
  Qed.

  (** The results only improve. *)
  Lemma iter_rel_improve rand start s r :
    ok s → books start s → iter_rel rand s r →
    ∀ t m q, ss_results s !! t = Some (m, q) →
      ∃ m' q', ss_results (match r with inl s' | inr s' => s' end) !! t = Some (m', q') ∧ (m' <= m)%N.
  Proof.
    intros [Hch Hlen] [Ha Hs Hw Hr Hl]. destruct 1; simpl in *; intros i m' q Hres;
      try (exists m', q; done).
    destruct (decide (length p = i)) as [<-|Hne].
    - exists (cost p), p. rewrite lookup_insert. split; [done|].
      pose proof (legal_length adj g Hin _ (nd_legal _ _ _ _ (chain_node _ _ _ _ _ _ Hch))) as Hp.
      destruct (lookup_lt_is_Some_2 best (length p)) as [c Hc]; [lia|].
      pose proof (Hr _ _ _ _ Hc Hres). specialize (Hl H0 ltac:(done) c Hc). lia.
    - exists m', q. rewrite lookup_insert_ne by done. done.
  Qed.

  (** ** Coverage *)

  (** The schedule [σ] is below an item that some node of the stack still has
      to yield. *)
  Inductive pending (σ : schedule) : schedule → list (Scheduler (Partition nat)) → Prop :=
  | pend_here p s cs a b τ :
      (a, b) ∈ items s → b ≠ [] → same_schedule (p ++ [b] ++ τ) σ → pending σ p (s :: cs)
  | pend_up p M s cs : pending σ p cs → pending σ (p ++ [M]) (s :: cs).

  (** [σ] is matched by the best memory known for its length. *)
  Definition covered (σ : schedule) (best : list N) : Prop :=
    ∀ a, best !! length σ = Some a → (a <= cost σ)%N.

  Definition coverage (s : SearchState) (σ : schedule) : Prop :=
    covered σ (ss_best s) ∨
    pending σ (ss_path s) (current (ss_scheduler s) :: stack (ss_scheduler s)) ∨
    (mset (current (ss_scheduler s)) = [] ∧ stack (ss_scheduler s) ≠ [] ∧
     same_schedule (ss_path s) σ).

  Lemma pending_advance σ p cur cs a b l :
    items cur = (a, b) :: l → pending σ p (cur :: cs) →
    pending σ p (advance cur :: cs) ∨ ∃ τ, same_schedule (p ++ [b] ++ τ) σ.
  Proof.
    intros Ei. inversion 1 as [? ? ? a' b' τ Hab Hb Hs|? M ? ? Hup]; subst.
    - rewrite Ei in Hab. apply elem_of_cons in Hab as [[= -> ->]|Hab]; [right; by exists τ|].
      left. apply (pend_here σ p _ _ a' b' τ); [|done|done]. by rewrite advance_items, Ei.
    - left. by constructor.
  Qed.

  Lemma pending_pop σ p M cur cs :
    no_more cur → pending σ (p ++ [M]) (cur :: cs) → pending σ p cs.
  Proof.
    intros Hno. inversion 1 as [? ? ? a b τ Hab Hb Hs|p' M' ? ? Hup]; subst.
    - destruct Hb. by eapply Hno.
    - match goal with E : _ ++ [_] = _ ++ [_] |- _ => apply app_inj_tail in E as [-> ->] end. done.
  Qed.

  (** After pushing a child the schedules below it are pending again. *)
  Lemma pending_push σ p M child cs τ :
    node (p ++ [M]) child → SchedulerFacts.fresh child → valid_schedule g σ →
    same_schedule (p ++ [M] ++ τ) σ →
    pending σ (p ++ [M]) (child :: cs) ∨ (mset child = [] ∧ same_schedule (p ++ [M]) σ).
  Proof.
    intros Hn Hf Hv Hs. rewrite app_assoc in Hs.
    pose proof (valid_same g _ _ (same_schedule_sym _ _ Hs) Hv) as Hv'.
    destruct τ as [|B τ].
    - rewrite app_nil_r in Hs, Hv'. right. split; [|done]. by eapply valid_leaf.
    - left. assert (legal_prefix g ((p ++ [M]) ++ [B])) as Hl.
      { apply (legal_prefix_app g _ τ). rewrite <- app_assoc. apply Hv'. }
      destruct (fresh_item _ child B Hn Hf Hl) as (a & b & Hi & Hp).
      apply (pend_here σ _ _ _ a b τ); [done| |].
      + intros ->. apply Permutation_nil in Hp. subst B.
        apply legal_snoc in Hl as (_ & ? & _). done.
      + eapply same_schedule_trans; [|exact Hs]. apply same_schedule_app; [apply same_schedule_refl|].
        constructor; [done|apply same_schedule_refl].
  Qed.

  Lemma valid_length σ : valid_schedule g σ → length σ ≤ n.
  Proof. intros [Hl _]. by apply (legal_length adj g Hin). Qed.

  Lemma iter_rel_cover start s r σ :
    ok s → books start s → valid_schedule g σ → coverage s σ → iter_rel false s r →
    match r with inl s' => coverage s' σ | inr s' => covered σ (ss_best s') end.
  Proof.
    intros [Hch Hlen] [Ha Hs Hw Hr Hl] Hv Hc. destruct 1; simpl in *; try done.
    - destruct Hc as [Hc|[Hc|(_ & ? & _)]]; [done| |done].
      inversion Hc as [? ? ? a b τ Hab Hb _|? M ? ? Hup]; subst.
      + destruct Hb. by eapply H.
      + inversion Hup.
    - apply chain_pop in Hch as (q & M & -> & -> & Hch').
      destruct Hc as [Hc|[Hc|(? & _ & _)]]; [by left| |done].
      right; left. simpl. by eapply pending_pop.
    - pose proof (chain_node _ _ _ _ _ _ Hch) as Hn.
      pose proof (legal_length adj g Hin _ (nd_legal _ _ _ _ Hn)) as Hp.
      apply chain_pop in Hch as (q & M & -> & -> & Hch').
      destruct Hc as [Hc|[Hc|(_ & _ & Hc)]].
      + left. intros a Hi. simpl in Hi. apply best_leaf_lookup in Hi; [|done|done].
        destruct (lookup_lt_is_Some_2 best (length σ)) as [b Hb].
        { pose proof (valid_length σ Hv). lia. }
        specialize (Hc b Hb).
        destruct Hi as [[_ Hi]|[[Hi ->]|(_ & b' & Hi & ->)]].
        * congruence.
        * rewrite Hi in Hb. specialize (Hl H0 ltac:(done) b Hb). lia.
        * assert (b = b') by congruence. lia.
      + right; left. simpl. by eapply pending_pop.
      + left. intros a Hi. simpl in Hc. simpl in Hi. apply best_leaf_lookup in Hi; [|done|done].
        pose proof (same_schedule_length _ _ Hc) as Hlen'.
        rewrite <- (cost_same _ _ Hc).
        destruct Hi as [[? _]|[[Hi ->]|(? & _)]]; lia.
    - destruct Hc as [Hc|[Hc|(Em & _ & _)]]; [by left| |].
      + apply (pending_advance _ _ _ _ _ _ _ H) in Hc as [Hc|[τ Hc]].
        * right; left. simpl. by constructor.
        * destruct (pending_push σ p b child (advance cur :: st) τ H1 H2 Hv Hc) as [?|[? ?]].
          -- right; by left.
          -- right; right. done.
      + exfalso. eapply (mset_continue p cur b); [by eapply chain_node|apply H1|done].
    - destruct Hc as [Hc|[Hc|(Em & _ & _)]]; [by left| |].
      + apply (pending_advance _ _ _ _ _ _ _ H) in Hc as [Hc|[τ Hc]]; [by right; left|].
        left. intros a' Ha'. simpl in Ha'. rewrite <- (cost_same _ _ Hc).
        pose proof (cost_prefix (p ++ [b]) τ) as Hpre. rewrite <- app_assoc in Hpre.
        assert (min_length child p ≤ length σ) as Hml.
        { rewrite <- (same_schedule_length _ _ Hc). apply (min_length_lower adj g Hin); [done|].
          by eapply valid_same, Hv; apply same_schedule_sym. }
        specialize (Ha _ _ _ _ Hml H2 Ha'). simpl in *. lia.
      + exfalso. eapply (mset_continue p cur b); [by eapply chain_node|apply H1|done].
  Qed.

  (** At the beginning of the search every schedule starting with [base] is
      pending. *)
  Lemma coverage_start s start τ σ :
    node base s → SchedulerFacts.fresh s → valid_schedule g σ → same_schedule (base ++ τ) σ → τ ≠ [] →
    coverage (mkSearchState (mkSweep s []) base start ∅) σ.
  Proof.
    intros Hn Hf Hv Hs Hτ. right; left. simpl. destruct τ as [|B τ]; [done|].
    pose proof (valid_same g _ _ (same_schedule_sym _ _ Hs) Hv) as Hv'.
    assert (legal_prefix g (base ++ [B])) as Hl.
    { apply (legal_prefix_app g _ τ). rewrite <- app_assoc. apply Hv'. }
    destruct (fresh_item _ s B Hn Hf Hl) as (a & b & Hi & Hp).
    apply (pend_here σ _ _ _ a b τ); [done| |].
    - intros ->. apply Permutation_nil in Hp. subst B. apply legal_snoc in Hl as (_ & ? & _). done.
    - eapply same_schedule_trans; [|exact Hs]. apply same_schedule_app; [apply same_schedule_refl|].
      constructor; [done|apply same_schedule_refl].
  Qed.
End cover.
