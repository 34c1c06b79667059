(** * The threaded search: invariants of tasks and of the shared state *)
From Verif Require Export RunFacts Threaded.

(** ** Pointwise minimum *)

Definition low (a b : list N) : list N := zip_with N.min a b.

Lemma low_length a b : length a = length b → length (low a b) = length a.
Proof. intros H. unfold low. rewrite zip_with_length. lia. Qed.

Lemma low_lookup a b i x :
  low a b !! i = Some x ↔ ∃ y z, a !! i = Some y ∧ b !! i = Some z ∧ x = N.min y z.
Proof.
  unfold low. rewrite lookup_zip_with_Some. split.
  - intros (y & z & -> & ? & ?). eauto.
  - intros (y & z & ? & ? & ->). eauto.
Qed.

Lemma exchange_low shared this :
  length shared = length this → exchange shared this = (low shared this, low shared this).
Proof.
  revert this. induction shared as [|s shared IH]; intros [|t this] Hl; try done.
  simpl in *. rewrite IH by lia. simpl.
  destruct (N.compare_spec t s).
  - subst. by rewrite N.min_id.
  - by rewrite N.min_r by lia.
  - by rewrite N.min_l by lia.
Qed.

Lemma merge_from_best t shared this new res :
  length shared = length this → (merge_from t shared this new res).1 = low shared this.
Proof.
  revert t this new res. induction shared as [|s shared IH]; intros t [|m this] new res Hl; try done.
  simpl in *. destruct (N.leb_spec m s); simpl.
  - rewrite IH by lia. by rewrite N.min_r by lia.
  - rewrite IH by lia. by rewrite N.min_l by lia.
Qed.

Lemma merge_from_results t shared this new res k :
  length shared = length this →
  (merge_from t shared this new res).2 !! k =
  match new !! k, shared !! (k - t), this !! (k - t) with
  | Some r, Some s, Some m => if decide (t ≤ k ∧ (m <= s)%N) then Some r else res !! k
  | _, _, _ => res !! k
  end.
Proof.
  revert t this new res. induction shared as [|s shared IH]; intros t [|m this] new res Hl; try done.
  { simpl. destruct (new !! k); done. }
  simpl in Hl. cbn [merge_from]. destruct (decide (k < t)) as [Hk|Hk].
  { (* below the range *)
    destruct (N.leb_spec m s); cbn [snd]; rewrite IH by lia.
    - assert (∀ new' res', new' = new !! k → res' = res !! k →
        match new', shared !! (k - S t), this !! (k - S t) with
        | Some r, Some s, Some m => if decide (S t ≤ k ∧ (m <= s)%N) then Some r else res'
        | _, _, _ => res'
        end = match new !! k, (s :: shared) !! (k - t), (m :: this) !! (k - t) with
        | Some r, Some s, Some m => if decide (t ≤ k ∧ (m <= s)%N) then Some r else res !! k
        | _, _, _ => res !! k
        end) as Hgen.
      { intros ? ? -> ->. repeat case_match; try done; lia. }
      apply Hgen.
      + by rewrite lookup_delete_ne by lia.
      + destruct (new !! t); [|done]. by rewrite lookup_insert_ne by lia.
    - repeat case_match; try done; lia. }
  destruct (decide (k = t)) as [->|Hne].
  - rewrite Nat.sub_diag. simpl.
    destruct (N.leb_spec m s); cbn [snd]; rewrite IH by lia.
    + rewrite lookup_delete. destruct (new !! t) as [r|]; [|done].
      rewrite lookup_insert. rewrite decide_True; [done|]. lia.
    + destruct (new !! t) as [r|]; [|done].
      rewrite (decide_False (P := t ≤ t ∧ (m <= s)%N)) by lia.
      repeat case_match; try done; lia.
  - replace (k - t) with (S (k - S t)) by lia. cbn [lookup list_lookup].
    destruct (N.leb_spec m s); cbn [snd]; rewrite IH by lia.
    + rewrite lookup_delete_ne by done.
      assert (match new !! t with Some r => <[t := r]> res | None => res end !! k = res !! k) as ->.
      { destruct (new !! t); [|done]. by rewrite lookup_insert_ne by done. }
      change (list_lookup (k - S t) shared) with (shared !! (k - S t)).
      change (list_lookup (k - S t) this) with (this !! (k - S t)).
      destruct (new !! k); [|done]. destruct (shared !! _); [|done]. destruct (this !! _); [|done].
      repeat case_decide; try done; lia.
    + change (list_lookup (k - S t) shared) with (shared !! (k - S t)).
      change (list_lookup (k - S t) this) with (this !! (k - S t)).
      destruct (new !! k); [|done]. destruct (shared !! _); [|done]. destruct (this !! _); [|done].
      repeat case_decide; try done; lia.
Qed.

Lemma merge_spec shared results new this :
  length shared = length this →
  (merge shared results new this).1 = (if decide (new = ∅) then shared else low shared this) ∧
  ∀ k, (merge shared results new this).2 !! k =
    match new !! k, shared !! k, this !! k with
    | Some r, Some s, Some m => if decide (m <= s)%N then Some r else results !! k
    | _, _, _ => results !! k
    end.
Proof.
  intros Hl. unfold merge. destruct (Nat.eqb_spec (size new) 0) as [E|E].
  - apply map_size_empty_iff in E as ->. split; [done|]. intros k. by rewrite lookup_empty.
  - rewrite decide_False by (intros ->; by rewrite map_size_empty in E).
    split; [by apply merge_from_best|]. intros k. rewrite merge_from_results by done.
    rewrite Nat.sub_0_r. destruct (new !! k); [|done]. destruct (shared !! _); [|done].
    destruct (this !! _); [|done]. repeat case_decide; try done; lia.
Qed.

(** Entries are only lowered. *)
Definition lower_eq (a b : list N) : Prop :=
  length a = length b ∧ ∀ i x y, a !! i = Some x → b !! i = Some y → (x <= y)%N.

Lemma lower_eq_refl a : lower_eq a a.
Proof. split; [done|]. intros i x y ? ?. simplify_eq. lia. Qed.

Lemma lower_eq_trans a b c : lower_eq a b → lower_eq b c → lower_eq a c.
Proof.
  intros [H1 H2] [H3 H4]. split; [lia|]. intros i x z Hx Hz.
  destruct (lookup_lt_is_Some_2 b i) as [y Hy].
  { rewrite <- H1. by eapply lookup_lt_Some. }
  specialize (H2 i x y Hx Hy). specialize (H4 i y z Hy Hz). lia.
Qed.

Lemma low_lower_l a b : length a = length b → lower_eq (low a b) a.
Proof.
  intros Hl. split; [by apply low_length|]. intros i x y (y' & z & ? & ? & ->)%low_lookup ?.
  simplify_eq. lia.
Qed.

Lemma low_lower_r a b : length a = length b → lower_eq (low a b) b.
Proof.
  intros Hl. split; [rewrite low_length; lia|]. intros i x y (y' & z & ? & ? & ->)%low_lookup ?.
  simplify_eq. lia.
Qed.

Section threaded.
  Context (adj : spacial) (g : order) (Hin : wf_input adj g).
  Notation n := (length adj).
  Notation node := (node adj g).
  Notation cost := (cost adj).
  Notation best_leaf := (best_leaf adj).
  Notation iter_rel := (iter_rel adj g).
  Notation sound := (sound adj g).
  Notation covered := (covered adj).
  Notation coverage := (coverage adj).
  Let Hg : wf_order n g := proj2 Hin.

  (** Every entry is the cost of some schedule that is not longer. *)
  Definition achieved (best : list N) : Prop :=
    ∀ t a, best !! t = Some a →
      a = usize_max ∨ ∃ σ, valid_schedule g σ ∧ length σ ≤ t ∧ a = cost σ.

  (** ** The shared array *)
  Record sinv (shared : list N) : Prop := {
    si_length : length shared = n + 1;
    si_anti : antitone shared;
    si_ach : achieved shared
  }.

  (** ** A running task *)
  Record tinv (base : schedule) (shared : list N) (s : SearchState) : Prop := {
    ti_ok : ok adj g base s;
    ti_sound : sound (ss_results s);
    (* pruning by the own array is justified by the own or by the shared array *)
    ti_anti : ∀ i j a b m, i ≤ j → ss_best s !! i = Some a → ss_best s !! j = Some b →
                shared !! j = Some m → (N.min b m <= a)%N;
    ti_leaf : mset (current (ss_scheduler s)) = [] → stack (ss_scheduler s) ≠ [] →
                ∀ a m, ss_best s !! length (ss_path s) = Some a →
                  shared !! length (ss_path s) = Some m →
                  (cost (ss_path s) < a)%N ∨ (m <= a)%N;
    ti_wit : ss_results s = ∅ → ∀ t a m, ss_best s !! t = Some a → shared !! t = Some m → (m <= a)%N;
    ti_ach : achieved (ss_best s)
  }.

  Lemma achieved_leaf p best :
    length best = n + 1 → valid_schedule g p → achieved best → achieved (best_leaf p best).
  Proof.
    intros Hb Hv Ha t a Ht. pose proof (valid_length adj g Hin p Hv) as Hp.
    apply (best_leaf_lookup adj) in Ht; [|done|done].
    destruct Ht as [[_ Ht]|[[-> ->]|(Ht & b & Hb' & ->)]].
    - by apply (Ha t).
    - right. by exists p.
    - destruct (N.le_gt_cases b (cost p)).
      + rewrite N.min_l by done. by apply (Ha t).
      + right. exists p. split; [done|]. split; lia.
  Qed.

  Lemma achieved_low a b : achieved a → achieved b → achieved (low a b).
  Proof.
    intros Ha Hb t x (y & z & Hy & Hz & ->)%low_lookup.
    destruct (N.le_gt_cases y z).
    - rewrite N.min_l by done. by apply (Ha t).
    - rewrite N.min_r by lia. by apply (Hb t).
  Qed.

  Lemma achieved_max best t a : achieved best → best !! t = Some a → (a <= usize_max)%N.
  Proof.
    intros Ha Ht. destruct (Ha t a Ht) as [->|(σ & _ & _ & ->)]; [lia|].
    pose proof (cost_lt_max adj g Hin σ). lia.
  Qed.

  (** The shared array may be lowered by other tasks. *)
  Lemma tinv_lower base shared shared' s :
    lower_eq shared' shared → tinv base shared s → tinv base shared' s.
  Proof.
    intros [Hl Hle] [H1 H2 H3 H4 H5 H6].
    assert (∀ i m', shared' !! i = Some m' → ∃ m, shared !! i = Some m ∧ (m' <= m)%N) as Hget.
    { intros i m' Hm'. destruct (lookup_lt_is_Some_2 shared i) as [m Hm].
      { rewrite <- Hl. by eapply lookup_lt_Some. }
      exists m. split; [done|]. by eapply Hle. }
    split; [done|done| | | |done].
    - intros i j a b m' Hij Hi Hj Hm'. destruct (Hget j m' Hm') as (m & Hm & ?).
      specialize (H3 i j a b m Hij Hi Hj Hm). lia.
    - intros Em Es a m' Ha Hm'. destruct (Hget _ m' Hm') as (m & Hm & ?).
      destruct (H4 Em Es a m Ha Hm); [by left|right; lia].
    - intros Er t a m' Ha Hm'. destruct (Hget t m' Hm') as (m & Hm & ?).
      specialize (H5 Er t a m Ha Hm). lia.
  Qed.

  (** The effect of a leaf on the two arrays. *)
  Lemma anti_leaf p best shared :
    length best = n + 1 → length shared = n + 1 → length p ≤ n →
    (∀ i j a b m, i ≤ j → best !! i = Some a → best !! j = Some b →
       shared !! j = Some m → (N.min b m <= a)%N) →
    (∀ a m, best !! length p = Some a → shared !! length p = Some m →
       (cost p <= a)%N ∨ (m <= a)%N) →
    ∀ i j a b m, i ≤ j → best_leaf p best !! i = Some a → best_leaf p best !! j = Some b →
      shared !! j = Some m → (N.min b m <= a)%N.
  Proof.
    intros Hlen Hsl Hp Ha Hl i j a b m Hij Hi Hj Hm.
    destruct (lookup_lt_is_Some_2 best (length p)) as [c Hc]; [lia|].
    destruct (lookup_lt_is_Some_2 shared (length p)) as [sc Hsc]; [lia|].
    specialize (Hl c sc Hc Hsc).
    apply (best_leaf_lookup adj) in Hi; [|done|done].
    apply (best_leaf_lookup adj) in Hj; [|done|done].
    destruct Hi as [[Hip Hi]|[[-> ->]|(Hip & b' & Hi & ->)]].
    - destruct Hj as [[? Hj]|[[-> ->]|(? & b' & Hj & ->)]].
      + exact (Ha i j a b m Hij Hi Hj Hm).
      + rewrite Hsc in Hm. injection Hm as <-.
        specialize (Ha i (length p) a c sc Hij Hi Hc Hsc). lia.
      + specialize (Ha i j a b' m Hij Hi Hj Hm). lia.
    - destruct Hj as [[? _]|[[-> ->]|(? & b' & Hj & ->)]]; lia.
    - destruct Hj as [[? _]|[[? _]|(? & b'' & Hj & ->)]]; [lia|lia|].
      specialize (Ha i j b' b'' m Hij Hi Hj Hm). lia.
  Qed.

  (** One iteration without the exchange. *)
  Lemma tinv_iter base shared rand s r :
    length shared = n + 1 → tinv base shared s → iter_rel rand s r →
    tinv base shared (match r with inl s' | inr s' => s' end).
  Proof.
    intros Hsl Ht Hr. pose proof (iter_rel_ok adj g base _ _ _ (ti_ok _ _ _ Ht) Hr) as Hok'.
    pose proof (iter_rel_sound adj g Hin base _ _ _ (ti_ok _ _ _ Ht) (ti_sound _ _ _ Ht) Hr) as Hsd'.
    destruct Ht as [[Hch Hlen] Hsd Ha Hl Hw Hac]. destruct Hr; simpl in *.
    - split; simpl; done.
    - split; simpl; try done. intros Em Hts.
      pose proof (chain_node _ _ _ _ _ _ Hch) as Hn.
      apply chain_pop in Hch as (q & M & -> & -> & Hch').
      exfalso. eapply (mset_continue adj g q t M); [by eapply chain_node|apply Hn|done].
    - pose proof (chain_node _ _ _ _ _ _ Hch) as Hn.
      pose proof (legal_length adj g Hin _ (nd_legal _ _ _ _ Hn)) as Hp.
      assert (valid_schedule g p) as Hv by (by eapply leaf_valid).
      split; simpl; [done|done| | | |by apply achieved_leaf].
      + apply anti_leaf; [done..|]. intros a m Ha1 Hm1.
        destruct (Hl H0 ltac:(done) a m Ha1 Hm1); [left; lia|by right].
      + intros Em Hts. exfalso.
        apply chain_pop in Hch as (q & M & -> & _ & Hch').
        eapply (mset_continue adj g q t M); [by eapply chain_node|apply Hn|done].
      + intros E. by apply insert_non_empty in E.
    - split; simpl; try done. intros Em Hst a' m' Hb Hm.
      assert (min_length child p = length (p ++ [b])) as Eml.
      { destruct (min_length_cases adj g Hin p b child H1) as [(_ & _ & ->)|[(? & _)|(? & _)]]; [|done|done].
        rewrite app_length. done. }
      rewrite Eml in H3. left. congruence.
    - split; simpl; done.
    - split; simpl; done.
  Qed.

  Definition with_best (s : SearchState) (best : list N) : SearchState :=
    mkSearchState (ss_scheduler s) (ss_path s) best (ss_results s).

  (** The merged array is an array that can be shared. *)
  Lemma sinv_low base shared s : sinv shared → tinv base shared s → sinv (low shared (ss_best s)).
  Proof.
    intros [H1 H2 H3] Ht. pose proof (ok_best _ _ _ _ (ti_ok _ _ _ Ht)) as Hb.
    split.
    - rewrite low_length; lia.
    - intros i j x y Hij (a & b & Ha & Hb' & ->)%low_lookup (c & d & Hc & Hd & ->)%low_lookup.
      specialize (H2 i j a c Hij Ha Hc).
      pose proof (ti_anti _ _ _ Ht i j b d c Hij Hb' Hd Hc). lia.
    - apply achieved_low; [done|apply Ht].
  Qed.

  (** The exchange. *)
  Lemma tinv_exchange base shared s :
    sinv shared → tinv base shared s →
    tinv base (low shared (ss_best s)) (with_best s (low shared (ss_best s))).
  Proof.
    intros Hs Ht. pose proof (sinv_low _ _ _ Hs Ht) as Hm. destruct Ht as [[Hch Hlen] Hsd Ha Hl Hw Hac].
    destruct Hm as [H1 H2 H3]. split; simpl; [by split|done| | | |done].
    - intros i j a b m Hij Hi Hj Hjm. specialize (H2 i j a b Hij Hi Hj). lia.
    - intros _ _ a m Ha1 Hm1. simplify_eq. right. lia.
    - intros _ t a m Ha1 Hm1. simplify_eq. lia.
  Qed.

  (** ** Coverage *)

  Definition tcover (shared : list N) (s : SearchState) (σ : schedule) : Prop :=
    covered σ shared ∨ coverage s σ.

  Lemma covered_lower σ a b : lower_eq a b → covered σ b → covered σ a.
  Proof.
    intros [Hl Hle] Hc x Hx. destruct (lookup_lt_is_Some_2 b (length σ)) as [y Hy].
    { rewrite <- Hl. by eapply lookup_lt_Some. }
    specialize (Hle _ x y Hx Hy). specialize (Hc y Hy). lia.
  Qed.

  Lemma tcover_lower shared shared' s σ :
    lower_eq shared' shared → tcover shared s σ → tcover shared' s σ.
  Proof. intros Hl [Hc|Hc]; [left|by right]. by eapply covered_lower. Qed.

  Lemma tcover_exchange shared s σ :
    length shared = length (ss_best s) → tcover shared s σ →
    tcover (low shared (ss_best s)) (with_best s (low shared (ss_best s))) σ.
  Proof.
    intros Hl [Hc|[Hc|Hc]].
    - left. eapply covered_lower; [by apply low_lower_l|done].
    - left. eapply covered_lower; [by apply low_lower_r|done].
    - right. right. done.
  Qed.

  Lemma tcover_iter base shared s r σ :
    length shared = n + 1 → antitone shared → tinv base shared s → valid_schedule g σ →
    tcover shared s σ → iter_rel false s r →
    match r with
    | inl s' => tcover shared s' σ
    | inr s' => covered σ shared ∨ covered σ (ss_best s')
    end.
  Proof.
    intros Hsl Hsa [[Hch Hlen] Hsd Ha Hl Hw Hac] Hv [Hc|Hc] Hr.
    { destruct r; by left. }
    assert (length σ ≤ n) as Hσ by (by apply (valid_length adj g Hin)).
    destruct Hr; simpl in *; try done.
    - right. destruct Hc as [Hc|[Hc|(_ & ? & _)]]; [done| |done].
      inversion Hc as [? ? ? a b τ Hab Hb _|? M ? ? Hup]; subst.
      + destruct Hb. by eapply H.
      + inversion Hup.
    - apply chain_pop in Hch as (q & M & -> & -> & Hch').
      destruct Hc as [Hc|[Hc|(? & _ & _)]]; [by right; left| |done].
      right; right; left. simpl. by eapply pending_pop.
    - pose proof (chain_node _ _ _ _ _ _ Hch) as Hn.
      pose proof (legal_length adj g Hin _ (nd_legal _ _ _ _ Hn)) as Hp.
      apply chain_pop in Hch as (q & M & -> & -> & Hch').
      destruct Hc as [Hc|[Hc|(_ & _ & Hc)]].
      + destruct (lookup_lt_is_Some_2 best (length σ)) as [b Hb]; [lia|].
        specialize (Hc b Hb).
        destruct (decide (length σ = length (q ++ [M]))) as [Heq|Hne].
        * destruct (lookup_lt_is_Some_2 shared (length σ)) as [sc Hsc]; [lia|].
          rewrite Heq in Hb, Hsc.
          destruct (Hl H0 ltac:(done) b sc Hb Hsc) as [Hlt|Hle].
          -- right; left. intros a Hi. simpl in Hi. apply (best_leaf_lookup adj) in Hi; [|done|done].
             destruct Hi as [[? Hi]|[[Hi ->]|(? & b' & Hi & ->)]]; [lia|lia|lia].
          -- left. intros a Hi. rewrite Heq in Hi. simplify_eq. lia.
        * right; left. intros a Hi. simpl in Hi. apply (best_leaf_lookup adj) in Hi; [|done|done].
          destruct Hi as [[_ Hi]|[[Hi ->]|(_ & b' & Hi & ->)]]; [|done|].
          -- simplify_eq. lia.
          -- simplify_eq. lia.
      + right; right; left. simpl. by eapply pending_pop.
      + right; left. intros a Hi. simpl in Hc, Hi. apply (best_leaf_lookup adj) in Hi; [|done|done].
        pose proof (same_schedule_length _ _ Hc) as Hlen'.
        rewrite <- (cost_same adj _ _ Hc).
        destruct Hi as [[? _]|[[Hi ->]|(? & _)]]; lia.
    - destruct Hc as [Hc|[Hc|(Em & _ & _)]]; [by right; left| |].
      + apply (pending_advance _ _ _ _ _ _ _ H) in Hc as [Hc|[τ Hc]].
        * right; right; left. simpl. by constructor.
        * destruct (pending_push adj g σ p b child (advance cur :: st) τ H1 H2 Hv Hc) as [?|[? ?]].
          -- right; right; by left.
          -- right; right; right. done.
      + exfalso. eapply (mset_continue adj g p cur b); [by eapply chain_node|apply H1|done].
    - destruct Hc as [Hc|[Hc|(Em & _ & _)]]; [by right; left| |].
      + apply (pending_advance _ _ _ _ _ _ _ H) in Hc as [Hc|[τ Hc]]; [by right; right; left|].
        assert (min_length child p ≤ length σ) as Hml.
        { rewrite <- (same_schedule_length _ _ Hc). apply (min_length_lower adj g Hin); [done|].
          by eapply valid_same, Hv; apply same_schedule_sym. }
        assert (cost (p ++ [b]) <= cost σ)%N as Hpre.
        { rewrite <- (cost_same adj _ _ Hc), app_assoc. apply (cost_prefix adj g Hin). }
        destruct (lookup_lt_is_Some_2 best (length σ)) as [b1 Hb1]; [lia|].
        destruct (lookup_lt_is_Some_2 shared (length σ)) as [m1 Hm1]; [lia|].
        specialize (Ha _ _ _ _ _ Hml H2 Hb1 Hm1).
        destruct (N.le_gt_cases b1 m1).
        * right; left. intros a' Ha'. simpl in Ha'. simplify_eq. lia.
        * left. intros a' Ha'. simplify_eq. lia.
      + exfalso. eapply (mset_continue adj g p cur b); [by eapply chain_node|apply H1|done].
  Qed.

  (** ** Jobs and tasks *)

  Definition jbase (j : Job) : schedule :=
    match job_measure j with Some e => [e] | None => [] end.

  Definition job_ok (j : Job) : Prop :=
    node (jbase j) (job_scheduler j) ∧
    (is_Some (job_measure j) → SchedulerFacts.fresh (job_scheduler j)).

  Lemma fresh_no_more s : SchedulerFacts.fresh s → no_more s → mset s = [].
  Proof.
    intros Hf Hno. destruct (all_splits_head (mset s)) as [r Hr].
    apply (Hno []). rewrite Hf, Hr. left.
  Qed.

  Record running (base : schedule) (shared : list N) (t : Task) : Prop := {
    rn_inv : tinv base shared (t_search t);
    rn_init : t_initialized t = true → ∃ e, base = [e];
    rn_first : t_counter t = 0%N → t_initialized t = true →
      ∃ sch best, t_search t = mkSearchState (mkSweep sch []) base best ∅ ∧ SchedulerFacts.fresh sch
  }.

  Record ending (base : schedule) (shared : list N) (t : Task) : Prop := {
    en_inv : tinv base shared (t_search t);
    en_init : t_initialized t = true → ∃ e, base = [e];
    en_first : t_counter t = 0%N → t_initialized t = true →
      ∃ sch best, t_search t = mkSearchState (mkSweep sch []) base best ∅ ∧ mset sch = []
  }.

  Lemma tinv_start base shared sch :
    sinv shared → node base sch → tinv base shared (mkSearchState (mkSweep sch []) base shared ∅).
  Proof.
    intros [H1 H2 H3] Hn. split; simpl.
    - split; [by constructor|done].
    - apply sound_empty.
    - intros i j a b m Hij Ha Hb Hm. specialize (H2 i j a b Hij Ha Hb). lia.
    - done.
    - intros _ t a m Ha Hm. simplify_eq. lia.
    - done.
  Qed.

  Lemma task_start_running shared j :
    sinv shared → job_ok j → running (jbase j) shared (task_start shared j).
  Proof.
    intros Hs [Hn Hf]. unfold task_start, sweep_new. split; simpl.
    - by apply tinv_start.
    - unfold jbase. destruct (job_measure j); [|done]. eauto.
    - intros _ Hi. eexists _, _. split; [done|]. apply Hf. by destruct (job_measure j).
  Qed.

  (** An iteration of a task. *)
  Definition titer (rand fin : bool) (shared : list N) (t : Task)
      (shared' : list N) (t' : Task) (stop : bool) : Prop :=
    t_initialized t' = t_initialized t ∧
    ∃ r, iter_rel rand (t_search t) r ∧
      match r with
      | inr s => shared' = shared ∧ t_search t' = s ∧ t_counter t' = t_counter t ∧ stop = true
      | inl s =>
          if decide (t_counter t = UPDATE_INTERVAL)
          then shared' = low shared (ss_best s) ∧ t_search t' = with_best s shared' ∧
               t_counter t' = 1%N ∧ stop = fin
          else shared' = shared ∧ t_search t' = s ∧ t_counter t' = (t_counter t + 1)%N ∧ stop = false
      end.

  Definition is_some {A} (o : option A) : bool := match o with Some _ => true | None => false end.

  Lemma task_iteration_titer base prob shared fin t :
    length shared = n + 1 → ok adj g base (t_search t) →
    (∃ shared' t' stop, (∀ bd, task_iteration bd prob shared fin t = Val (shared', t', stop)) ∧
      titer (is_some prob) fin shared t shared' t' stop) ∨
    (∀ bd, task_iteration bd prob shared fin t = Panic) ∧ ¬ calm prob.
  Proof.
    intros Hsl Hok.
    assert ((∀ bd, task_iteration bd prob shared fin t = Panic) ∧ ¬ calm prob ∨ ∃ drawn r, (∀ bd,
      match prob with
      | None =>
          let* r := search_iteration bd (t_search t) in
          Val (match r with inl s => inl (t_drawn t, s) | inr s => inr s end)
      | Some (accept_func, samples) =>
          probabilistic_iteration bd accept_func samples (t_drawn t, t_search t)
      end = Val (with_drawn drawn r)) ∧ iter_rel (is_some prob) (t_search t) r) as [?|(drawn & r & E & Hr)]; [|by right|left].
    { destruct prob as [[acc smp]|].
      - destruct (probabilistic_iteration_any adj g Hin base acc smp (t_drawn t) (t_search t) Hok)
          as [(d & r & E & Hr)|[E ?]]; [right; by exists d, r|].
        left. split; [|done]. intros bd. unfold task_iteration. by rewrite E.
      - right. destruct (search_iteration_rel adj g Hin base (t_search t) Hok) as (r & E & Hr).
        exists (t_drawn t), r. split; [|done]. intros bd. rewrite E. cbn [obind]. by destruct r. }
    unfold task_iteration. destruct r as [s|s]; cbn [with_drawn] in E.
    - destruct (update shared (ss_best s) (t_counter t) fin) as [[[sh th] c] st] eqn:Eu.
      eexists sh, _, st. split.
      { intros bd. rewrite E. cbn [obind]. rewrite Eu. done. }
      split; [done|]. exists (inl s). split; [done|].
      pose proof (iter_rel_ok adj g base _ _ _ Hok Hr) as Hok'. simpl in Hok'.
      unfold update in Eu. destruct (N.eqb_spec (t_counter t) UPDATE_INTERVAL).
      + rewrite decide_True by done. rewrite exchange_low in Eu by (rewrite (ok_best _ _ _ _ Hok'); done).
        simpl in Eu. simplify_eq. done.
      + rewrite decide_False by done. simplify_eq. simpl. by destruct s.
    - eexists _, _, _. split; [intros bd; rewrite E; cbn [obind]; reflexivity|].
      split; [done|]. exists (inr s). done.
  Qed.

  Lemma titer_inv base rand fin shared t shared' t' stop :
    sinv shared → running base shared t → titer rand fin shared t shared' t' stop →
    sinv shared' ∧ lower_eq shared' shared ∧
    (if stop then ending base shared' t' else running base shared' t').
  Proof.
    intros Hs [H1 H2 H3] (Hi & r & Hr & Hm).
    pose proof (tinv_iter base shared rand _ _ (si_length _ Hs) H1 Hr) as Ht.
    destruct r as [s|s].
    - case_decide as Hc.
      + destruct Hm as (-> & Es & Ec & ->).
        pose proof (ok_best _ _ _ _ (ti_ok _ _ _ Ht)) as Hb.
        pose proof (tinv_exchange _ _ _ Hs Ht) as Hx.
        split; [by eapply sinv_low|]. split.
        { apply low_lower_l. rewrite Hb. apply Hs. }
        destruct fin; split; rewrite ?Es, ?Hi, ?Ec; done.
      + destruct Hm as (-> & Es & Ec & ->). split; [done|]. split; [apply lower_eq_refl|].
        split; rewrite ?Es, ?Hi; [done|done|]. rewrite Ec. lia.
    - destruct Hm as (-> & Es & Ec & ->). split; [done|]. split; [apply lower_eq_refl|].
      split; rewrite ?Es, ?Hi, ?Ec; [done|done|]. intros Hc0 Hin0.
      destruct (H3 Hc0 Hin0) as (sch & best & Est & Hf). rewrite Est in Hr. inversion Hr; subst.
      eexists _, _. split; [done|]. change (mset (advance sch)) with (mset sch). by apply fresh_no_more.
  Qed.

  (** ** The end of a task *)

  Record einv (shared : list N) (res : MappedPaths) (best : list N) : Prop := {
    ei_length : length best = n + 1;
    ei_sound : sound res;
    ei_anti : ∀ i j a b m, i ≤ j → best !! i = Some a → best !! j = Some b →
                shared !! j = Some m → (N.min b m <= a)%N;
    ei_wit : res = ∅ → ∀ t a m, best !! t = Some a → shared !! t = Some m → (m <= a)%N;
    ei_ach : achieved best
  }.

  Definition special (t : Task) : bool := ((t_counter t =? 0)%N && t_initialized t)%bool.

  (** Two complete schedules of one step are the same. *)
  Lemma valid_single e σ :
    valid_schedule g [e] → valid_schedule g σ → length σ ≤ 1 → same_schedule [e] σ.
  Proof.
    intros H1 H2 Hl. destruct σ as [|M [|? ?]]; simpl in Hl; [|..|lia].
    - exfalso. assert (e ≠ []) as He by (apply (lp_nonempty _ _ (vs_legal _ _ H1)); left).
      destruct e as [|x e]; [done|].
      assert (listed g x) as Hx. { apply (lp_listed _ _ (vs_legal _ _ H1)). simpl. left. }
      apply (vs_complete _ _ H2) in Hx. by apply elem_of_nil in Hx.
    - constructor; [|constructor].
      assert (∀ K, valid_schedule g [K] → NoDup K ∧ ∀ x, x ∈ K ↔ listed g x) as HK.
      { intros K [HlK HcK]. pose proof (lp_once _ _ HlK) as Hnd. simpl in Hnd.
        rewrite app_nil_r in Hnd. split; [done|]. intros x. split; intros Hx.
        - apply (lp_listed _ _ HlK). simpl. by rewrite app_nil_r.
        - apply HcK in Hx. simpl in Hx. by rewrite app_nil_r in Hx. }
      destruct (HK e H1), (HK M H2). apply NoDup_Permutation; [done|done|]. intros x. naive_solver.
  Qed.

  (** Nothing of length 1 is better than the schedule of one step. *)
  Lemma achieved_single e best a :
    valid_schedule g [e] → achieved best → best !! 1 = Some a → a = usize_max ∨ a = cost [e].
  Proof.
    intros Hv Ha H1. destruct (Ha 1 a H1) as [?|(σ & Hσ & Hl & ->)]; [by left|right].
    apply (cost_same adj), same_schedule_sym, valid_single; done.
  Qed.

  Lemma achieved_single_le e best a :
    valid_schedule g [e] → achieved best → best !! 1 = Some a → (cost [e] <= a)%N.
  Proof.
    intros Hv Ha H1. destruct (achieved_single e best a Hv Ha H1) as [->| ->]; [|lia].
    pose proof (cost_lt_max adj g Hin [e]). lia.
  Qed.

  Lemma task_end_spec base shared t :
    length shared = n + 1 → ending base shared t →
    ∃ res best, task_end t = Val (res, best) ∧ einv shared res best ∧
      if special t
      then ∃ e, base = [e] ∧ ss_path (t_search t) = [e] ∧ valid_schedule g [e] ∧
           res = {[ 1 := (cost [e], [e]) ]} ∧ best = best_leaf [e] (ss_best (t_search t))
      else res = ss_results (t_search t) ∧ best = ss_best (t_search t).
  Proof.
    intros Hsl [H1 H2 H3]. unfold task_end. fold (special t).
    destruct (special t) eqn:Esp.
    - apply andb_true_iff in Esp as [Ec Ei]. apply N.eqb_eq in Ec.
      destruct (H2 Ei) as [e ->]. destruct (H3 Ec Ei) as (sch & bst & Es & Em).
      rewrite Es in H1. rewrite Es. cbn [ss_scheduler ss_path ss_best ss_results current].
      destruct H1 as [[Hch Hlen] Hsd Ha Hl Hw Hac]. simpl in Hch, Hlen, Hsd, Ha, Hl, Hw, Hac.
      pose proof (chain_node _ _ _ _ _ _ Hch) as Hn.
      assert (valid_schedule g [e]) as Hv by (by eapply leaf_valid).
      pose proof (valid_length adj g Hin _ Hv) as Hp.
      exists {[ 1 := (cost [e], [e]) ]}, (best_leaf [e] bst). split.
      { rewrite (node_space adj g [e] sch Hn).
        change (max_memory (graph_at adj [e])) with (cost [e]).
        rewrite (backward_leaf adj [e] bst ∅) by done. cbn [obind]. done. }
      split; [|by exists e].
      split.
      + by rewrite best_leaf_length.
      + intros k m q. rewrite lookup_singleton_Some. intros [<- [= <- <-]]. done.
      + apply anti_leaf; [done..|]. intros a m Ha1 Hm1. left. by eapply achieved_single_le.
      + intros E. by apply map_non_empty_singleton in E.
      + by apply achieved_leaf.
    - eexists _, _. split; [done|]. split; [|done]. destruct H1. split; try done. by destruct ti_ok0.
  Qed.

  Lemma merge_inv shared results res best :
    sinv shared → sound results → einv shared res best →
    let r := merge shared results res best in
    sinv r.1 ∧ sound r.2 ∧ lower_eq r.1 shared ∧ lower_eq r.1 best.
  Proof.
    intros Hs Hsd [H1 H2 H3 H4 H5] r.
    assert (length shared = length best) as Hl by (rewrite H1; apply Hs).
    destruct (merge_spec shared results res best Hl) as [E1 E2]. fold r in E1, E2.
    assert (sound r.2) as Hsr.
    { intros k m q. rewrite E2. destruct (res !! k) as [r'|] eqn:Er; [|apply Hsd].
      destruct (shared !! k) as [x|]; [|apply Hsd]. destruct (best !! k) as [y|]; [|apply Hsd].
      destruct (decide (y <= x)%N); [|apply Hsd]. intros [= ->]. exact (H2 _ _ _ Er). }
    rewrite E1. destruct (decide (res = ∅)) as [Hres|Hres].
    - split; [done|]. split; [done|]. split; [apply lower_eq_refl|]. split; [done|].
      intros i x y Hx Hy. by eapply H4.
    - split; [|split; [done|split; [by apply low_lower_l|by apply low_lower_r]]].
      destruct Hs as [S1 S2 S3]. split.
      + rewrite low_length; done.
      + intros i j x y Hij (a & b & Ha & Hb' & ->)%low_lookup (c & d & Hc & Hd & ->)%low_lookup.
        specialize (S2 i j a c Hij Ha Hc). specialize (H3 i j b d c Hij Hb' Hd Hc). lia.
      + by apply achieved_low.
  Qed.

  (** ** The system *)

  Definition status_inv (shared : list N) (st : Status) : Prop :=
    match st with
    | Waiting j => job_ok j
    | Running t => ∃ base, running base shared t
    | Ending t => ∃ base, ending base shared t
    | Finished => True
    end.

  Record sys_inv (sys : System) : Prop := {
    sy_shared : sinv (sys_best sys);
    sy_sound : sound (sys_results sys);
    sy_tasks : ∀ i st, sys_tasks sys !! i = Some st → status_inv (sys_best sys) st
  }.

  Lemma status_lower shared shared' st :
    lower_eq shared' shared → status_inv shared st → status_inv shared' st.
  Proof.
    intros Hl. destruct st as [j|t|t|]; simpl; [done| | |done].
    - intros [base [H1 H2 H3]]. exists base. split; [by eapply tinv_lower|done..].
    - intros [base [H1 H2 H3]]. exists base. split; [by eapply tinv_lower|done..].
  Qed.

  Inductive sstep (rand : bool) (sys : System) : event → System → Prop :=
  | st_start i j :
      sys_tasks sys !! i = Some (Waiting j) →
      sstep rand sys (EStart i)
        (mkSystem (<[i := Running (task_start (sys_best sys) j)]> (sys_tasks sys))
           (sys_best sys) (sys_results sys))
  | st_iter i fin t shared' t' stop :
      sys_tasks sys !! i = Some (Running t) →
      titer rand fin (sys_best sys) t shared' t' stop →
      sstep rand sys (EIter i fin)
        (mkSystem (<[i := if stop then Ending t' else Running t']> (sys_tasks sys))
           shared' (sys_results sys))
  | st_end i t res best base :
      sys_tasks sys !! i = Some (Ending t) →
      ending base (sys_best sys) t →
      einv (sys_best sys) res best →
      (if special t
       then ∃ e, base = [e] ∧ ss_path (t_search t) = [e] ∧ valid_schedule g [e] ∧
            res = {[ 1 := (cost [e], [e]) ]} ∧ best = best_leaf [e] (ss_best (t_search t))
       else res = ss_results (t_search t) ∧ best = ss_best (t_search t)) →
      sstep rand sys (EEnd i)
        (mkSystem (<[i := Finished]> (sys_tasks sys))
           (merge (sys_best sys) (sys_results sys) res best).1
           (merge (sys_best sys) (sys_results sys) res best).2).

  Lemma exec_sstep bd nthreads prob sys e o :
    sys_inv sys → exec bd nthreads prob sys e = Some o →
    (∀ bd', exec bd' nthreads prob sys e = Some o) ∧
    ((∃ sys', o = Val sys' ∧ sstep (is_some prob) sys e sys') ∨ o = Panic ∧ ¬ all_calm prob).
  Proof.
    intros [H1 H2 H3]. destruct e as [i|i fin|i]; simpl;
      destruct (sys_tasks sys !! i) as [[j|t|t|]|] eqn:Ei; try done;
      specialize (H3 i _ Ei) as Hst; simpl in Hst.
    - destruct (unfinished _ <? nthreads); [|done]. intros [= <-]. split; [done|].
      left. eexists. split; [done|]. by constructor.
    - destruct Hst as [base Hr].
      set (pr := match prob with
                 | Some (accept_func, samples) => Some (accept_func i, samples i)
                 | None => None
                 end).
      destruct (task_iteration_titer base pr (sys_best sys) fin t) as [(sh' & t' & stop & E & Hit)|[E Hc]].
      { apply H1. } { apply Hr. }
      2:{ rewrite E. cbn [obind]. intros [= <-]. split; [intros bd'; by rewrite E|]. right. split; [done|].
          intros Hall. apply Hc. subst pr. destruct prob as [[??]|]; [|done]. simpl. apply Hall. }
      rewrite E. cbn [obind]. intros [= <-]. split.
      { intros bd'. by rewrite E. }
      left. eexists. split; [done|].
      replace (is_some prob) with (is_some pr) by (subst pr; by destruct prob as [[??]|]).
      by eapply st_iter.
    - destruct Hst as [base He].
      destruct (task_end_spec base (sys_best sys) t) as (res & best & E & Hei & Hsp).
      { apply H1. } { done. }
      rewrite E. cbn [obind]. intros [= <-]. split; [done|].
      left. eexists. split; [done|]. by eapply st_end.
  Qed.

  Lemma sstep_inv rand sys e sys' :
    sys_inv sys → sstep rand sys e sys' →
    sys_inv sys' ∧ lower_eq (sys_best sys') (sys_best sys).
  Proof.
    intros [H1 H2 H3] Hstep.
    assert (∀ i st shared' res', sinv shared' → sound res' → lower_eq shared' (sys_best sys) →
      status_inv shared' st →
      sys_inv (mkSystem (<[i := st]> (sys_tasks sys)) shared' res') ∧
      lower_eq shared' (sys_best sys)) as Hgen.
    { intros i st sh' res' Hs Hsd Hl Hst. split; [|done]. split; simpl; [done|done|].
      intros k st' Hk. destruct (decide (i = k)) as [<-|Hne].
      - apply list_lookup_insert_Some in Hk as [(_ & <- & _)|[? _]]; done.
      - rewrite list_lookup_insert_ne in Hk by done. eapply status_lower; [done|]. by eapply H3. }
    destruct Hstep as [i j Ei|i fin t sh' t' stop Ei Hit|i t res best base Ei He Hei Hsp]; simpl.
    - apply Hgen; [done|done|apply lower_eq_refl|]. simpl. exists (jbase j).
      apply task_start_running; [done|]. by apply (H3 i (Waiting j)).
    - destruct (H3 i _ Ei) as [base Hr].
      destruct (titer_inv _ _ _ _ _ _ _ _ H1 Hr Hit) as (? & ? & Hst).
      apply Hgen; [done|done|done|]. destruct stop; by exists base.
    - destruct (merge_inv _ (sys_results sys) _ _ H1 H2 Hei) as (? & ? & ? & _).
      by apply Hgen.
  Qed.

  (** ** Executions *)

  Inductive ssteps (rand : bool) : System → list event → System → Prop :=
  | sss_nil sys : ssteps rand sys [] sys
  | sss_cons sys e sys' es sys'' :
      sstep rand sys e sys' → ssteps rand sys' es sys'' → ssteps rand sys (e :: es) sys''.

  Lemma run_events_ssteps bd nthreads prob sys es o :
    sys_inv sys → run_events bd nthreads prob sys es = Some o →
    (∀ bd', run_events bd' nthreads prob sys es = Some o) ∧
    ((∃ sys', o = Val sys' ∧ ssteps (is_some prob) sys es sys') ∨ o = Panic ∧ ¬ all_calm prob).
  Proof.
    revert sys. induction es as [|e es IH]; intros sys Hs; simpl.
    - intros [= <-]. split; [done|]. left. exists sys. split; [done|constructor].
    - destruct (exec bd nthreads prob sys e) as [o'|] eqn:E; [|done].
      destruct (exec_sstep _ _ _ _ _ _ Hs E) as (E' & [(sys' & -> & Hst)|[-> Hc]]).
      2:{ intros [= <-]. split; [intros bd'; by rewrite E'|]. by right. }
      intros Hrun. apply IH in Hrun as (Hbd & Hsts); [|by eapply sstep_inv].
      split; [intros bd'; by rewrite E'|]. destruct Hsts as [(sys'' & -> & Hsts)|?]; [|by right].
      left. exists sys''. split; [done|]. by econstructor.
  Qed.

  Lemma ssteps_inv rand sys es sys' : sys_inv sys → ssteps rand sys es sys' → sys_inv sys'.
  Proof. intros Hs. induction 1; [done|]. apply IHssteps. by eapply sstep_inv. Qed.
End threaded.
