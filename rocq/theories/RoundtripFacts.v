(** * Facts about the property test [tests/roundtrip.rs] *)
From Verif Require Export FirstFacts Roundtrip.

(** ** Filters *)

(** What the test needs to know about the best schedules it found: every entry
    is the first of its length with its memory, and every schedule in the list
    is matched by an entry that is at most as long. *)
Record summary (all : list (schedule * N)) (R : MappedPaths) : Prop := {
  sm_first : ∀ t m q, R !! t = Some (m, q) →
    length q = t ∧ ∃ before after, all = before ++ (q, m) :: after ∧
      ∀ τ m', (τ, m') ∈ before → length τ = t → (m < m')%N;
  sm_cover : ∀ q m, (q, m) ∈ all →
    ∃ t' m' q', t' ≤ length q ∧ R !! t' = Some (m', q') ∧ (m' <= m)%N
}.

Lemma summary_entry all R t m q : summary all R → R !! t = Some (m, q) → length q = t ∧ (q, m) ∈ all.
Proof.
  intros HR Hr. destruct (sm_first _ _ HR _ _ _ Hr) as (Hl & b & a & -> & _). split; [done|].
  apply elem_of_app. right. left.
Qed.

Lemma filtered_all_summary all : summary all (filtered_all all).
Proof.
  unfold filtered_all.
  enough (∀ rest seen R, summary seen R →
    (∀ q m, (q, m) ∈ seen → ∃ m' q', R !! length q = Some (m', q') ∧ (m' <= m)%N) →
    summary (seen ++ rest) (foldl keep_best R rest)) as H.
  { apply (H all []); [split|].
    - intros t m q. by rewrite lookup_empty.
    - by intros q m ?%elem_of_nil.
    - by intros q m ?%elem_of_nil. }
  induction rest as [|[σ a] rest IH]; intros seen R HR Hc; [by rewrite app_nil_r|].
  simpl. change ((σ, a) :: rest) with ([(σ, a)] ++ rest). rewrite app_assoc.
  assert (∀ q m, (q, m) ∈ seen ++ [(σ, a)] →
    ∃ m' q', keep_best R (σ, a) !! length q = Some (m', q') ∧ (m' <= m)%N) as Hc'.
  { intros q m Hq. unfold keep_best. simpl. apply elem_of_app in Hq as [Hq|Hq].
    - destruct (Hc q m Hq) as (m' & q' & Hr & Hle).
      destruct (decide (length σ = length q)) as [Eq|Ne].
      + rewrite Eq, Hr. destruct (a <? m')%N eqn:El.
        * apply N.ltb_lt in El. rewrite lookup_insert. exists a, σ. split; [done|lia].
        * by exists m', q'.
      + exists m', q'. split; [|done]. destruct (R !! length σ) as [[m1 q1]|]; [destruct (a <? m1)%N|];
          rewrite ?lookup_insert_ne by done; done.
    - apply elem_of_list_singleton in Hq as [= -> ->].
      destruct (R !! length σ) as [[m1 q1]|] eqn:Er; [destruct (a <? m1)%N eqn:El|].
      + rewrite lookup_insert. by exists a, σ.
      + apply N.ltb_ge in El. rewrite Er. by exists m1, q1.
      + rewrite lookup_insert. by exists a, σ. }
  apply IH; [|done]. split.
  - intros t m q Hr.
    assert (R !! t = Some (m, q) ∨ (length σ = t ∧ m = a ∧ q = σ ∧
      ∀ m' q', R !! t = Some (m', q') → (a < m')%N)) as [Ho|(<- & -> & -> & Hnew)].
    { revert Hr. unfold keep_best. simpl. destruct (R !! length σ) as [[m1 q1]|] eqn:Er; [destruct (a <? m1)%N eqn:El|];
        rewrite ?lookup_insert_Some.
      - intros [[<- [= <- <-]]|[_ ?]]; [right|by left]. split; [done|]. split; [done|]. split; [done|].
        intros m' q' Hr'. rewrite Er in Hr'. injection Hr' as <- <-. by apply N.ltb_lt.
      - by left.
      - intros [[<- [= <- <-]]|[_ ?]]; [right|by left]. split; [done|]. split; [done|]. split; [done|].
        intros m' q' Hr'. by rewrite Er in Hr'. }
    + destruct (sm_first _ _ HR _ _ _ Ho) as (Hl & b & af & -> & Hf). split; [done|].
      exists b, (af ++ [(σ, a)]). split; [by rewrite <- app_assoc|done].
    + split; [done|]. exists seen, []. split; [done|]. intros τ m' Hτ Hl.
      destruct (Hc τ m' Hτ) as (m1 & q1 & Hr1 & Hle). rewrite Hl in Hr1. specialize (Hnew _ _ Hr1). lia.
  - intros q m Hq. destruct (Hc' q m Hq) as (m' & q' & ? & ?). exists (length q), m', q'. done.
Qed.

(** The final filter after the first [k] lengths. *)
Lemma final_filter_prefix R n c k :
  k ≤ n + 1 →
  ∃ f best low,
    ofold (final_filter_body R) (seq 0 k) (∅, replicate (n + 1) c) = Val (f, best) ∧
    length best = n + 1 ∧
    (∀ j, k ≤ j → j < n + 1 → best !! j = Some low) ∧
    (∀ m, (m < low)%N ↔ (m < c)%N ∧ ∀ t m' q, t < k → R !! t = Some (m', q) → (m < m')%N) ∧
    (∀ t m q, f !! t = Some (m, q) ↔ t < k ∧ R !! t = Some (m, q) ∧ (m < c)%N ∧
       ∀ t' m' q', t' < t → R !! t' = Some (m', q') → (m < m')%N).
Proof.
  induction k as [|k IH]; intros Hk.
  - exists ∅, (replicate (n + 1) c), c. split; [done|]. split; [apply replicate_length|].
    split; [|split].
    + intros j _ Hj. simpl. by apply lookup_replicate_2.
    + intros m. split; [intros ?; split; [done|]; lia|tauto].
    + intros t m q. rewrite lookup_empty. split; [done|]. lia.
  - destruct IH as (f & best & low & E & Hlen & Hb & Hlow & Hf); [lia|].
    rewrite seq_S, ofold_app, E. cbn [obind ofold]. unfold final_filter_body at 1. simpl.
    destruct (R !! k) as [[m q]|] eqn:Er.
    + unfold index. rewrite (Hb k) by lia. cbn [obind].
      destruct (m <? low)%N eqn:El.
      * apply N.ltb_lt in El. eexists _, _, m. split; [cbn [obind]; reflexivity|]. split.
        { rewrite app_length, map_length, take_length, drop_length. lia. }
        apply Hlow in El as [El1 El2]. split; [|split].
        { intros j Hj1 Hj2. rewrite lookup_app_r by (rewrite take_length; lia).
          rewrite list_lookup_fmap, lookup_drop, take_length.
          destruct (lookup_lt_is_Some_2 best (k + (j - k `min` length best))) as [x ->]; [lia|done]. }
        { intros m1. split.
          - intros Hm. split; [lia|]. intros t m' q' Ht Hr.
            destruct (decide (t = k)) as [->|Hne]; [rewrite Er in Hr; injection Hr as <- <-; done|].
            specialize (El2 t m' q' ltac:(lia) Hr). lia.
          - intros [_ H]. apply (H k m q); [lia|done]. }
        intros t m1 q1. rewrite lookup_insert_Some, Hf. split.
        -- intros [[<- [= <- <-]]|(Hne & H1 & H2 & H3)].
           ++ split; [lia|]. done.
           ++ split; [lia|done].
        -- intros (H1 & H2 & H3). destruct (decide (k = t)) as [<-|Hne]; [left|right].
           ++ rewrite Er in H2. by injection H2 as <- <-.
           ++ split; [done|]. split; [lia|done].
      * apply N.ltb_ge in El. eexists _, _, low. split; [cbn [obind]; reflexivity|]. split; [done|].
        split; [intros j Hj1 Hj2; apply Hb; lia|]. split.
        { intros m1. rewrite Hlow. split; intros [H1 H2]; (split; [done|]); intros t m' q' Ht Hr.
          - destruct (decide (t = k)) as [->|Hne].
            + rewrite Er in Hr. injection Hr as <- <-. assert (m1 < low)%N by (by apply Hlow). lia.
            + apply (H2 t m' q'); [lia|done].
          - apply (H2 t m' q'); [lia|done]. }
        intros t m1 q1. rewrite Hf. split.
        -- intros (H1 & H2 & H3). split; [lia|done].
        -- intros (H1 & H2 & H3). destruct (decide (k = t)) as [<-|Hne]; [|split; [lia|done]].
           rewrite Er in H2. injection H2 as <- <-. apply Hlow in H3. lia.
    + eexists _, _, low. split; [cbn [obind]; reflexivity|]. split; [done|].
      split; [intros j Hj1 Hj2; apply Hb; lia|]. split.
      { intros m1. rewrite Hlow. split; intros [H1 H2]; (split; [done|]); intros t m' q' Ht Hr.
        - destruct (decide (t = k)) as [->|Hne]; [congruence|]. apply (H2 t m' q'); [lia|done].
        - apply (H2 t m' q'); [lia|done]. }
      intros t m1 q1. rewrite Hf. split.
      * intros (H1 & H2 & H3). split; [lia|done].
      * intros (H1 & H2 & H3). destruct (decide (k = t)) as [<-|Hne]; [congruence|split; [lia|done]].
Qed.

(** The result of the final filter is determined by the list of schedules. *)
Lemma final_filter_selected n all R :
  summary all R → (∀ q m, (q, m) ∈ all → length q ≤ n ∧ (m <= N.of_nat n)%N) →
  ∃ f, final_filter n R = Val f ∧ ∀ t m q, f !! t = Some (m, q) ↔ selected all (MkPath t m q).
Proof.
  intros HR Hall.
  destruct (final_filter_prefix R n (N.of_nat n + 1) (n + 1)) as (f & best & low & E & _ & _ & _ & Hf); [lia|].
  exists f. unfold final_filter. rewrite replicate_length, E. split; [done|].
  intros t m q. rewrite Hf. split.
  - intros (Ht & Hr & _ & Hlow). destruct (sm_first _ _ HR _ _ _ Hr) as (Hl & before & after & Es & Hfirst).
    assert (∀ τ m', (τ, m') ∈ all → (length τ < t → (m < m')%N) ∧ (length τ = t → (m <= m')%N)) as Hle.
    { intros τ m' Hτ. destruct (sm_cover _ _ HR _ _ Hτ) as (t1 & m1 & q1 & Ht1 & Hr1 & Hm1). split.
      - intros Hlt. specialize (Hlow t1 m1 q1 ltac:(lia) Hr1). lia.
      - intros Heq. destruct (decide (t1 = t)) as [->|He].
        + rewrite Hr in Hr1. by injection Hr1 as -> ->.
        + specialize (Hlow t1 m1 q1 ltac:(lia) Hr1). lia. }
    rewrite Es in Hle. split; [done|]. exists before, after. split; [done|]. simpl. split; [|split].
    + intros τ m' Hτ Hlen. destruct (decide (length τ = t)) as [He|He]; [by eapply Hfirst|].
      apply (Hle τ m'); [|lia]. apply elem_of_app. by left.
    + intros τ m' Hτ Hlen. assert ((τ, m') ∈ before ++ (q, m) :: after) as Hi.
      { apply elem_of_app. right. by right. }
      destruct (Hle τ m' Hi) as [Hl1 Hl2]. destruct (decide (length τ = t)) as [He|He]; [by apply Hl2|].
      specialize (Hl1 ltac:(lia)). lia.
    + intros τ m' Hτ Hlt. apply (Hle τ m'); [|done]. apply elem_of_app. right. by right.
  - intros Hsel. pose proof Hsel as (Htime & before & after & Es & Hb & Ha1 & Ha2). simpl in *.
    assert ((q, m) ∈ all) as Hi by (rewrite Es; apply elem_of_app; right; left).
    assert (∀ τ m', (τ, m') ∈ all → length τ < t → (m < m')%N) as Hshort.
    { intros τ m' Hτ Hlt. rewrite Es in Hτ. apply elem_of_app in Hτ as [Hτ|Hτ]; [apply (Hb τ); [done|lia]|].
      apply elem_of_cons in Hτ as [[= -> ->]|Hτ]; [lia|by apply (Ha2 τ)]. }
    assert (∀ τ m', (τ, m') ∈ all → length τ = t → (m <= m')%N) as Hsame.
    { intros τ m' Hτ Hlt. rewrite Es in Hτ. apply elem_of_app in Hτ as [Hτ|Hτ].
      - specialize (Hb τ m' Hτ). lia.
      - apply elem_of_cons in Hτ as [[= -> ->]|Hτ]; [done|apply (Ha1 τ); [done|lia]]. }
    destruct (Hall _ _ Hi) as [Hln Hmn].
    destruct (sm_cover _ _ HR _ _ Hi) as (t1 & m1 & q1 & Ht1 & Hr1 & Hm1).
    destruct (summary_entry _ _ _ _ _ HR Hr1) as [Hl1 Hi1].
    destruct (decide (t1 = t)) as [->|Hne]; [|specialize (Hshort _ _ Hi1 ltac:(lia)); lia].
    assert (m1 = m) as ->. { specialize (Hsame _ _ Hi1 Hl1). lia. }
    assert (q1 = q) as ->.
    { destruct (sm_first _ _ HR _ _ _ Hr1) as (_ & b1 & a1 & Es1 & Hf1). rewrite Es in Es1.
      apply app_eq_inv in Es1 as [(k & Ek & E')|(k & Ek & E')].
      - destruct k as [|x k]; [by injection E'|].
        injection E' as <- E'. exfalso. assert ((q1, m) ∈ before) as Hq1 by (rewrite Ek; apply elem_of_app; right; left).
        specialize (Hb _ _ Hq1). lia.
      - destruct k as [|x k]; [by injection E'|].
        injection E' as <- E'. exfalso. assert ((q, m) ∈ b1) as Hq1 by (rewrite Ek; apply elem_of_app; right; left).
        specialize (Hf1 _ _ Hq1). lia. }
    split; [lia|]. split; [done|]. split; [lia|]. intros t' m' q' Ht' Hr'.
    destruct (summary_entry _ _ _ _ _ HR Hr') as [Hl' Hi']. apply (Hshort _ _ Hi'). lia.
Qed.

(** ** The search of the test *)

Lemma skipper_body_eq bd s :
  skipper_body bd s =
  (let* r := search_iteration bd s in
   Val (match r with inl s' => inl s' | inr s' => inr (ss_results s') end)).
Proof.
  unfold skipper_body, search_iteration, forward, backward, minimum_path_length.
  destruct (sweep_next _) as [[sch st]|]; [|done]. cbn [obind].
  destruct st as [[mess|[mem|]]|]; [| |done..].
  - destruct (time_at_leaf _); [|destruct (has_unmeasureable _)];
      (destruct (index _ _) as [m|]; [|done]; cbn [obind];
       destruct (m <=? _)%N; [destruct (skip_current sch) as [sch' []]|]; done).
  - destruct (index_set _ _ _); done.
Qed.

Section skipper.
  Context (adj : spacial) (g : order) (Hin : wf_input adj g).
  Notation n := (length adj).
  Notation start := (replicate (n + 1) (N.of_nat n + 1)%N).

  Lemma cost_le q : (cost adj q <= N.of_nat n)%N.
  Proof. unfold cost. pose proof (space_cost_le adj (proj2 (proj1 Hin)) q). lia. Qed.

  Lemma skipper_loop all seen s k :
    state_bound s < k → ok adj g [] s → books adj start s → progress all seen s →
    (∀ q m, (q, m) ∈ all → valid_schedule g q ∧ m = cost adj q) →
    ∃ R, (∀ bd, loop (skipper_body bd) k s = Some (Val R)) ∧ summary all R.
  Proof.
    intros Hk Hok Hbk Hp Hall. revert seen s Hk Hok Hbk Hp.
    induction k as [|k IH]; intros seen s Hk Hok Hbk Hp; [lia|].
    destruct (search_iteration_rel adj g Hin [] s Hok) as (r & Er & Hr).
    pose proof (iter_rel_ok _ _ _ _ _ _ Hok Hr) as Hok'.
    pose proof (iter_rel_books adj g Hin [] _ _ _ _ Hok Hbk Hr) as Hbk'.
    pose proof (iter_rel_progress adj g Hin _ _ _ _ _ Hok Hbk Hp Hr) as Hp'.
    destruct r as [s'|s'].
    - destruct Hp' as [seen' Hp']. pose proof (search_iteration_bound _ _ _ (Er Debug)) as Hb.
      destruct (IH seen' s') as (R & HR & Hs); [lia|done..|].
      exists R. split; [|done]. intros bd. simpl. rewrite skipper_body_eq, (Er bd). apply HR.
    - exists (ss_results s'). split.
      { intros bd. simpl. rewrite skipper_body_eq, (Er bd). done. }
      split; [apply Hp'|]. intros q m Hq. destruct (Hall q m Hq) as [Hqv Hm].
      pose proof (valid_length adj g Hin q Hqv) as Hlen.
      destruct (lookup_lt_is_Some_2 (ss_best s') (length q)) as [a Ha].
      { rewrite (ok_best _ _ _ _ Hok'). lia. }
      pose proof (st_best _ _ Hp' q m a Hq Ha) as Hc. pose proof (cost_le q).
      destruct (bk_wit _ _ _ Hbk' _ _ Ha) as [Hst|(t' & q' & Ht & Hr')].
      { apply lookup_replicate in Hst as [-> _]. lia. }
      exists t', a, q'. split; [done|]. split; [done|]. lia.
  Qed.
End skipper.

(** ** Lists of steps *)

(** The path after some steps, the paths at which a leaf is left, and whether
    the steps can be carried out: all paths satisfy [P], and there is always
    something to go back to. *)
Fixpoint path_at (p : schedule) (l : list TimeStep) : schedule :=
  match l with
  | [] => p
  | Forward i :: l => path_at (p ++ [i]) l
  | Backward _ :: l => path_at (pop p) l
  end.

Fixpoint leaves (p : schedule) (l : list TimeStep) : list schedule :=
  match l with
  | [] => []
  | Forward i :: l => leaves (p ++ [i]) l
  | Backward (Some _) :: l => p :: leaves (pop p) l
  | Backward None :: l => leaves (pop p) l
  end.

Fixpoint nested (P : schedule → Prop) (p : schedule) (l : list TimeStep) : Prop :=
  match l with
  | [] => True
  | Forward i :: l => P (p ++ [i]) ∧ nested P (p ++ [i]) l
  | Backward _ :: l => p ≠ [] ∧ nested P (pop p) l
  end.

(** A leaf is only left directly after it was entered; [b] says whether the
    step before was a [Forward]. *)
Fixpoint fresh_leaves (b : bool) (l : list TimeStep) : Prop :=
  match l with
  | [] => True
  | Forward _ :: l => fresh_leaves true l
  | Backward (Some _) :: l => b = true ∧ fresh_leaves false l
  | Backward None :: l => fresh_leaves false l
  end.

Lemma path_at_app p l1 l2 : path_at p (l1 ++ l2) = path_at (path_at p l1) l2.
Proof. revert p. induction l1 as [|[i|b] l1 IH]; intros p; simpl; auto. Qed.

Lemma leaves_app p l1 l2 : leaves p (l1 ++ l2) = leaves p l1 ++ leaves (path_at p l1) l2.
Proof.
  revert p. induction l1 as [|[i|[[]|]] l1 IH]; intros p; simpl; auto. by rewrite IH.
Qed.

Lemma nested_app P p l1 l2 : nested P p (l1 ++ l2) ↔ nested P p l1 ∧ nested P (path_at p l1) l2.
Proof.
  revert p. induction l1 as [|[i|b] l1 IH]; intros p; simpl; [tauto| |]; rewrite IH; tauto.
Qed.

Lemma num_leaves_leaves p l : num_leaves l = length (leaves p l).
Proof.
  unfold num_leaves. revert p. induction l as [|[i|[[]|]] l IH]; intros p; simpl; auto.
Qed.

Lemma leaves_forward p q : leaves p (map Forward q) = [].
Proof. revert p. induction q as [|i q IH]; intros p; simpl; auto. Qed.

Lemma path_at_forward p q : path_at p (map Forward q) = p ++ q.
Proof.
  revert p. induction q as [|i q IH]; intros p; simpl; [by rewrite app_nil_r|].
  rewrite IH, <- app_assoc. done.
Qed.

Lemma nested_forward (P : schedule → Prop) p q :
  (∀ σ τ, P (σ ++ τ) → P σ) → P (p ++ q) → nested P p (map Forward q).
Proof.
  intros Hpre. revert p. induction q as [|i q IH]; intros p Hp; simpl; [done|].
  change (i :: q) with ([i] ++ q) in Hp. rewrite app_assoc in Hp. split; [by eapply Hpre|by apply IH].
Qed.

Lemma pop_forward (q : schedule) : pop (map Forward q : list TimeStep) = map Forward (pop q).
Proof. unfold pop. by rewrite map_length, <- (fmap_take (Forward (B := option unit))). Qed.

Lemma snoc_forward (q : schedule) i : map Forward q ++ [Forward i] = (map Forward (q ++ [i]) : list TimeStep).
Proof. by rewrite map_app. Qed.

Lemma pop_prefix (P : schedule → Prop) p : (∀ σ τ, P (σ ++ τ) → P σ) → P p → P (pop p).
Proof. intros Hpre Hp. rewrite <- (take_drop (length p - 1) p) in Hp. by apply Hpre in Hp. Qed.

Section split.
  Context (P : schedule → Prop) (Hpre : ∀ σ τ, P (σ ++ τ) → P σ).

  Lemma skip_back_spec p l :
    P p → nested P p l → fresh_leaves false l →
    ∃ p' l', skip_back (map Forward p) l = (map Forward p', l') ∧ leaves p l = leaves p' l' ∧
      P p' ∧ nested P p' l' ∧ fresh_leaves true l' ∧ length l' ≤ length l.
  Proof.
    revert p. induction l as [|[i|[[]|]] l IH]; intros p Hp Hn Hf; simpl in *.
    - by exists p, [].
    - exists (p ++ [i]), l. rewrite snoc_forward. split; [done|]. split; [done|]. split; [tauto|].
      split; [tauto|]. split; [done|]. lia.
    - by destruct Hf.
    - rewrite pop_forward. destruct (IH (pop p)) as (p' & l' & E & H1 & H2 & H3 & H4 & H5).
      + by apply pop_prefix.
      + tauto.
      + done.
      + exists p', l'. rewrite E. split; [done|]. split; [done|]. split; [done|]. split; [done|].
        split; [done|]. lia.
  Qed.

  (** The invariant of the loop: [a] tasks with [q] paths and [b] tasks with
      [q + 1] paths are still to be filled. *)
  Record split_inv (L : list schedule) (q nn T : nat) (s : Splitting) (p : schedule)
      (l : list TimeStep) : Prop := {
    iv_path : P p;
    iv_init : sp_init s = map Forward p;
    iv_task : path_at [] (sp_task s) = p;
    iv_nested_task : nested P [] (sp_task s);
    iv_nested : nested P p l;
    iv_res : ∀ t, t ∈ sp_res s → nested P [] t;
    iv_leaves : concat (map (leaves []) (sp_res s)) ++ leaves [] (sp_task s) ++ leaves p l = L;
    iv_in_task : sp_in_task s = length (leaves [] (sp_task s));
    iv_lt : sp_in_task s < sp_per_job s;
    iv_done : sp_done s = length (sp_res s);
    iv_size : ∀ t, t ∈ sp_res s → num_leaves t = q ∨ num_leaves t = q + 1;
    iv_count : ∃ a b, length (leaves p l) + sp_in_task s = a * q + b * (q + 1) ∧
      sp_done s + a + b = T ∧
      ((0 < a ∧ sp_done s + a = nn ∧ sp_per_job s = q) ∨
       (a = 0 ∧ nn ≤ sp_done s ∧ sp_per_job s = q + 1))
  }.

  Lemma split_loop L q nn T s p l b k :
    0 < q → split_inv L q nn T s p l → fresh_leaves b l → length l < k →
    ∃ tasks, loop (split_body nn) k (s, l) = Some (Val tasks) ∧
      (∀ t, t ∈ tasks → nested P [] t) ∧ concat (map (leaves []) tasks) = L ∧
      length tasks = T ∧ (∀ t, t ∈ tasks → num_leaves t = q ∨ num_leaves t = q + 1).
  Proof.
    intros Hq. revert s p l b. induction k as [|k IH]; intros s p l b Hi Hf Hk; [lia|].
    destruct Hi as [Hp Hinit Htask Hnt Hn Hres HL Hin Hlt Hdone Hsize (a & c & Hc & HT & Hd)].
    destruct l as [|[i|leaf] l].
    - exists (sp_res s). simpl. split; [done|]. split; [done|]. simpl in HL, Hc.
      assert (sp_in_task s = 0 ∧ a = 0 ∧ c = 0) as (H0 & -> & ->).
      { destruct Hd as [(Ha & _ & Hj)|(-> & _ & Hj)]; rewrite Hj in Hlt.
        - destruct a as [|a]; [lia|]. simpl in Hc. lia.
        - destruct c as [|c]; simpl in Hc; lia. }
      rewrite H0 in Hin. symmetry in Hin. apply nil_length_inv in Hin. rewrite Hin, !app_nil_r in HL.
      split; [done|]. split; [lia|done].
    - simpl in Hn, Hf, Hk. apply (IH _ (p ++ [i]) _ true); [|done|simpl; lia].
      destruct Hn as [Hpi Hn]. split; simpl.
      + done.
      + by rewrite Hinit, snoc_forward.
      + by rewrite path_at_app, Htask.
      + apply nested_app. rewrite Htask. simpl. tauto.
      + done.
      + done.
      + rewrite leaves_app, Htask. simpl. by rewrite app_nil_r.
      + rewrite leaves_app, Htask. simpl. by rewrite app_nil_r.
      + done.
      + done.
      + done.
      + exists a, c. done.
    - simpl in Hn. destruct Hn as [Hne Hn].
      assert (path_at [] (sp_task s ++ [Backward leaf]) = pop p) as Hpa by (by rewrite path_at_app, Htask).
      assert (nested P [] (sp_task s ++ [Backward leaf])) as Hnt'.
      { apply nested_app. rewrite Htask. simpl. tauto. }
      assert (P (pop p)) as Hpp by (by apply pop_prefix).
      destruct leaf as [[]|].
      + assert (leaves [] (sp_task s ++ [Backward (Some tt)]) = leaves [] (sp_task s) ++ [p]) as Hle.
        { rewrite leaves_app, Htask. done. }
        simpl in Hf. destruct Hf as [_ Hf]. simpl in Hc, Hk, HL. simpl.
        destruct (Nat.eqb_spec (sp_in_task s + 1) (sp_per_job s)) as [He|He].
        * destruct (skip_back_spec (pop p) l Hpp Hn Hf) as (p' & l' & E & H1 & H2 & H3 & H4 & H5).
          rewrite Hinit, pop_forward, E. apply (IH _ p' l' true); [|done|lia]. split; simpl.
          -- done.
          -- done.
          -- apply path_at_forward.
          -- apply nested_forward; [done|]. done.
          -- done.
          -- intros t. rewrite elem_of_app, elem_of_list_singleton. intros [Ht| ->]; [by apply Hres|done].
          -- rewrite map_app, concat_app. simpl. rewrite app_nil_r, Hle, leaves_forward, <- H1. simpl.
             rewrite <- HL, <- !app_assoc. done.
          -- by rewrite leaves_forward.
          -- destruct (sp_done s + 1 =? nn); lia.
          -- rewrite app_length, Hdone. done.
          -- intros t. rewrite elem_of_app, elem_of_list_singleton. intros [Ht| ->]; [by apply Hsize|].
             rewrite (num_leaves_leaves []), Hle, app_length, <- Hin. simpl. lia.
          -- rewrite <- H1.
             destruct Hd as [(Ha & Hda & Hj)|(-> & Hda & Hj)].
             ++ exists (a - 1), c. split.
                { destruct a as [|a]; [lia|]. replace (S a - 1) with a by lia. simpl in Hc. lia. }
                split; [lia|].
                destruct (Nat.eqb_spec (sp_done s + 1) nn) as [En|En]; [right; lia|left; lia].
             ++ exists 0, (c - 1). split.
                { destruct c as [|c]; [simpl in Hc; lia|]. replace (S c - 1) with c by lia. simpl in Hc. simpl. lia. }
                split; [destruct c; simpl in Hc; lia|].
                destruct (Nat.eqb_spec (sp_done s + 1) nn) as [En|En]; [lia|right; lia].
        * apply (IH _ (pop p) l false); [|done|lia]. split; simpl.
          -- done.
          -- by rewrite Hinit, pop_forward.
          -- done.
          -- done.
          -- done.
          -- done.
          -- rewrite Hle, <- HL, <- !app_assoc. done.
          -- rewrite Hle, app_length, Hin. done.
          -- lia.
          -- done.
          -- done.
          -- exists a, c. split; [lia|done].
      + assert (leaves [] (sp_task s ++ [Backward None]) = leaves [] (sp_task s)) as Hle.
        { rewrite leaves_app, Htask. simpl. by rewrite app_nil_r. }
        simpl in Hf, Hc, Hk, HL. simpl. apply (IH _ (pop p) l false); [|done|lia]. split; simpl.
        * done.
        * by rewrite Hinit, pop_forward.
        * done.
        * done.
        * done.
        * done.
        * by rewrite Hle.
        * by rewrite Hle.
        * done.
        * done.
        * done.
        * exists a, c. done.
  Qed.

  Lemma split_spec l num_tasks k :
    0 < num_tasks ≤ num_leaves l → P [] → nested P [] l → fresh_leaves true l → length l < k →
    let q := num_leaves l / num_tasks in
    ∃ tasks,
      loop (split_body (num_tasks - (num_leaves l - num_tasks * q))) k (mkSplitting [] [] 0 [] 0 q, l)
        = Some (Val tasks) ∧
      (∀ t, t ∈ tasks → nested P [] t) ∧ concat (map (leaves []) tasks) = leaves [] l ∧
      length tasks = num_tasks ∧ (∀ t, t ∈ tasks → num_leaves t = q ∨ num_leaves t = q + 1).
  Proof.
    intros [Ht0 Ht] H0 Hn Hf Hk q.
    pose proof (Nat.div_mod (num_leaves l) num_tasks ltac:(lia)) as Hdm. fold q in Hdm.
    pose proof (Nat.mod_upper_bound (num_leaves l) num_tasks ltac:(lia)) as Hmod.
    set (r := num_leaves l `mod` num_tasks) in *.
    assert (num_leaves l - num_tasks * q = r) as -> by lia.
    assert (0 < q) as Hq by (apply Nat.div_str_pos; lia).
    apply (split_loop _ q _ num_tasks _ [] l true); [done| |done|done]. split; simpl; try done.
    - by intros t ?%elem_of_nil.
    - by intros t ?%elem_of_nil.
    - exists (num_tasks - r), r. rewrite <- num_leaves_leaves. split; [|split].
      + rewrite Hdm at 1. nia.
      + lia.
      + left. lia.
  Qed.
End split.

(** ** Replaying *)

Section replay.
  Context (adj : spacial) (g : order) (Hin : wf_input adj g).

  Definition stack_at (p : schedule) : list Graph :=
    map (λ k, graph_at adj (take k p)) (rev (seq 0 (length p))).

  Lemma stack_at_snoc p i : stack_at (p ++ [i]) = graph_at adj p :: stack_at p.
  Proof.
    unfold stack_at. rewrite app_length, Nat.add_comm. simpl length. rewrite seq_S, rev_app_distr. simpl.
    rewrite take_app. f_equal. apply map_ext_in. intros k Hk%in_rev%in_seq.
    by rewrite take_app_le by lia.
  Qed.

  Lemma replay_fold bd p l res :
    nested (legal_prefix g) p l →
    ofold (replay_body bd) l (graph_at adj p, stack_at p, p, res)
    = Val (graph_at adj (path_at p l), stack_at (path_at p l), path_at p l,
           res ++ map (λ q, (q, cost adj q)) (leaves p l)).
  Proof.
    revert p res. induction l as [|[i|leaf] l IH]; intros p res Hn; simpl in Hn.
    - simpl. by rewrite app_nil_r.
    - destruct Hn as [Hl Hn]. cbn [ofold]. unfold replay_body at 1, graph_focus.
      apply legal_snoc in Hl as (_ & _ & Hnd & Hen).
      rewrite graph_focus_inplace_spec; [|by destruct Hin as [[]]..|done| |].
      + cbn [obind]. rewrite <- (stack_at_snoc p i), (IH (p ++ [i])) by done. done.
      + intros v Hv. by apply (listed_lt adj g Hin), Hen.
      + intros v Hv. by apply Hen.
    - destruct Hn as [Hne Hn]. destruct p as [|i p _] using rev_ind; [done|].
      cbn [ofold]. unfold replay_body at 1. rewrite stack_at_snoc. cbn [obind]. rewrite pop_snoc in *.
      destruct leaf as [[]|]; cbn [obind]; rewrite (IH p) by done; simpl; rewrite pop_snoc; [|done].
      by rewrite <- app_assoc.
  Qed.

  Lemma replay_spec bd task :
    nested (legal_prefix g) [] task →
    replay bd (graph_new adj) task = Val (map (λ q, (q, cost adj q)) (leaves [] task)).
  Proof.
    intros Hn. unfold replay. rewrite (graph_at_new adj (proj2 (proj1 Hin))).
    pose proof (replay_fold bd [] task [] Hn) as E. change (stack_at []) with (@nil Graph) in E. by rewrite E.
  Qed.

  Lemma replay_all_spec bd tasks :
    (∀ t, t ∈ tasks → nested (legal_prefix g) [] t) →
    replay_all bd (graph_new adj) tasks
    = Val (map (λ q, (q, cost adj q)) (concat (map (leaves []) tasks))).
  Proof.
    intros Ht. unfold replay_all.
    enough (∀ res, ofold (λ res task, let* r := replay bd (graph_new adj) task in Val (res ++ r)) tasks res
      = Val (res ++ map (λ q, (q, cost adj q)) (concat (map (leaves []) tasks)))) as H by (by rewrite H).
    induction tasks as [|t tasks IH]; intros res; [simpl; by rewrite app_nil_r|].
    cbn [ofold]. rewrite replay_spec by (apply Ht; left). cbn [obind]. rewrite IH by (intros; apply Ht; by right).
    simpl. by rewrite map_app, app_assoc.
  Qed.
End replay.

(** ** The steps of the sweep of a generator *)

Lemma all_steps_run bd t tr s s' :
  sweep_run (H := time_focus_iterator bd) (sweep_new t) tr s →
  sweep_next (H := time_focus_iterator bd) s = Val (s', None) →
  ∀ k, length tr < k → all_steps bd k t = Some (Val tr).
Proof.
  intros Hr He. unfold all_steps.
  enough (∀ k acc s0, sweep_run (H := time_focus_iterator bd) s0 tr s → length tr < k →
    loop (steps_body bd) k (s0, acc) = Some (Val (acc ++ tr))) as H by (intros k Hk; by rewrite H).
  clear Hr. induction tr as [|st tr IH]; intros k acc s0 Hr Hk; destruct k as [|k]; simpl in *; try lia;
    inversion Hr as [|? ? s1 ? ? E Hr']; subst.
  - unfold steps_body. simpl. rewrite He. cbn [obind]. by rewrite app_nil_r.
  - unfold steps_body at 1. simpl. rewrite E. cbn [obind]. rewrite IH; [|done|lia]. by rewrite <- app_assoc.
Qed.

Lemma scheduler_next_time bd (s s' : Scheduler (Partition nat)) r :
  scheduler_next_and_focus bd s = Val (s', r) →
  time_next_and_focus bd (s_time s) = Val (s_time s', match r with Some (c, i) => Some (s_time c, i) | None => None end).
Proof.
  unfold scheduler_next_and_focus.
  destruct (time_next_and_focus bd (s_time s)) as [[t r']|] eqn:Et; [|done]. cbn [obind].
  destruct r' as [[nt M]|].
  - destruct (space_focus_inplace _ _ _) as [[gr r1]|]; [|done]. cbn [obind]. destruct r1; [|done]. by intros [= <- <-].
  - by intros [= <- <-].
Qed.

Section trace.
  Context (adj : spacial) (g : order) (Hin : wf_input adj g).

  Lemma step_node p s s' c b :
    node adj g p s → scheduler_next_and_focus Debug s = Val (s', Some (c, b)) →
    s' = advance s ∧ mset s ≠ [] ∧ node adj g (p ++ [b]) c ∧ node adj g p s' ∧ mset s' = mset s ∧
    ∀ bd, scheduler_next_and_focus bd s = Val (s', Some (c, b)).
  Proof.
    intros Hn E. destruct (items_cases adj g Hin p s Hn) as [[Hno H]|(a & b' & l & c' & Ei & Hb & Hc & Hcf & H)].
    { specialize (H Debug). congruence. }
    pose proof (H Debug) as H'. rewrite E in H'. injection H' as -> -> ->. split; [done|].
    split; [by eapply (mset_continue adj g p s b'), Hc|]. split; [done|].
    split; [by apply advance_node|]. done.
  Qed.

  Lemma end_node p s s' :
    node adj g p s → scheduler_next_and_focus Debug s = Val (s', None) →
    s' = advance s ∧ ∀ bd, scheduler_next_and_focus bd s = Val (s', None).
  Proof.
    intros Hn E. destruct (items_cases adj g Hin p s Hn) as [[Hno H]|(a & b' & l & c' & Ei & Hb & Hc & Hcf & H)].
    - pose proof (H Debug) as H'. rewrite E in H'. by injection H' as ->.
    - specialize (H Debug). congruence.
  Qed.

  Lemma visits_trace p s ps :
    visits (FI := scheduler_focus_iterator Debug) p s ps → node adj g p s → p ≠ [] →
    ∃ tr,
      (∀ bd u st, sweep_run (H := time_focus_iterator bd) (mkSweep (s_time s) (u :: st)) tr (mkSweep u st)) ∧
      (∀ rest, leaves p (tr ++ rest) = map fst ps ++ leaves (pop p) rest) ∧
      (∀ rest, nested (legal_prefix g) (pop p) rest → nested (legal_prefix g) p (tr ++ rest)) ∧
      (∀ rest b, fresh_leaves false rest → (mset s = [] → b = true) → fresh_leaves b (tr ++ rest)).
  Proof.
    induction 1 as [p s s' E|p s s' c i ps qs E _ IH1 _ IH2]; intros Hn Hp.
    - destruct (end_node p s s' Hn E) as [-> E'].
      exists [Backward (time_at_leaf (s_time (advance s)))]. split; [|split; [|split]].
      + intros bd u st. eapply run_next; [|constructor]. unfold sweep_next. cbn [current stack].
        change (next_and_focus (s_time s)) with (time_next_and_focus bd (s_time s)).
        rewrite (scheduler_next_time _ _ _ _ (E' bd)). done.
      + intros rest. cbn [at_leaf scheduler_focus_iterator]. unfold scheduler_at_leaf, time_at_leaf. simpl.
        destruct (mset s); done.
      + intros rest Hr. simpl. tauto.
      + intros rest b Hr Hb. simpl. unfold time_at_leaf. simpl.
        destruct (mset s); [|done]. split; [by apply Hb|done].
    - cbn [next_and_focus scheduler_focus_iterator] in E.
      destruct (step_node p s s' c i Hn E) as (Es & Hm & Hc & Hs' & Em & E').
      destruct (IH1 Hc) as (tr1 & R1 & L1 & N1 & F1); [intros H; by apply app_eq_nil in H as [_ ?]|].
      destruct (IH2 Hs' Hp) as (tr2 & R2 & L2 & N2 & F2).
      rewrite pop_snoc in *.
      exists (Forward i :: tr1 ++ tr2). split; [|split; [|split]].
      + intros bd u st. eapply run_next.
        * unfold sweep_next. cbn [current stack].
          change (next_and_focus (s_time s)) with (time_next_and_focus bd (s_time s)).
          rewrite (scheduler_next_time _ _ _ _ (E' bd)). reflexivity.
        * eapply sweep_run_app; [apply R1|apply R2].
      + intros rest. simpl. rewrite <- app_assoc, L1, L2, map_app, app_assoc. done.
      + intros rest Hr. simpl. split; [apply Hc|]. rewrite <- app_assoc. apply N1. by apply N2.
      + intros rest b Hr _. simpl. rewrite <- app_assoc. apply F1; [|done].
        apply F2; [done|]. rewrite Em. done.
  Qed.

  Lemma root_trace s ps :
    visits_root (FI := scheduler_focus_iterator Debug) [] s ps → node adj g [] s →
    ∃ tr, (∀ bd, ∃ s1 s2, sweep_run (H := time_focus_iterator bd) (sweep_new (s_time s)) tr s1 ∧
                          sweep_next (H := time_focus_iterator bd) s1 = Val (s2, None)) ∧
      leaves [] tr = map fst ps ∧ nested (legal_prefix g) [] tr ∧ fresh_leaves false tr.
  Proof.
    induction 1 as [s s' E|s s' c i ps qs E Hc _ IH]; intros Hn.
    - destruct (end_node [] s s' Hn E) as [-> E']. exists []. split; [|done]. intros bd.
      eexists _, _. split; [constructor|]. unfold sweep_next. cbn [current stack sweep_new].
      change (next_and_focus (s_time s)) with (time_next_and_focus bd (s_time s)).
      rewrite (scheduler_next_time _ _ _ _ (E' bd)). done.
    - cbn [next_and_focus scheduler_focus_iterator] in E.
      destruct (step_node [] s s' c i Hn E) as (Es & Hm & Hnc & Hs' & Em & E').
      destruct (visits_trace _ _ _ Hc Hnc ltac:(done)) as (tr1 & R1 & L1 & N1 & F1).
      destruct (IH Hs') as (tr2 & R2 & L2 & N2 & F2). simpl in *.
      exists (Forward i :: tr1 ++ tr2). split; [|split; [|split]].
      + intros bd. destruct (R2 bd) as (s1 & s2 & H1 & H2). exists s1, s2. split; [|done]. eapply run_next.
        * unfold sweep_next. cbn [current stack sweep_new].
          change (next_and_focus (s_time s)) with (time_next_and_focus bd (s_time s)).
          rewrite (scheduler_next_time _ _ _ _ (E' bd)). reflexivity.
        * eapply sweep_run_app; [apply R1|exact H1].
      + simpl. rewrite L1. simpl. change (pop [i]) with ([] : schedule). rewrite L2, map_app. done.
      + simpl. split; [apply Hnc|]. by apply N1.
      + simpl. by apply F1.
  Qed.
End trace.

(** ** Sets *)

Lemma as_set_spec l :
  NoDup (map fst l) →
  ∃ X, as_set l = Val X ∧ ∀ k m q, (k, m, q) ∈ X ↔ k = length q ∧ (q, m) ∈ l.
Proof.
  intros Hnd. unfold as_set.
  enough (∀ (d : list (Steps * N)) (X : gset (nat * N * Steps)), NoDup (map fst (d ++ l)) →
    (∀ k m q, (k, m, q) ∈ X ↔ k = length q ∧ (q, m) ∈ d) →
    ∃ Y, ofold (λ s e, let r := (length e.1, e.2, e.1) in
                if decide (r ∈ s) then Panic else Val ({[ r ]} ∪ s)) l X = Val Y ∧
      ∀ k m q, (k, m, q) ∈ Y ↔ k = length q ∧ (q, m) ∈ d ++ l) as H.
  { apply (H [] ∅); [done|]. intros k m q. split; [by intros ?%elem_of_empty|by intros [_ ?%elem_of_nil]]. }
  clear Hnd. induction l as [|[q m] l IH]; intros d X Hnd HX.
  - exists X. rewrite app_nil_r. done.
  - cbn [ofold fst snd]. rewrite decide_False.
    + cbn [obind]. destruct (IH (d ++ [(q, m)]) ({[(length q, m, q)]} ∪ X)) as (Y & E & HY).
      * by rewrite <- app_assoc.
      * intros k m' q'. rewrite elem_of_union, elem_of_singleton, HX, elem_of_app, elem_of_list_singleton. split.
        -- intros [[= -> -> ->]|[-> ?]]; auto.
        -- intros [-> [?|[= -> ->]]]; auto.
      * exists Y. split; [exact E|]. intros k m' q'. rewrite HY, <- app_assoc. done.
    + rewrite HX. intros [_ Hq]. rewrite map_app in Hnd. apply NoDup_app in Hnd as (_ & Hnd & _).
      apply (Hnd q).
      * apply elem_of_list_fmap. by exists (q, m).
      * left.
Qed.
