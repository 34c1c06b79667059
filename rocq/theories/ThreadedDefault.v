(** * The multi threaded search with an accept function that lets the first descent pass *)
From Verif Require Export MainThreaded ProbabilisticSearch.
From Verif Require Export Spec.

Local Arguments usize_max : simpl never.

(** ** The first task *)

Lemma spawn_prefix bd bound fuel sch jobs k js :
  loop (spawn_body bd bound) fuel (sch, jobs, k) = Some (Val js) → jobs `prefix_of` js.
Proof.
  revert sch jobs k. induction fuel as [|fuel IH]; intros sch jobs k; [done|]. cbn [loop].
  unfold spawn_body at 1. destruct (scheduler_next_and_focus bd sch) as [[sch' [[c M]|]]|]; cbn [obind]; [| |done].
  - destruct (_ =? _)%Z.
    + intros [= <-]. rewrite <- app_assoc. by apply prefix_app_r.
    + intros H%IH. etrans; [|exact H]. by apply prefix_app_r.
  - intros [= <-]. by apply prefix_app_r.
Qed.

(** A task starts once. *)
Lemma exec_not_waiting bd nthreads prob sys e sys' i :
  exec bd nthreads prob sys e = Some (Val sys') →
  e = EStart i ∨ (∀ j, sys_tasks sys !! i ≠ Some (Waiting j)) →
  ∀ j, sys_tasks sys' !! i ≠ Some (Waiting j).
Proof.
  assert (∀ (ts : list Status) k st, (∀ j, st ≠ Waiting j) → k = i ∨ (∀ j, ts !! i ≠ Some (Waiting j)) →
    ∀ j, <[k := st]> ts !! i ≠ Some (Waiting j)) as Hins.
  { intros ts k st Hst Hor j Hj. apply list_lookup_insert_Some in Hj as [(_ & E & _)|[Hne Hj]].
    - by eapply Hst.
    - destruct Hor as [?|Hor]; [done|]. by eapply Hor. }
  intros He Hor. destruct e as [k|k fin|k]; cbn [exec] in He.
  - destruct (sys_tasks sys !! k) as [[j| | |]|]; try done. destruct (_ <? _); [|done]. injection He as <-.
    cbn [sys_tasks]. apply Hins; [done|]. destruct Hor as [[= ->]|?]; [by left|by right].
  - destruct Hor as [?|Hor]; [done|].
    destruct (sys_tasks sys !! k) as [[j|t| |]|]; try done.
    destruct (task_iteration _ _ _ _ t) as [[[sh t'] stop]|]; [|done]. injection He as <-.
    cbn [sys_tasks]. apply Hins; [|by right]. intros j. by destruct stop.
  - destruct Hor as [?|Hor]; [done|].
    destruct (sys_tasks sys !! k) as [[j| |t|]|]; try done.
    destruct (task_end t) as [[res best]|]; [|done]. injection He as <-.
    cbn [sys_tasks]. apply Hins; [done|by right].
Qed.

Lemma started_before bd nthreads prob sys es sys' i :
  run_events bd nthreads prob sys es = Some (Val sys') →
  EStart i ∈ es ∨ (∀ j, sys_tasks sys !! i ≠ Some (Waiting j)) →
  ∀ j, sys_tasks sys' !! i ≠ Some (Waiting j).
Proof.
  revert sys. induction es as [|e es IH]; intros sys; cbn [run_events].
  - intros [= <-] [?%elem_of_nil|?]; done.
  - destruct (exec _ _ _ sys e) as [[sys1|]|] eqn:E; [|done..]. intros H Hor.
    apply (IH sys1 H). destruct Hor as [[<-|?]%elem_of_cons|Hw]; [right|by left|right];
      eapply exec_not_waiting; eauto.
Qed.

Section first.
  Context (adj : spacial) (g : order) (Hin : wf_input adj g).
  Notation n := (length adj).
  Notation node := (node adj g).
  Notation cost := (cost adj).
  Notation sys_inv := (sys_inv adj g).
  Notation sstep := (sstep adj g).

  Lemma first_job bd bound fuel root js :
    node [] root → SchedulerFacts.fresh root → (∃ b, listed g b) →
    spawn bd fuel bound root = Some (Val js) →
    ∃ sch M, js !! 0 = Some (mkJob sch (Some M)) ∧ node [M] sch ∧ SchedulerFacts.fresh sch ∧ greedy g [M].
  Proof.
    intros Hn Hf [b0 Hb0] H. unfold spawn in H. destruct fuel as [|fuel]; [done|]. cbn [loop] in H.
    unfold spawn_body at 1 in H.
    destruct (all_splits_head (mset root)) as [r Hr]. pose proof Hf as Hf'. unfold SchedulerFacts.fresh in Hf'.
    destruct (items_cases adj g Hin [] root Hn) as [[Hno _]|(a & b & l & child & Ei & Hbne & Hcn & Hcf & E)].
    - exfalso. assert (mset root = []) as Em by (apply (Hno [] (mset root)); rewrite Hf', Hr; left).
      pose proof (leaf_valid adj g Hin _ _ Hn Em) as [_ Hc]. specialize (Hc b0 Hb0).
      simpl in Hc. by apply elem_of_nil in Hc.
    - rewrite E in H. cbn [obind] in H. rewrite Hf', Hr in Ei. injection Ei as <- <- <-.
      assert ([mkJob child (Some (mset root))] `prefix_of` js) as [js' ->].
      { destruct (_ =? _)%Z; [|by apply spawn_prefix in H]. injection H as <-. simpl. by eexists. }
      exists child, (mset root). split; [done|]. split; [done|]. split; [done|].
      apply (greedy_snoc g []); [apply greedy_nil|]. intros b. apply (node_enabled adj g [] root b Hn).
  Qed.

  (** ** The first descent of a task *)
  Record tdescent (t : Task) : Prop := {
    td_results : ss_results (t_search t) = ∅;
    td_best : ss_best (t_search t) = replicate (n + 1) usize_max;
    td_fresh : SchedulerFacts.fresh (current (ss_scheduler (t_search t)));
    td_greedy : greedy g (ss_path (t_search t));
    td_length : length (ss_path (t_search t)) = S (N.to_nat (t_counter t));
    td_init : t_initialized t = true
  }.

  Lemma descent_step bd acc smp base shared fin t sh' t' stop :
    n ≤ 1000 → eager n acc → running adj g base shared t → tdescent t →
    task_iteration bd (Some (acc, smp)) shared fin t = Val (sh', t', stop) →
    sh' = shared ∧
    (stop = true ∧ special t' = true ∧ (∃ e, valid_schedule g [e] ∧ greedy g [e]) ∨
     stop = false ∧ tdescent t' ∨
     stop = false ∧ ∃ p, valid_schedule g p ∧ greedy g p ∧ ss_results (t_search t') ≠ ∅ ∧
       ss_best (t_search t') !! length p = Some (cost p)).
  Proof.
    intros H1000 Hacc Hr Hd He. pose proof (rn_inv _ _ _ _ _ Hr) as Hti.
    destruct (eager_iteration adj g Hin base acc smp (t_drawn t) (t_search t))
      as (drawn' & r & Er & Hrel); [done|apply Hti|apply Hd|].
    unfold task_iteration in He. rewrite Er in He. cbn [obind] in He.
    destruct Hd as [D1 D2 D3 D4 D5 D6]. destruct t as [[[cur st] p best res] ini c dr]. cbn in *.
    pose proof (ti_ok _ _ _ _ _ Hti) as [Hch Hlen]. cbn in Hch, Hlen.
    pose proof (chain_node _ _ _ _ _ _ Hch) as Hn.
    pose proof (legal_length adj g Hin _ (nd_legal _ _ _ _ Hn)) as Hpl.
    assert (c ≠ UPDATE_INTERVAL) as Hc by (unfold UPDATE_INTERVAL; lia).
    destruct (all_splits_head (mset cur)) as [l Hl]. unfold SchedulerFacts.fresh in D3.
    inversion Hrel as [? ? ? ? Hno|? ? ? ? ? ? Hno Hm|? ? ? ? ? ? Hno Hm|? ? ? ? ? a b l' child m Hi _ _ Hcf _ _ _
      |? ? ? ? ? a b l' child m Hi _ _ Hm Hle _|]; subst; cbn [with_drawn obind] in He.
    - (* a leaf without a stack *)
      injection He as <- <- <-. split; [done|]. left. split; [done|].
      assert (mset cur = []) as Em by (apply (Hno [] (mset cur)); rewrite D3, Hl; left).
      pose proof (leaf_valid adj g Hin _ _ Hn Em) as Hv.
      destruct (rn_init _ _ _ _ _ Hr eq_refl) as [e ->].
      assert (p = [e]) as -> by (by apply chain_single in Hch).
      simpl in D5. unfold special. cbn. split; [|by exists e].
      destruct (N.eqb_spec c 0) as [->|?]; [done|lia].
    - destruct Hm. apply (Hno [] (mset cur)). rewrite D3, Hl. left.
    - pose proof (leaf_valid adj g Hin _ _ Hn Hm) as Hv.
      unfold update in He. cbn in He. rewrite (proj2 (N.eqb_neq _ _) Hc) in He. cbn in He.
      injection He as <- <- <-. split; [done|]. right; right. split; [done|].
      exists p. split; [done|]. split; [done|]. cbn. split; [apply insert_non_empty|].
      apply (best_leaf_lookup adj); [done|done|]. right; left. done.
    - unfold update in He. cbn in He. rewrite (proj2 (N.eqb_neq _ _) Hc) in He. cbn in He.
      injection He as <- <- <-. split; [done|]. right; left. split; [done|].
      rewrite D3, Hl in Hi. injection Hi as <- <- <-. split; cbn; try done.
      + apply greedy_snoc; [done|]. intros b. apply (node_enabled adj g p cur b Hn).
      + rewrite app_length, D5. cbn [length]. lia.
    - apply lookup_replicate in Hm as [-> _]. pose proof (cost_lt_max adj g Hin (p ++ [b])). lia.
    - done.
  Qed.

  (** ** What a task has found *)

  (** The bound at [l] is below the maximum, in the shared array or in the array of
      task [i], which will put it there. *)
  Definition bounded (i l : nat) (sys : System) : Prop :=
    (∃ a, sys_best sys !! l = Some a ∧ (a < usize_max)%N) ∨
    ∃ st s b, sys_tasks sys !! i = Some st ∧ search_of st = Some s ∧ ss_results s ≠ ∅ ∧
      ss_best s !! l = Some b ∧ (b < usize_max)%N.

  Lemma lower_finite l shared shared' :
    lower_eq shared' shared → (∃ a, shared !! l = Some a ∧ (a < usize_max)%N) →
    ∃ a, shared' !! l = Some a ∧ (a < usize_max)%N.
  Proof.
    intros [Hl Hle] (a & Ha & Hlt). destruct (lookup_lt_is_Some_2 shared' l) as [a' Ha'].
    { rewrite Hl. by eapply lookup_lt_Some. }
    exists a'. split; [done|]. specialize (Hle l a' a Ha' Ha). lia.
  Qed.

  Lemma low_finite l a b x : length a = length b → b !! l = Some x → (x < usize_max)%N →
    ∃ y, low a b !! l = Some y ∧ (y < usize_max)%N.
  Proof.
    intros Hl Hx Hlt. destruct (lookup_lt_is_Some_2 a l) as [y Hy].
    { rewrite Hl. by eapply lookup_lt_Some. }
    exists (N.min y x). split; [apply low_lookup; eauto|lia].
  Qed.

  Lemma leaf_finite l p best b :
    length best = n + 1 → length p ≤ n → best !! l = Some b → (b < usize_max)%N →
    ∃ c, best_leaf adj p best !! l = Some c ∧ (c < usize_max)%N.
  Proof.
    intros Hl Hp Hb Hlt. pose proof (cost_lt_max adj g Hin p) as Hc.
    destruct (Nat.lt_trichotomy l (length p)) as [?|[->|?]].
    - exists b. split; [|done]. apply (best_leaf_lookup adj); [done|done|]. by left.
    - exists (cost p). split; [|done]. apply (best_leaf_lookup adj); [done|done|]. by right; left.
    - exists (N.min b (cost p)). split; [|lia]. apply (best_leaf_lookup adj); [done|done|].
      right; right. split; [done|]. by exists b.
  Qed.

  Lemma iter_finite base shared rand l s r b :
    tinv adj g base shared s → iter_rel adj g rand s r → ss_best s !! l = Some b → (b < usize_max)%N →
    ∃ c, ss_best (match r with inl s | inr s => s end) !! l = Some c ∧ (c < usize_max)%N.
  Proof.
    intros [[Hch Hlen] _ _ _ _ _] Hr Hb Hlt. destruct Hr; simpl in *; try (by exists b).
    pose proof (chain_node _ _ _ _ _ _ Hch) as Hn.
    pose proof (legal_length adj g Hin _ (nd_legal _ _ _ _ Hn)) as Hp. by eapply leaf_finite.
  Qed.

  Lemma iter_nonempty rand s r :
    iter_rel adj g rand s r → ss_results s ≠ ∅ → ss_results (match r with inl s | inr s => s end) ≠ ∅.
  Proof. intros Hr Hne. destruct Hr; simpl in *; try done. apply insert_non_empty. Qed.

  Lemma bounded_step rand i l sys e sys' :
    sys_inv sys → sstep rand sys e sys' → bounded i l sys → bounded i l sys'.
  Proof.
    intros Hsys Hst [Hb|(st & s & b & Hi & Hs & Hne & Hb & Hlt)].
    { left. eapply lower_finite; [by eapply sstep_inv|done]. }
    pose proof (sy_shared _ _ _ Hsys) as Hsh.
    assert (∀ k st' sh res, i ≠ k → sys' = mkSystem (<[k := st']> (sys_tasks sys)) sh res → bounded i l sys') as Hother.
    { intros k st' sh res Hk ->. right. exists st, s, b. cbn [sys_tasks]. by rewrite list_lookup_insert_ne. }
    destruct Hst as [k j Ek|k fin t sh' t' stop Ek Hit|k t res best base Ek Hen Hei Hsp];
      (destruct (decide (i = k)) as [->|Hik]; [|by eapply Hother]);
      rewrite Ek in Hi; injection Hi as <-; cbn in Hs.
    - done.
    - injection Hs as <-. assert (k < length (sys_tasks sys)) as Hk by (by eapply lookup_lt_Some).
      destruct (sy_tasks _ _ _ Hsys k _ Ek) as [base Hr]. pose proof (rn_inv _ _ _ _ _ Hr) as Hti.
      destruct Hit as (_ & r & Hrel & Hm).
      destruct (iter_finite _ _ _ _ _ _ _ Hti Hrel Hb Hlt) as (c & Hc & Hclt).
      pose proof (iter_nonempty _ _ _ Hrel Hne) as Hne'.
      assert (∀ s', t_search t' = s' → ss_results s' ≠ ∅ → ss_best s' !! l = Some c →
        bounded k l (mkSystem (<[k := if stop then Ending t' else Running t']> (sys_tasks sys)) sh' (sys_results sys))) as Hsame.
      { intros s' Es' Hn1 Hc1. right. eexists _, s', c. cbn [sys_tasks]. rewrite list_lookup_insert by done.
        split; [done|]. split; [by destruct stop; cbn; f_equal|done]. }
      destruct r as [s|s]; [case_decide|].
      + destruct Hm as (-> & _). left. cbn [sys_best]. eapply low_finite; [|exact Hc|done].
        rewrite (si_length _ _ _ Hsh). symmetry.
        eapply (iter_rel_ok adj g) in Hrel; [|apply Hti]. apply Hrel.
      + destruct Hm as (_ & <- & _). by eapply Hsame.
      + destruct Hm as (_ & <- & _). by eapply Hsame.
    - injection Hs as <-. left. cbn [sys_best].
      assert (length (sys_best sys) = length best) as Hlb.
      { rewrite (si_length _ _ _ Hsh), (ei_length _ _ _ _ _ Hei). done. }
      destruct (merge_spec (sys_best sys) (sys_results sys) res best Hlb) as [-> _].
      destruct (special t) eqn:Et.
      + destruct (en_first _ _ _ _ _ Hen) as (sch & bst & Es & _); [by apply special_spec in Et; tauto..|].
        by rewrite Es in Hne.
      + destruct Hsp as [-> ->]. rewrite decide_False by done. by eapply low_finite.
  Qed.

  Lemma bounded_steps rand i l sys es sys' :
    sys_inv sys → ssteps adj g rand sys es sys' → bounded i l sys → bounded i l sys'.
  Proof.
    intros Hsys Hst. induction Hst as [sys|sys e sys' es sys'' Hs _ IH]; [done|].
    intros Hb. apply IH; [by eapply sstep_inv|by eapply bounded_step].
  Qed.

  Lemma bounded_finished i l sys :
    all_finished sys = true → bounded i l sys → ∃ a, sys_best sys !! l = Some a ∧ (a < usize_max)%N.
  Proof.
    rewrite all_finished_spec. intros Hf [?|(st & s & b & Hi & Hs & _)]; [done|]. by rewrite (Hf i st Hi) in Hs.
  Qed.

  (** A task knows the bounds of its own results. *)
  Definition filled (s : SearchState) : Prop :=
    ∀ l, is_Some (ss_results s !! l) → ∃ b, ss_best s !! l = Some b ∧ (b < usize_max)%N.
  Definition all_filled (sys : System) : Prop :=
    ∀ i st s, sys_tasks sys !! i = Some st → search_of st = Some s → filled s.

  Lemma filled_iter base shared rand s r :
    tinv adj g base shared s → iter_rel adj g rand s r → filled s →
    filled (match r with inl s | inr s => s end).
  Proof.
    intros Hti Hr Hf l Hl. destruct (decide (is_Some (ss_results s !! l))) as [Hs|Hs].
    - destruct (Hf l Hs) as (b & Hb & Hlt). by eapply iter_finite.
    - destruct Hti as [[Hch Hlen] _ _ _ _ _]. destruct Hr; simpl in *; try done.
      pose proof (chain_node _ _ _ _ _ _ Hch) as Hn.
      pose proof (legal_length adj g Hin _ (nd_legal _ _ _ _ Hn)) as Hp.
      destruct (decide (length p = l)) as [<-|Hne]; [|by rewrite lookup_insert_ne in Hl].
      exists (cost p). split; [|apply (cost_lt_max adj g Hin)].
      apply (best_leaf_lookup adj); [done|done|]. by right; left.
  Qed.

  Lemma all_filled_step rand sys e sys' :
    sys_inv sys → sstep rand sys e sys' → all_filled sys → all_filled sys'.
  Proof.
    intros Hsys Hst Hf. pose proof (sy_shared _ _ _ Hsys) as Hsh.
    assert (∀ k st' sh res, sys' = mkSystem (<[k := st']> (sys_tasks sys)) sh res →
      (∀ s, search_of st' = Some s → filled s) → all_filled sys') as Hgen.
    { intros k st' sh res -> Hk i st s Hi Hs. cbn [sys_tasks] in Hi.
      apply list_lookup_insert_Some in Hi as [(_ & <- & _)|[_ Hi]]; [by apply Hk|by eapply Hf]. }
    destruct Hst as [k j Ek|k fin t sh' t' stop Ek Hit|k t res best base Ek Hen Hei Hsp];
      (eapply Hgen; [done|]); intros s Hs; [| |done].
    - injection Hs as <-. intros l [? Hl]. cbn in Hl. by rewrite lookup_empty in Hl.
    - assert (s = t_search t') as -> by (by destruct stop; injection Hs).
      destruct (sy_tasks _ _ _ Hsys k _ Ek) as [base Hr]. pose proof (rn_inv _ _ _ _ _ Hr) as Hti.
      destruct Hit as (_ & r & Hrel & Hm).
      pose proof (filled_iter _ _ _ _ _ Hti Hrel (Hf k _ _ Ek eq_refl)) as Hfr.
      destruct r as [s|s]; [case_decide|].
      + destruct Hm as (-> & -> & _). intros l Hl. cbn in Hl. destruct (Hfr l Hl) as (b & Hb & Hlt). cbn.
        eapply low_finite; [|exact Hb|done]. rewrite (si_length _ _ _ Hsh). symmetry.
        eapply (iter_rel_ok adj g) in Hrel; [|apply Hti]. apply Hrel.
      + by destruct Hm as (_ & <- & _).
      + by destruct Hm as (_ & <- & _).
  Qed.

  (** The shortest path that anybody finds is kept. *)
  Lemma shortest_kept rand sys es sys' T :
    sys_inv sys → all_filled sys → kinv adj T sys → ssteps adj g rand sys es sys' →
    all_finished sys' = true →
    (∀ l a, sys_best sys' !! l = Some a → (a < usize_max)%N → T ≤ l) → kinv adj T sys'.
  Proof.
    intros Hsys Hfl Hk Hst Hfin Hleast.
    induction Hst as [sys|sys e sys' es sys'' Hs Hst IH]; [done|].
    pose proof (sstep_inv adj g Hin _ _ _ _ Hsys Hs) as [Hsys' _].
    pose proof (all_filled_step _ _ _ _ Hsys Hs Hfl) as Hfl'.
    apply IH; [done|done| |done|done].
    apply (kinv_step adj g Hin T rand sys e); [done| |done|done].
    assert (∀ i l, bounded i l sys' → T ≤ l) as Hbd.
    { intros i l Hb. eapply bounded_steps in Hb; [|done|exact Hst].
      apply bounded_finished in Hb as (a & Ha & Hlt); [|done]. by eapply Hleast. }
    split.
    - intros l a Ha Hlt. apply (Hbd 0). left. by exists a.
    - intros i st s l Hi Hs1 Hl. apply (Hbd i). right.
      destruct (Hfl' i st s Hi Hs1 l Hl) as (b & Hb & Hlt). exists st, s, b. split; [done|]. split; [done|].
      split; [|done]. intros E. rewrite E in Hl. destruct Hl as [? Hl]. by rewrite lookup_empty in Hl.
  Qed.

  (** ** Somebody finds something *)

  (** Some bound is below the maximum, or the first task will find a path. *)
  Definition alive (sys : System) : Prop :=
    (∃ l, bounded 0 l sys) ∨
    (∃ sch M, sys_tasks sys !! 0 = Some (Waiting (mkJob sch (Some M))) ∧
       SchedulerFacts.fresh sch ∧ greedy g [M]) ∨
    (∃ t, sys_tasks sys !! 0 = Some (Running t) ∧ tdescent t) ∨
    (∃ t, sys_tasks sys !! 0 = Some (Ending t) ∧ special t = true).

  Lemma untouched_or_lower shared :
    sinv adj g shared →
    (∃ l a, shared !! l = Some a ∧ (a < usize_max)%N) ∨ shared = replicate (n + 1) usize_max.
  Proof.
    intros Hsh. destruct (decide (Exists (λ a, (a < usize_max)%N) shared)) as [H|H].
    - left. apply Exists_exists in H as (a & [l Hl]%elem_of_list_lookup & Ha). by exists l, a.
    - right. symmetry. apply replicate_as_elem_of. split; [apply Hsh|].
      intros a Ha. rewrite Exists_exists in H. apply elem_of_list_lookup in Ha as [l Hl].
      pose proof (achieved_max adj g Hin _ _ _ (si_ach _ _ _ Hsh) Hl) as Hm.
      destruct (decide (a = usize_max)) as [?|Hne]; [done|]. destruct H. exists a.
      split; [by eapply elem_of_list_lookup_2|lia].
  Qed.

  Lemma merged_special sys t res best base e :
    sys_inv sys → ending adj g base (sys_best sys) t → valid_schedule g [e] →
    length best = n + 1 → res ≠ ∅ → best = best_leaf adj [e] (ss_best (t_search t)) →
    ∃ a, (Threaded.merge (sys_best sys) (sys_results sys) res best).1 !! 1 = Some a ∧ (a < usize_max)%N.
  Proof.
    intros Hsys Hen Hv Hl Hne ->. pose proof (sy_shared _ _ _ Hsys) as Hsh.
    assert (length (sys_best sys) = length (best_leaf adj [e] (ss_best (t_search t)))) as Hlb.
    { rewrite (si_length _ _ _ Hsh). done. }
    destruct (merge_spec (sys_best sys) (sys_results sys) res _ Hlb) as [-> _].
    rewrite decide_False by done.
    eapply (low_finite _ _ _ (cost [e])); [done| |apply (cost_lt_max adj g Hin)].
    apply (best_leaf_lookup adj); [|by apply (valid_length adj g Hin)|by right; left].
    apply (ti_ok _ _ _ _ _ (en_inv _ _ _ _ _ Hen)).
  Qed.

  Lemma alive_step bd nthreads acc smp sys e sys' :
    n ≤ 1000 → (∀ i, eager n (acc i)) →
    sys_inv sys → exec bd nthreads (Some (acc, smp)) sys e = Some (Val sys') →
    alive sys → alive sys'.
  Proof.
    intros H1000 Hacc Hsys He Hp.
    destruct (exec_sstep adj g Hin _ _ _ _ _ _ Hsys He) as (_ & [(sys1 & [= <-] & Hst)|[? _]]); [|done].
    destruct Hp as [[l Hp]|Hp]; [left; exists l; by eapply bounded_step|].
    assert (∀ i st sh res, i ≠ 0 → sys' = mkSystem (<[i := st]> (sys_tasks sys)) sh res → alive sys') as Hother.
    { intros i st sh res Hi ->. right. cbn [sys_tasks]. by rewrite list_lookup_insert_ne. }
    destruct Hst as [i j Ei|i fin t sh' t' stop Ei Hit|i t res best base Ei Hen Hei Hsp];
      (destruct (decide (i = 0)) as [->|Hi]; [|by eapply Hother]);
      assert (0 < length (sys_tasks sys)) as H0 by (by eapply lookup_lt_Some).
    - destruct Hp as [(sch & M & Hj & Hf & Hg)|[(t & Ht & _)|(t & Ht & _)]]; [|congruence..].
      assert (j = mkJob sch (Some M)) as -> by congruence.
      destruct (untouched_or_lower _ (sy_shared _ _ _ Hsys)) as [(l & a & Ha & Hlt)|Hall].
      + left. exists l. left. by exists a.
      + right; right; left. eexists. cbn [sys_tasks]. rewrite list_lookup_insert by done. split; [done|].
        split; cbn; done.
    - destruct (sy_tasks _ _ _ Hsys 0 _ Ei) as [base Hr].
      destruct Hp as [(sch & M & Hj & _)|[(t0 & Ht & Hd)|(t0 & Ht & _)]]; [congruence| |congruence].
      assert (t0 = t) as -> by congruence. clear Ht.
      cbn [exec] in He. rewrite Ei in He.
      destruct (task_iteration bd _ _ fin t) as [[[sh1 t1] stop1]|] eqn:Et; [|done].
      cbn [obind] in He. injection He as E1 E2.
      assert (t1 = t' ∧ stop1 = stop) as [-> ->].
      { apply (f_equal (.!! 0)) in E1. rewrite !list_lookup_insert in E1 by done.
        destruct stop1, stop; by simplify_eq. }
      destruct (descent_step _ _ _ _ _ _ _ _ _ _ H1000 (Hacc 0) Hr Hd Et)
        as (_ & [(-> & Hsp & _)|[(-> & Hd')|(-> & p & Hv & Hg & Hne & Hb)]]).
      + right; right; right. exists t'. cbn [sys_tasks]. by rewrite list_lookup_insert by done.
      + right; right; left. exists t'. cbn [sys_tasks]. by rewrite list_lookup_insert by done.
      + left. exists (length p). right. exists (Running t'), (t_search t'), (cost p). cbn [sys_tasks].
        rewrite list_lookup_insert by done. split; [done|]. split; [done|]. split; [done|].
        split; [done|]. apply (cost_lt_max adj g Hin).
    - destruct Hp as [(sch & M & Hj & _)|[(t0 & Ht & _)|(t0 & Ht & Et)]]; [congruence..|].
      assert (t0 = t) as -> by congruence. clear Ht. left. exists 1. left. cbn [sys_best].
      rewrite Et in Hsp. destruct Hsp as (e & -> & Ep & Hv & Er & Eb).
      eapply merged_special; [done|done|exact Hv|apply Hei|by rewrite Er; apply insert_non_empty|done].
  Qed.

  Lemma alive_steps bd nthreads acc smp es sys sys' :
    n ≤ 1000 → (∀ i, eager n (acc i)) →
    sys_inv sys → run_events bd nthreads (Some (acc, smp)) sys es = Some (Val sys') →
    alive sys → alive sys'.
  Proof.
    intros H1 H2. revert sys. induction es as [|e es IH]; intros sys Hsys; cbn [run_events].
    { by intros [= <-]. }
    destruct (exec _ _ _ sys e) as [[sys1|]|] eqn:E; [|done..]. intros H Hp.
    destruct (exec_sstep adj g Hin _ _ _ _ _ _ Hsys E) as (_ & [(sys2 & [= <-] & Hst)|[? _]]); [|done].
    eapply IH; [|exact H|by eapply alive_step]. by eapply sstep_inv.
  Qed.

  (** ** The fastest schedule *)
  Context (T : nat) (HT : ∀ σ, valid_schedule g σ → T ≤ length σ)
    (Hgreedy : ∀ p, valid_schedule g p → greedy g p → length p = T).

  (** The time of the fastest schedules is known to all, or will be. *)
  Definition promised (sys : System) : Prop :=
    bounded 0 T sys ∨
    (∃ t, sys_tasks sys !! 0 = Some (Running t) ∧ tdescent t) ∨
    (∃ t, sys_tasks sys !! 0 = Some (Ending t) ∧ special t = true ∧ T = 1).

  Lemma promised_step bd nthreads acc smp sys e sys' :
    n ≤ 1000 → (∀ i, eager n (acc i)) →
    sys_inv sys → exec bd nthreads (Some (acc, smp)) sys e = Some (Val sys') →
    promised sys → promised sys'.
  Proof.
    intros H1000 Hacc Hsys He Hp.
    destruct (exec_sstep adj g Hin _ _ _ _ _ _ Hsys He) as (_ & [(sys1 & [= <-] & Hst)|[? _]]); [|done].
    destruct Hp as [Hp|Hp]; [left; by eapply bounded_step|].
    pose proof (sy_shared _ _ _ Hsys) as Hsh.
    assert (∀ i st sh res, i ≠ 0 → sys' = mkSystem (<[i := st]> (sys_tasks sys)) sh res → promised sys') as Hother.
    { intros i st sh res Hi ->. right. cbn [sys_tasks]. by rewrite list_lookup_insert_ne. }
    destruct Hst as [i j Ei|i fin t sh' t' stop Ei Hit|i t res best base Ei Hen Hei Hsp];
      (destruct (decide (i = 0)) as [->|Hi]; [|by eapply Hother]).
    - destruct Hp as [(t & Ht & _)|(t & Ht & _)]; congruence.
    - assert (0 < length (sys_tasks sys)) as H0 by (by eapply lookup_lt_Some).
      destruct (sy_tasks _ _ _ Hsys 0 _ Ei) as [base Hr].
      destruct Hp as [(t0 & Ht & Hd)|(t0 & Ht & _)]; [|congruence].
      assert (t0 = t) as -> by congruence. clear Ht.
      cbn [exec] in He. rewrite Ei in He.
      destruct (task_iteration bd _ _ fin t) as [[[sh1 t1] stop1]|] eqn:Et; [|done].
      cbn [obind] in He. injection He as E1 E2.
      assert (t1 = t' ∧ stop1 = stop) as [-> ->].
      { apply (f_equal (.!! 0)) in E1. rewrite !list_lookup_insert in E1 by done.
        destruct stop1, stop; by simplify_eq. }
      destruct (descent_step _ _ _ _ _ _ _ _ _ _ H1000 (Hacc 0) Hr Hd Et)
        as (_ & [(-> & Hsp & e & Hv & Hg)|[(-> & Hd')|(-> & p & Hv & Hg & Hne & Hb)]]).
      + right; right. exists t'. cbn [sys_tasks]. rewrite list_lookup_insert by done. split; [done|].
        split; [done|]. by rewrite <- (Hgreedy [e] Hv Hg).
      + right; left. exists t'. cbn [sys_tasks]. by rewrite list_lookup_insert by done.
      + left; right. exists (Running t'), (t_search t'), (cost p). cbn [sys_tasks].
        rewrite list_lookup_insert by done. split; [done|]. split; [done|]. split; [done|].
        rewrite <- (Hgreedy p Hv Hg). split; [done|]. apply (cost_lt_max adj g Hin).
    - destruct Hp as [(t0 & Ht & _)|(t0 & Ht & Et & HT1)]; [congruence|].
      assert (t0 = t) as -> by congruence. clear Ht. left; left. cbn [sys_best].
      rewrite Et in Hsp. destruct Hsp as (e & -> & Ep & Hv & Er & Eb). rewrite HT1.
      eapply merged_special; [done|done|exact Hv|apply Hei|by rewrite Er; apply insert_non_empty|done].
  Qed.

  Lemma promised_steps bd nthreads acc smp es sys sys' :
    n ≤ 1000 → (∀ i, eager n (acc i)) →
    sys_inv sys → run_events bd nthreads (Some (acc, smp)) sys es = Some (Val sys') →
    promised sys → promised sys'.
  Proof.
    intros H1 H2. revert sys. induction es as [|e es IH]; intros sys Hsys; cbn [run_events].
    { by intros [= <-]. }
    destruct (exec _ _ _ sys e) as [[sys1|]|] eqn:E; [|done..]. intros H Hp.
    destruct (exec_sstep adj g Hin _ _ _ _ _ _ Hsys E) as (_ & [(sys2 & [= <-] & Hst)|[? _]]); [|done].
    eapply IH; [|exact H|by eapply promised_step]. by eapply sstep_inv.
  Qed.

  (** ** Before the first task starts *)

  (** No task has finished, none has reached an exchange. *)
  Definition quiet_until (k : nat → nat) (j : Job) (sys : System) : Prop :=
    sys_best sys = replicate (n + 1) usize_max ∧ sys_tasks sys !! 0 = Some (Waiting j) ∧
    ∀ i t, sys_tasks sys !! i = Some (Running t) → N.to_nat (t_counter t) ≤ k i.

  Lemma quiet_steps bd nthreads prob es j sys sys' k :
    run_events bd nthreads prob sys es = Some (Val sys') →
    (∀ i, EEnd i ∉ es) → EStart 0 ∉ es → (∀ i, k i + iterations i es ≤ 1000) → sys_inv sys →
    quiet_until k j sys → quiet_until (λ i, k i + iterations i es) j sys' ∧ sys_inv sys'.
  Proof.
    revert sys k. induction es as [|e es IH]; intros sys k; cbn [run_events].
    { intros [= <-] _ _ _ Hs (H1 & H2 & H3). split; [|done]. split; [done|]. split; [done|].
      intros i t Hi. specialize (H3 i t Hi). lia. }
    destruct (exec bd nthreads prob sys e) as [[sys1|]|] eqn:E; [|done..].
    intros H Hend Hstart Hk Hs (Q1 & Q2 & Q3).
    apply not_elem_of_cons in Hstart as [Hs0 Hstart].
    assert (∀ i, EEnd i ≠ e ∧ EEnd i ∉ es) as Hend'.
    { intros i. specialize (Hend i). apply not_elem_of_cons in Hend. done. }
    destruct (exec_sstep adj g Hin _ _ _ _ _ _ Hs E) as (_ & [(sys2 & [= <-] & Hst)|[? _]]); [|done].
    pose proof (sstep_inv adj g Hin _ _ _ _ Hs Hst) as [Hs' _].
    assert (∀ i, iterations i (e :: es) = (if is_iteration i e then 1 else 0) + iterations i es) as Hit.
    { intros i. unfold iterations. rewrite filter_cons. destruct (is_iteration i e) eqn:Ei.
      - by rewrite decide_True.
      - by rewrite decide_False. }
    destruct (IH sys1 (λ i, k i + if is_iteration i e then 1 else 0) H) as [(R1 & R2 & R3) R4].
    { apply Hend'. } { done. } { intros i. specialize (Hk i). rewrite Hit in Hk. lia. } { done. }
    - destruct Hst as [i jb Ei|i fin t sh' t' stop Ei (_ & r & Hrel & Hm)|i t res best base Ei Hen Hei Hsp].
      + split; [done|]. cbn. split.
        * rewrite list_lookup_insert_ne; [done|]. by intros ->.
        * intros i' t Hi'. destruct (decide (i = i')) as [<-|Hne].
          -- apply list_lookup_insert_Some in Hi' as [(_ & [= <-] & _)|[? _]]; [|done]. cbn. lia.
          -- rewrite list_lookup_insert_ne in Hi' by done. specialize (Q3 i' t Hi'). lia.
      + assert (i ≠ 0) as Hi0 by congruence. pose proof (Q3 i t Ei) as Hc.
        specialize (Hk i). rewrite Hit in Hk. cbn in Hk. rewrite Nat.eqb_refl in Hk.
        assert (t_counter t ≠ UPDATE_INTERVAL) as Hcn by (unfold UPDATE_INTERVAL; lia).
        assert (sh' = sys_best sys ∧ (N.to_nat (t_counter t') ≤ S (N.to_nat (t_counter t)))) as [-> Hct].
        { destruct r as [s|s]; [rewrite decide_False in Hm by done|]; destruct Hm as (-> & _ & -> & _); split; lia || done. }
        split; [done|]. cbn [sys_tasks]. split; [by rewrite list_lookup_insert_ne|].
        intros i' t1 Hi'. cbn. destruct (decide (i = i')) as [<-|Hne].
        * rewrite Nat.eqb_refl. apply list_lookup_insert_Some in Hi' as [(_ & Ht1 & _)|[? _]]; [|done].
          destruct stop; [done|]. injection Ht1 as <-. lia.
        * rewrite list_lookup_insert_ne in Hi' by done. specialize (Q3 i' t1 Hi'). lia.
      + by destruct (Hend' i) as [? _].
    - split; [|done]. split; [done|]. split; [done|]. intros i t Hi. specialize (R3 i t Hi).
      cbn in R3. rewrite Hit. lia.
  Qed.
End first.
