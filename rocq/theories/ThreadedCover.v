(** * The threaded search: what has been covered at the end *)
From Verif Require Export SpawnFacts Executions.
From Verif Require Export Spec.

(** The search state of a task that has been started. *)
Definition search_of (st : Status) : option SearchState :=
  match st with Running t | Ending t => Some (t_search t) | _ => None end.

Section cover.
  Context (adj : spacial) (g : order) (Hin : wf_input adj g).
  Notation n := (length adj).
  Notation node := (node adj g).
  Notation cost := (cost adj).
  Notation best_leaf := (best_leaf adj).
  Notation iter_rel := (iter_rel adj g).
  Notation sound := (sound adj g).
  Notation covered := (covered adj).
  Notation tcover := (tcover adj).
  Notation sys_inv := (sys_inv adj g).
  Notation sstep := (sstep adj g).
  Notation ssteps := (ssteps adj g).
  Notation running := (running adj g).
  Notation ending := (ending adj g).
  Notation titer := (titer adj g).

  Definition scov (shared : list N) (st : Status) (σ : schedule) : Prop :=
    match st with
    | Waiting j =>
        pending σ (jbase j) [job_scheduler j] ∨
        (is_Some (job_measure j) ∧ mset (job_scheduler j) = [] ∧ same_schedule (jbase j) σ)
    | Running t =>
        tcover shared (t_search t) σ ∨
        (special t = true ∧ mset (current (ss_scheduler (t_search t))) = [] ∧
         same_schedule (ss_path (t_search t)) σ)
    | Ending t =>
        covered σ shared ∨ covered σ (ss_best (t_search t)) ∨
        (special t = true ∧ same_schedule (ss_path (t_search t)) σ)
    | Finished => covered σ shared
    end.

  Lemma scov_lower shared shared' st σ :
    lower_eq shared' shared → scov shared st σ → scov shared' st σ.
  Proof.
    intros Hl. pose proof (covered_lower adj σ _ _ Hl) as Hc. destruct st as [j|t|t|]; simpl; [done| | |done].
    - intros [H|H]; [left|by right]. by eapply tcover_lower.
    - intros [H|H]; [left|by right]. auto.
  Qed.

  Lemma special_spec t : special t = true ↔ t_counter t = 0%N ∧ t_initialized t = true.
  Proof. unfold special. rewrite andb_true_iff, N.eqb_eq. done. Qed.

  Lemma scov_iter base shared t shared' t' stop σ :
    sinv adj g shared → running base shared t → valid_schedule g σ →
    titer false false shared t shared' t' stop →
    scov shared (Running t) σ → scov shared' (if stop then Ending t' else Running t') σ.
  Proof.
    intros Hs Hr Hσ (Hi & r & Hit & Hm) [Hc|(Hsp & Em & Hp)].
    - pose proof (tcover_iter adj g Hin base shared _ _ σ (si_length _ _ _ Hs) (si_anti _ _ _ Hs)
        (rn_inv _ _ _ _ _ Hr) Hσ Hc Hit) as Hc'.
      destruct r as [s|s].
      + case_decide.
        * destruct Hm as (-> & Es & _ & ->). simpl. left. rewrite Es.
          apply tcover_exchange; [|done].
          pose proof (iter_rel_ok adj g base _ _ _ (ti_ok _ _ _ _ _ (rn_inv _ _ _ _ _ Hr)) Hit) as Hok.
          rewrite (ok_best _ _ _ _ Hok). apply Hs.
        * destruct Hm as (-> & Es & _ & ->). simpl. left. by rewrite Es.
      + destruct Hm as (-> & Es & _ & ->). simpl. rewrite Es. tauto.
    - pose proof Hsp as (Hc0 & Hi0)%special_spec.
      destruct (rn_first _ _ _ _ _ Hr Hc0 Hi0) as (sch & bst & Est & Hf).
      rewrite Est in *. simpl in *.
      assert (no_more sch) as Hno.
      { intros a b Hab. rewrite Hf, Em in Hab. by apply elem_of_list_singleton in Hab as [= -> ->]. }
      inversion Hit as [? ? ? ? _| | |? ? ? ? ? a b l ? ? Hit' Hb|? ? ? ? ? a b l ? ? Hit' Hb|
        ? ? ? ? ? a b l ? ? ? Hit' Hb]; subst;
        [|destruct Hb; apply (Hno a); rewrite Hit'; left..].
      destruct Hm as (-> & Es & Ec & ->). simpl. right; right. rewrite Es. simpl. split; [|done].
      apply special_spec. by rewrite Ec, Hi.
  Qed.

  Lemma scov_end shared results base t res best σ :
    sinv adj g shared → sound results → ending base shared t → einv adj g shared res best →
    valid_schedule g σ →
    (if special t
     then ∃ e, base = [e] ∧ ss_path (t_search t) = [e] ∧ valid_schedule g [e] ∧
          res = {[ 1 := (cost [e], [e]) ]} ∧ best = best_leaf [e] (ss_best (t_search t))
     else res = ss_results (t_search t) ∧ best = ss_best (t_search t)) →
    scov shared (Ending t) σ → covered σ (Threaded.merge shared results res best).1.
  Proof.
    intros Hs Hsd He Hei Hσ Hsp Hc.
    destruct (merge_inv adj g shared results res best Hs Hsd Hei) as (_ & _ & Hl1 & Hl2).
    destruct Hc as [Hc|Hc]; [exact (covered_lower adj σ _ _ Hl1 Hc)|].
    eapply covered_lower; [exact Hl2|].
    destruct (special t) eqn:Et.
    - destruct Hsp as (e & -> & Ep & Hv & -> & ->). rewrite Ep in Hc.
      pose proof (ok_best _ _ _ _ (ti_ok _ _ _ _ _ (en_inv _ _ _ _ _ He))) as Hb.
      pose proof (valid_length adj g Hin _ Hv) as Hp.
      intros a Ha. apply (best_leaf_lookup adj) in Ha; [|done|done].
      destruct Hc as [Hc|[_ Hc]].
      + destruct Ha as [[_ Ha]|[[Hl ->]|(_ & b & Hb' & ->)]].
        * by apply Hc.
        * pose proof (valid_single g e σ Hv Hσ) as Hsame. simpl in Hl.
          rewrite (cost_same adj _ _ (Hsame ltac:(lia))). lia.
        * specialize (Hc b Hb'). lia.
      + pose proof (same_schedule_length _ _ Hc) as Hl. rewrite <- (cost_same adj _ _ Hc).
        destruct Ha as [[? _]|[[_ ->]|(? & _)]]; lia.
    - destruct Hsp as [-> ->]. destruct Hc as [Hc|[? _]]; done.
  Qed.

  Definition gcov (sys : System) (σ : schedule) : Prop :=
    ∃ i st, sys_tasks sys !! i = Some st ∧ scov (sys_best sys) st σ.

  Lemma gcov_step sys e sys' σ :
    sys_inv sys → valid_schedule g σ → (∀ i fin, e = EIter i fin → fin = false) →
    sstep false sys e sys' → gcov sys σ → gcov sys' σ.
  Proof.
    intros Hsys Hσ Hto Hst (k & st & Hk & Hc).
    pose proof (sstep_inv adj g Hin _ _ _ _ Hsys Hst) as [Hsys' Hlow].
    destruct Hsys as [H1 H2 H3].
    assert (∀ i st' shared' res',
      sys' = mkSystem (<[i := st']> (sys_tasks sys)) shared' res' →
      (k = i → scov shared' st' σ) → gcov sys' σ) as Hgen.
    { intros i st' shared' res' -> Hi. simpl in *. destruct (decide (k = i)) as [->|Hne].
      - exists i, st'. split; [|auto]. simpl. apply list_lookup_insert. by eapply lookup_lt_Some.
      - exists k, st. simpl. split; [by rewrite list_lookup_insert_ne|]. by eapply scov_lower. }
    destruct Hst as [i j Ei|i fin t sh' t' stop Ei Hit|i t res best base Ei He Hei Hsp].
    - eapply Hgen; [done|]. intros ->. simplify_eq. simpl in Hc |- *. unfold sweep_new.
      destruct Hc as [Hc|(Hm & Em & Hp)].
      + left. right. right. left. exact Hc.
      + right. split; [|split; [done|exact Hp]]. apply special_spec. simpl. split; [done|].
        by destruct (job_measure j); [|destruct Hm].
    - rewrite (Hto i fin eq_refl) in Hit. eapply Hgen; [done|]. intros ->. simplify_eq.
      destruct (H3 i _ Ei) as [base Hr]. by eapply scov_iter.
    - eapply Hgen; [done|]. intros ->. simplify_eq. simpl. by eapply scov_end.
  Qed.

  Lemma gcov_steps sys es sys' σ :
    sys_inv sys → valid_schedule g σ → no_timeout es →
    ssteps false sys es sys' → gcov sys σ → gcov sys' σ.
  Proof.
    intros Hsys Hσ Hto Hst. induction Hst as [sys|sys e sys' es sys'' Hs _ IH]; [done|].
    intros Hc. apply IH.
    - by eapply sstep_inv.
    - intros i fin Hi. apply (Hto i). by right.
    - eapply gcov_step; [done|done| |done|done]. intros i fin ->. apply (Hto i). left.
  Qed.

  Lemma all_finished_spec sys : all_finished sys = true ↔ ∀ i st, sys_tasks sys !! i = Some st → st = Finished.
  Proof.
    unfold all_finished. rewrite forallb_forall. split.
    - intros H i st Hi. apply elem_of_list_lookup_2, elem_of_list_In in Hi. specialize (H st Hi).
      by destruct st.
    - intros H st Hst. apply elem_of_list_In, elem_of_list_lookup in Hst as [i Hi]. by rewrite (H i st Hi).
  Qed.

  Lemma gcov_finished sys σ : all_finished sys = true → gcov sys σ → covered σ (sys_best sys).
  Proof.
    rewrite all_finished_spec. intros Hf (i & st & Hi & Hc). rewrite (Hf i st Hi) in Hc. done.
  Qed.

  (** ** The shortest schedules *)
  Section shortest.
    Context (T : nat).

    (** Nobody has found anything shorter. *)
    Definition beyond (sys : System) : Prop :=
      (∀ l a, sys_best sys !! l = Some a → (a < usize_max)%N → T ≤ l) ∧
      ∀ i st s l, sys_tasks sys !! i = Some st → search_of st = Some s → is_Some (ss_results s !! l) → T ≤ l.

    (** An entry below the shared one comes from an own result. *)
    Definition own (shared : list N) (s : SearchState) : Prop :=
      ∀ b m, ss_best s !! T = Some b → shared !! T = Some m → b ≠ usize_max →
        is_Some (ss_results s !! T) ∨ (m <= b)%N.

    (** The task will insert a result of this length. *)
    Definition kwit (a : N) (s : SearchState) : Prop :=
      is_Some (ss_results s !! T) ∧ ∃ b, ss_best s !! T = Some b ∧ (b <= a)%N ∧
        (mset (current (ss_scheduler s)) = [] → stack (ss_scheduler s) ≠ [] →
         length (ss_path s) = T → (cost (ss_path s) < b)%N).

    Lemma own_lower shared shared' s : lower_eq shared' shared → own shared s → own shared' s.
    Proof.
      intros [Hl Hle] Ho b m' Hb Hm' Hne. destruct (lookup_lt_is_Some_2 shared T) as [m Hm].
      { rewrite <- Hl. by eapply lookup_lt_Some. }
      specialize (Hle T m' m Hm' Hm). destruct (Ho b m Hb Hm Hne); [by left|right; lia].
    Qed.

    Lemma own_iter base shared rand s r :
      tinv adj g base shared s → iter_rel rand s r →
      (∀ l, is_Some (ss_results (match r with inl s' | inr s' => s' end) !! l) → T ≤ l) →
      own shared s → own shared (match r with inl s' | inr s' => s' end).
    Proof.
      intros [[Hch Hlen] _ _ _ _ _] Hr HT Ho. destruct Hr; simpl in *; try done.
      pose proof (chain_node _ _ _ _ _ _ Hch) as Hn.
      pose proof (legal_length adj g Hin _ (nd_legal _ _ _ _ Hn)) as Hp.
      assert (valid_schedule g p) as Hv by (by eapply leaf_valid).
      intros b m Hb Hm Hne. simpl in *. apply (best_leaf_lookup adj) in Hb; [|done|done].
      destruct Hb as [[Hlt Hb]|[[-> ->]|(Hlt & _)]].
      - destruct (Ho b m Hb Hm Hne); [left|by right]. by rewrite lookup_insert_ne by lia.
      - left. by rewrite lookup_insert.
      - specialize (HT (length p)). rewrite lookup_insert in HT. specialize (HT ltac:(done)). lia.
    Qed.

    Lemma kwit_iter base shared rand a s r :
      tinv adj g base shared s → iter_rel rand s r →
      (∀ l, is_Some (ss_results (match r with inl s' | inr s' => s' end) !! l) → T ≤ l) →
      kwit a s → kwit a (match r with inl s' | inr s' => s' end).
    Proof.
      intros [[Hch Hlen] _ _ _ _ _] Hr HT (Hk & c & Hc & Hca & Hlf). destruct Hr; simpl in *.
      - split; [done|]. exists c. done.
      - split; [done|]. exists c. split; [done|]. split; [done|]. intros Em Hts _. simpl in *.
        pose proof (chain_node _ _ _ _ _ _ Hch) as Hn.
        apply chain_pop in Hch as (q & M & -> & -> & Hch').
        exfalso. eapply (mset_continue adj g q t M); [by eapply chain_node|apply Hn|done].
      - pose proof (chain_node _ _ _ _ _ _ Hch) as Hn.
        pose proof (legal_length adj g Hin _ (nd_legal _ _ _ _ Hn)) as Hp.
        assert (valid_schedule g p) as Hv by (by eapply leaf_valid).
        specialize (HT (length p)). rewrite lookup_insert in HT. specialize (HT ltac:(done)).
        assert (∃ c', best_leaf p best !! T = Some c' ∧ (c' <= c)%N) as (c' & Hc' & Hle).
        { destruct (decide (length p = T)) as [Heq|Hne].
          - exists (cost p). split.
            + apply (best_leaf_lookup adj); [done|done|]. right; left. done.
            + specialize (Hlf H0 ltac:(done) Heq). lia.
          - exists c. split; [|lia]. apply (best_leaf_lookup adj); [done|done|]. left. split; [lia|done]. }
        split; simpl.
        + destruct (decide (length p = T)) as [<-|Hne]; [by rewrite lookup_insert|].
          by rewrite lookup_insert_ne.
        + exists c'. split; [done|]. split; [lia|]. intros Em Hts _.
          apply chain_pop in Hch as (q & M & -> & -> & Hch').
          exfalso. eapply (mset_continue adj g q t M); [by eapply chain_node|apply Hn|done].
      - split; [done|]. exists c. split; [done|]. split; [done|]. simpl. intros Em Hst Hl.
        assert (min_length child p = length (p ++ [b])) as Eml.
        { destruct (min_length_cases adj g Hin p b child H1) as [(_ & _ & ->)|[(? & _)|(? & _)]]; [|done|done].
          rewrite app_length. done. }
        rewrite Eml, Hl in H3. simplify_eq. done.
      - split; [done|]. exists c. split; [done|]. split; [done|]. simpl. intros Em Hst Hl.
        exfalso. eapply (mset_continue adj g p cur b); [by eapply chain_node|apply H1|done].
      - split; [done|]. exists c. split; [done|]. split; [done|]. simpl. intros Em Hst Hl.
        exfalso. eapply (mset_continue adj g p cur b); [by eapply chain_node|apply H2|done].
    Qed.

    Record kinv (sys : System) : Prop := {
      k_own : ∀ i st s, sys_tasks sys !! i = Some st → search_of st = Some s → own (sys_best sys) s;
      k_wit : ∀ a, sys_best sys !! T = Some a → a ≠ usize_max →
        is_Some (sys_results sys !! T) ∨
        ∃ i st s, sys_tasks sys !! i = Some st ∧ search_of st = Some s ∧ kwit a s
    }.

    Lemma kwit_mono a a' s : (a <= a')%N → kwit a s → kwit a' s.
    Proof.
      intros Ha (Hk & b & Hb & Hba & Hl). split; [done|]. exists b. split; [done|]. split; [lia|done].
    Qed.

    Lemma kinv_step rand sys e sys' :
      sys_inv sys → beyond sys' → kinv sys → sstep rand sys e sys' → kinv sys'.
    Proof.
      intros Hsys [HT1 HT2] [K1 K2] Hst.
      pose proof (sstep_inv adj g Hin _ _ _ _ Hsys Hst) as [Hsys' Hlow].
      destruct Hsys as [H1 H2 H3].
      (* the invariant of the other tasks *)
      assert (∀ i st' shared' res',
        sys' = mkSystem (<[i := st']> (sys_tasks sys)) shared' res' →
        (∀ s, search_of st' = Some s → own shared' s) →
        ∀ k st s, <[i := st']> (sys_tasks sys) !! k = Some st → search_of st = Some s → own shared' s) as Hown.
      { intros i st' shared' res' -> Hi k st s Hk Hs. simpl in *. destruct (decide (i = k)) as [<-|Hne].
        - apply list_lookup_insert_Some in Hk as [(_ & -> & _)|[? _]]; [by apply Hi|done].
        - rewrite list_lookup_insert_ne in Hk by done. eapply own_lower; [exact Hlow|]. by eapply K1. }
      destruct Hst as [i j Ei|i fin t sh' t' stop Ei Hit|i t res best base Ei He Hei Hsp]; simpl in *.
      - split; simpl.
        + eapply Hown; [done|]. intros s [= <-] b m Hb Hm _. simpl in Hb. simplify_eq. right. lia.
        + intros a Ha Hne. destruct (K2 a Ha Hne) as [?|(k & st & s & Hk & Hs & Hw)]; [by left|right].
          destruct (decide (i = k)) as [<-|Hik]; [by simplify_eq|].
          exists k, st, s. by rewrite list_lookup_insert_ne.
      - destruct (H3 i _ Ei) as [base Hr]. destruct Hit as (Hi & r & Hit & Hm).
        set (st' := if stop then Ending t' else Running t').
        assert (search_of st' = Some (t_search t')) as Hst' by (by destruct stop).
        assert (i < length (sys_tasks sys)) as Hil by (by eapply lookup_lt_Some).
        pose proof (rn_inv _ _ _ _ _ Hr) as Hti.
        pose proof (tinv_iter adj g Hin base _ rand _ _ (si_length _ _ _ H1) Hti Hit) as Hti'.
        assert (own (sys_best sys) (t_search t)) as Ho by (by eapply K1).
        assert (∀ l, is_Some (ss_results (match r with inl s' | inr s' => s' end) !! l) → T ≤ l) as HT.
        { intros l Hl. apply (HT2 i st' (t_search t')); [by apply list_lookup_insert|done|].
          destruct r as [s|s]; [case_decide|]; destruct Hm as (_ & <- & _) || destruct Hm as (_ & -> & _); done. }
        pose proof (own_iter base _ rand _ _ Hti Hit HT Ho) as Ho'.
        assert (∀ a, kwit a (t_search t) → kwit a (match r with inl s | inr s => s end)) as Hw'.
        { intros a. by eapply kwit_iter. }
        set (s1 := match r with inl s | inr s => s end) in *.
        assert ((sh' = sys_best sys ∧ t_search t' = s1) ∨
                (sh' = low (sys_best sys) (ss_best s1) ∧ t_search t' = with_best s1 sh')) as Hcase.
        { subst s1. destruct r as [s|s]; [case_decide|]; naive_solver. }
        clear Hm. destruct Hcase as [[-> Es]|[-> Es]].
        + split; simpl.
          * eapply Hown; [done|]. intros s. rewrite Hst'. intros [= <-]. by rewrite Es.
          * intros a Ha Hne. destruct (K2 a Ha Hne) as [?|(k & st & s & Hk & Hs & Hw)]; [by left|right].
            destruct (decide (i = k)) as [<-|Hik].
            -- exists i, st', s1. split; [by apply list_lookup_insert|]. split; [by rewrite Hst', Es|].
               rewrite Ei in Hk. simplify_eq. simpl in Hs. simplify_eq. auto.
            -- exists k, st, s. by rewrite list_lookup_insert_ne.
        + pose proof (ok_best _ _ _ _ (ti_ok _ _ _ _ _ Hti')) as Hb1.
          pose proof (si_length _ _ _ H1) as Hsl.
          split; simpl.
          * eapply Hown; [done|]. intros s. rewrite Hst'. intros [= <-]. rewrite Es.
            intros b m Hb Hm _. simpl in Hb. simplify_eq. right. lia.
          * intros a Ha Hne. apply low_lookup in Ha as (m & b & Hm & Hb & ->).
            destruct (N.lt_ge_cases b m) as [Hlt|Hge].
            -- (* this task lowers the shared entry *)
               rewrite N.min_r in * by lia. right. exists i, st', (t_search t').
               split; [by apply list_lookup_insert|]. split; [done|]. rewrite Es. split; simpl.
               ++ destruct (Ho' b m Hb Hm Hne); [done|lia].
               ++ exists b. split; [apply low_lookup; exists m, b; split; [done|]; split; [done|lia]|].
                  split; [lia|]. intros Em Hs Hl.
                  destruct (ti_leaf _ _ _ _ _ Hti' Em Hs b m); [by rewrite Hl|by rewrite Hl|done|lia].
            -- rewrite N.min_l in * by lia.
               destruct (K2 m Hm Hne) as [?|(k & st & s & Hk & Hs & Hw)]; [by left|right].
               destruct (decide (i = k)) as [<-|Hik].
               ++ exists i, st', (t_search t'). split; [by apply list_lookup_insert|]. split; [done|].
                  rewrite Ei in Hk. simplify_eq. simpl in Hs. simplify_eq.
                  destruct (Hw' _ Hw) as (Hk1 & c & Hc & Hcm & Hlf).
                  assert (c = b) as -> by congruence.
                  rewrite Es. split; [done|]. exists b. simpl. split; [|split; [done|done]].
                  apply low_lookup. exists m, b. split; [done|]. split; [done|]. lia.
               ++ exists k, st, s. by rewrite list_lookup_insert_ne.
      - pose proof (en_inv _ _ _ _ _ He) as Hti.
        pose proof (ok_best _ _ _ _ (ti_ok _ _ _ _ _ Hti)) as Hb1.
        pose proof (si_length _ _ _ H1) as Hsl.
        assert (length (sys_best sys) = length best) as Hlb by (rewrite (ei_length _ _ _ _ _ Hei); done).
        destruct (merge_spec (sys_best sys) (sys_results sys) res best Hlb) as [E1 E2].
        (* this task counts only while it can still insert its result *)
        assert (∀ m b, sys_best sys !! T = Some m → best !! T = Some b → (b <= m)%N → b ≠ usize_max →
          res !! T = None → m = b ∧ ∀ a, ¬ kwit a (t_search t)) as Hno.
        { intros m b Hm Hb Hle Hne Hres. destruct (special t) eqn:Et.
          - destruct Hsp as (e & -> & Ep & Hv & -> & ->).
            destruct (en_first _ _ _ _ _ He) as (sch & bst & Es & _); [by apply special_spec in Et; tauto..|].
            assert (ss_results (t_search t) = ∅) as Hre by (by rewrite Es).
            apply lookup_singleton_None in Hres.
            assert (T ≤ 1) as HTe.
            { destruct (lookup_lt_is_Some_2 (sys_best sys) 1) as [x Hx].
              { rewrite Hsl. pose proof (valid_length adj g Hin _ Hv). simpl in *. lia. }
              apply (HT1 1 (N.min x (cost [e]))).
              - rewrite E1, decide_False by apply insert_non_empty. apply low_lookup.
                exists x, (cost [e]). split; [done|]. split; [|done].
                apply (best_leaf_lookup adj); [done|by apply (valid_length adj g Hin)|by right; left].
              - pose proof (cost_lt_max adj g Hin [e]). lia. }
            simpl in Hres.
            assert (T = 0) as HT0 by lia.
            apply (best_leaf_lookup adj) in Hb; [|done|by apply (valid_length adj g Hin)].
            destruct Hb as [[_ Hb]|[[? _]|(? & _)]]; [|simpl in *; lia|simpl in *; lia].
            destruct (K1 i _ _ Ei eq_refl b m Hb Hm Hne) as [[? Hk]|?].
            + by rewrite Hre, lookup_empty in Hk.
            + split; [lia|]. intros a [[? Hk] _]. by rewrite Hre, lookup_empty in Hk.
          - destruct Hsp as [-> ->]. destruct (K1 i _ _ Ei eq_refl b m Hb Hm Hne) as [[? ?]|?]; [congruence|].
            split; [lia|]. intros a [[? Hk] _]. congruence. }
        assert (∀ m, sys_best sys !! T = Some m → kwit m (t_search t) → is_Some (res !! T) ∧
          ∀ b, best !! T = Some b → (b <= m)%N) as Hins.
        { intros m Hm (Hk & c & Hc & Hcm & _). destruct (special t) eqn:Et.
          - destruct (en_first _ _ _ _ _ He) as (sch & bst & Es & _); [by apply special_spec in Et; tauto..|].
            rewrite Es in Hk. simpl in Hk. destruct Hk as [? Hk]. by rewrite lookup_empty in Hk.
          - destruct Hsp as [-> ->]. split; [done|]. intros b Hb. by simplify_eq. }
        assert (is_Some (sys_results sys !! T) → is_Some ((Threaded.merge (sys_best sys) (sys_results sys) res best).2 !! T))
          as Hkeep.
        { intros Hr. rewrite E2. destruct (res !! T); [|done]. destruct (sys_best sys !! T) as [x|]; [|done].
          destruct (best !! T) as [y|]; [|done]. by destruct (decide (y <= x)%N). }
        split; simpl.
        + eapply Hown; [done|]. done.
        + intros a Ha Hne.
          destruct (lookup_lt_is_Some_2 (sys_best sys) T) as [m Hm].
          { rewrite <- (proj1 Hlow). by eapply lookup_lt_Some. }
          destruct (lookup_lt_is_Some_2 best T) as [b Hb].
          { rewrite <- Hlb. by eapply lookup_lt_Some. }
          pose proof (achieved_max adj g Hin _ _ _ (si_ach _ _ _ H1) Hm) as Hmm.
          destruct (decide (b <= m)%N) as [Hle|Hgt].
          * destruct (res !! T) as [r'|] eqn:Er.
            { left. rewrite E2, Er, Hm, Hb, decide_True; done. }
            assert (a = m ∧ ∀ a, ¬ kwit a (t_search t)) as [-> Hnk].
            { rewrite E1 in Ha. destruct (decide (res = ∅)) as [Hemp|_].
              - assert (a = m) as -> by congruence. split; [done|].
                destruct (Hno m b Hm Hb Hle) as [_ Hnk]; [intros ->; apply Hne; lia| |exact Hnk].
                done.
              - apply low_lookup in Ha as (m' & b' & Hm' & Hb' & ->).
                assert (m' = m) as -> by congruence. assert (b' = b) as -> by congruence.
                rewrite N.min_r in * by lia. destruct (Hno m b Hm Hb Hle Hne eq_refl). by subst. }
            destruct (K2 m Hm Hne) as [?|(k & st & s & Hk & Hs & Hw)]; [left; auto|right].
            destruct (decide (i = k)) as [<-|Hik].
            { rewrite Ei in Hk. simplify_eq. simpl in Hs. simplify_eq. by destruct (Hnk m). }
            exists k, st, s. by rewrite list_lookup_insert_ne.
          * assert (a = m) as ->.
            { rewrite E1 in Ha. destruct (decide (res = ∅)); [by simplify_eq|].
              apply low_lookup in Ha as (m' & b' & Hm' & Hb' & ->). simplify_eq. lia. }
            destruct (K2 m Hm Hne) as [?|(k & st & s & Hk & Hs & Hw)]; [left; auto|right].
            destruct (decide (i = k)) as [<-|Hik].
            { rewrite Ei in Hk. simplify_eq. simpl in Hs. simplify_eq.
              destruct (Hins m Hm Hw) as [_ Hbm]. by specialize (Hbm b Hb). }
            exists k, st, s. by rewrite list_lookup_insert_ne.
    Qed.

    Lemma valid_beyond sys :
      (∀ σ, valid_schedule g σ → T ≤ length σ) → sys_inv sys → beyond sys.
    Proof.
      intros HT Hsys. split.
      - intros l a Ha Hlt. destruct (si_ach _ _ _ (sy_shared _ _ _ Hsys) l a Ha) as [->|(σ & Hσ & Hl & _)]; [lia|].
        specialize (HT σ Hσ). lia.
      - intros i st s l Hi Hs [[m q] Hl].
        assert (sound (ss_results s)) as Hsd.
        { pose proof (sy_tasks _ _ _ Hsys i st Hi) as Hst. destruct st as [j|t|t|]; simpl in *; [done| | |done];
            injection Hs as <-; destruct Hst as [base [Hti _ _]]; apply Hti. }
        destruct (Hsd l m q Hl) as (Hq & <- & _). by apply HT.
    Qed.

    Lemma kinv_steps rand sys es sys' :
      (∀ σ, valid_schedule g σ → T ≤ length σ) →
      sys_inv sys → kinv sys → ssteps rand sys es sys' → kinv sys'.
    Proof.
      intros HT Hsys Hk Hst. induction Hst as [sys|sys e sys' es sys'' Hs _ IH]; [done|].
      pose proof (sstep_inv adj g Hin _ _ _ _ Hsys Hs) as [Hsys' _].
      apply IH; [done|]. apply (kinv_step rand sys e); [done|by apply valid_beyond|done|done].
    Qed.

    Lemma kinv_init jobs : kinv (system_init n jobs).
    Proof.
      split; simpl.
      - intros i st s Hi. rewrite list_lookup_fmap in Hi. destruct (jobs !! i); [|done]. by injection Hi as <-.
      - intros a [-> _]%lookup_replicate. done.
    Qed.

    Lemma kinv_finished sys a :
      all_finished sys = true → kinv sys → sys_best sys !! T = Some a → a ≠ usize_max →
      is_Some (sys_results sys !! T).
    Proof.
      rewrite all_finished_spec. intros Hf [_ K2] Ha Hne.
      destruct (K2 a Ha Hne) as [?|(i & st & s & Hi & Hs & _)]; [done|].
      by rewrite (Hf i st Hi) in Hs.
    Qed.
  End shortest.
End cover.
