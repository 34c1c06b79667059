(** * The threaded search without exchange *)
From Verif Require Export ThreadedCover.

Lemma iterations_cons i e es :
  iterations i (e :: es) = (if is_iteration i e then 1 else 0) + iterations i es.
Proof.
  unfold iterations. destruct (is_iteration i e) eqn:E.
  - by rewrite filter_cons_True.
  - by rewrite filter_cons_False by (by rewrite E).
Qed.

Section exact.
  Context (adj : spacial) (g : order) (Hin : wf_input adj g).
  Notation n := (length adj).
  Notation cost := (cost adj).
  Notation best_leaf := (best_leaf adj).
  Notation iter_rel := (iter_rel adj g).
  Notation sound := (sound adj g).
  Notation sys_inv := (sys_inv adj g).
  Notation sstep := (sstep adj g).
  Notation ssteps := (ssteps adj g).

  (** Own results are not worse than what was known at the start. *)
  Definition news (start : list N) (res : MappedPaths) : Prop :=
    ∀ t m q b, res !! t = Some (m, q) → start !! t = Some b → (m <= b)%N.

  Lemma news_iter base rand start s r :
    ok adj g base s → books adj start s → news start (ss_results s) → iter_rel rand s r →
    news start (ss_results (match r with inl s' | inr s' => s' end)).
  Proof.
    intros [Hch Hlen] [_ Hs _ _ Hl] Hnw. destruct 1; simpl in *; try done.
    pose proof (legal_length adj g Hin _ (nd_legal _ _ _ _ (chain_node _ _ _ _ _ _ Hch))) as Hp.
    intros i m q b. rewrite lookup_insert_Some. intros [[<- [= <- <-]]|[_ Hr]] Hb; [|by eapply Hnw].
    destruct (lookup_lt_is_Some_2 best (length p)) as [c Hc]; [lia|].
    specialize (Hs _ c b Hc Hb). specialize (Hl H0 ltac:(done) c Hc). lia.
  Qed.

  (** The shared array and the shared results. *)
  Record fits (shared : list N) (results : MappedPaths) : Prop := {
    ft_wit : ∀ t a, shared !! t = Some a → a ≠ usize_max →
               ∃ t' q, t' ≤ t ∧ results !! t' = Some (a, q);
    ft_res : ∀ t a m q, results !! t = Some (m, q) → shared !! t = Some a → (a <= m)%N
  }.

  (** What a task brings along to its end. *)
  Record brings (start : list N) (res : MappedPaths) (best : list N) : Prop := {
    br_anti : antitone best;
    br_start : ∀ t a b, best !! t = Some a → start !! t = Some b → (a <= b)%N;
    br_wit : ∀ t a, best !! t = Some a →
               start !! t = Some a ∨ ∃ t' q, t' ≤ t ∧ res !! t' = Some (a, q);
    br_res : ∀ t a m q, best !! t = Some a → res !! t = Some (m, q) → (a <= m)%N;
    br_new : news start res
  }.

  Lemma fits_merge shared results start res best :
    length shared = n + 1 → length best = n + 1 → antitone shared → lower_eq shared start →
    sound results → sound res →
    fits shared results → brings start res best →
    fits (Threaded.merge shared results res best).1 (Threaded.merge shared results res best).2.
  Proof.
    intros Hsl Hbl Hanti [Hstl Hst] Hsd Hsd' [F1 F2] [B1 B2 B3 B4 B5].
    destruct (merge_spec shared results res best) as [E1 E2]; [lia|].
    rewrite E1. destruct (decide (res = ∅)) as [->|Hne].
    { assert (∀ k, (Threaded.merge shared results ∅ best).2 !! k = results !! k) as E3.
      { intros k. by rewrite E2, lookup_empty. }
      split.
      - intros t a Ha Hmax. setoid_rewrite E3. by apply F1.
      - intros t a m q. rewrite E3. apply F2. }
    (* the value of the merged result map *)
    assert (∀ k m q, res !! k = Some (m, q) → k ≤ n) as Hk.
    { intros k m q (Hv & <- & _)%Hsd'. by apply (valid_length adj g Hin). }
    assert (∀ k, k ≤ n → ∃ a, shared !! k = Some a) as Gs.
    { intros k ?. apply lookup_lt_is_Some_2. lia. }
    assert (∀ k, k ≤ n → ∃ a, best !! k = Some a) as Gb.
    { intros k ?. apply lookup_lt_is_Some_2. lia. }
    assert (∀ k, k ≤ n → ∃ a, start !! k = Some a) as Gst.
    { intros k ?. apply lookup_lt_is_Some_2. lia. }
    (* an own result that is the best own one is inserted *)
    assert (∀ t a s0 t' q, best !! t = Some a → shared !! t = Some s0 → (a <= s0)%N → t' ≤ t →
      res !! t' = Some (a, q) → (Threaded.merge shared results res best).2 !! t' = Some (a, q)) as Hown.
    { intros t a s0 t' q Hb Hs Hle Ht' Hr. pose proof (Hk _ _ _ Hr) as Ht'n.
      destruct (Gs t' Ht'n) as [s1 Hs1]. destruct (Gb t' Ht'n) as [b1 Hb1].
      rewrite E2, Hr, Hs1, Hb1. rewrite decide_True; [done|].
      pose proof (Hanti t' t s1 s0 Ht' Hs1 Hs). pose proof (B4 _ _ _ _ Hb1 Hr). lia. }
    split.
    - intros t x (s0 & b0 & Hs & Hb & ->)%low_lookup Hmax.
      assert (t ≤ n) as Htn. { apply lookup_lt_Some in Hs. lia. }
      destruct (N.lt_trichotomy b0 s0) as [Hlt|[Heq|Hgt]].
      + (* lowered: the entry is not the one of the start *)
        rewrite N.min_r in * by lia.
        destruct (B3 t b0 Hb) as [Hst0|(t' & q & Ht' & Hr)].
        { specialize (Hst t s0 b0 Hs Hst0). lia. }
        exists t', q. split; [done|]. eapply (Hown t b0 s0); [done|done|lia|done|done].
      + subst b0. rewrite N.min_id in *.
        destruct (B3 t s0 Hb) as [Hst0|(t' & q & Ht' & Hr)].
        2:{ exists t', q. split; [done|]. eapply (Hown t s0 s0); [done|done|lia|done|done]. }
        destruct (F1 t s0 Hs Hmax) as (t' & q & Ht' & Hr).
        assert (t' ≤ n) as Htn' by lia.
        destruct (Gs t' Htn') as [s1 Hs1]. destruct (Gb t' Htn') as [b1 Hb1].
        pose proof (Hanti t' t s1 s0 Ht' Hs1 Hs). pose proof (F2 t' s1 s0 q Hr Hs1).
        assert (s1 = s0) as -> by lia.
        pose proof (B1 t' t b1 s0 Ht' Hb1 Hb).
        destruct (res !! t') as [[m q']|] eqn:Er.
        * destruct (decide (b1 <= s0)%N) as [Hle|Hgt].
          -- assert (b1 = s0) as -> by lia.
             destruct (decide (m = s0)) as [->|Hne'].
             { exists t', q'. split; [done|]. rewrite E2, Er, Hs1, Hb1. by rewrite decide_True by lia. }
             destruct (B3 t' s0 Hb1) as [Hst1|(t'' & q'' & Ht'' & Hr'')].
             { pose proof (B5 _ _ _ _ Er Hst1). pose proof (B4 _ _ _ _ Hb1 Er). lia. }
             exists t'', q''. split; [lia|]. eapply (Hown t' s0 s0); [done|done|lia|done|done].
          -- exists t', q. split; [done|]. rewrite E2, Er, Hs1, Hb1. by rewrite decide_False.
        * exists t', q. split; [done|]. by rewrite E2, Er.
      + rewrite N.min_l in * by lia.
        destruct (F1 t s0 Hs Hmax) as (t' & q & Ht' & Hr).
        exists t', q. split; [done|]. rewrite E2. assert (t' ≤ n) as Htn' by lia.
        destruct (Gs t' Htn') as [s1 Hs1]. destruct (Gb t' Htn') as [b1 Hb1]. rewrite Hs1, Hb1.
        destruct (res !! t'); [|done]. rewrite decide_False; [done|].
        pose proof (B1 t' t b1 b0 Ht' Hb1 Hb). pose proof (F2 t' s1 s0 q Hr Hs1). lia.
    - intros t x m q. rewrite E2. intros Hr (s0 & b0 & Hs & Hb & ->)%low_lookup. rewrite Hs, Hb in Hr.
      destruct (res !! t) as [[m' q']|] eqn:Er.
      + destruct (decide (b0 <= s0)%N).
        * injection Hr as -> ->. pose proof (B4 _ _ _ _ Hb Er). lia.
        * pose proof (F2 _ _ _ _ Hr Hs). lia.
      + pose proof (F2 _ _ _ _ Hr Hs). lia.
  Qed.

  Record jinv (es : list event) (sys : System) : Prop := {
    j_task : ∀ i st s, sys_tasks sys !! i = Some st → search_of st = Some s →
      ∃ start, lower_eq (sys_best sys) start ∧ books adj start s ∧ news start (ss_results s);
    j_count : ∀ i st, sys_tasks sys !! i = Some st →
      match st with
      | Waiting _ => iterations i es ≤ 1000
      | Running t => N.to_nat (t_counter t) + iterations i es ≤ 1000
      | _ => True
      end;
    j_fits : fits (sys_best sys) (sys_results sys)
  }.

  Lemma special_brings base shared start t e :
    ending adj g base shared t → special t = true → valid_schedule g [e] →
    books adj start (t_search t) →
    brings start {[ 1 := (cost [e], [e]) ]} (best_leaf [e] (ss_best (t_search t))).
  Proof.
    intros He Hsp Hv [Ha Hs Hw _ _].
    pose proof (ok_best _ _ _ _ (ti_ok _ _ _ _ _ (en_inv _ _ _ _ _ He))) as Hlen.
    pose proof (ti_ach _ _ _ _ _ (en_inv _ _ _ _ _ He)) as Hach.
    pose proof (valid_length adj g Hin _ Hv) as Hp. simpl in Hp.
    apply special_spec in Hsp as [Hc0 Hi0].
    destruct (en_first _ _ _ _ _ He Hc0 Hi0) as (sch & bst & Es & _).
    assert (ss_results (t_search t) = ∅) as Hre by (by rewrite Es).
    set (best := ss_best (t_search t)) in *. clearbody best.
    assert (∀ i a, best !! i = Some a → start !! i = Some a) as Heq.
    { intros i a Hi. destruct (Hw i a Hi) as [?|(t' & q & _ & Hr)]; [done|].
      by rewrite Hre, lookup_empty in Hr. }
    destruct (lookup_lt_is_Some_2 best 1) as [c Hc]; [lia|].
    pose proof (achieved_single_le adj g Hin e best c Hv Hach Hc) as Hle.
    assert (∀ i a, best_leaf [e] best !! i = Some a → ∃ b, best !! i = Some b ∧ (a <= b)%N) as Hlow.
    { intros i a Hi. apply (best_leaf_lookup adj) in Hi; [|done|done].
      destruct Hi as [[_ Hi]|[[-> ->]|(_ & b & Hi & ->)]].
      - exists a. split; [done|lia].
      - by exists c.
      - exists b. split; [done|lia]. }
    split.
    - intros i j a b Hij Hi Hj.
      pose proof Hj as Hj'. apply (best_leaf_lookup adj) in Hi; [|done|done].
      apply (best_leaf_lookup adj) in Hj; [|done|done].
      destruct Hi as [[Hip Hi]|[[-> ->]|(Hip & b' & Hi & ->)]].
      + destruct (Hlow j b Hj') as (c' & Hc' & ?). specialize (Ha i j a c' Hij Hi Hc'). lia.
      + destruct Hj as [[? _]|[[-> ->]|(_ & c' & _ & ->)]]; lia.
      + destruct Hj as [[? _]|[[? _]|(_ & c' & Hc' & ->)]]; [lia|lia|].
        specialize (Ha i j b' c' Hij Hi Hc'). lia.
    - intros i a b Hi Hb. destruct (Hlow i a Hi) as (c' & Hc' & ?). specialize (Hs i c' b Hc' Hb). lia.
    - intros i a Hi. apply (best_leaf_lookup adj) in Hi; [|done|done].
      destruct Hi as [[_ Hi]|[[-> ->]|(Hi1 & b & Hi & ->)]].
      + left. by apply Heq.
      + right. exists 1, [e]. simpl. by rewrite lookup_singleton.
      + destruct (N.le_gt_cases b (cost [e])).
        * rewrite N.min_l by done. left. by apply Heq.
        * rewrite N.min_r by lia. right. exists 1, [e]. rewrite lookup_singleton. simpl in Hi1. split; [lia|done].
    - intros i a m q Hi [<- [= <- <-]]%lookup_singleton_Some. apply (best_leaf_lookup adj) in Hi; [|done|done].
      simpl in Hi. destruct Hi as [[? _]|[[_ ->]|(? & _)]]; lia.
    - intros i m q b [<- [= <- <-]]%lookup_singleton_Some Hb. rewrite (Heq 1 c Hc) in Hb. simplify_eq. done.
  Qed.

  Lemma jinv_step rand e es sys sys' :
    sys_inv sys → jinv (e :: es) sys → sstep rand sys e sys' → jinv es sys'.
  Proof.
    intros Hsys [J1 J2 J3] Hst.
    pose proof (sstep_inv adj g Hin _ _ _ _ Hsys Hst) as [Hsys' Hlow].
    destruct Hsys as [H1 H2 H3].
    (* the other tasks *)
    assert (∀ i st' shared' res',
      sys' = mkSystem (<[i := st']> (sys_tasks sys)) shared' res' →
      (∀ s, search_of st' = Some s →
         ∃ start, lower_eq shared' start ∧ books adj start s ∧ news start (ss_results s)) →
      match st' with
      | Waiting _ => iterations i es ≤ 1000
      | Running t => N.to_nat (t_counter t) + iterations i es ≤ 1000
      | _ => True
      end → fits shared' res' → jinv es sys') as Hgen.
    { intros i st' shared' res' -> Hb Hc Hf. split; simpl in *; [| |done].
      - intros k st s Hk Hs. destruct (decide (i = k)) as [<-|Hne].
        + apply list_lookup_insert_Some in Hk as [(_ & -> & _)|[? _]]; [by apply Hb|done].
        + rewrite list_lookup_insert_ne in Hk by done. destruct (J1 k st s Hk Hs) as (start & ? & ?).
          exists start. split; [by eapply lower_eq_trans|done].
      - intros k st Hk. destruct (decide (i = k)) as [<-|Hne].
        + apply list_lookup_insert_Some in Hk as [(_ & -> & _)|[? _]]; done.
        + rewrite list_lookup_insert_ne in Hk by done. specialize (J2 k st Hk).
          rewrite iterations_cons in J2. destruct st; [lia|lia|done|done]. }
    destruct Hst as [i j Ei|i fin t sh' t' stop Ei Hit|i t res best base Ei He Hei Hsp]; simpl in *.
    - eapply Hgen; [done| | |done].
      + intros s [= <-]. exists (sys_best sys). split; [apply lower_eq_refl|]. split.
        * unfold task_start, sweep_new. simpl.
          pose proof (si_anti _ _ _ H1) as Hanti. split; simpl; try done.
          -- intros k a b Ha Hb. simplify_eq. lia.
          -- auto.
        * intros k m q b Hr. simpl in Hr. by rewrite lookup_empty in Hr.
      + simpl. specialize (J2 i _ Ei). rewrite iterations_cons in J2. simpl in J2. lia.
    - destruct (H3 i _ Ei) as [base Hr]. destruct Hit as (Hi & r & Hit & Hm).
      destruct (J1 i _ _ Ei eq_refl) as (start & Hls & Hbk & Hnw).
      pose proof (ti_ok _ _ _ _ _ (rn_inv _ _ _ _ _ Hr)) as Hok.
      pose proof (iter_rel_books adj g Hin base _ _ _ _ Hok Hbk Hit) as Hbk'.
      pose proof (news_iter base _ _ _ _ Hok Hbk Hnw Hit) as Hnw'.
      pose proof (J2 i _ Ei) as Hc. simpl in Hc. rewrite iterations_cons in Hc. simpl in Hc.
      rewrite Nat.eqb_refl in Hc.
      set (s1 := match r with inl s | inr s => s end) in *.
      assert (sh' = sys_best sys ∧ t_search t' = s1 ∧
        (stop = false → t_counter t' = (t_counter t + 1)%N)) as (-> & Es & Hct).
      { subst s1. destruct r as [s|s].
        - case_decide as Hcc.
          + rewrite Hcc in Hc. unfold UPDATE_INTERVAL in Hc. lia.
          + destruct Hm as (-> & ? & ? & ->). done.
        - destruct Hm as (-> & ? & ? & ->). done. }
      eapply Hgen; [done| | |done].
      + intros s Hs. assert (s = s1) as -> by (destruct stop; simpl in Hs; congruence).
        exists start. done.
      + destruct stop; [done|]. rewrite Hct by done. lia.
    - destruct (J1 i _ _ Ei eq_refl) as (start & Hls & Hbk & Hnw).
      eapply Hgen; [done|done|done|].
      apply (fits_merge _ _ start); [apply H1|apply Hei|apply H1|done|done|apply Hei|done|].
      destruct (special t) eqn:Et.
      + destruct Hsp as (e & -> & Ep & Hv & -> & ->). by eapply special_brings.
      + destruct Hsp as [-> ->]. destruct Hbk. by split.
  Qed.

  Lemma jinv_steps rand es sys sys' :
    sys_inv sys → jinv es sys → ssteps rand sys es sys' → fits (sys_best sys') (sys_results sys').
  Proof.
    intros Hsys Hj Hst. induction Hst as [sys|sys e sys' es sys'' Hs _ IH]; [apply Hj|].
    apply IH; [by eapply sstep_inv|by eapply jinv_step].
  Qed.

  Lemma jinv_init es jobs :
    (∀ i, iterations i es ≤ 1000) → jinv es (system_init n jobs).
  Proof.
    intros Hes. split; simpl.
    - intros i st s Hi. rewrite list_lookup_fmap in Hi. destruct (jobs !! i); [|done]. by injection Hi as <-.
    - intros i st Hi. rewrite list_lookup_fmap in Hi. destruct (jobs !! i); [|done]. injection Hi as <-. apply Hes.
    - split.
      + intros t a [-> _]%lookup_replicate. done.
      + intros t a m q Hr. by rewrite lookup_empty in Hr.
  Qed.
End exact.
