(** * The results of the tasks of the threaded search, exchanges included *)
From Verif Require Export ThreadedExact Contributions.
From Verif Require Export Spec.

Section union.
  Context (adj : spacial) (g : order) (Hin : wf_input adj g).
  Notation n := (length adj).
  Notation cost := (cost adj).
  Notation best_leaf := (best_leaf adj).
  Notation iter_rel := (iter_rel adj g).
  Notation sound := (sound adj g).
  Notation sys_inv := (sys_inv adj g).
  Notation sstep := (sstep adj g).
  Notation ssteps := (ssteps adj g).

  (** ** One task *)

  Record linv (s : SearchState) : Prop := {
    li_res : ∀ t a m q, ss_best s !! t = Some a → ss_results s !! t = Some (m, q) → (a <= m)%N;
    li_leaf : mset (current (ss_scheduler s)) = [] → stack (ss_scheduler s) ≠ [] →
      ∀ m q, ss_results s !! length (ss_path s) = Some (m, q) → (cost (ss_path s) < m)%N
  }.

  (** Every result is kept or replaced by a better one. *)
  Definition improves (new old : MappedPaths) : Prop :=
    ∀ t m q, old !! t = Some (m, q) → ∃ m' q', new !! t = Some (m', q') ∧ (m' <= m)%N.

  Lemma improves_refl r : improves r r.
  Proof. intros t m q H. exists m, q. split; [done|lia]. Qed.

  Lemma linv_iter base rand s r :
    ok adj g base s → linv s → iter_rel rand s r →
    let s' := match r with inl s' | inr s' => s' end in
    linv s' ∧ improves (ss_results s') (ss_results s) ∧
    ∀ t a, ss_best s' !! t = Some a →
      ss_best s !! t = Some a ∨ ∃ t' q, t' ≤ t ∧ ss_results s' !! t' = Some (a, q).
  Proof.
    intros [Hch Hlen] [L1 L2] Hr. destruct Hr; cbv zeta; simpl in *.
    - split; [by split|]. split; [apply improves_refl|]. by left.
    - split; [|split; [apply improves_refl|by left]]. split; simpl; [done|].
      intros Em Hts. pose proof (chain_node _ _ _ _ _ _ Hch) as Hn.
      apply chain_pop in Hch as (q & M & -> & -> & Hch').
      exfalso. eapply (mset_continue adj g q t M); [by eapply chain_node|apply Hn|done].
    - pose proof (chain_node _ _ _ _ _ _ Hch) as Hn.
      pose proof (legal_length adj g Hin _ (nd_legal _ _ _ _ Hn)) as Hp.
      split; [split; simpl|split].
      + intros i a m q Hi. apply (best_leaf_lookup adj) in Hi; [|done|done].
        rewrite lookup_insert_Some. intros [[<- [= <- <-]]|[Hne Hres]].
        * destruct Hi as [[? _]|[[_ ->]|[? _]]]; lia.
        * destruct Hi as [[_ Hi]|[[? _]|(_ & b & Hi & ->)]]; [by eapply L1|done|].
          specialize (L1 _ _ _ _ Hi Hres). lia.
      + intros Em Hts. exfalso. apply chain_pop in Hch as (q & M & -> & _ & Hch').
        eapply (mset_continue adj g q t M); [by eapply chain_node|apply Hn|done].
      + intros i m q Hi. destruct (decide (i = length p)) as [->|Hne].
        * exists (cost p), p. rewrite lookup_insert. split; [done|].
          specialize (L2 H0 ltac:(done) _ _ Hi). lia.
        * exists m, q. rewrite lookup_insert_ne by done. split; [done|lia].
      + intros i a Hi. apply (best_leaf_lookup adj) in Hi; [|done|done].
        destruct Hi as [[_ Hi]|[[-> ->]|(Hi1 & b & Hi & ->)]]; [by left| |].
        * right. exists (length p), p. rewrite lookup_insert. done.
        * destruct (N.le_gt_cases b (cost p)).
          -- left. by rewrite N.min_l.
          -- right. rewrite N.min_r by lia. exists (length p), p. rewrite lookup_insert.
             split; [lia|done].
    - split; [|split; [apply improves_refl|by left]]. split; simpl; [done|].
      intros Em Hst m' q Hres.
      assert (min_length child p = length (p ++ [b])) as Eml.
      { destruct (min_length_cases adj g Hin p b child H1) as [(_ & _ & ->)|[(? & _)|(? & _)]]; [|done|done].
        rewrite app_length. done. }
      rewrite Eml in H3. specialize (L1 _ _ _ _ H3 Hres). lia.
    - split; [|split; [apply improves_refl|by left]]. split; simpl; [done|].
      intros Em. exfalso. destruct (H1) as [? ?].
      eapply (mset_continue adj g p cur b); [by eapply chain_node|apply H1|done].
    - split; [|split; [apply improves_refl|by left]]. split; simpl; [done|].
      intros Em. exfalso.
      eapply (mset_continue adj g p cur b); [by eapply chain_node|apply H2|done].
  Qed.

  Lemma linv_lower s best : lower_eq best (ss_best s) → linv s → linv (with_best s best).
  Proof.
    intros [Hl Hle] [L1 L2]. split; simpl; [|done]. intros t a m q Ha Hr.
    destruct (lookup_lt_is_Some_2 (ss_best s) t) as [b Hb].
    { rewrite <- Hl. by eapply lookup_lt_Some. }
    specialize (L1 _ _ _ _ Hb Hr). specialize (Hle _ _ _ Ha Hb). lia.
  Qed.

  (** ** All tasks *)

  (** A result that is at least as good is in [fs] or in a task that has not ended. *)
  Definition held (tasks : list Status) (fs : list MappedPaths) (t : nat) (a : N) : Prop :=
    ∃ t' m q, t' ≤ t ∧ (m <= a)%N ∧
      ((∃ r, r ∈ fs ∧ r !! t' = Some (m, q)) ∨
       ∃ i st s, tasks !! i = Some st ∧ search_of st = Some s ∧ ss_results s !! t' = Some (m, q)).

  Definition known (tasks : list Status) (fs : list MappedPaths) (best : list N) : Prop :=
    ∀ t a, best !! t = Some a → a ≠ usize_max → held tasks fs t a.

  Record uinv (sys : System) (fs : list MappedPaths) : Prop := {
    u_shared : known (sys_tasks sys) fs (sys_best sys);
    u_task : ∀ i st s, sys_tasks sys !! i = Some st → search_of st = Some s →
      linv s ∧ known (sys_tasks sys) fs (ss_best s);
    u_sound : ∀ r, r ∈ fs → sound r
  }.

  (** Task [i] changes, what it had is not lost. *)
  Lemma held_step tasks fs i st' fs' t a :
    (∀ r, r ∈ fs → r ∈ fs') →
    (∀ st s, tasks !! i = Some st → search_of st = Some s →
       (∃ s', search_of st' = Some s' ∧ improves (ss_results s') (ss_results s)) ∨
       ∃ r, r ∈ fs' ∧ improves r (ss_results s)) →
    held tasks fs t a → held (<[i := st']> tasks) fs' t a.
  Proof.
    intros Hfs Hi (t' & m & q & Ht & Hm & [(r & Hr & Hrt)|(k & st & s & Hk & Hs & Hr)]).
    - exists t', m, q. split; [done|]. split; [done|]. left. exists r. split; [auto|done].
    - destruct (decide (k = i)) as [->|Hne].
      + destruct (Hi st s Hk Hs) as [(s' & Hs' & Him)|(r & Hr' & Him)];
          destruct (Him _ _ _ Hr) as (m' & q' & Hr'' & Hle); exists t', m', q'; (split; [done|]);
          (split; [lia|]).
        * right. exists i, st', s'. split; [|done]. apply list_lookup_insert. by eapply lookup_lt_Some.
        * left. by exists r.
      + exists t', m, q. split; [done|]. split; [done|]. right. exists k, st, s.
        by rewrite list_lookup_insert_ne.
  Qed.

  Lemma known_low tasks fs a b : known tasks fs a → known tasks fs b → known tasks fs (low a b).
  Proof.
    intros Ha Hb t x (y & z & Hy & Hz & ->)%low_lookup Hmax.
    destruct (N.le_gt_cases y z).
    - rewrite N.min_l in * by done. by apply Ha.
    - rewrite N.min_r in * by lia. by apply Hb.
  Qed.

  (** Results that are brought along by an event. *)
  Definition brought (sys : System) (e : event) (fs : list MappedPaths) : Prop :=
    match e with
    | EEnd i => ∃ t res best, sys_tasks sys !! i = Some (Ending t) ∧ task_end t = Val (res, best) ∧ fs = [res]
    | _ => fs = []
    end.

  Lemma uinv_step rand sys e sys' fs new :
    sys_inv sys → uinv sys fs → sstep rand sys e sys' → brought sys e new → uinv sys' (fs ++ new).
  Proof.
    intros Hsys [U1 U2 U3] Hst Hbr.
    destruct Hsys as [H1 H2 H3].
    assert (∀ i st' shared' res',
      sys' = mkSystem (<[i := st']> (sys_tasks sys)) shared' res' →
      (∀ st s, sys_tasks sys !! i = Some st → search_of st = Some s →
         (∃ s', search_of st' = Some s' ∧ improves (ss_results s') (ss_results s)) ∨
         ∃ r, r ∈ fs ++ new ∧ improves r (ss_results s)) →
      known (<[i := st']> (sys_tasks sys)) (fs ++ new) shared' →
      (∀ s, search_of st' = Some s →
         linv s ∧ known (<[i := st']> (sys_tasks sys)) (fs ++ new) (ss_best s)) →
      (∀ r, r ∈ new → sound r) → uinv sys' (fs ++ new)) as Hgen.
    { intros i st' shared' res' -> Hi Hsh Hs Hsd. split; simpl; [done| |].
      - intros k st s Hk Hks. destruct (decide (i = k)) as [<-|Hne].
        + apply list_lookup_insert_Some in Hk as [(_ & -> & _)|[? _]]; [by apply Hs|done].
        + rewrite list_lookup_insert_ne in Hk by done. destruct (U2 k st s Hk Hks) as [Hl Hkn].
          split; [done|]. intros t a Ha Hmax. eapply held_step; [| |by apply Hkn].
          * intros r Hr. apply elem_of_app. by left.
          * done.
      - intros r [Hr|Hr]%elem_of_app; auto. }
    assert (∀ i st' best, (∀ st s, sys_tasks sys !! i = Some st → search_of st = Some s →
         (∃ s', search_of st' = Some s' ∧ improves (ss_results s') (ss_results s)) ∨
         ∃ r, r ∈ fs ++ new ∧ improves r (ss_results s)) →
       known (sys_tasks sys) fs best → known (<[i := st']> (sys_tasks sys)) (fs ++ new) best) as Hkeep.
    { intros i st' best Hi Hk t a Ha Hmax. eapply held_step; [|exact Hi|by apply Hk].
      intros r Hr. apply elem_of_app. by left. }
    destruct Hst as [i j Ei|i fin t sh' t' stop Ei Hit|i t res best base Ei He Hei Hsp]; simpl in Hbr.
    - subst new.
      assert (∀ st s, sys_tasks sys !! i = Some st → search_of st = Some s →
         (∃ s', search_of (Running (task_start (sys_best sys) j)) = Some s' ∧
            improves (ss_results s') (ss_results s)) ∨
         ∃ r, r ∈ fs ++ [] ∧ improves r (ss_results s)) as Hi.
      { intros st s Hst Hs. rewrite Ei in Hst. injection Hst as <-. done. }
      eapply Hgen; [done|exact Hi|by apply Hkeep| |].
      + intros s [= <-]. unfold task_start, sweep_new. simpl. split.
        * split; simpl; [|done]. intros k a m q _ Hr. by rewrite lookup_empty in Hr.
        * apply (Hkeep i _ (sys_best sys) Hi U1).
      + intros r Hr. by apply elem_of_nil in Hr.
    - subst new. destruct (H3 i _ Ei) as [base Hr]. destruct Hit as (Hi & r & Hit & Hm).
      destruct (U2 i _ _ Ei eq_refl) as [Hl Hk].
      pose proof (ti_ok _ _ _ _ _ (rn_inv _ _ _ _ _ Hr)) as Hok.
      destruct (linv_iter base _ _ _ Hok Hl Hit) as (Hl' & Him & Hw).
      pose proof (iter_rel_ok adj g base _ _ _ Hok Hit) as Hok'.
      set (s1 := match r with inl s | inr s => s end) in *.
      assert (length (sys_best sys) = length (ss_best s1)) as Hlen.
      { rewrite (ok_best _ _ _ _ Hok'). apply H1. }
      assert (∃ s2, search_of (if stop then Ending t' else Running t') = Some s2 ∧
        ss_results s2 = ss_results s1 ∧
        (sh' = sys_best sys ∧ s2 = s1 ∨
         sh' = low (sys_best sys) (ss_best s1) ∧ s2 = with_best s1 sh')) as (s2 & E2 & Er & Hcase).
      { exists (t_search t'). split; [by destruct stop|]. subst s1. destruct r as [s|s].
        - case_decide.
          + destruct Hm as (-> & -> & _). split; [done|]. by right.
          + destruct Hm as (-> & -> & _). split; [done|]. by left.
        - destruct Hm as (-> & -> & _). split; [done|]. by left. }
      assert (∀ st s, sys_tasks sys !! i = Some st → search_of st = Some s →
         (∃ s', search_of (if stop then Ending t' else Running t') = Some s' ∧
            improves (ss_results s') (ss_results s)) ∨
         ∃ r, r ∈ fs ++ [] ∧ improves r (ss_results s)) as Hi'.
      { intros st s Hst Hs. rewrite Ei in Hst. injection Hst as <-. simpl in Hs. injection Hs as <-.
        left. exists s2. split; [done|]. by rewrite Er. }
      set (st' := if stop then Ending t' else Running t') in *.
      pose proof (Hkeep i st' _ Hi' U1) as K1. pose proof (Hkeep i st' _ Hi' Hk) as K2.
      assert (known (<[i := st']> (sys_tasks sys)) (fs ++ []) (ss_best s1)) as K3.
      { intros k a Ha Hmax. destruct (Hw k a Ha) as [Ha'|(k' & q & Hk' & Hres)]; [by apply K2|].
        exists k', a, q. split; [done|]. split; [lia|]. right. exists i, st', s2. rewrite Er.
        split; [|done]. apply list_lookup_insert. by eapply lookup_lt_Some. }
      assert (known (<[i := st']> (sys_tasks sys)) (fs ++ []) sh' ∧ linv s2 ∧
              known (<[i := st']> (sys_tasks sys)) (fs ++ []) (ss_best s2)) as (K4 & K5 & K6).
      { destruct Hcase as [[-> ->]|[-> ->]]; [done|].
        pose proof (known_low _ _ _ _ K1 K3) as K4. split; [done|]. split; [|done].
        apply linv_lower; [|done]. by apply low_lower_r. }
      eapply Hgen; [done|exact Hi'|done| |].
      + intros s Hs. rewrite E2 in Hs. by injection Hs as <-.
      + intros r' Hr'. by apply elem_of_nil in Hr'.
    - destruct Hbr as (t2 & res2 & best2 & Ei2 & Ee & ->).
      rewrite Ei in Ei2. injection Ei2 as <-.
      destruct (task_end_spec adj g Hin base (sys_best sys) t (si_length _ _ _ H1) He)
        as (res3 & best3 & Ee3 & _ & Hsp3).
      rewrite Ee in Ee3. injection Ee3 as <- <-.
      assert (res2 = res ∧ best2 = best) as [-> ->].
      { destruct (special t).
        - destruct Hsp as (e & _ & Ep & _ & -> & ->). destruct Hsp3 as (e' & _ & Ep' & _ & -> & ->).
          rewrite Ep in Ep'. by injection Ep' as <-.
        - destruct Hsp as [-> ->]. destruct Hsp3 as [-> ->]. done. }
      clear Hsp3. destruct (U2 i _ _ Ei eq_refl) as [Hl Hk].
      pose proof (ti_ok _ _ _ _ _ (en_inv _ _ _ _ _ He)) as Hok.
      assert (improves res (ss_results (t_search t)) ∧
        ∀ k a, best !! k = Some a → ss_best (t_search t) !! k = Some a ∨
          ∃ k' q, k' ≤ k ∧ res !! k' = Some (a, q)) as [Him Hw].
      { destruct (special t) eqn:Et.
        - apply special_spec in Et as [Hc0 Hi0].
          destruct (en_first _ _ _ _ _ He Hc0 Hi0) as (sch & bst & Es & _).
          destruct Hsp as (e & -> & _ & Hv & -> & ->). split.
          + intros k m q Hr. rewrite Es in Hr. simpl in Hr. by rewrite lookup_empty in Hr.
          + pose proof (valid_length adj g Hin _ Hv) as Hp. pose proof (ok_best _ _ _ _ Hok) as Hb.
            intros k a Ha. apply (best_leaf_lookup adj) in Ha; [|done|done].
            destruct Ha as [[_ Ha]|[[-> ->]|(Hk1 & b & Ha & ->)]]; [by left| |].
            * right. exists 1, [e]. by rewrite lookup_singleton.
            * destruct (N.le_gt_cases b (cost [e])).
              -- left. by rewrite N.min_l.
              -- right. rewrite N.min_r by lia. exists 1, [e]. rewrite lookup_singleton.
                 simpl in Hk1. split; [lia|done].
        - destruct Hsp as [-> ->]. split; [apply improves_refl|]. by left. }
      assert (∀ st s, sys_tasks sys !! i = Some st → search_of st = Some s →
         (∃ s', search_of Finished = Some s' ∧ improves (ss_results s') (ss_results s)) ∨
         ∃ r, r ∈ fs ++ [res] ∧ improves r (ss_results s)) as Hi'.
      { intros st s Hst Hs. rewrite Ei in Hst. injection Hst as <-. simpl in Hs. injection Hs as <-.
        right. exists res. split; [|done]. apply elem_of_app. right. by apply elem_of_list_singleton. }
      eapply Hgen; [done|exact Hi'| |done|].
      + destruct (merge_spec (sys_best sys) (sys_results sys) res best) as [E1 _].
        { rewrite (ei_length _ _ _ _ _ Hei). apply H1. }
        rewrite E1. pose proof (Hkeep i Finished _ Hi' U1) as K1.
        case_decide; [done|]. apply known_low; [done|].
        pose proof (Hkeep i Finished _ Hi' Hk) as K2.
        intros k a Ha Hmax. destruct (Hw k a Ha) as [Ha'|(k' & q & Hk' & Hres)]; [by apply K2|].
        exists k', a, q. split; [done|]. split; [lia|]. left. exists res. split; [|done].
        apply elem_of_app. right. by apply elem_of_list_singleton.
      + intros r ->%elem_of_list_singleton. apply Hei.
  Qed.

  Lemma uinv_run bd nthreads sys es sys' fs :
    sys_inv sys → uinv sys fs → run_events bd nthreads None sys es = Some (Val sys') →
    uinv sys' (fs ++ collected bd nthreads None sys es).
  Proof.
    revert sys fs. induction es as [|e es IH]; intros sys fs Hsys Hu; simpl.
    - intros [= <-]. by rewrite app_nil_r.
    - destruct (exec bd nthreads None sys e) as [[sys1|]|] eqn:Ex; [|done|done].
      intros Hrun. destruct (exec_sstep adj g Hin _ _ _ _ _ _ Hsys Ex) as (_ & [(sys2 & [= <-] & Hst)|[? _]]); [|done].
      pose proof (sstep_inv adj g Hin _ _ _ _ Hsys Hst) as [Hsys1 _].
      rewrite app_assoc. apply IH; [done| |done]. apply (uinv_step false sys e sys1); [done|done|exact Hst|].
      unfold brought. destruct e as [i|i fin|i]; [done|done|].
      simpl in Ex. destruct (sys_tasks sys !! i) as [[j|t|t|]|] eqn:Ei; try done.
      destruct (task_end t) as [[res best]|] eqn:Et; [|done]. exists t, res, best. done.
  Qed.

  Lemma uinv_init jobs : uinv (system_init n jobs) [].
  Proof.
    split; simpl.
    - intros t a [-> _]%lookup_replicate. done.
    - intros i st s Hi. rewrite list_lookup_fmap in Hi. destruct (jobs !! i); [|done]. by injection Hi as <-.
    - intros r Hr. by apply elem_of_nil in Hr.
  Qed.

  Lemma uinv_finished sys fs t a :
    all_finished sys = true → uinv sys fs → sys_best sys !! t = Some a → a ≠ usize_max →
    ∃ r t' m q, r ∈ fs ∧ t' ≤ t ∧ (m <= a)%N ∧ r !! t' = Some (m, q).
  Proof.
    intros Hf [U1 _ _] Ha Hmax.
    destruct (U1 t a Ha Hmax) as (t' & m & q & Ht & Hm & [(r & Hr & Hrt)|(k & st & s & Hk & Hs & Hr)]).
    - by exists r, t', m, q.
    - rewrite (proj1 (all_finished_spec sys) Hf k st Hk) in Hs. done.
  Qed.

  (** ** Undisturbed executions *)

  Lemma low_absorb a b : lower_eq b a → low a b = b.
  Proof.
    intros [Hl Hle]. apply list_eq. intros i. destruct (b !! i) as [y|] eqn:Hy.
    - destruct (lookup_lt_is_Some_2 a i) as [x Hx]; [rewrite <- Hl; by eapply lookup_lt_Some|].
      specialize (Hle _ _ _ Hy Hx).
      destruct (low a b !! i) as [z|] eqn:Hz.
      + apply low_lookup in Hz as (x' & y' & ? & ? & ->). simplify_eq. f_equal. lia.
      + apply lookup_ge_None in Hz. apply lookup_lt_Some in Hy. rewrite low_length in Hz; lia.
    - apply lookup_ge_None in Hy. apply lookup_ge_None. rewrite low_length; lia.
  Qed.

  (** A task whose array is below both arrays is merged into them in the same way. *)
  Lemma merge_below shared shared' results res best :
    lower_eq best shared → lower_eq best shared' →
    (Threaded.merge shared results res best).2 = (Threaded.merge shared' results res best).2.
  Proof.
    intros H1 H2. apply map_eq. intros k.
    destruct (merge_spec shared results res best) as [_ E1]; [symmetry; apply H1|].
    destruct (merge_spec shared' results res best) as [_ E2]; [symmetry; apply H2|].
    rewrite E1, E2. destruct (res !! k) as [r|]; [|done].
    destruct (best !! k) as [b|] eqn:Hb.
    - destruct (lookup_lt_is_Some_2 shared k) as [x Hx].
      { destruct H1 as [<- _]. by eapply lookup_lt_Some. }
      destruct (lookup_lt_is_Some_2 shared' k) as [x' Hx'].
      { destruct H2 as [<- _]. by eapply lookup_lt_Some. }
      destruct H1 as [_ H1]. destruct H2 as [_ H2]. specialize (H1 _ _ _ Hb Hx).
      specialize (H2 _ _ _ Hb Hx'). rewrite Hx, Hx'. by rewrite !decide_True by done.
    - destruct (shared !! k), (shared' !! k); done.
  Qed.

  Lemma best_iter base rand start s r :
    ok adj g base s → books adj start s → iter_rel rand s r →
    lower_eq (ss_best (match r with inl s' | inr s' => s' end)) (ss_best s).
  Proof.
    intros [Hch Hlen] [_ _ _ _ Hl] Hr. destruct Hr; simpl in *; try apply lower_eq_refl.
    pose proof (legal_length adj g Hin _ (nd_legal _ _ _ _ (chain_node _ _ _ _ _ _ Hch))) as Hp.
    split; [by apply (best_leaf_length adj)|]. intros i a b Hi Hb.
    apply (best_leaf_lookup adj) in Hi; [|done|done].
    destruct Hi as [[_ Hi]|[[-> ->]|(_ & c & Hi & ->)]].
    - simplify_eq. lia.
    - specialize (Hl H0 ltac:(done) b Hb). lia.
    - simplify_eq. lia.
  Qed.

  Lemma single_lower e best :
    valid_schedule g [e] → achieved adj g best → length best = n + 1 →
    lower_eq (best_leaf [e] best) best.
  Proof.
    intros Hv Hach Hlen. pose proof (valid_length adj g Hin _ Hv) as Hp.
    split; [by apply (best_leaf_length adj)|]. intros i a b Hi Hb.
    apply (best_leaf_lookup adj) in Hi; [|done|done].
    destruct Hi as [[_ Hi]|[[-> ->]|(_ & c & Hi & ->)]].
    - simplify_eq. lia.
    - by eapply achieved_single_le.
    - simplify_eq. lia.
  Qed.

  Section undisturbed.
    Context (es0 : list event).
    Notation slow i := (1000 < iterations i es0).

    Record vinv (rest : list event) (cur : option nat) (sys : System) : Prop := {
      v_task : ∀ i st s, sys_tasks sys !! i = Some st → search_of st = Some s →
        ∃ start, lower_eq (sys_best sys) start ∧ books adj start s ∧ news start (ss_results s);
      v_count : ∀ i st, sys_tasks sys !! i = Some st → ¬ slow i →
        match st with
        | Waiting _ => iterations i rest ≤ 1000
        | Running t => N.to_nat (t_counter t) + iterations i rest ≤ 1000
        | _ => True
        end;
      v_slow : ∀ i st s, sys_tasks sys !! i = Some st → search_of st = Some s → slow i → cur = Some i;
      v_fits : match cur with
        | None => fits (sys_best sys) (sys_results sys)
        | Some a => ∃ start st s, sinv adj g start ∧ lower_eq (sys_best sys) start ∧
            fits start (sys_results sys) ∧
            sys_tasks sys !! a = Some st ∧ search_of st = Some s ∧
            books adj start s ∧ news start (ss_results s) ∧ lower_eq (ss_best s) (sys_best sys)
        end
    }.

    Lemma with_best_same s best : best = ss_best s → with_best s best = s.
    Proof. intros ->. by destruct s. Qed.

    (** What the events do to the current task. *)
    Definition next_cur (cur : option nat) (e : event) : option nat :=
      match e with
      | EStart i => if decide (slow i) then Some i else cur
      | EEnd i => if decide (cur = Some i) then None else cur
      | EIter _ _ => cur
      end.

    Definition allowed (cur : option nat) (e : event) : Prop :=
      match cur with
      | None => True
      | Some a => task_of e = a ∨ (¬ slow (task_of e) ∧ ∀ k, e ≠ EEnd k)
      end.

    Lemma vinv_step rand e es cur sys sys' :
      sys_inv sys → vinv (e :: es) cur sys → allowed cur e → sstep rand sys e sys' →
      vinv es (next_cur cur e) sys'.
    Proof.
      intros Hsys [V1 V2 V3 V4] Hal Hst.
      pose proof (sstep_inv adj g Hin _ _ _ _ Hsys Hst) as [Hsys' Hlow].
      destruct Hsys as [H1 H2 H3].
      (* the other tasks *)
      assert (∀ i st' shared' res' cur',
        sys' = mkSystem (<[i := st']> (sys_tasks sys)) shared' res' →
        (∀ s, search_of st' = Some s →
           (∃ start, lower_eq shared' start ∧ books adj start s ∧ news start (ss_results s)) ∧
           (slow i → cur' = Some i)) →
        (¬ slow i → match st' with
        | Waiting _ => iterations i es ≤ 1000
        | Running t => N.to_nat (t_counter t) + iterations i es ≤ 1000
        | _ => True
        end) →
        (∀ k, k ≠ i → cur = Some k → cur' = Some k) →
        match cur' with
        | None => fits shared' res'
        | Some a => ∃ start st s, sinv adj g start ∧ lower_eq shared' start ∧
            fits start res' ∧
            <[i := st']> (sys_tasks sys) !! a = Some st ∧ search_of st = Some s ∧
            books adj start s ∧ news start (ss_results s) ∧ lower_eq (ss_best s) shared'
        end → vinv es cur' sys') as Hgen.
      { intros i st' shared' res' cur' -> Hb Hc Hcur Hf. split; simpl in *; [| | |done].
        - intros k st s Hk Hs. destruct (decide (i = k)) as [<-|Hne].
          + apply list_lookup_insert_Some in Hk as [(_ & -> & _)|[? _]]; [by apply Hb|done].
          + rewrite list_lookup_insert_ne in Hk by done. destruct (V1 k st s Hk Hs) as (start & ? & ?).
            exists start. split; [by eapply lower_eq_trans|done].
        - intros k st Hk Hsl. destruct (decide (i = k)) as [<-|Hne].
          + apply list_lookup_insert_Some in Hk as [(_ & -> & _)|[? _]]; [by apply Hc|done].
          + rewrite list_lookup_insert_ne in Hk by done. specialize (V2 k st Hk Hsl).
            rewrite iterations_cons in V2. destruct st; [lia|lia|done|done].
        - intros k st s Hk Hs Hsl. destruct (decide (i = k)) as [<-|Hne].
          + apply list_lookup_insert_Some in Hk as [(_ & -> & _)|[? _]]; [|done]. by eapply Hb.
          + rewrite list_lookup_insert_ne in Hk by done. apply Hcur; [done|]. by eapply V3. }
      destruct Hst as [i j Ei|i fin t sh' t' stop Ei Hit|i t res best base Ei He Hei Hsp]; simpl in *.
      - pose proof (si_anti _ _ _ H1) as Hanti.
        assert (books adj (sys_best sys) (t_search (task_start (sys_best sys) j)) ∧
          news (sys_best sys) (ss_results (t_search (task_start (sys_best sys) j)))) as [Hbk Hnw].
        { unfold task_start, sweep_new. simpl. split; [split; simpl; try done|].
          - intros k a b Ha Hb. simplify_eq. lia.
          - auto.
          - intros k m q b Hr. simpl in Hr. by rewrite lookup_empty in Hr. }
        assert (cur ≠ None → ¬ slow i) as Hcn.
        { destruct cur as [a|]; [|done]. intros _. simpl in Hal. destruct Hal as [<-|[? _]]; [|done].
          destruct V4 as (start & st & s & _ & _ & _ & Hst & Hs & _). rewrite Ei in Hst. injection Hst as <-. done. }
        eapply Hgen; [done| | | |].
        + intros s [= <-]. split; [exists (sys_best sys); split; [apply lower_eq_refl|done]|].
          intros Hsl. by rewrite decide_True.
        + intros Hsl. specialize (V2 i _ Ei Hsl). rewrite iterations_cons in V2. simpl in *. lia.
        + intros k Hk Hcur. rewrite decide_False; [done|]. apply Hcn. by rewrite Hcur.
        + case_decide as Hsl.
          * destruct cur as [a|]; [exfalso; by apply Hcn|].
            eexists (sys_best sys), _, _. split; [done|]. split; [apply lower_eq_refl|]. split; [done|].
            split; [apply list_lookup_insert; by eapply lookup_lt_Some|]. split; [done|].
            split; [done|]. split; [done|]. apply lower_eq_refl.
          * destruct cur as [a|]; [|done].
            destruct V4 as (start & st & s & ? & ? & ? & Hst & Hs & ?).
            exists start, st, s. split; [done|]. split; [done|]. split; [done|].
            split; [|done]. rewrite list_lookup_insert_ne; [done|]. intros ->.
            rewrite Ei in Hst. injection Hst as <-. done.
      - destruct (H3 i _ Ei) as [base Hr]. destruct Hit as (Hi & r & Hit & Hm).
        pose proof (ti_ok _ _ _ _ _ (rn_inv _ _ _ _ _ Hr)) as Hok.
        pose proof (iter_rel_ok adj g base _ _ _ Hok Hit) as Hok'.
        set (s1 := match r with inl s | inr s => s end) in *.
        destruct (decide (cur = Some i)) as [->|Hne].
        + destruct V4 as (start & st & s & S1 & S2 & S3 & Est & Es & Hbk & Hnw & Hbl).
          rewrite Ei in Est. injection Est as <-. simpl in Es. injection Es as <-.
          pose proof (iter_rel_books adj g Hin base _ _ _ _ Hok Hbk Hit) as Hbk'.
          pose proof (news_iter adj g Hin base _ _ _ _ Hok Hbk Hnw Hit) as Hnw'.
          pose proof (best_iter base _ _ _ _ Hok Hbk Hit) as Hbi.
          fold s1 in Hbk', Hnw', Hbi.
          assert (lower_eq (ss_best s1) (sys_best sys)) as Hbl1 by (by eapply lower_eq_trans).
          assert (t_search t' = s1 ∧ (sh' = sys_best sys ∨ sh' = ss_best s1) ∧
            (¬ slow i → stop = false → t_counter t' = (t_counter t + 1)%N)) as (Es & Hsh & Hct).
          { subst s1. destruct r as [s|s].
            - case_decide as Hcc.
              + destruct Hm as (-> & -> & Hc' & ->).
                assert (low (sys_best sys) (ss_best s) = ss_best s) as El by (by apply low_absorb).
                rewrite El. split; [by apply with_best_same|]. split; [by right|].
                intros Hsl. pose proof (V2 i _ Ei Hsl) as Hc. simpl in Hc. rewrite iterations_cons in Hc.
                simpl in Hc. rewrite Nat.eqb_refl in Hc. rewrite Hcc in Hc. unfold UPDATE_INTERVAL in Hc. lia.
              + destruct Hm as (-> & ? & ? & ->). split; [done|]. split; [by left|done].
            - destruct Hm as (-> & ? & ? & ->). split; [done|]. split; [by left|done]. }
          assert (lower_eq sh' start ∧ lower_eq (ss_best s1) sh') as [Hs1 Hs2].
          { destruct Hsh as [-> | ->]; [done|]. split; [by eapply lower_eq_trans|apply lower_eq_refl]. }
          assert (search_of (if stop then Ending t' else Running t') = Some s1) as Eso.
          { rewrite <- Es. by destruct stop. }
          eapply Hgen; [done| | | |].
          * intros s Hs. rewrite Eso in Hs. injection Hs as <-. split; [|done]. by exists start.
          * intros Hsl. destruct stop; [done|]. rewrite Hct by done.
            pose proof (V2 i _ Ei Hsl) as Hc. simpl in Hc. rewrite iterations_cons in Hc. simpl in Hc.
            rewrite Nat.eqb_refl in Hc. lia.
          * done.
          * exists start, (if stop then Ending t' else Running t'), s1. split; [done|]. split; [done|].
            split; [done|]. split; [apply list_lookup_insert; by eapply lookup_lt_Some|]. done.
        + assert (¬ slow i) as Hsl.
          { intros Hsl. apply Hne. by eapply V3. }
          destruct (V1 i _ _ Ei eq_refl) as (start & Hls & Hbk & Hnw).
          pose proof (iter_rel_books adj g Hin base _ _ _ _ Hok Hbk Hit) as Hbk'.
          pose proof (news_iter adj g Hin base _ _ _ _ Hok Hbk Hnw Hit) as Hnw'.
          fold s1 in Hbk', Hnw'.
          pose proof (V2 i _ Ei Hsl) as Hc. simpl in Hc. rewrite iterations_cons in Hc. simpl in Hc.
          rewrite Nat.eqb_refl in Hc.
          assert (sh' = sys_best sys ∧ t_search t' = s1 ∧
            (stop = false → t_counter t' = (t_counter t + 1)%N)) as (-> & Es & Hct).
          { subst s1. destruct r as [s|s].
            - case_decide as Hcc.
              + rewrite Hcc in Hc. unfold UPDATE_INTERVAL in Hc. lia.
              + destruct Hm as (-> & ? & ? & ->). done.
            - destruct Hm as (-> & ? & ? & ->). done. }
          assert (search_of (if stop then Ending t' else Running t') = Some s1) as Eso.
          { rewrite <- Es. by destruct stop. }
          eapply Hgen; [done| | | |].
          * intros s Hs. rewrite Eso in Hs. injection Hs as <-. split; [|done]. by exists start.
          * intros _. destruct stop; [done|]. rewrite Hct by done. lia.
          * done.
          * destruct cur as [a|]; [|done].
            destruct V4 as (start' & st & s & ? & ? & ? & Hst & Hs & ?).
            exists start', st, s. split; [done|]. split; [done|]. split; [done|].
            split; [|done]. rewrite list_lookup_insert_ne; [done|]. congruence.
      - assert (cur = None ∨ cur = Some i) as Hcur.
        { destruct cur as [a|]; [|by left]. right. simpl in Hal. destruct Hal as [<-|[_ Hno]]; [done|].
          by destruct (Hno i). }
        assert (∀ start, books adj start (t_search t) → news start (ss_results (t_search t)) →
          brings start res best) as Hbr.
        { intros start Hbk Hnw. destruct (special t) eqn:Et.
          - destruct Hsp as (e & -> & Ep & Hv & -> & ->). by eapply (special_brings adj g Hin).
          - destruct Hsp as [-> ->]. destruct Hbk. by split. }
        destruct Hcur as [-> | ->].
        + destruct (V1 i _ _ Ei eq_refl) as (start & Hls & Hbk & Hnw).
          rewrite decide_False by done.
          eapply Hgen; [done|done|done|done|]. simpl.
          apply (fits_merge adj g Hin _ _ start); [apply H1|apply Hei|apply H1|done|done|apply Hei|done|auto].
        + rewrite decide_True by done.
          destruct V4 as (start & st & s & S1 & S2 & S3 & Est & Es & Hbk & Hnw & Hbl).
          rewrite Ei in Est. injection Est as <-. simpl in Es. injection Es as <-.
          specialize (Hbr start Hbk Hnw).
          eapply Hgen; [done|done|done| |].
          { intros k Hk [= <-]. done. }
          cbv beta iota.
          assert (lower_eq best (sys_best sys)) as Hb1.
          { destruct (special t) eqn:Et.
            - destruct Hsp as (e & -> & Ep & Hv & -> & ->). eapply lower_eq_trans; [|exact Hbl].
              apply single_lower; [done|apply He|apply He].
            - destruct Hsp as [-> ->]. done. }
          assert (lower_eq best start) as Hb2 by (by eapply lower_eq_trans).
          pose proof (fits_merge adj g Hin start (sys_results sys) start res best (si_length _ _ _ S1)
            (ei_length _ _ _ _ _ Hei) (si_anti _ _ _ S1) (lower_eq_refl start) H2
            (ei_sound _ _ _ _ _ Hei) S3 Hbr) as Hf.
          rewrite (merge_below (sys_best sys) start) by done.
          destruct (merge_spec (sys_best sys) (sys_results sys) res best) as [E1 _]; [symmetry; apply Hb1|].
          destruct (merge_spec start (sys_results sys) res best) as [E2 _]; [symmetry; apply Hb2|].
          rewrite E1. rewrite E2 in Hf. case_decide as Hres.
          * assert (sys_best sys = start) as ->; [|done].
            apply list_eq. intros k. destruct (start !! k) as [x|] eqn:Hx.
            -- destruct (lookup_lt_is_Some_2 best k) as [b Hb].
               { destruct Hb2 as [-> _]. by eapply lookup_lt_Some. }
               destruct (lookup_lt_is_Some_2 (sys_best sys) k) as [y Hy].
               { destruct Hb1 as [<- _]. by eapply lookup_lt_Some. }
               assert (b = x) as ->.
               { destruct (br_wit _ _ _ Hbr k b Hb) as [Hs|(k' & q & _ & Hr)]; [congruence|].
                 by rewrite Hres, lookup_empty in Hr. }
               rewrite Hy. f_equal. destruct Hb1 as [_ Hb1]. specialize (Hb1 _ _ _ Hb Hy).
               destruct S2 as [_ S2]. specialize (S2 _ _ _ Hy Hx). lia.
            -- apply lookup_ge_None in Hx. apply lookup_ge_None. destruct S2 as [-> _]. done.
          * rewrite low_absorb in Hf |- * by done. done.
    Qed.

    Lemma vinv_steps rand es cur sys sys' before :
      undisturbed es0 → es0 = before ++ es →
      (∀ a, cur = Some a → slow a ∧ ∃ b1 b2, es0 = b1 ++ EStart a :: b2 ++ es ∧ EEnd a ∉ b2) →
      sys_inv sys → vinv es cur sys → ssteps rand sys es sys' →
      ∃ cur', vinv [] cur' sys'.
    Proof.
      intros Hun Hes Hcur Hsys Hv Hst. revert cur before Hes Hcur Hv.
      induction Hst as [sys|sys e sys' es sys'' Hs _ IH]; intros cur before Hes Hcur Hv.
      { by exists cur. }
      assert (allowed cur e) as Hal.
      { destruct cur as [a|]; [|done]. simpl.
        destruct (Hcur a eq_refl) as (Hsl & b1 & b2 & E & Hno).
        destruct (Hun b1 a b2 e es E Hsl Hno) as [?|[? ?]]; [by left|right]. split; [lia|done]. }
      apply (IH ltac:(by eapply sstep_inv) (next_cur cur e) (before ++ [e])).
      - by rewrite <- app_assoc.
      - intros a Ha.
        assert (∀ a, cur = Some a → e ≠ EEnd a → slow a ∧ ∃ b1 b2, es0 = b1 ++ EStart a :: b2 ++ es ∧ EEnd a ∉ b2) as Hkeep.
        { intros a' Ha' Hne. destruct (Hcur a' Ha') as (Hsl & b1 & b2 & E & Hno). split; [done|].
          exists b1, (b2 ++ [e]). split; [by rewrite <- app_assoc|].
          rewrite elem_of_app, elem_of_list_singleton. intros [?|?]; [done|]. by apply Hne. }
        destruct e as [i|i fin|i]; simpl in Ha.
        + case_decide as Hsl.
          * injection Ha as <-. split; [done|]. exists before, []. split; [done|]. apply not_elem_of_nil.
          * by apply Hkeep.
        + by apply Hkeep.
        + case_decide as Hc; [done|]. apply Hkeep; [done|]. intros [= ->]. done.
      - by eapply vinv_step.
    Qed.

    Lemma vinv_init jobs : vinv es0 None (system_init n jobs).
    Proof.
      split; simpl.
      - intros i st s Hi. rewrite list_lookup_fmap in Hi. destruct (jobs !! i); [|done]. by injection Hi as <-.
      - intros i st Hi Hsl. rewrite list_lookup_fmap in Hi. destruct (jobs !! i); [|done]. injection Hi as <-. lia.
      - intros i st s Hi. rewrite list_lookup_fmap in Hi. destruct (jobs !! i); [|done]. by injection Hi as <-.
      - split.
        + intros t a [-> _]%lookup_replicate. done.
        + intros t a m q Hr. by rewrite lookup_empty in Hr.
    Qed.

    Lemma vinv_finished cur sys :
      all_finished sys = true → vinv [] cur sys → fits (sys_best sys) (sys_results sys).
    Proof.
      intros Hf [_ _ _ V4]. destruct cur as [a|]; [|done].
      destruct V4 as (start & st & s & _ & _ & _ & Hst & Hs & _).
      rewrite (proj1 (all_finished_spec sys) Hf a st Hst) in Hs. done.
    Qed.
  End undisturbed.
End union.
