(** * Every execution of the finer model is one of [Threaded.v] *)
From Verif Require Export LocksFacts.

(** ** Tasks submitted later do not change events of the earlier ones *)

Definition more (jobs : list Job) (sys : System) : System :=
  mkSystem (sys_tasks sys ++ map Waiting jobs) (sys_best sys) (sys_results sys).

Definition omap {A B} (g : A → B) (o : out A) : out B :=
  match o with Val a => Val (g a) | Panic => Panic end.

Section refine.
  Context (bd : build) (debug : bool) (nthreads : nat) (bound : Z).
  Context (prob : option ((nat → Accept) * (nat → nat → f64))).

  Lemma exec_more jobs sys e o :
    exec bd nthreads prob sys e = Some o →
    exec bd nthreads prob (more jobs sys) e = Some (omap (more jobs) o).
  Proof.
    destruct e as [i|i fin|i]; simpl.
    - destruct (sys_tasks sys !! i) as [[j|t|t|]|] eqn:Ei; try done.
      rewrite (lookup_app_l_Some _ _ _ _ Ei). pose proof (lookup_lt_Some _ _ _ Ei) as Hl.
      rewrite take_app_le by lia. destruct (_ <? _); [|done]. intros [= <-]. simpl.
      unfold more. simpl. by rewrite insert_app_l.
    - destruct (sys_tasks sys !! i) as [[j|t|t|]|] eqn:Ei; try done.
      rewrite (lookup_app_l_Some _ _ _ _ Ei). pose proof (lookup_lt_Some _ _ _ Ei) as Hl.
      intros [= <-]. destruct (task_iteration _ _ _ _ _) as [[[sh t'] stop]|]; [|done]. simpl.
      unfold more. simpl. by rewrite insert_app_l.
    - destruct (sys_tasks sys !! i) as [[j|t|t|]|] eqn:Ei; try done.
      rewrite (lookup_app_l_Some _ _ _ _ Ei). pose proof (lookup_lt_Some _ _ _ Ei) as Hl.
      intros [= <-]. destruct (task_end t) as [[new this]|]; [|done]. simpl.
      unfold more. simpl. by rewrite insert_app_l.
  Qed.

  Lemma run_events_more jobs sys es o :
    run_events bd nthreads prob sys es = Some o →
    run_events bd nthreads prob (more jobs sys) es = Some (omap (more jobs) o).
  Proof.
    revert sys. induction es as [|e es IH]; intros sys H; simpl in H |- *.
    - by injection H as <-.
    - destruct (exec bd nthreads prob sys e) as [[sys'|]|] eqn:E; [| |done].
      + rewrite (exec_more jobs _ _ _ E). simpl. auto.
      + rewrite (exec_more jobs _ _ _ E). simpl. by injection H as <-.
  Qed.

  Lemma system_init_more n jobs jobs' :
    system_init n (jobs ++ jobs') = more jobs' (system_init n jobs).
  Proof. unfold system_init, more. simpl. by rewrite map_app. Qed.

  (** ** One iteration *)

  Lemma task_iteration_local i shared fin t :
    task_iteration bd (prob_of prob i) shared fin t =
      match task_local bd (prob_of prob i) t with
      | Panic => Panic
      | Val (Next t') => Val (shared, t', false)
      | Val (Leave t') => Val (shared, t', true)
      | Val (Full t') =>
          let r := exchange shared (ss_best (t_search t')) in
          Val (r.1, task_with t' r.2 1, fin)
      end.
  Proof.
    unfold task_iteration, task_local, update.
    set (r := match prob_of prob i with Some _ => _ | None => _ end). clearbody r.
    destruct r as [[[d s]|s]|]; cbn [obind]; [|done|done].
    destruct (t_counter t =? UPDATE_INTERVAL)%N; cbn.
    - done.
    - by destruct s.
  Qed.

  (** ** What a task corresponds to *)

  (** [b] is the answer that the timer will give if the task is about to poll it. *)
  Definition srel (b : bool) (i : nat) (fbest cbest : list N) (fres cres : MappedPaths)
      (st : FStatus) (cst : Status) : Prop :=
    match st with
    | FWaiting j | FTaken j | FLogging j | FLogged j | FCopying j => cst = Waiting j
    | FLoop t => cst = Running t
    | FUpdate t => ∃ t0, cst = Running t0 ∧ task_local bd (prob_of prob i) t0 = Val (Full t)
    | FExchanging t k =>
        ∃ t0 t1, cst = Running t0 ∧ task_local bd (prob_of prob i) t0 = Val (Full t1) ∧
          finish_exchange k fbest (ss_best (t_search t)) = exchange cbest (ss_best (t_search t1)) ∧
          (∀ this c, task_with t this c = task_with t1 this c)
    | FPolling t => cst = if b then Ending t else Running t
    | FLeaving t => cst = Ending t
    | FWantBest new this | FWantResults new this =>
        ∃ t, cst = Ending t ∧ task_end t = Val (new, this) ∧ (size new =? 0) = false
    | FMerging new this k =>
        ∃ t new0, cst = Ending t ∧ task_end t = Val (new0, this) ∧ (size new0 =? 0) = false ∧
          finish_merge k fbest this new fres = merge_from 0 cbest this new0 cres
    | FReleasing | FDone => cst = Finished
    | FPanicked =>
        (∃ t, cst = Running t ∧ task_local bd (prob_of prob i) t = Panic) ∨
        (∃ t, cst = Ending t ∧ task_end t = Panic)
    end.

  Definition best_busy (st : FStatus) : bool :=
    match st with FExchanging _ _ | FMerging _ _ _ => true | _ => false end.

  Definition sim (b : nat → bool) (f : Fine) (c : System) : Prop :=
    length (sys_tasks c) = length (f_tasks f) ∧
    (∀ i st, f_tasks f !! i = Some st → ∃ cst, sys_tasks c !! i = Some cst ∧
       srel (b i) i (f_best f) (sys_best c) (f_results f) (sys_results c) st cst) ∧
    ((∀ i st, f_tasks f !! i = Some st → best_busy st = false) → f_best f = sys_best c) ∧
    ((∀ i st, f_tasks f !! i = Some st → holds_results st = false) → f_results f = sys_results c).

  Lemma srel_frame b i fbest cbest fres cres fbest' cbest' fres' cres' st cst :
    best_busy st = false →
    srel b i fbest cbest fres cres st cst → srel b i fbest' cbest' fres' cres' st cst.
  Proof. by destruct st. Qed.

  Lemma holder_unique f i st :
    locks_ok f → f_tasks f !! i = Some st → holds_best st = true →
    ∀ k st', k ≠ i → f_tasks f !! k = Some st' → best_busy st' = false.
  Proof.
    intros [Hb _] Hi E k st' Hk Hk'.
    assert (f_best_lock f = Some i) as E1 by (apply Hb; by exists st).
    destruct (holds_best st') eqn:E2.
    - assert (f_best_lock f = Some k) as E3 by (apply Hb; by exists st'). congruence.
    - by destruct st'.
  Qed.

  Lemma best_busy_holds st : best_busy st = true → holds_best st = true.
  Proof. by destruct st. Qed.

  (** No event: only the place of the task in its code changes. *)
  Lemma sim_local b f c i st st' lock lock' :
    sim b f c → f_tasks f !! i = Some st →
    best_busy st = false → best_busy st' = false →
    (∀ cst, sys_tasks c !! i = Some cst →
       srel (b i) i (f_best f) (sys_best c) (f_results f) (sys_results c) st cst →
       srel (b i) i (f_best f) (sys_best c) (f_results f) (sys_results c) st' cst) →
    sim b (mkFine (f_main f) (<[i := st']> (f_tasks f)) (f_best f) lock (f_results f) lock') c.
  Proof.
    intros (Hl & Hs & Hb & Hr) Hi E E' Himp. split; [|split; [|split]]; cbn [f_tasks f_best f_results].
    - by rewrite insert_length.
    - intros k s Hk. destruct (decide (k = i)) as [->|Hki].
      + rewrite list_lookup_insert in Hk by (by eapply lookup_lt_Some). injection Hk as <-.
        destruct (Hs i st Hi) as (cst & Hc & Hrel). exists cst. split; [done|]. auto.
      + rewrite list_lookup_insert_ne in Hk by done. auto.
    - intros Hall. apply Hb. intros k s Hk. destruct (decide (k = i)) as [->|Hki].
      + congruence.
      + apply (Hall k). by rewrite list_lookup_insert_ne by done.
    - intros Hall. apply Hr. intros k s Hk. destruct (decide (k = i)) as [->|Hki].
      + assert (s = st) as -> by congruence. by destruct st.
      + apply (Hall k). by rewrite list_lookup_insert_ne by done.
  Qed.

  (** The task enters a critical section or does something in it. *)
  Lemma sim_busy b f c i st st' best results lock lock' :
    sim b f c → locks_ok f → f_tasks f !! i = Some st →
    (∀ k st', k ≠ i → f_tasks f !! k = Some st' → best_busy st' = false) →
    best_busy st' = true →
    (holds_results st' = false → holds_results st = false ∧ results = f_results f) →
    (∀ cst, sys_tasks c !! i = Some cst →
       srel (b i) i (f_best f) (sys_best c) (f_results f) (sys_results c) st cst →
       srel (b i) i best (sys_best c) results (sys_results c) st' cst) →
    sim b (mkFine (f_main f) (<[i := st']> (f_tasks f)) best lock results lock') c.
  Proof.
    intros (Hl & Hs & Hb & Hr) Hok Hi Hother E' Hres Himp.
    split; [|split; [|split]]; cbn [f_tasks f_best f_results].
    - by rewrite insert_length.
    - intros k s Hk. destruct (decide (k = i)) as [->|Hki].
      + rewrite list_lookup_insert in Hk by (by eapply lookup_lt_Some). injection Hk as <-.
        destruct (Hs i st Hi) as (cst & Hc & Hrel). exists cst. split; [done|]. auto.
      + rewrite list_lookup_insert_ne in Hk by done.
        destruct (Hs k s Hk) as (cst & Hc & Hrel). exists cst. split; [done|].
        eapply srel_frame; [|done]. by eapply Hother.
    - intros Hall. exfalso. specialize (Hall i st').
      rewrite list_lookup_insert in Hall by (by eapply lookup_lt_Some). specialize (Hall eq_refl). congruence.
    - intros Hall.
      assert (holds_results st' = false) as E1.
      { apply (Hall i). by rewrite list_lookup_insert by (by eapply lookup_lt_Some). }
      destruct (Hres E1) as [E2 ->].
      apply Hr. intros k s Hk. destruct (decide (k = i)) as [->|Hki].
      + congruence.
      + apply (Hall k). by rewrite list_lookup_insert_ne by done.
  Qed.

  (** An event of task [i]. *)
  Lemma sim_event b f c i st st' cst' lock lock' best' results' :
    sim b f c → f_tasks f !! i = Some st →
    (∀ k s, k ≠ i → f_tasks f !! k = Some s → best_busy s = true → best' = sys_best c ∧ results' = sys_results c) →
    best_busy st' = false →
    ((∀ k s, k ≠ i → f_tasks f !! k = Some s → best_busy s = false) → f_best f = best') →
    ((∀ k s, k ≠ i → f_tasks f !! k = Some s → holds_results s = false) → f_results f = results') →
    srel (b i) i (f_best f) best' (f_results f) results' st' cst' →
    sim b (mkFine (f_main f) (<[i := st']> (f_tasks f)) (f_best f) lock (f_results f) lock')
      (mkSystem (<[i := cst']> (sys_tasks c)) best' results').
  Proof.
    intros (Hl & Hs & Hb & Hr) Hi Hother E' Hbest Hres Hst.
    assert (i < length (f_tasks f)) as Hlt by (by eapply lookup_lt_Some).
    split; [|split; [|split]]; cbn [f_tasks f_best f_results sys_tasks sys_best sys_results].
    - by rewrite !insert_length.
    - intros k s Hk. destruct (decide (k = i)) as [->|Hki].
      + rewrite list_lookup_insert in Hk by done. injection Hk as <-.
        exists cst'. rewrite list_lookup_insert by lia. split; [done|]. done.
      + rewrite list_lookup_insert_ne in Hk by done. rewrite list_lookup_insert_ne by done.
        destruct (Hs k s Hk) as (cst & Hc & Hrel). exists cst. split; [done|].
        destruct (best_busy s) eqn:Eb.
        * destruct (Hother k s Hki Hk Eb) as [-> ->]. done.
        * by eapply srel_frame.
    - intros Hall. apply Hbest. intros k s Hki Hk. apply (Hall k). by rewrite list_lookup_insert_ne by done.
    - intros Hall. apply Hres. intros k s Hki Hk. apply (Hall k). by rewrite list_lookup_insert_ne by done.
  Qed.

  (** A task that is copying the array has been taken from the queue. *)
  Lemma may_start b f c i j :
    sim b f c → queue_ok nthreads (f_tasks f) → f_tasks f !! i = Some (FCopying j) →
    unfinished (take i (sys_tasks c)) < nthreads.
  Proof.
    intros (Hl & Hs & _) [Hf Hn] Hi.
    assert (∀ tasks ctasks, length ctasks = length tasks →
      (∀ k st, tasks !! k = Some st → ∃ cst, ctasks !! k = Some cst ∧
         (is_finished cst = false → occupied st = true)) →
      unfinished ctasks ≤ length (List.filter occupied tasks)) as Hcount.
    { clear. induction tasks as [|st tasks IH]; intros [|cst ctasks] Hl H; try done.
      assert (unfinished ctasks ≤ length (List.filter occupied tasks)) as IH'.
      { apply IH; [simpl in Hl; lia|]. intros k s Hk. exact (H (S k) s Hk). }
      destruct (H 0 st eq_refl) as (? & [= <-] & Ho). unfold unfinished in *. rewrite filter_cons.
      simpl. destruct (decide (is_finished cst = false)) as [E|E].
      - rewrite (Ho E). simpl. lia.
      - destruct (occupied st); simpl; lia. }
    assert (i < length (f_tasks f)) as Hlt by (by eapply lookup_lt_Some).
    assert (unfinished (take i (sys_tasks c)) ≤ length (List.filter occupied (take i (f_tasks f)))) as H1.
    { apply Hcount; [rewrite !take_length; lia|]. intros k st Hk.
      assert (k < i) as Hki. { apply lookup_lt_Some in Hk. rewrite take_length in Hk. lia. }
      rewrite lookup_take in Hk by done. destruct (Hs k st Hk) as (cst & Hc & Hrel). exists cst.
      rewrite lookup_take by done. split; [done|]. intros Hfin.
      destruct (is_waiting st) eqn:Ew.
      - specialize (Hf k i st _ Hki Hk Hi Ew). done.
      - destruct st; try done. simpl in Hrel. by subst. }
    rewrite <-(take_drop_middle _ _ _ Hi) in Hn. rewrite List.filter_app, app_length in Hn. simpl in Hn. lia.
  Qed.

  Definition event_to (b : nat → bool) (f' : Fine) (c c' : System) : Prop :=
    ∃ e, exec bd nthreads prob c e = Some (Val c') ∧
      ∀ k, e = EIter k true → b k = true ∧ ∃ t, f_tasks f' !! k = Some (FPolling t).

  Lemma sim_task_move b f i ch f' :
    fine_ok nthreads f → task_move bd debug nthreads prob f i ch = Some f' →
    ∃ b', (∀ k t, f_tasks f !! k = Some (FPolling t) → b' k = true →
             k = i ∧ ch = true ∨ f_tasks f' !! k = Some (FPolling t) ∧ b k = true) ∧
      ∀ c, sim b' f c → ∃ c', (c' = c ∨ event_to b f' c c') ∧ sim b f' c'.
  Proof.
    intros [Hok Hq] H.
    apply task_move_cases in H as (st & st' & best & lock & results & lock' & Hi & -> & H).
    destruct st as [j|j|j|j|j|t|t|t k|t|t|new this|new this|new this k| | |]; try done.
    9: { exists (λ k, if decide (k = i) then ch else b k). split.
      { intros k t' Hk Eb. destruct (decide (k = i)) as [->|Hki]; [by left|right].
        split; [|done]. cbn [f_tasks]. by rewrite list_lookup_insert_ne by done. }
      intros c (Hl & Hs & Hb & Hr).
      exists c. split; [by left|]. destruct_and? H; subst.
      split; [|split; [|split]]; cbn [f_tasks f_best f_results].
      - by rewrite insert_length.
      - intros k s Hk. destruct (decide (k = i)) as [->|Hki].
        + rewrite list_lookup_insert in Hk by (by eapply lookup_lt_Some). injection Hk as <-.
          destruct (Hs i _ Hi) as (cst & Hc & Hrel). exists cst. split; [done|].
          simpl in Hrel. destruct (decide (i = i)); [|done]. subst cst. by destruct ch.
        + rewrite list_lookup_insert_ne in Hk by done. destruct (Hs k s Hk) as (cst & Hc & Hrel).
          destruct (decide (k = i)); [done|]. eauto.
      - intros Hall. apply Hb. intros k s Hk. destruct (decide (k = i)) as [->|Hki].
        + by assert (s = FPolling t) as -> by congruence.
        + apply (Hall k). by rewrite list_lookup_insert_ne by done.
      - intros Hall. apply Hr. intros k s Hk. destruct (decide (k = i)) as [->|Hki].
        + by assert (s = FPolling t) as -> by congruence.
        + apply (Hall k). by rewrite list_lookup_insert_ne by done. }
    all: exists b; split; [intros k' t' Hk' Eb'; right; split; [|done]; cbn [f_tasks];
      rewrite list_lookup_insert_ne by (intros ->; congruence); done|].
    all: intros c Hsim.
    all: pose proof Hsim as (Hl & Hs & Hb & Hr).
    - (* taken *) exists c. split; [by left|]. destruct_and? H; subst. by eapply sim_local.
    - exists c. split; [by left|]. destruct_and? H; subst.
      eapply sim_local; [done|done|done| |]; by destruct debug.
    - exists c. split; [by left|]. destruct_and? H; subst. by eapply sim_local.
    - exists c. split; [by left|]. destruct_and? H; subst. by eapply sim_local.
    - (* the copy *)
      destruct_and? H; subst.
      pose proof (holder_unique f i _ Hok Hi eq_refl) as Hun.
      destruct (Hs i _ Hi) as (cst & Hc & Hrel). simpl in Hrel. subst cst.
      assert (f_best f = sys_best c) as Eb.
      { apply Hb. intros k s Hk. destruct (decide (k = i)) as [->|Hki]; [|by eapply Hun].
        by assert (s = FCopying j) as -> by congruence. }
      eexists. split.
      { right. exists (EStart i). split; [|done]. simpl. rewrite Hc.
        pose proof (may_start _ _ _ _ _ Hsim Hq Hi) as Hlt. apply Nat.ltb_lt in Hlt. rewrite Hlt. done. }
      eapply sim_event; [done|done| |done| | |].
      + done.
      + done.
      + intros Hall. apply Hr. intros k s Hk. destruct (decide (k = i)) as [->|Hki]; [|by eapply Hall].
        by assert (s = FCopying j) as -> by congruence.
      + simpl. by rewrite Eb.
    - (* an iteration *)
      destruct_and? H; subst.
      destruct (Hs i _ Hi) as (cst & Hc & Hrel). simpl in Hrel. subst cst.
      assert (∀ st' t' (stop : bool), best_busy st' = false →
        task_iteration bd (prob_of prob i) (sys_best c) false t = Val (sys_best c, t', stop) →
        srel (b i) i (f_best f) (sys_best c) (f_results f) (sys_results c) st'
          (if stop then Ending t' else Running t') →
        ∃ c', (c' = c ∨ event_to b (mkFine (f_main f) (<[i := st']> (f_tasks f)) (f_best f) (f_best_lock f)
                   (f_results f) (f_results_lock f)) c c') ∧
          sim b (mkFine (f_main f) (<[i := st']> (f_tasks f)) (f_best f) (f_best_lock f)
                   (f_results f) (f_results_lock f)) c') as Hev.
      { intros st' t' stop Est Eit Hst.
        exists (mkSystem (<[i := if stop then Ending t' else Running t']> (sys_tasks c)) (sys_best c) (sys_results c)).
        split.
        { right. exists (EIter i false). split; [|done]. simpl. rewrite Hc. fold (prob_of prob i). rewrite Eit. done. }
        eapply sim_event; [done|done| |done| | |done].
        + done.
        + intros Hall. apply Hb. intros k s Hk. destruct (decide (k = i)) as [->|Hki]; [|by eapply Hall].
          by assert (s = FLoop t) as -> by congruence.
        + intros Hall. apply Hr. intros k s Hk. destruct (decide (k = i)) as [->|Hki]; [|by eapply Hall].
          by assert (s = FLoop t) as -> by congruence. }
      destruct (task_local bd (prob_of prob i) t) as [[t'|t'|t']|] eqn:El.
      + eapply (Hev _ t' false); [done| |done]. by rewrite task_iteration_local, El.
      + exists c. split; [by left|]. eapply sim_local; [done|done|done|done|].
        intros cst Hc' Hrel. assert (cst = Running t) as -> by congruence. by exists t.
      + eapply (Hev _ t' true); [done| |done]. by rewrite task_iteration_local, El.
      + exists c. split; [by left|]. eapply sim_local; [done|done|done|done|].
        intros cst Hc' Hrel. assert (cst = Running t) as -> by congruence. left. by exists t.
    - (* the lock for the exchange *)
      exists c. split; [by left|]. destruct_and? H; subst.
      assert (∀ k s, f_tasks f !! k = Some s → best_busy s = false) as Hfree.
      { intros k s Hk. destruct (best_busy s) eqn:E; [|done]. apply best_busy_holds in E.
        assert (f_best_lock f = Some k) by (apply Hok; by exists s). congruence. }
      eapply sim_busy; [done|done|done| |done|done|].
      + eauto.
      + intros cst Hc (t0 & -> & Et). exists t0, t. split; [done|]. split; [done|].
        rewrite finish_exchange_0, (Hb Hfree). done.
    - (* the exchange *)
      pose proof (holder_unique f i _ Hok Hi eq_refl) as Hun.
      destruct H as [H|H]; destruct_and? H; subst.
      + exists c. split; [by left|]. eapply sim_busy; [done|done|done|done|done|done|].
        intros cst Hc (t0 & t1 & -> & Et & Ee & Ew). exists t0, t1. split; [done|]. split; [done|]. split.
        * rewrite <-Ee. cbn [task_with t_search ss_best]. by apply finish_exchange_step.
        * intros this cc. rewrite <-(Ew this cc). done.
      + destruct (Hs i _ Hi) as (cst & Hc & (t0 & t1 & -> & Et & Ee & Ew)).
        rewrite finish_exchange_end in Ee by done.
        exists (mkSystem (<[i := if b i then Ending (task_with t (ss_best (t_search t)) 1)
                                 else Running (task_with t (ss_best (t_search t)) 1)]> (sys_tasks c))
                 (f_best f) (sys_results c)).
        split.
        { right. exists (EIter i (b i)). split.
          2: { intros k' [= <- E]. split; [done|]. eexists. cbn [f_tasks].
               by rewrite list_lookup_insert by (by eapply lookup_lt_Some). }
          simpl. rewrite Hc. fold (prob_of prob i).
          rewrite task_iteration_local, Et, <-Ee. cbn [fst snd obind]. rewrite Ew. done. }
        eapply sim_event; [done|done| |done|done| |done].
        * intros k' s Hk' Hs' E. rewrite (Hun k' s Hk' Hs') in E. done.
        * intros Hall. apply Hr. intros k' s Hk'. destruct (decide (k' = i)) as [->|Hki]; [|by eapply Hall].
          by assert (s = FExchanging t k) as -> by congruence.
    - (* after the loop *)
      destruct_and? H; subst.
      destruct (Hs i _ Hi) as (cst & Hc & Hrel). simpl in Hrel. subst cst.
      destruct (task_end t) as [[new this]|] eqn:Et.
      + destruct (size new =? 0) eqn:En.
        * exists (mkSystem (<[i := Finished]> (sys_tasks c)) (sys_best c) (sys_results c)). split.
          { right. exists (EEnd i). split; [|done]. simpl. rewrite Hc, Et. cbn [obind]. unfold Threaded.merge. rewrite En. done. }
          eapply sim_event; [done|done| |done| | |done].
          -- done.
          -- intros Hall. apply Hb. intros k s Hk. destruct (decide (k = i)) as [->|Hki]; [|by eapply Hall].
             by assert (s = FLeaving t) as -> by congruence.
          -- intros Hall. apply Hr. intros k s Hk. destruct (decide (k = i)) as [->|Hki]; [|by eapply Hall].
             by assert (s = FLeaving t) as -> by congruence.
        * exists c. split; [by left|]. eapply sim_local; [done|done|done|done|].
          intros cst Hc' ->. exists t. done.
      + exists c. split; [by left|]. eapply sim_local; [done|done|done|done|].
        intros cst Hc' ->. right. by exists t.
    - exists c. split; [by left|]. destruct_and? H; subst. by eapply sim_local.
    - (* both locks *)
      exists c. split; [by left|]. destruct_and? H; subst.
      pose proof (holder_unique f i _ Hok Hi eq_refl) as Hun.
      eapply sim_busy; [done|done|done|done|done|done|].
      intros cst Hc (t & -> & Et & En). exists t, new. split; [done|]. split; [done|]. split; [done|].
      rewrite finish_merge_0. f_equal.
      + apply Hb. intros k s Hk. destruct (decide (k = i)) as [->|Hki]; [|by eapply Hun].
        by assert (s = FWantResults new this) as -> by congruence.
      + apply Hr. intros k s Hk. destruct (decide (k = i)) as [->|Hki].
        * by assert (s = FWantResults new this) as -> by congruence.
        * specialize (Hun k s Hki Hk). by destruct s.
    - (* the merge *)
      pose proof (holder_unique f i _ Hok Hi eq_refl) as Hun.
      destruct H as [(H1 & H2 & new' & Em & H)|H]; destruct_and? H; subst.
      + exists c. split; [by left|].
        destruct (finish_merge_step _ _ _ _ _ _ _ _ H1 H2 Em) as [Ef _].
        eapply sim_busy; [done|done|done|done|done|done|].
        intros cst Hc (t & new0 & -> & Et & En & Ee). exists t, new0.
        split; [done|]. split; [done|]. split; [done|]. by rewrite Ef.
      + destruct (Hs i _ Hi) as (cst & Hc & (t & new0 & -> & Et & En & Ee)).
        rewrite finish_merge_end in Ee by done.
        exists (mkSystem (<[i := Finished]> (sys_tasks c)) (f_best f) (f_results f)). split.
        { right. exists (EEnd i). split; [|done]. simpl. rewrite Hc, Et. cbn [obind]. unfold Threaded.merge. rewrite En, <-Ee. done. }
        eapply sim_event; [done|done| |done|done|done|done].
        intros k' s Hk' Hs' E. rewrite (Hun k' s Hk' Hs') in E. done.
    - exists c. split; [by left|]. destruct_and? H; subst. by eapply sim_local.
  Qed.

  (** ** The submission *)

  (** What the closure has done so far: the jobs it has submitted. *)
  Definition mrel (root : Scheduler Partitioner) (m : Main) (jobs : list Job) : Prop :=
    match m with
    | Submitting s n =>
        ∃ k, ∀ fuel, loop (spawn_body bd bound) (k + fuel) (root, [], 0%Z) =
                     loop (spawn_body bd bound) fuel (s, jobs, n)
    | Remaining s => ∃ k, spawn bd k bound root = Some (Val (jobs ++ [mkJob s None]))
    | Joining_ => ∃ k, spawn bd k bound root = Some (Val jobs)
    | MainPanicked => ∃ k, spawn bd k bound root = Some Panic
    end.

  (** Where the answers in the events come from. *)
  Definition answers (b : nat → bool) (f : Fine) (ms : list move) (es : list event) : Prop :=
    ∀ i, EIter i true ∈ es →
    TaskMove i true ∈ ms ∨ b i = true ∧ ∃ t, f_tasks f !! i = Some (FPolling t).

  Definition refines (num_bits : nat) (root : Scheduler Partitioner) (ms : list move) (f : Fine) : Prop :=
    ∃ jobs, mrel root (f_main f) jobs ∧
      ∀ b, ∃ es c, run_events bd nthreads prob (system_init num_bits jobs) es = Some (Val c) ∧ sim b f c ∧
        answers b f ms es.

  Lemma loop_S {S_ R} (body : S_ → out (S_ + R)) fuel s :
    loop body (S fuel) s = match body s with
                           | Panic => Some Panic
                           | Val (inr r) => Some (Val r)
                           | Val (inl s) => loop body fuel s
                           end.
  Proof. done. Qed.

  Lemma sim_submit b f c m j :
    sim b f c →
    sim b (mkFine m (f_tasks f ++ [FWaiting j]) (f_best f) (f_best_lock f) (f_results f) (f_results_lock f))
      (more [j] c).
  Proof.
    intros (Hl & Hs & Hb & Hr). split; [|split; [|split]]; cbn.
    - rewrite !app_length. simpl. lia.
    - intros k s Hk. apply lookup_app_Some in Hk as [Hk|[Hk1 Hk2]].
      + destruct (Hs k s Hk) as (cst & Hc & Hrel). exists cst. split; [|done]. by apply lookup_app_l_Some.
      + apply list_lookup_singleton_Some in Hk2 as [Hk2 <-]. exists (Waiting j). split; [|done].
        rewrite lookup_app_r by lia. by replace (k - length (sys_tasks c)) with 0 by lia.
    - intros Hall. apply Hb. intros k s Hk. apply (Hall k). by apply lookup_app_l_Some.
    - intros Hall. apply Hr. intros k s Hk. apply (Hall k). by apply lookup_app_l_Some.
  Qed.

  Lemma refines_init n root : refines n root [] (fine_init n root).
  Proof.
    exists []. split.
    - exists 0. done.
    - intros b. exists [], (system_init n []). split; [done|]. split; [done|].
      intros i Hi. by apply elem_of_nil in Hi.
  Qed.

  Lemma answers_main b f f' ms es :
    answers b f ms es →
    (∀ i t, f_tasks f !! i = Some (FPolling t) → f_tasks f' !! i = Some (FPolling t)) →
    answers b f' (ms ++ [MainMove]) es.
  Proof.
    intros H Ht i Hi. destruct (H i Hi) as [?|(? & t & ?)].
    - left. apply elem_of_app. by left.
    - right. split; [done|]. exists t. auto.
  Qed.

  Lemma refines_submit n root ms f m j jobs :
    (∀ b, ∃ es c, run_events bd nthreads prob (system_init n jobs) es = Some (Val c) ∧ sim b f c ∧
       answers b f ms es) →
    mrel root m (jobs ++ [j]) →
    refines n root (ms ++ [MainMove]) (mkFine m (f_tasks f ++ [FWaiting j]) (f_best f) (f_best_lock f)
                      (f_results f) (f_results_lock f)).
  Proof.
    intros H Hm. exists (jobs ++ [j]). split; [done|]. intros b.
    destruct (H b) as (es & c & Hes & Hc & Ha). exists es, (more [j] c). split; [|split].
    - rewrite system_init_more. by rewrite (run_events_more _ _ _ _ Hes).
    - by apply sim_submit.
    - eapply answers_main; [done|]. intros i t Hi. cbn [f_tasks]. by apply lookup_app_l_Some.
  Qed.

  Lemma refines_main n root ms f f' :
    refines n root ms f → main_move bd bound f = Some f' → refines n root (ms ++ [MainMove]) f'.
  Proof.
    intros (jobs & Hm & Hes) H. unfold main_move in H. destruct (f_main f) as [s nt|s| |] eqn:Ef; try done.
    - destruct Hm as [k Hk].
      assert (∀ m, mrel root m jobs → refines n root (ms ++ [MainMove])
        (mkFine m (f_tasks f) (f_best f) (f_best_lock f) (f_results f) (f_results_lock f))) as Hsame.
      { intros m Hm. exists jobs. split; [done|]. intros b. destruct (Hes b) as (es & c & Hr & Hc & Ha).
        exists es, c. split; [done|]. split; [done|]. by eapply answers_main. }
      destruct (scheduler_next_and_focus bd s) as [[s' [[s'' m]|]]|] eqn:En; injection H as <-.
      + eapply refines_submit; [done|]. destruct (Z.eqb_spec (nt + 1) bound) as [Eb|Eb].
        * exists (k + 1). unfold spawn. rewrite Hk, loop_S. unfold spawn_body at 1. rewrite En. cbn [obind].
          destruct (Z.eqb_spec (nt + 1) bound); [done|lia].
        * exists (k + 1). intros fuel. rewrite <-Nat.add_assoc, Hk, Nat.add_1_l, loop_S.
          unfold spawn_body at 1. rewrite En. cbn [obind].
          destruct (Z.eqb_spec (nt + 1) bound); [lia|done].
      + apply Hsame. exists (k + 1). unfold spawn. rewrite Hk, loop_S.
        unfold spawn_body at 1. rewrite En. done.
      + apply Hsame. exists (k + 1). unfold spawn. rewrite Hk, loop_S.
        unfold spawn_body at 1. rewrite En. done.
    - injection H as <-. by eapply refines_submit.
  Qed.

  Lemma refines_move n root ms f m f' :
    fine_ok nthreads f → refines n root ms f → fine_move bd debug nthreads bound prob f m = Some f' →
    refines n root (ms ++ [m]) f'.
  Proof.
    intros Hok Href H. destruct m as [|i ch]; simpl in H.
    - by eapply refines_main.
    - destruct Href as (jobs & Hm & Hes). exists jobs. split.
      { apply task_move_cases in H as (st & st' & best & lock & results & lock' & Hi & -> & _). done. }
      intros b. destruct (sim_task_move b f i ch f' Hok H) as (b' & Hpoll & Hb').
      destruct (Hes b') as (es & c & Hr & Hc & Ha).
      assert (answers b f' (ms ++ [TaskMove i ch]) es) as Ha'.
      { intros k Hk. destruct (Ha k Hk) as [?|(Eb & t & Et)].
        - left. apply elem_of_app. by left.
        - destruct (Hpoll k t Et Eb) as [[-> ->]|[? ?]].
          + left. apply elem_of_app. right. by apply elem_of_list_singleton.
          + right. eauto. }
      destruct (Hb' c Hc) as (c' & [->|(e & He & Hfin)] & Hc').
      + exists es, c. done.
      + exists (es ++ [e]), c'. split; [|split; [done|]].
        * rewrite (run_events_app _ _ _ _ _ _ _ Hr). simpl. by rewrite He.
        * intros k [Hk|Hk%elem_of_list_singleton]%elem_of_app; [by apply Ha'|right]. by apply Hfin.
  Qed.

  Lemma refines_run n root ms f' :
    fine_run bd debug nthreads bound prob (fine_init n root) ms = Some f' →
    fine_ok nthreads f' ∧ refines n root ms f'.
  Proof.
    assert (∀ f ms0, fine_ok nthreads f → refines n root ms0 f →
      fine_run bd debug nthreads bound prob f ms = Some f' →
      fine_ok nthreads f' ∧ refines n root (ms0 ++ ms) f') as Hgen.
    { induction ms as [|m ms IH]; intros f ms0 Hok Hr H; simpl in H.
      - injection H as <-. by rewrite app_nil_r.
      - destruct (fine_move _ _ _ _ _ f m) as [f1|] eqn:E; [|done]. cbn [mbind option_bind] in H.
        rewrite cons_middle, app_assoc.
        eapply IH; [| |done]; [by eapply fine_move_ok|by eapply refines_move]. }
    apply (Hgen _ []); [apply fine_init_ok|apply refines_init].
  Qed.

  Lemma refines_result n root ms f o :
    refines n root ms f → fine_result f = Some o →
    ∃ fuel es, threaded_search bd fuel es nthreads n root bound prob = Some o ∧
      ∀ i, EIter i true ∈ es → TaskMove i true ∈ ms.
  Proof.
    intros (jobs & Hm & Hes) H. unfold fine_result in H.
    destruct (f_main f) as [s nt|s| |] eqn:Ef; try done.
    - destruct Hm as [k Hk]. destruct (Hes (λ _, false)) as (es & c & Hr & (Hl & Hs & Hb & Hres) & Ha).
      assert (∀ i, EIter i true ∈ es → TaskMove i true ∈ ms) as Ha'.
      { intros i Hi. by destruct (Ha i Hi) as [?|[? _]]. }
      exists k. unfold threaded_search. rewrite Hk.
      destruct (existsb is_panicked (f_tasks f)) eqn:Ep.
      + injection H as <-. apply existsb_exists in Ep as (st & Hin & Hst).
        apply elem_of_list_In, elem_of_list_lookup in Hin as [i Hi]. destruct st; try done.
        destruct (Hs i _ Hi) as (cst & Hc & [(t & -> & Et)|(t & -> & Et)]).
        * exists (es ++ [EIter i false]). split.
          2: { intros k' [Hk'|[=]%elem_of_list_singleton]%elem_of_app. by apply Ha'. }
          rewrite (run_events_app _ _ _ _ _ _ _ Hr). simpl.
          rewrite Hc. fold (prob_of prob i). by rewrite task_iteration_local, Et.
        * exists (es ++ [EEnd i]). split.
          2: { intros k' [Hk'|[=]%elem_of_list_singleton]%elem_of_app. by apply Ha'. }
          rewrite (run_events_app _ _ _ _ _ _ _ Hr). simpl.
          by rewrite Hc, Et.
      + destruct (forallb is_done (f_tasks f)) eqn:Ed; [|done]. injection H as <-.
        rewrite forallb_forall in Ed.
        assert (∀ i st, f_tasks f !! i = Some st → st = FDone) as Hd.
        { intros i st Hi. assert (is_done st = true); [|by destruct st].
          apply Ed, elem_of_list_In, elem_of_list_lookup. by exists i. }
        exists es. split; [|done]. rewrite Hr. assert (all_finished c = true) as ->.
        { unfold all_finished. apply forallb_forall. intros cst Hin.
          apply elem_of_list_In, elem_of_list_lookup in Hin as [i Hi].
          assert (i < length (f_tasks f)) as Hlt by (rewrite <-Hl; by eapply lookup_lt_Some).
          destruct (lookup_lt_is_Some_2 _ _ Hlt) as [st Hst]. pose proof (Hd _ _ Hst) as ->.
          destruct (Hs _ _ Hst) as (cst' & Hc & Hrel). simpl in Hrel. simplify_eq. done. }
        rewrite Hres; [done|]. intros i st Hi. by rewrite (Hd _ _ Hi).
    - injection H as <-. destruct Hm as [k Hk]. exists k, []. split.
      + unfold threaded_search. by rewrite Hk.
      + intros i Hi. by apply elem_of_nil in Hi.
  Qed.
End refine.
