(** * The finer model: no deadlock, termination, and every list of events is realised *)
From Verif Require Export LocksRefine.

Section progress.
  Context (bd : build) (debug : bool) (nthreads : nat) (bound : Z).
  Context (prob : option ((nat → Accept) * (nat → nat → f64))).

  (** ** No deadlock *)

  (** A task that holds the lock, or does not need it, can go on. *)
  Definition needs_lock (st : FStatus) : bool :=
    match st with
    | FTaken _ | FLogged _ | FUpdate _ | FWantBest _ _ => true
    | _ => false
    end.

  Lemma free_moves f i st ch :
    fine_ok nthreads f → f_tasks f !! i = Some st →
    is_waiting st = false → is_done st = false → is_panicked st = false →
    needs_lock st = false ∨ f_best_lock f = None →
    is_Some (task_move bd debug nthreads prob f i ch).
  Proof.
    intros [[Hb Hr] _] Hi H1 H2 H3 H4. unfold task_move. rewrite Hi. cbn [mbind option_bind].
    destruct st as [j|j|j|j|j|t|t|t k|t|t|new this|new this|new this k| | |]; try done.
    - destruct H4 as [?|E]; [done|]. rewrite E. by destruct debug.
    - destruct H4 as [?|E]; [done|]. by rewrite E.
    - by destruct (task_local _ _ _) as [[]|].
    - destruct H4 as [?|E]; [done|]. by rewrite E.
    - by destruct (_ && _).
    - by destruct ch.
    - destruct (task_end t) as [[new this]|]; [|done]. by destruct (_ =? _).
    - destruct H4 as [?|E]; [done|]. by rewrite E.
    - destruct (f_results_lock f) as [k|] eqn:E; [|done].
      destruct (proj1 (Hr k) eq_refl) as (s & Hs & Es).
      assert (f_best_lock f = Some k) as E1.
      { apply Hb. exists s. split; [done|]. by destruct s. }
      assert (f_best_lock f = Some i) as E2.
      { apply Hb. by eexists. }
      assert (k = i) as -> by congruence. assert (s = FWantResults new this) as -> by congruence. done.
    - destruct (_ && _); [|done]. by destruct (merge_entry _ _ _ _ _) as [[? ?] ?].
  Qed.

  Lemma occupied_moves f i st ch :
    fine_ok nthreads f → f_tasks f !! i = Some st →
    is_waiting st = false → is_done st = false → is_panicked st = false →
    ∃ k, is_Some (task_move bd debug nthreads prob f k ch).
  Proof.
    intros Hok Hi H1 H2 H3. destruct (f_best_lock f) as [k|] eqn:E.
    - pose proof Hok as [[Hb _] _]. destruct (proj1 (Hb k) E) as (s & Hs & Es).
      exists k. eapply free_moves; [done|done| | | |]; try by destruct s. left. by destruct s.
    - exists i. eapply free_moves; [done|done|done|done|done|]. by right.
  Qed.

  Lemma no_deadlock f ch :
    1 ≤ nthreads → fine_ok nthreads f → fine_result f = None →
    is_Some (main_move bd bound f) ∨ ∃ i, is_Some (task_move bd debug nthreads prob f i ch).
  Proof.
    intros Hn Hok H. unfold fine_result in H.
    destruct (f_main f) as [s nt|s| |] eqn:Ef; [left|left|right|done].
    - unfold main_move. rewrite Ef. by destruct (scheduler_next_and_focus _ _) as [[? [[? ?]|]]|].
    - unfold main_move. by rewrite Ef.
    - destruct (existsb is_panicked (f_tasks f)) eqn:Ep; [done|].
      destruct (forallb is_done (f_tasks f)) eqn:Ed; [done|]. clear H.
      assert (∀ i st, f_tasks f !! i = Some st → is_panicked st = false) as Hp.
      { intros i st Hi. destruct (is_panicked st) eqn:E; [|done].
        rewrite <-Ep. symmetry. apply existsb_exists. exists st. split; [|done].
        apply elem_of_list_In, elem_of_list_lookup. by exists i. }
      (* the first task that is not done *)
      assert (∃ i st, f_tasks f !! i = Some st ∧ is_done st = false ∧
        ∀ k s, k < i → f_tasks f !! k = Some s → is_done s = true) as (i & st & Hi & Hd & Hbefore).
      { clear -Ed. induction (f_tasks f) as [|s l IH]; [done|]. simpl in Ed.
        destruct (is_done s) eqn:E.
        - destruct (IH Ed) as (i & st & Hi & Hd & Hb). exists (S i), st. split; [done|]. split; [done|].
          intros [|k] s' Hk Hs'; simpl in Hs'; [congruence|]. apply (Hb k); [lia|done].
        - exists 0, s. split; [done|]. split; [done|]. intros k s' Hk. lia. }
      destruct (is_waiting st) eqn:Ew; [|by eapply occupied_moves; eauto].
      (* is any task occupied? *)
      destruct (decide (length (List.filter occupied (f_tasks f)) = 0)) as [E0|E0].
      + exists i. unfold task_move. rewrite Hi. cbn [mbind option_bind]. destruct st; try done.
        assert (forallb (λ st, negb (is_waiting st)) (take i (f_tasks f)) = true) as ->.
        { apply forallb_forall. intros s Hs. apply elem_of_list_In, elem_of_list_lookup in Hs as [k Hk].
          assert (k < i) as Hki. { apply lookup_lt_Some in Hk. rewrite take_length in Hk. lia. }
          rewrite lookup_take in Hk by done. specialize (Hbefore k s Hki Hk). by destruct s. }
        rewrite E0. destruct (Nat.ltb_spec 0 nthreads); [done|lia].
      + assert (∃ k s, f_tasks f !! k = Some s ∧ occupied s = true) as (k & s & Hk & Hs).
        { clear -E0. induction (f_tasks f) as [|s l IH]; [done|]. simpl in E0. destruct (occupied s) eqn:E.
          - by exists 0, s.
          - destruct (IH E0) as (k & s' & Hk & Hs). by exists (S k), s'. }
        eapply (occupied_moves f k s); [done|done| | |by eapply Hp]; by destruct s.
  Qed.

  (** ** Termination *)

  Lemma task_local_bound i t t' :
    task_local bd (prob_of prob i) t = Val (Next t') ∨ task_local bd (prob_of prob i) t = Val (Full t') →
    state_bound (t_search t') < state_bound (t_search t).
  Proof.
    intros H. destruct H as [H|H].
    - pose proof (task_iteration_local bd prob i [] false t) as E. rewrite H in E.
      apply task_iteration_bound in E as [E|E]; [done|]. done.
    - pose proof (task_iteration_local bd prob i [] false t) as E. rewrite H in E. cbv zeta in E.
      apply task_iteration_bound in E as [E|E]; [done|]. done.
  Qed.

  (** A bound for the number of moves that are left for a task, for arrays with [L]
      entries. *)
  Definition loop_moves (L : nat) (t : Task) : nat := 6 + L + (L + 6) * state_bound (t_search t).
  Definition start_moves (L : nat) (j : Job) : nat :=
    6 + L + (L + 6) * sweep_bound (sweep_new (job_scheduler j)).
  Definition moves_left (L : nat) (st : FStatus) : nat :=
    match st with
    | FWaiting j => 5 + start_moves L j
    | FTaken j => 4 + start_moves L j
    | FLogging j => 3 + start_moves L j
    | FLogged j => 2 + start_moves L j
    | FCopying j => 1 + start_moves L j
    | FLoop t => loop_moves L t
    | FUpdate t => 3 + L + loop_moves L t
    | FExchanging t k => 2 + (L - k) + loop_moves L t
    | FPolling t => 1 + loop_moves L t
    | FLeaving t => 5 + L
    | FWantBest _ _ => 4 + L
    | FWantResults _ _ => 3 + L
    | FMerging _ _ k => 2 + (L - k)
    | FReleasing => 1
    | FDone | FPanicked => 0
    end.

  Definition total_moves (L : nat) (f : Fine) : nat := sum_list (map (moves_left L) (f_tasks f)).

  Lemma sum_insert {A} (g : A → nat) l i x y :
    l !! i = Some x → sum_list (map g (<[i := y]> l)) + g x = sum_list (map g l) + g y.
  Proof.
    revert i. induction l as [|z l IH]; intros [|i] Hi; simpl in *; [done|done| |].
    - injection Hi as ->. lia.
    - specialize (IH i Hi). lia.
  Qed.

  Lemma task_move_bound f i ch f' :
    task_move bd debug nthreads prob f i ch = Some f' →
    f_main f' = f_main f ∧ length (f_best f') = length (f_best f) ∧
    total_moves (length (f_best f)) f' < total_moves (length (f_best f)) f.
  Proof.
    intros H.
    apply task_move_cases in H as (st & st' & best & lock & results & lock' & Hi & -> & H).
    cbn [f_main f_best]. split; [done|].
    cut (length best = length (f_best f) ∧ moves_left (length (f_best f)) st' < moves_left (length (f_best f)) st).
    { intros [? Hlt]. split; [done|]. unfold total_moves. cbn [f_tasks].
      pose proof (sum_insert (moves_left (length (f_best f))) _ _ _ st' Hi). lia. }
    set (L := length (f_best f)) in *.
    destruct st as [j|j|j|j|j|t|t|t k|t|t|new this|new this|new this k| | |]; try done.
    - destruct_and? H; subst; simpl. split; [done|lia].
    - destruct_and? H; subst; simpl. split; [done|]. destruct debug; simpl; lia.
    - destruct_and? H; subst; simpl. split; [done|lia].
    - destruct_and? H; subst; simpl. split; [done|lia].
    - destruct_and? H; subst; simpl. split; [done|]. unfold loop_moves, start_moves, state_bound. simpl. lia.
    - destruct_and? H; subst. split; [done|].
      destruct (task_local bd (prob_of prob i) t) as [[t'|t'|t']|] eqn:E; cbn [moves_left]; unfold loop_moves.
      + pose proof (task_local_bound i t t' (or_introl E)). nia.
      + pose proof (task_local_bound i t t' (or_intror E)). nia.
      + lia.
      + lia.
    - destruct_and? H; subst; simpl. split; [done|lia].
    - destruct H as [H|H]; destruct_and? H; subst.
      + split; [apply exchange_entry_length|]. cbn [moves_left]. unfold loop_moves, task_with. cbn [t_search].
        unfold state_bound. cbn [ss_scheduler]. lia.
      + split; [done|]. cbn [moves_left]. unfold loop_moves, task_with. cbn [t_search].
        unfold state_bound. cbn [ss_scheduler]. lia.
    - destruct_and? H; subst; simpl. split; [done|]. destruct ch; simpl; unfold loop_moves; lia.
    - destruct_and? H; subst; cbn [moves_left]. split; [done|].
      destruct (task_end t) as [[new this]|]; [destruct (_ =? _)|]; cbn [moves_left]; lia.
    - destruct_and? H; subst; simpl. split; [done|lia].
    - destruct_and? H; subst; simpl. split; [done|lia].
    - destruct H as [(H1 & H2 & new' & Em & H)|H]; destruct_and? H; subst.
      + split; [by eapply (finish_merge_step _ _ _ _ _ _ _ _ H1 H2 Em)|]. cbn [moves_left]. lia.
      + split; [done|]. cbn [moves_left]. lia.
    - destruct_and? H; subst; simpl. split; [done|lia].
  Qed.

  (** The same for the closure; [n] bounds its own moves. *)
  Fixpoint main_moves (L n : nat) (m : Main) : nat :=
    match n with
    | 0 => 0
    | S n =>
        match m with
        | Submitting s nt =>
            match scheduler_next_and_focus bd s with
            | Panic => 1
            | Val (s, None) => 1 + main_moves L n (Remaining s)
            | Val (s, Some (s', m)) =>
                1 + moves_left L (FWaiting (mkJob s' (Some m))) +
                main_moves L n (if (nt + 1 =? bound)%Z then Remaining s else Submitting s (nt + 1))
            end
        | Remaining s => 1 + moves_left L (FWaiting (mkJob s None))
        | _ => 0
        end
    end.

  (** How many moves the closure can still do. *)
  Definition main_rank (m : Main) : nat :=
    match m with Submitting s _ => 2 + nitems s | Remaining _ => 1 | _ => 0 end.

  Lemma total_snoc L f m j :
    total_moves L (mkFine m (f_tasks f ++ [FWaiting j]) (f_best f) (f_best_lock f) (f_results f) (f_results_lock f))
    = total_moves L f + moves_left L (FWaiting j).
  Proof.
    unfold total_moves. cbn [f_tasks]. generalize (moves_left L). intros g.
    induction (f_tasks f) as [|x l IH]; simpl in *; lia.
  Qed.

  Lemma main_move_bound f f' n :
    main_move bd bound f = Some f' → main_rank (f_main f) ≤ n →
    ∃ n', main_rank (f_main f') ≤ n' ∧ f_best f' = f_best f ∧
      main_moves (length (f_best f)) n' (f_main f') + total_moves (length (f_best f)) f' <
      main_moves (length (f_best f)) n (f_main f) + total_moves (length (f_best f)) f.
  Proof.
    intros H Hn. unfold main_move in H. destruct (f_main f) as [s nt|s| |] eqn:Ef; try done.
    - destruct n as [|n]; [simpl in Hn; lia|]. exists n. cbn [main_moves].
      destruct (scheduler_next_and_focus bd s) as [[s' [[s'' m]|]]|] eqn:En; injection H as <-.
      + assert (nitems s' < nitems s) as Hlt.
        { apply scheduler_next_measure in En as (_ & Hr & _). lia. }
        split; [|split; [done|]].
        * cbn [f_main]. destruct (_ =? _)%Z; simpl in *; lia.
        * rewrite total_snoc. cbn [f_main]. lia.
      + split; [simpl in *; lia|]. split; [done|]. cbn [f_main]. unfold total_moves. cbn [f_tasks]. lia.
      + split; [simpl in *; lia|]. split; [done|]. cbn [f_main]. unfold total_moves. cbn [f_tasks].
        destruct n; simpl; lia.
    - destruct n as [|n]; [simpl in Hn; lia|]. injection H as <-. exists 0. split; [simpl; lia|].
      split; [done|]. rewrite total_snoc. cbn [f_main main_moves]. lia.
  Qed.

  Lemma fine_run_bound n f ms f' :
    main_rank (f_main f) ≤ n → fine_run bd debug nthreads bound prob f ms = Some f' →
    length ms ≤ main_moves (length (f_best f)) n (f_main f) + total_moves (length (f_best f)) f.
  Proof.
    revert n f. induction ms as [|m ms IH]; intros n f Hn H; simpl in H |- *; [lia|].
    destruct (fine_move _ _ _ _ _ f m) as [f1|] eqn:E; [|done]. cbn [mbind option_bind] in H.
    destruct m as [|i ch]; simpl in E.
    - destruct (main_move_bound f f1 n E Hn) as (n' & Hn' & Eb & Hlt).
      specialize (IH n' f1 Hn' H). rewrite Eb in IH. lia.
    - apply task_move_bound in E as (Em & El & Hlt).
      specialize (IH n f1 ltac:(by rewrite Em) H). rewrite Em, El in IH. lia.
  Qed.

  (** ** Every list of events is realised *)

  Definition crel1 (cst : Status) (st : FStatus) : Prop :=
    match cst with
    | Waiting j => st = FWaiting j ∨ st = FTaken j
    | Running t => st = FLoop t
    | Ending t => st = FLeaving t
    | Finished => st = FDone
    end.

  Definition crel (f : Fine) (c : System) : Prop :=
    f_main f = Joining_ ∧ f_best_lock f = None ∧ f_results_lock f = None ∧
    f_best f = sys_best c ∧ f_results f = sys_results c ∧
    Forall2 crel1 (sys_tasks c) (f_tasks f).

  Local Notation frun := (fine_run bd debug nthreads bound prob).

  Lemma frun_1 f i ch f' : task_move bd debug nthreads prob f i ch = Some f' → frun f [TaskMove i ch] = Some f'.
  Proof. intros H. simpl. by rewrite H. Qed.

  Lemma frun_app f ms f1 ms' f2 : frun f ms = Some f1 → frun f1 ms' = Some f2 → frun f (ms ++ ms') = Some f2.
  Proof. intros H1 H2. by rewrite (fine_run_app _ _ _ _ _ _ _ _ _ H1). Qed.

  Lemma occupied_unfinished ctasks tasks i :
    Forall2 crel1 ctasks tasks →
    (∀ k st, k < i → tasks !! k = Some st → is_waiting st = false) →
    (∀ k st, i ≤ k → tasks !! k = Some st → is_waiting st = true) →
    length (List.filter occupied tasks) = unfinished (take i ctasks).
  Proof.
    intros H. revert i. induction H as [|cst st ctasks tasks Hst H IH]; intros i Hlt Hge.
    - by rewrite take_nil.
    - destruct i as [|i].
      + assert (is_waiting st = true) as Hw by (apply (Hge 0); [lia|done]). simpl.
        destruct st; try done. simpl. rewrite (IH 0); [by rewrite take_0|intros; lia|].
        intros k s _ Hk. apply (Hge (S k)); [lia|done].
      + simpl. assert (is_waiting st = false) as Hw by (apply (Hlt 0); [lia|done]).
        assert (length (List.filter occupied tasks) = unfinished (take i ctasks)) as IH'.
        { apply IH.
          - intros k s Hk Hs. apply (Hlt (S k)); [lia|done].
          - intros k s Hk Hs. apply (Hge (S k)); [lia|done]. }
        unfold unfinished in *. rewrite filter_cons.
        destruct cst; simpl in Hst; [destruct Hst as [-> | ->]|subst..]; simpl; try done; by rewrite IH'.
  Qed.

  (** The workers take the tasks before [n]. *)
  Lemma take_upto f c n :
    fine_ok nthreads f → crel f c → n ≤ length (sys_tasks c) →
    n = 0 ∨ unfinished (take (n - 1) (sys_tasks c)) < nthreads →
    ∃ ms f', (∀ i, TaskMove i true ∉ ms) ∧ frun f ms = Some f' ∧ crel f' c ∧
      ∀ k st, k < n → f_tasks f' !! k = Some st → is_waiting st = false.
  Proof.
    intros Hok Hc Hn Hu. induction n as [|n IH].
    { exists [], f. split; [intros ?; apply not_elem_of_nil|]. split; [done|]. split; [done|]. intros; lia. }
    destruct Hu as [?|Hu]; [lia|]. replace (S n - 1) with n in Hu by lia.
    destruct IH as (ms & f1 & Hno & Hms & Hc1 & Hw1); [lia| |].
    { destruct n as [|n]; [by left|right]. replace (S n - 1) with n by lia.
      eapply Nat.le_lt_trans; [|exact Hu].
      unfold unfinished. clear. generalize (sys_tasks c). induction n as [|n IH]; intros l.
      - rewrite take_0. simpl. lia.
      - destruct l as [|x l]; [done|]. simpl take. rewrite !filter_cons. specialize (IH l).
        destruct (decide _); simpl; simpl in IH; lia. }
    pose proof (fine_run_ok _ _ _ _ _ _ _ _ Hok Hms) as Hok1.
    destruct Hc1 as (Em & El & El' & Eb & Er & HF).
    assert (n < length (f_tasks f1)) as Hlt. { apply Forall2_length in HF. lia. }
    destruct (lookup_lt_is_Some_2 _ _ Hlt) as [st Hst].
    destruct (is_waiting st) eqn:Ew.
    - destruct st as [j| | | | | | | | | | | | | | |]; try done.
      exists (ms ++ [TaskMove n false]). eexists. split.
      { intros i [?|[=]%elem_of_list_singleton]%elem_of_app. by eapply Hno. }
      split.
      { eapply frun_app; [done|]. apply frun_1. unfold task_move. rewrite Hst. cbn [mbind option_bind].
        assert (forallb (λ st, negb (is_waiting st)) (take n (f_tasks f1)) = true) as ->.
        { apply forallb_forall. intros s Hs. apply elem_of_list_In, elem_of_list_lookup in Hs as [k Hk].
          assert (k < n) as Hki. { apply lookup_lt_Some in Hk. rewrite take_length in Hk. lia. }
          rewrite lookup_take in Hk by done. by rewrite (Hw1 k s Hki Hk). }
        rewrite (occupied_unfinished _ _ n HF Hw1).
        - apply Nat.ltb_lt in Hu. rewrite Hu. done.
        - intros k s Hk Hs. destruct Hok1 as [_ [Hfifo _]].
          destruct (decide (k = n)) as [->|Hkn]; [by simplify_eq|]. by eapply (Hfifo n k); [lia|..]. }
      split.
      + split; [done|]. split; [done|]. split; [done|]. split; [done|]. split; [done|]. cbn [f_tasks].
        assert (n < length (sys_tasks c)) as Hltc by lia.
        destruct (lookup_lt_is_Some_2 _ _ Hltc) as [cst Hcst].
        pose proof (Forall2_lookup_lr _ _ _ _ _ _ HF Hcst Hst) as Hrel.
        rewrite <-(list_insert_id _ _ _ Hcst). apply Forall2_insert; [done|].
        destruct cst; simpl in *; try done. destruct Hrel as [[= ->]|]; [by right|done].
      + intros k s Hk Hs. cbn [f_tasks] in Hs. destruct (decide (k = n)) as [->|Hkn].
        * rewrite list_lookup_insert in Hs by done. by injection Hs as <-.
        * rewrite list_lookup_insert_ne in Hs by done. apply (Hw1 k); [lia|done].
    - exists ms, f1. split; [done|]. split; [done|]. split; [done|]. intros k s Hk Hs.
      destruct (decide (k = n)) as [->|Hkn]; [by simplify_eq|]. apply (Hw1 k); [lia|done].
  Qed.

  Lemma exchange_run f i t k (ch : bool) :
    f_tasks f !! i = Some (FExchanging t k) →
    let r := finish_exchange k (f_best f) (ss_best (t_search t)) in
    ∃ ms, (∀ m, m ∈ ms → m = TaskMove i ch) ∧ frun f ms = Some (mkFine (f_main f) (<[i := FPolling (task_with t r.2 1)]> (f_tasks f))
      r.1 None (f_results f) (f_results_lock f)).
  Proof.
    remember (length (f_best f) - k) as n eqn:En. revert f t k En.
    induction n as [|n IH]; intros f t k En Hi; cbv zeta.
    - exists [TaskMove i ch]. split; [by intros m ->%elem_of_list_singleton|]. apply frun_1. unfold task_move. rewrite Hi. cbn [mbind option_bind].
      destruct (Nat.ltb_spec k (length (f_best f))); [lia|]. cbn [andb].
      rewrite finish_exchange_end by lia. done.
    - destruct (Nat.ltb_spec k (length (f_best f))) as [H1|H1]; [|lia].
      destruct (Nat.ltb_spec k (length (ss_best (t_search t)))) as [H2|H2].
      + set (r := exchange_entry k (f_best f) (ss_best (t_search t))).
        set (f1 := mkFine (f_main f) (<[i := FExchanging (task_with t r.2 (t_counter t)) (S k)]> (f_tasks f)) r.1
                     (f_best_lock f) (f_results f) (f_results_lock f)).
        destruct (IH f1 (task_with t r.2 (t_counter t)) (S k)) as (ms & Hall & Hms).
        { unfold f1, r. cbn [f_best]. rewrite (proj1 (exchange_entry_length _ _ _)). lia. }
        { unfold f1. cbn [f_tasks]. apply list_lookup_insert. by eapply lookup_lt_Some. }
        exists ([TaskMove i ch] ++ ms).
        split; [by intros m [->%elem_of_list_singleton|Hm]%elem_of_app; auto|]. eapply frun_app.
        { apply frun_1. unfold task_move. rewrite Hi. cbn [mbind option_bind].
          destruct (Nat.ltb_spec k (length (f_best f))); [|lia].
          destruct (Nat.ltb_spec k (length (ss_best (t_search t)))); [|lia]. cbn [andb]. done. }
        fold r. fold f1. rewrite Hms. unfold f1. cbn [f_main f_tasks f_best f_results f_results_lock].
        cbn [task_with t_search ss_best]. unfold r. rewrite finish_exchange_step by done.
        rewrite list_insert_insert. done.
      + exists [TaskMove i ch]. split; [by intros m ->%elem_of_list_singleton|]. apply frun_1. unfold task_move. rewrite Hi. cbn [mbind option_bind].
        destruct (Nat.ltb_spec k (length (f_best f))); [|lia].
        destruct (Nat.ltb_spec k (length (ss_best (t_search t)))); [lia|]. cbn [andb].
        rewrite finish_exchange_end by lia. done.
  Qed.

  Lemma merge_run f i new this k (ch : bool) :
    f_tasks f !! i = Some (FMerging new this k) →
    let r := finish_merge k (f_best f) this new (f_results f) in
    ∃ ms, (∀ m, m ∈ ms → m = TaskMove i ch) ∧ frun f ms = Some (mkFine (f_main f) (<[i := FReleasing]> (f_tasks f))
      r.1 (f_best_lock f) r.2 None).
  Proof.
    remember (length (f_best f) - k) as n eqn:En. revert f new k En.
    induction n as [|n IH]; intros f new k En Hi; cbv zeta.
    - exists [TaskMove i ch]. split; [by intros m ->%elem_of_list_singleton|]. apply frun_1. unfold task_move. rewrite Hi. cbn [mbind option_bind].
      destruct (Nat.ltb_spec k (length (f_best f))); [lia|]. cbn [andb].
      rewrite finish_merge_end by lia. done.
    - destruct (Nat.ltb_spec k (length (f_best f))) as [H1|H1]; [|lia].
      destruct (Nat.ltb_spec k (length this)) as [H2|H2].
      + destruct (merge_entry k (f_best f) this new (f_results f)) as [[best' new'] results'] eqn:Em.
        destruct (finish_merge_step _ _ _ _ _ _ _ _ H1 H2 Em) as [Es El].
        set (f1 := mkFine (f_main f) (<[i := FMerging new' this (S k)]> (f_tasks f)) best'
                     (f_best_lock f) results' (f_results_lock f)).
        destruct (IH f1 new' (S k)) as (ms & Hall & Hms).
        { unfold f1. cbn [f_best]. lia. }
        { unfold f1. cbn [f_tasks]. apply list_lookup_insert. by eapply lookup_lt_Some. }
        exists ([TaskMove i ch] ++ ms).
        split; [by intros m [->%elem_of_list_singleton|Hm]%elem_of_app; auto|]. apply (frun_app f _ f1).
        { apply frun_1. unfold task_move. rewrite Hi. cbn [mbind option_bind].
          destruct (Nat.ltb_spec k (length (f_best f))); [|lia].
          destruct (Nat.ltb_spec k (length this)); [|lia]. cbn [andb]. rewrite Em. done. }
        rewrite Hms. unfold f1. cbn [f_main f_tasks f_best f_best_lock f_results f_results_lock].
        rewrite Es, list_insert_insert. done.
      + exists [TaskMove i ch]. split; [by intros m ->%elem_of_list_singleton|]. apply frun_1. unfold task_move. rewrite Hi. cbn [mbind option_bind].
        destruct (Nat.ltb_spec k (length (f_best f))); [|lia].
        destruct (Nat.ltb_spec k (length this)); [lia|]. cbn [andb].
        rewrite finish_merge_end by lia. done.
  Qed.

  Lemma start_run f i j :
    f_tasks f !! i = Some (FTaken j) → f_best_lock f = None →
    ∃ ms, (∀ m, m ∈ ms → m = TaskMove i false) ∧
      frun f ms = Some (mkFine (f_main f) (<[i := FLoop (task_start (f_best f) j)]> (f_tasks f))
        (f_best f) None (f_results f) (f_results_lock f)).
  Proof.
    intros Hi El. assert (i < length (f_tasks f)) as Hlt by (by eapply lookup_lt_Some).
    exists (if debug then repeat (TaskMove i false) 4 else repeat (TaskMove i false) 2). split.
    { intros m Hm. destruct debug; apply elem_of_list_In, repeat_spec in Hm; done. }
    destruct debug; cbn [repeat fine_run fine_move]; unfold task_move.
    all: repeat first
      [ rewrite Hi | rewrite El | rewrite list_lookup_insert by (rewrite ?insert_length; done)
      | rewrite list_insert_insert | progress cbn [mbind option_bind f_tasks f_main f_best f_best_lock f_results f_results_lock] ].
    all: done.
  Qed.

  (** The state of [f] after moves of task [i] that end outside of the locks. *)
  Definition moved (f : Fine) (i : nat) (st : FStatus) (best : list N) (results : MappedPaths) : Fine :=
    mkFine (f_main f) (<[i := st]> (f_tasks f)) best None results None.

  Lemma crel_moved f c i cst st best results :
    crel f c → crel1 cst st →
    crel (moved f i st best results) (mkSystem (<[i := cst]> (sys_tasks c)) best results).
  Proof.
    intros (Em & El & El' & Eb & Er & HF) H1. split; [done|]. split; [done|]. split; [done|]. split; [done|].
    split; [done|]. cbn. by apply Forall2_insert.
  Qed.

  Lemma crel_event f c e o :
    fine_ok nthreads f → crel f c → exec bd nthreads prob c e = Some o →
    ∃ ms f', (∀ i, TaskMove i true ∈ ms → e = EIter i true) ∧ frun f ms = Some f' ∧
      match o with
      | Val c' => crel f' c'
      | Panic => f_main f' = Joining_ ∧ existsb is_panicked (f_tasks f') = true
      end.
  Proof.
    intros Hok Hc He. destruct e as [i|i fin|i]; simpl in He.
    - destruct (sys_tasks c !! i) as [[j|t|t|]|] eqn:Ei; try done.
      destruct (Nat.ltb_spec (unfinished (take i (sys_tasks c))) nthreads) as [Hu|]; [|done]. injection He as <-.
      assert (i < length (sys_tasks c)) as Hlt by (by eapply lookup_lt_Some).
      destruct (take_upto f c (S i) Hok Hc ltac:(lia)) as (ms & f1 & Hno & Hms & Hc1 & Hw).
      { right. by replace (S i - 1) with i by lia. }
      pose proof Hc1 as (Em & El & El' & Eb & Er & HF).
      assert (f_tasks f1 !! i = Some (FTaken j)) as Hi.
      { destruct (Forall2_lookup_l _ _ _ _ _ HF Ei) as (st & Hst & Hrel). simpl in Hrel.
        destruct Hrel as [-> | ->]; [|done]. specialize (Hw i _ ltac:(lia) Hst). done. }
      assert (i < length (f_tasks f1)) as Hlt' by (by eapply lookup_lt_Some).
      destruct (start_run f1 i j Hi El) as (ms' & Hall & Hms').
      exists (ms ++ ms').
      exists (moved f1 i (FLoop (task_start (sys_best c) j)) (sys_best c) (sys_results c)).
      split; [|split].
      + intros k [?|Hin]%elem_of_app; [by destruct (Hno k)|]. apply Hall in Hin. congruence.
      + eapply frun_app; [done|]. rewrite Hms'. unfold moved. by rewrite Eb, Er, El'.
      + apply crel_moved; [done|]. done.
    - destruct (sys_tasks c !! i) as [[j|t|t|]|] eqn:Ei; try done. injection He as <-.
      pose proof Hc as (Em & El & El' & Eb & Er & HF).
      destruct (Forall2_lookup_l _ _ _ _ _ HF Ei) as (st & Hi & ->).
      assert (i < length (f_tasks f)) as Hlt' by (by eapply lookup_lt_Some).
      fold (prob_of prob i). rewrite task_iteration_local.
      assert (∀ st', match task_local bd (prob_of prob i) t with
                     | Panic => st' = FPanicked
                     | Val (Next t) => st' = FLoop t
                     | Val (Full t) => st' = FUpdate t
                     | Val (Leave t) => st' = FLeaving t
                     end →
               task_move bd debug nthreads prob f i fin = Some (moved f i st' (sys_best c) (sys_results c))) as Hmove.
      { intros st' Hst'. unfold task_move. rewrite Hi. cbn [mbind option_bind]. fold (prob_of prob i).
        destruct (task_local bd (prob_of prob i) t) as [[t'|t'|t']|]; subst st';
          unfold moved; by rewrite Eb, Er, El, El'. }
      destruct (task_local bd (prob_of prob i) t) as [[t'|t'|t']|] eqn:Et; cbn [obind].
      + exists [TaskMove i fin], (moved f i (FLoop t') (sys_best c) (sys_results c)).
        split; [intros k Hk%elem_of_list_singleton; congruence|split].
        { apply frun_1. by apply Hmove. }
        by apply crel_moved.
      + set (r := exchange (sys_best c) (ss_best (t_search t'))).
        set (f1 := moved f i (FUpdate t') (sys_best c) (sys_results c)).
        set (f2 := mkFine (f_main f) (<[i := FExchanging t' 0]> (f_tasks f)) (sys_best c) (Some i) (sys_results c) None).
        assert (frun f1 [TaskMove i fin] = Some f2) as H1.
        { apply frun_1. unfold task_move, f1, moved. cbn [f_tasks f_main f_best f_best_lock f_results f_results_lock].
          rewrite list_lookup_insert by done. cbn [mbind option_bind]. rewrite list_insert_insert. done. }
        destruct (exchange_run f2 i t' 0 fin) as (ms & Hall & Hms).
        { unfold f2. cbn [f_tasks]. by rewrite list_lookup_insert by done. }
        unfold f2 in Hms. cbn [f_tasks f_main f_best f_best_lock f_results f_results_lock] in Hms.
        rewrite finish_exchange_0, list_insert_insert in Hms. fold r in Hms.
        exists ([TaskMove i fin] ++ [TaskMove i fin] ++ ms ++ [TaskMove i fin]).
        exists (moved f i (if fin then FLeaving (task_with t' r.2 1) else FLoop (task_with t' r.2 1)) r.1 (sys_results c)).
        split; [|split].
        { intros k. rewrite !elem_of_app, !elem_of_list_singleton. intros [E|[E|[Hin|E]]]; [congruence|congruence| |congruence].
          pose proof (Hall _ Hin). congruence. }
        { eapply frun_app; [apply frun_1; by apply Hmove|]. eapply frun_app; [exact H1|].
          eapply frun_app; [exact Hms|]. apply frun_1. unfold task_move.
          cbn [f_tasks f_main f_best f_best_lock f_results f_results_lock].
          rewrite list_lookup_insert by done. cbn [mbind option_bind]. rewrite !list_insert_insert.
          unfold moved. by destruct fin. }
        apply crel_moved; [done|]. by destruct fin.
      + exists [TaskMove i fin], (moved f i (FLeaving t') (sys_best c) (sys_results c)).
        split; [intros k Hk%elem_of_list_singleton; congruence|split].
        { apply frun_1. by apply Hmove. }
        by apply crel_moved.
      + exists [TaskMove i fin], (moved f i FPanicked (sys_best c) (sys_results c)).
        split; [intros k Hk%elem_of_list_singleton; congruence|split].
        { apply frun_1. by apply Hmove. }
        split; [done|]. apply existsb_exists. exists FPanicked. split; [|done].
        apply elem_of_list_In, elem_of_list_lookup. exists i. cbn. by apply list_lookup_insert.
    - destruct (sys_tasks c !! i) as [[j|t|t|]|] eqn:Ei; try done. injection He as <-.
      pose proof Hc as (Em & El & El' & Eb & Er & HF).
      destruct (Forall2_lookup_l _ _ _ _ _ HF Ei) as (st & Hi & ->).
      assert (i < length (f_tasks f)) as Hlt' by (by eapply lookup_lt_Some).
      assert (∀ st', match task_end t with
                     | Panic => st' = FPanicked
                     | Val (new, this) => st' = if size new =? 0 then FDone else FWantBest new this
                     end →
               task_move bd debug nthreads prob f i false = Some (moved f i st' (sys_best c) (sys_results c))) as Hmove.
      { intros st' Hst'. unfold task_move. rewrite Hi. cbn [mbind option_bind].
        destruct (task_end t) as [[new this]|]; [destruct (_ =? _)|]; subst st';
          unfold moved; by rewrite Eb, Er, El, El'. }
      destruct (task_end t) as [[new this]|] eqn:Et; cbn [obind].
      + unfold Threaded.merge. destruct (size new =? 0) eqn:En.
        * exists [TaskMove i false], (moved f i FDone (sys_best c) (sys_results c)).
        split; [by intros k [=]%elem_of_list_singleton|split].
          { apply frun_1. by apply Hmove. }
          by apply crel_moved.
        * set (r := merge_from 0 (sys_best c) this new (sys_results c)).
          set (f1 := moved f i (FWantBest new this) (sys_best c) (sys_results c)).
          set (f2 := mkFine (f_main f) (<[i := FWantResults new this]> (f_tasks f)) (sys_best c) (Some i) (sys_results c) None).
          set (f3 := mkFine (f_main f) (<[i := FMerging new this 0]> (f_tasks f)) (sys_best c) (Some i) (sys_results c) (Some i)).
          assert (frun f1 [TaskMove i false] = Some f2) as H1.
          { apply frun_1. unfold task_move, f1, moved. cbn [f_tasks f_main f_best f_best_lock f_results f_results_lock].
            rewrite list_lookup_insert by done. cbn [mbind option_bind]. rewrite list_insert_insert. done. }
          assert (frun f2 [TaskMove i false] = Some f3) as H2.
          { apply frun_1. unfold task_move, f2. cbn [f_tasks f_main f_best f_best_lock f_results f_results_lock].
            rewrite list_lookup_insert by done. cbn [mbind option_bind]. rewrite list_insert_insert. done. }
          destruct (merge_run f3 i new this 0 false) as (ms & Hall & Hms).
          { unfold f3. cbn [f_tasks]. by rewrite list_lookup_insert by done. }
          unfold f3 in Hms. cbn [f_tasks f_main f_best f_best_lock f_results f_results_lock] in Hms.
          rewrite finish_merge_0, list_insert_insert in Hms. fold r in Hms.
          exists ([TaskMove i false] ++ [TaskMove i false] ++ [TaskMove i false] ++ ms ++ [TaskMove i false]).
          exists (moved f i FDone r.1 r.2).
          split; [|split].
          { intros k. rewrite !elem_of_app, !elem_of_list_singleton. intros [[=]|[[=]|[[=]|[Hin|[=]]]]].
            by injection (Hall _ Hin). }
          { eapply frun_app; [apply frun_1; by apply Hmove|]. rewrite ?En. eapply frun_app; [exact H1|].
            eapply frun_app; [exact H2|]. eapply frun_app; [exact Hms|]. apply frun_1. unfold task_move.
            cbn [f_tasks f_main f_best f_best_lock f_results f_results_lock].
            rewrite list_lookup_insert by done. cbn [mbind option_bind]. rewrite !list_insert_insert. done. }
          by apply crel_moved.
      + exists [TaskMove i false], (moved f i FPanicked (sys_best c) (sys_results c)).
        split; [by intros k [=]%elem_of_list_singleton|split].
        { apply frun_1. by apply Hmove. }
        split; [done|]. apply existsb_exists. exists FPanicked. split; [|done].
        apply elem_of_list_In, elem_of_list_lookup. exists i. cbn. by apply list_lookup_insert.
  Qed.

  Lemma crel_events f c es o :
    fine_ok nthreads f → crel f c → run_events bd nthreads prob c es = Some o →
    ∃ ms f', (∀ i, TaskMove i true ∈ ms → EIter i true ∈ es) ∧ frun f ms = Some f' ∧
      match o with
      | Val c' => crel f' c'
      | Panic => f_main f' = Joining_ ∧ existsb is_panicked (f_tasks f') = true
      end.
  Proof.
    revert f c. induction es as [|e es IH]; intros f c Hok Hc H; simpl in H.
    - injection H as <-. exists [], f. split; [by intros i Hi%elem_of_nil|]. done.
    - destruct (exec bd nthreads prob c e) as [[c1|]|] eqn:E; [| |done].
      + destruct (crel_event f c e _ Hok Hc E) as (ms & f1 & Ha & Hms & Hc1).
        destruct (IH f1 c1 (fine_run_ok _ _ _ _ _ _ _ _ Hok Hms) Hc1 H) as (ms' & f2 & Ha' & Hms' & Hc2).
        exists (ms ++ ms'), f2. split; [|split; [by eapply frun_app|done]].
        intros i [Hi|Hi]%elem_of_app; [rewrite (Ha _ Hi); left|right; auto].
      + injection H as <-. destruct (crel_event f c e _ Hok Hc E) as (ms & f1 & Ha & Hms & Hc1).
        exists ms, f1. split; [|done]. intros i Hi. rewrite (Ha _ Hi). left.
  Qed.

  Lemma spawn_run fuel s jobs n f o :
    f_main f = Submitting s n → f_tasks f = map FWaiting jobs →
    loop (spawn_body bd bound) fuel (s, jobs, n) = Some o →
    ∃ ms f', (∀ m, m ∈ ms → m = MainMove) ∧ frun f ms = Some f' ∧
      match o with
      | Val jobs' => f' = mkFine Joining_ (map FWaiting jobs') (f_best f) (f_best_lock f)
                            (f_results f) (f_results_lock f)
      | Panic => f_main f' = MainPanicked
      end.
  Proof.
    revert s jobs n f. induction fuel as [|fuel IH]; intros s jobs n f Em Et H; [done|].
    rewrite loop_S in H. unfold spawn_body at 1 in H.
    assert (∀ f', main_move bd bound f = Some f' → frun f [MainMove] = Some f') as H1.
    { intros f' E. simpl. by rewrite E. }
    destruct (scheduler_next_and_focus bd s) as [[s' [[s'' m]|]]|] eqn:En; cbn [obind] in H.
    - destruct (n + 1 =? bound)%Z eqn:Eb.
      + injection H as <-. exists ([MainMove] ++ [MainMove]). eexists. split; [|split].
        { intros x. rewrite elem_of_app, elem_of_list_singleton. by intros [?|?]. }
        { eapply frun_app.
          - apply H1. unfold main_move. rewrite Em, En, Eb. done.
          - simpl. done. }
        cbn. rewrite Et, !map_app. done.
      + set (f1 := mkFine (Submitting s' (n + 1)) (f_tasks f ++ [FWaiting (mkJob s'' (Some m))]) (f_best f)
                     (f_best_lock f) (f_results f) (f_results_lock f)).
        destruct (IH s' (jobs ++ [mkJob s'' (Some m)]) (n + 1)%Z f1) as (ms & f' & Hall & Hms & Hf'); [done| |done|].
        { unfold f1. cbn [f_tasks]. by rewrite Et, map_app. }
        exists ([MainMove] ++ ms), f'.
        split; [by intros x [->%elem_of_list_singleton|Hx]%elem_of_app; auto|]. split; [|done].
        eapply frun_app; [|done]. apply H1. unfold main_move. rewrite Em, En, Eb. done.
    - injection H as <-. exists ([MainMove] ++ [MainMove]). eexists. split; [|split].
        { intros x. rewrite elem_of_app, elem_of_list_singleton. by intros [?|?]. }
      { eapply frun_app.
        - apply H1. unfold main_move. rewrite Em, En. done.
        - simpl. done. }
      cbn. rewrite Et, !map_app. done.
    - injection H as <-. exists [MainMove]. eexists. split; [by intros x ->%elem_of_list_singleton|]. split.
      { apply H1. unfold main_move. rewrite Em, En. done. }
      done.
  Qed.

  Lemma realised n root fuel es o :
    threaded_search bd fuel es nthreads n root bound prob = Some o →
    ∃ ms f, frun (fine_init n root) ms = Some f ∧ fine_result f = Some o ∧
      ∀ i, TaskMove i true ∈ ms → EIter i true ∈ es.
  Proof.
    unfold threaded_search. intros H. destruct (spawn bd fuel bound root) as [o1|] eqn:Es; [|done].
    destruct (spawn_run fuel root [] 0%Z (fine_init n root) o1 eq_refl eq_refl Es) as (ms & f1 & Hmain & Hms & Hf1).
    destruct o1 as [jobs|].
    - assert (fine_ok nthreads f1) as Hok1 by (eapply fine_run_ok; [|done]; apply fine_init_ok).
      assert (crel f1 (system_init n jobs)) as Hc1.
      { subst f1. split; [done|]. split; [done|]. split; [done|]. split; [done|]. split; [done|]. cbn.
        rewrite Forall2_fmap_l, Forall2_fmap_r. apply Forall_Forall2_diag, Forall_true. intros j. by left. }
      destruct (run_events bd nthreads prob (system_init n jobs) es) as [o2|] eqn:Er; [|done].
      destruct (crel_events _ _ _ _ Hok1 Hc1 Er) as (ms' & f2 & Ha & Hms' & Hf2).
      exists (ms ++ ms'), f2. split; [by eapply frun_app|]. split.
      2: { intros i [Hi|Hi]%elem_of_app; [by apply Hmain in Hi|auto]. }
      unfold fine_result.
      destruct o2 as [c|].
      + destruct (all_finished c) eqn:Ea; [|done]. injection H as <-.
        destruct Hf2 as (Em & _ & _ & _ & <- & HF). rewrite Em.
        assert (∀ st, st ∈ f_tasks f2 → st = FDone) as Hd.
        { intros st [i Hi]%elem_of_list_lookup. destruct (Forall2_lookup_r _ _ _ _ _ HF Hi) as (cst & Hcst & Hrel).
          unfold all_finished in Ea. rewrite forallb_forall in Ea. specialize (Ea cst).
          assert (is_finished cst = true) as Hfin.
          { apply Ea, elem_of_list_In, elem_of_list_lookup. by exists i. }
          by destruct cst. }
        destruct (existsb is_panicked (f_tasks f2)) eqn:Ep.
        { apply existsb_exists in Ep as (st & Hin%elem_of_list_In & Hst). by rewrite (Hd st Hin) in Hst. }
        assert (forallb is_done (f_tasks f2) = true) as ->; [|done].
        apply forallb_forall. intros st Hin%elem_of_list_In. by rewrite (Hd st Hin).
      + injection H as <-. destruct Hf2 as [-> ->]. done.
    - injection H as <-. exists ms, f1. split; [done|]. split.
      + unfold fine_result. by rewrite Hf1.
      + intros i Hi. by apply Hmain in Hi.
  Qed.
End progress.
