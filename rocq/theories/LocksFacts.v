(** * The finer model of the thread pool: locks, and the events it corresponds to *)
From Verif Require Export Locks PoolFacts.

(** ** One entry at a time *)

(** What an exchange that has done [k] entries ends with. *)
Definition finish_exchange (k : nat) (shared this : list N) : list N * list N :=
  (take k shared ++ (exchange (drop k shared) (drop k this)).1,
   take k this ++ (exchange (drop k shared) (drop k this)).2).

Lemma finish_exchange_0 shared this : finish_exchange 0 shared this = exchange shared this.
Proof. unfold finish_exchange. rewrite !drop_0. simpl. by destruct (exchange shared this). Qed.

Lemma exchange_nil shared : exchange shared [] = (shared, []).
Proof. by destruct shared. Qed.

Lemma finish_exchange_end k shared this :
  length shared ≤ k ∨ length this ≤ k → finish_exchange k shared this = (shared, this).
Proof.
  intros H. unfold finish_exchange.
  assert (exchange (drop k shared) (drop k this) = (drop k shared, drop k this)) as ->.
  { destruct H as [H|H]; rewrite (drop_ge _ _ H); [done|apply exchange_nil]. }
  simpl. by rewrite !take_drop.
Qed.

Lemma take_insert_S {A} (l : list A) k x : k < length l → take (S k) (<[k := x]> l) = take k l ++ [x].
Proof.
  intros H. rewrite (take_S_r _ k x); [|by apply list_lookup_insert]. by rewrite take_insert.
Qed.

Lemma drop_insert_S {A} (l : list A) k x : drop (S k) (<[k := x]> l) = drop (S k) l.
Proof. apply drop_insert_gt. lia. Qed.

Lemma finish_exchange_step k shared this :
  k < length shared → k < length this →
  finish_exchange (S k) (exchange_entry k shared this).1 (exchange_entry k shared this).2 =
    finish_exchange k shared this.
Proof.
  intros H1 H2.
  destruct (lookup_lt_is_Some_2 _ _ H1) as [s Hs]. destruct (lookup_lt_is_Some_2 _ _ H2) as [t Ht].
  unfold finish_exchange, exchange_entry. rewrite Hs, Ht.
  rewrite (drop_S _ _ _ Hs), (drop_S _ _ _ Ht). cbn [exchange].
  destruct (t ?= s)%N eqn:E; cbn [fst snd].
  - apply N.compare_eq_iff in E as ->.
    rewrite (take_S_r _ _ _ Hs), (take_S_r _ _ _ Ht), <-!app_assoc. done.
  - rewrite drop_insert_S, (take_insert_S _ _ _ H1), (take_S_r _ _ _ Ht), <-!app_assoc. done.
  - rewrite drop_insert_S, (take_insert_S _ _ _ H2), (take_S_r _ _ _ Hs), <-!app_assoc. done.
Qed.

Lemma exchange_entry_length k shared this :
  length (exchange_entry k shared this).1 = length shared ∧
  length (exchange_entry k shared this).2 = length this.
Proof.
  unfold exchange_entry. destruct (shared !! k); [|done]. destruct (this !! k); [|done].
  destruct (_ ?= _)%N; simpl; by rewrite ?insert_length.
Qed.

(** What a merge that has done [k] entries ends with. *)
Definition finish_merge (k : nat) (shared this : list N) (new results : MappedPaths)
    : list N * MappedPaths :=
  let r := merge_from k (drop k shared) (drop k this) new results in (take k shared ++ r.1, r.2).

Lemma finish_merge_0 shared this new results :
  finish_merge 0 shared this new results = merge_from 0 shared this new results.
Proof. unfold finish_merge. rewrite !drop_0. simpl. by destruct (merge_from _ _ _ _ _). Qed.

Lemma finish_merge_end k shared this new results :
  length shared ≤ k ∨ length this ≤ k → finish_merge k shared this new results = (shared, results).
Proof.
  intros H. unfold finish_merge.
  assert (merge_from k (drop k shared) (drop k this) new results = (drop k shared, results)) as ->.
  { destruct H as [H|H]; rewrite (drop_ge _ _ H); [done|by destruct (drop k shared)]. }
  simpl. by rewrite take_drop.
Qed.

Lemma finish_merge_step k shared this new results best' new' results' :
  k < length shared → k < length this →
  merge_entry k shared this new results = (best', new', results') →
  finish_merge (S k) best' this new' results' = finish_merge k shared this new results ∧
  length best' = length shared.
Proof.
  intros H1 H2.
  destruct (lookup_lt_is_Some_2 _ _ H1) as [s Hs]. destruct (lookup_lt_is_Some_2 _ _ H2) as [m Hm].
  unfold finish_merge, merge_entry. rewrite Hs, Hm.
  rewrite (drop_S shared _ _ Hs), (drop_S this _ _ Hm). cbn [merge_from].
  destruct (m <=? s)%N.
  - intros [= <- <- <-]. rewrite drop_insert_S, (take_insert_S _ _ _ H1), insert_length. cbn [fst snd].
    rewrite <-app_assoc. done.
  - intros [= <- <- <-]. rewrite (take_S_r _ _ _ Hs). cbn [fst snd]. rewrite <-app_assoc. done.
Qed.

(** ** Locks *)

Definition lock_ok (holds : FStatus → bool) (tasks : list FStatus) (lock : option nat) : Prop :=
  ∀ i, lock = Some i ↔ ∃ st, tasks !! i = Some st ∧ holds st = true.

Lemma lock_ok_insert holds tasks lock lock' i st st' :
  lock_ok holds tasks lock → tasks !! i = Some st →
  (lock' = Some i ↔ holds st' = true) →
  (∀ k, k ≠ i → lock = Some k ↔ lock' = Some k) →
  lock_ok holds (<[i := st']> tasks) lock'.
Proof.
  intros H Hi H1 H2 k. destruct (decide (k = i)) as [->|Hk].
  - rewrite list_lookup_insert by (by eapply lookup_lt_Some). rewrite H1. split.
    + intros E. by exists st'.
    + intros (? & [= <-] & E). done.
  - rewrite list_lookup_insert_ne by done. rewrite <-(H2 k Hk). apply H.
Qed.

Lemma lock_ok_same holds tasks lock i st st' :
  lock_ok holds tasks lock → tasks !! i = Some st → holds st' = holds st →
  lock_ok holds (<[i := st']> tasks) lock.
Proof.
  intros H Hi E. eapply lock_ok_insert; [done|done| |done].
  rewrite (H i), E. split; [intros (? & E' & ?); by simplify_eq|by exists st].
Qed.

Lemma lock_ok_acquire holds tasks i st st' :
  lock_ok holds tasks None → tasks !! i = Some st → holds st' = true →
  lock_ok holds (<[i := st']> tasks) (Some i).
Proof.
  intros H Hi E. eapply lock_ok_insert; [done|done| |].
  - by rewrite E.
  - intros k Hk. split; [done|]. intros [= ->]. done.
Qed.

Lemma lock_ok_release holds tasks lock i st st' :
  lock_ok holds tasks lock → tasks !! i = Some st → holds st = true → holds st' = false →
  lock_ok holds (<[i := st']> tasks) None.
Proof.
  intros H Hi E E'. assert (lock = Some i) as -> by (apply H; by exists st).
  eapply lock_ok_insert; [done|done| |].
  - rewrite E'. done.
  - intros k Hk. split; [intros [= ->]; done|done].
Qed.

Lemma lock_ok_snoc holds tasks lock st :
  lock_ok holds tasks lock → holds st = false → lock_ok holds (tasks ++ [st]) lock.
Proof.
  intros H E k. rewrite (H k). split; intros (st' & Hk & E').
  - exists st'. split; [|done]. by apply lookup_app_l_Some.
  - exists st'. split; [|done]. apply lookup_app_Some in Hk as [Hk|[_ Hk]]; [done|].
    apply list_lookup_singleton_Some in Hk as [_ <-]. congruence.
Qed.

Definition locks_ok (f : Fine) : Prop :=
  lock_ok holds_best (f_tasks f) (f_best_lock f) ∧
  lock_ok holds_results (f_tasks f) (f_results_lock f).

(** ** The queue *)

Definition fifo (tasks : list FStatus) : Prop :=
  ∀ k i st st', k < i → tasks !! k = Some st → tasks !! i = Some st' →
  is_waiting st = true → is_waiting st' = true.

Definition queue_ok (nthreads : nat) (tasks : list FStatus) : Prop :=
  fifo tasks ∧ length (List.filter occupied tasks) ≤ nthreads.

Lemma filter_insert {A} (P : A → bool) l i x y :
  l !! i = Some x →
  length (List.filter P (<[i := y]> l)) + (if P x then 1 else 0) =
    length (List.filter P l) + (if P y then 1 else 0).
Proof.
  revert i. induction l as [|z l IH]; intros [|i] Hi; simpl in *; [done|done| |].
  - injection Hi as ->. destruct (P x), (P y); simpl; lia.
  - specialize (IH i Hi). destruct (P z); simpl; lia.
Qed.

Lemma queue_ok_insert nthreads tasks i st st' :
  queue_ok nthreads tasks → tasks !! i = Some st → is_waiting st = false → is_waiting st' = false →
  (occupied st' = true → occupied st = true) →
  queue_ok nthreads (<[i := st']> tasks).
Proof.
  intros [Hf Hn] Hi E E' Ho. split.
  - intros k m s s' Hkm Hk Hm Hw.
    destruct (decide (k = i)) as [->|Hki].
    { rewrite list_lookup_insert in Hk by (by eapply lookup_lt_Some). congruence. }
    rewrite list_lookup_insert_ne in Hk by done.
    destruct (decide (m = i)) as [->|Hmi].
    { rewrite (Hf _ _ _ _ Hkm Hk Hi Hw) in E. done. }
    rewrite list_lookup_insert_ne in Hm by done. eauto.
  - pose proof (filter_insert occupied tasks i st st' Hi).
    destruct (occupied st'), (occupied st); first [lia|by specialize (Ho eq_refl)].
Qed.

Lemma queue_ok_take nthreads tasks i j :
  queue_ok nthreads tasks → tasks !! i = Some (FWaiting j) →
  forallb (λ st, negb (is_waiting st)) (take i tasks) = true →
  length (List.filter occupied tasks) < nthreads →
  queue_ok nthreads (<[i := FTaken j]> tasks).
Proof.
  intros [Hf Hn] Hi Hall Hlt. split.
  - intros k m s s' Hkm Hk Hm Hw.
    destruct (decide (k = i)) as [->|Hki].
    { rewrite list_lookup_insert in Hk by (by eapply lookup_lt_Some). injection Hk as <-. done. }
    rewrite list_lookup_insert_ne in Hk by done.
    destruct (decide (m = i)) as [->|Hmi].
    { rewrite forallb_forall in Hall. specialize (Hall s). rewrite Hw in Hall.
      exfalso. cut (negb true = true); [done|]. apply Hall. apply elem_of_list_In.
      apply elem_of_list_lookup. exists k. by rewrite lookup_take. }
    rewrite list_lookup_insert_ne in Hm by done. eauto.
  - pose proof (filter_insert occupied tasks i _ (FTaken j) Hi) as H. simpl in H. lia.
Qed.

Lemma queue_ok_snoc nthreads tasks j : queue_ok nthreads tasks → queue_ok nthreads (tasks ++ [FWaiting j]).
Proof.
  intros [Hf Hn]. split.
  - intros k m s s' Hkm Hk Hm Hw.
    apply lookup_app_Some in Hm as [Hm|[Hl Hm]].
    + assert (m < length tasks) by (by eapply lookup_lt_Some).
      rewrite lookup_app_l in Hk by lia. eauto.
    + by apply list_lookup_singleton_Some in Hm as [_ <-].
  - rewrite List.filter_app, app_length. simpl. lia.
Qed.

(** ** Every move keeps them *)

Section moves.
  Context (bd : build) (debug : bool) (nthreads : nat) (bound : Z).
  Context (prob : option ((nat → Accept) * (nat → nat → f64))).

  Definition prob_of (i : nat) : option (Accept * (nat → f64)) :=
    match prob with
    | Some (accept_func, samples) => Some (accept_func i, samples i)
    | None => None
    end.

  (** The possible moves of a task. *)
  Lemma task_move_cases f i ch f' :
    task_move bd debug nthreads prob f i ch = Some f' →
    ∃ st st' best lock results lock',
      f_tasks f !! i = Some st ∧
      f' = mkFine (f_main f) (<[i := st']> (f_tasks f)) best lock results lock' ∧
      match st with
      | FWaiting j =>
          forallb (λ st, negb (is_waiting st)) (take i (f_tasks f)) = true ∧
          length (List.filter occupied (f_tasks f)) < nthreads ∧ st' = FTaken j ∧
          best = f_best f ∧ lock = f_best_lock f ∧ results = f_results f ∧ lock' = f_results_lock f
      | FTaken j =>
          st' = (if debug then FLogging j else FCopying j) ∧ f_best_lock f = None ∧
          best = f_best f ∧ lock = Some i ∧ results = f_results f ∧ lock' = f_results_lock f
      | FLogging j =>
          st' = FLogged j ∧
          best = f_best f ∧ lock = None ∧ results = f_results f ∧ lock' = f_results_lock f
      | FLogged j =>
          st' = FCopying j ∧ f_best_lock f = None ∧
          best = f_best f ∧ lock = Some i ∧ results = f_results f ∧ lock' = f_results_lock f
      | FCopying j =>
          st' = FLoop (task_start (f_best f) j) ∧
          best = f_best f ∧ lock = None ∧ results = f_results f ∧ lock' = f_results_lock f
      | FLoop t =>
          st' = match task_local bd (prob_of i) t with
                | Panic => FPanicked
                | Val (Next t) => FLoop t
                | Val (Full t) => FUpdate t
                | Val (Leave t) => FLeaving t
                end ∧
          best = f_best f ∧ lock = f_best_lock f ∧ results = f_results f ∧ lock' = f_results_lock f
      | FUpdate t =>
          st' = FExchanging t 0 ∧ f_best_lock f = None ∧
          best = f_best f ∧ lock = Some i ∧ results = f_results f ∧ lock' = f_results_lock f
      | FExchanging t k =>
          (k < length (f_best f) ∧ k < length (ss_best (t_search t)) ∧
           st' = FExchanging (task_with t (exchange_entry k (f_best f) (ss_best (t_search t))).2
                                (t_counter t)) (S k) ∧
           best = (exchange_entry k (f_best f) (ss_best (t_search t))).1 ∧
           lock = f_best_lock f ∧ results = f_results f ∧ lock' = f_results_lock f) ∨
          ((length (f_best f) ≤ k ∨ length (ss_best (t_search t)) ≤ k) ∧
           st' = FPolling (task_with t (ss_best (t_search t)) 1) ∧
           best = f_best f ∧ lock = None ∧ results = f_results f ∧ lock' = f_results_lock f)
      | FPolling t =>
          st' = (if ch then FLeaving t else FLoop t) ∧
          best = f_best f ∧ lock = f_best_lock f ∧ results = f_results f ∧ lock' = f_results_lock f
      | FLeaving t =>
          st' = match task_end t with
                | Panic => FPanicked
                | Val (new_results, this) =>
                    if size new_results =? 0 then FDone else FWantBest new_results this
                end ∧
          best = f_best f ∧ lock = f_best_lock f ∧ results = f_results f ∧ lock' = f_results_lock f
      | FWantBest new this =>
          st' = FWantResults new this ∧ f_best_lock f = None ∧
          best = f_best f ∧ lock = Some i ∧ results = f_results f ∧ lock' = f_results_lock f
      | FWantResults new this =>
          st' = FMerging new this 0 ∧ f_results_lock f = None ∧
          best = f_best f ∧ lock = f_best_lock f ∧ results = f_results f ∧ lock' = Some i
      | FMerging new this k =>
          (k < length (f_best f) ∧ k < length this ∧ ∃ new',
           merge_entry k (f_best f) this new (f_results f) = (best, new', results) ∧
           st' = FMerging new' this (S k) ∧ lock = f_best_lock f ∧ lock' = f_results_lock f) ∨
          ((length (f_best f) ≤ k ∨ length this ≤ k) ∧
           st' = FReleasing ∧
           best = f_best f ∧ lock = f_best_lock f ∧ results = f_results f ∧ lock' = None)
      | FReleasing =>
          st' = FDone ∧
          best = f_best f ∧ lock = None ∧ results = f_results f ∧ lock' = f_results_lock f
      | FDone | FPanicked => False
      end.
  Proof.
    unfold task_move. destruct (f_tasks f !! i) as [st|] eqn:Ei; [|done]. cbn [mbind option_bind].
    intros H. exists st.
    destruct st as [j|j|j|j|j|t|t|t k|t|t|new this|new this|new this k| | |].
    - destruct (forallb _ _) eqn:E; [|done]. destruct (Nat.ltb_spec (length (List.filter occupied (f_tasks f))) nthreads); [|done].
      injection H as <-. repeat eexists; done.
    - destruct debug, (f_best_lock f); try done; injection H as <-; repeat eexists; done.
    - injection H as <-; repeat eexists; done.
    - destruct (f_best_lock f); try done; injection H as <-; repeat eexists; done.
    - injection H as <-; repeat eexists; done.
    - fold (prob_of i) in H. destruct (task_local bd (prob_of i) t) as [[]|]; injection H as <-; repeat eexists; done.
    - destruct (f_best_lock f); try done; injection H as <-; repeat eexists; done.
    - destruct (Nat.ltb_spec k (length (f_best f))); [destruct (Nat.ltb_spec k (length (ss_best (t_search t))))|];
        cbn [andb] in H; injection H as <-; do 5 eexists; (split; [done|]); (split; [done|]).
      + left. done.
      + right. split; [by right|done].
      + right. split; [by left|done].
    - destruct ch; injection H as <-; repeat eexists; done.
    - destruct (task_end t) as [[new this]|].
      + destruct (_ =? _) eqn:E; injection H as <-; do 5 eexists; (split; [done|]); (split; [done|]); done.
      + injection H as <-; repeat eexists; done.
    - destruct (f_best_lock f); try done; injection H as <-; repeat eexists; done.
    - destruct (f_results_lock f); try done; injection H as <-; repeat eexists; done.
    - destruct (Nat.ltb_spec k (length (f_best f))); [destruct (Nat.ltb_spec k (length this))|];
        cbn [andb] in H.
      + destruct (merge_entry _ _ _ _ _) as [[best new'] results] eqn:E. injection H as <-.
        do 5 eexists; (split; [done|]); (split; [done|]). left. split; [done|]. split; [done|]. by exists new'.
      + injection H as <-. do 5 eexists; (split; [done|]); (split; [done|]). right. split; [by right|done].
      + injection H as <-. do 5 eexists; (split; [done|]); (split; [done|]). right. split; [by left|done].
    - injection H as <-; repeat eexists; done.
    - done.
    - done.
  Qed.

  Ltac move_cases H :=
    apply task_move_cases in H as (st & st' & best & lock & results & lock' & Hi & -> & H);
    destruct st as [j|j|j|j|j|t|t|t k|t|t|new this|new this|new this k| | |];
    try done.

  Lemma task_move_locks f i ch f' :
    locks_ok f → task_move bd debug nthreads prob f i ch = Some f' → locks_ok f'.
  Proof.
    intros [Hb Hr] H. move_cases H;
      destruct_and? H; subst; unfold locks_ok; cbn [f_tasks f_best_lock f_results_lock].
    - split; by eapply lock_ok_same.
    - match goal with E : f_best_lock f = None |- _ => rewrite E in Hb end. split; [eapply lock_ok_acquire|eapply lock_ok_same]; try done; by destruct debug.
    - split; [by eapply lock_ok_release|by eapply lock_ok_same].
    - match goal with E : f_best_lock f = None |- _ => rewrite E in Hb end. split; [by eapply lock_ok_acquire|by eapply lock_ok_same].
    - split; [by eapply lock_ok_release|by eapply lock_ok_same].
    - split; (eapply lock_ok_same; [done|done|]); by destruct (task_local _ _ _) as [[]|].
    - match goal with E : f_best_lock f = None |- _ => rewrite E in Hb end. split; [by eapply lock_ok_acquire|by eapply lock_ok_same].
    - destruct H as [H|H]; destruct_and? H; subst.
      + split; by eapply lock_ok_same.
      + split; [by eapply lock_ok_release|by eapply lock_ok_same].
    - split; (eapply lock_ok_same; [done|done|]); by destruct ch.
    - split; (eapply lock_ok_same; [done|done|]); destruct (task_end _) as [[]|]; try done; by destruct (_ =? _).
    - match goal with E : f_best_lock f = None |- _ => rewrite E in Hb end. split; [by eapply lock_ok_acquire|by eapply lock_ok_same].
    - match goal with E : f_results_lock f = None |- _ => rewrite E in Hr end. split; [by eapply lock_ok_same|by eapply lock_ok_acquire].
    - destruct H as [(? & ? & new' & H)|H]; destruct_and? H; subst.
      + split; by eapply lock_ok_same.
      + split; [by eapply lock_ok_same|by eapply lock_ok_release].
    - split; [by eapply lock_ok_release|by eapply lock_ok_same].
  Qed.

  Lemma task_move_queue f i ch f' :
    queue_ok nthreads (f_tasks f) → task_move bd debug nthreads prob f i ch = Some f' →
    queue_ok nthreads (f_tasks f').
  Proof.
    intros Hq H. move_cases H; destruct_and? H; subst; cbn [f_tasks].
    1: by apply queue_ok_take.
    7: destruct H as [H|H]; destruct_and? H; subst.
    13: destruct H as [(? & ? & new' & H)|H]; destruct_and? H; subst.
    all: eapply queue_ok_insert; [done|done|done| |done].
    all: repeat case_match; done.
  Qed.

  Lemma main_move_locks f f' : locks_ok f → main_move bd bound f = Some f' → locks_ok f'.
  Proof.
    intros [Hb Hr] H. unfold main_move in H. destruct (f_main f); try done.
    - destruct (scheduler_next_and_focus _ _) as [[s [[s' m]|]]|]; injection H as <-; try done.
      split; by apply lock_ok_snoc.
    - injection H as <-. split; by apply lock_ok_snoc.
  Qed.

  Lemma main_move_queue f f' :
    queue_ok nthreads (f_tasks f) → main_move bd bound f = Some f' → queue_ok nthreads (f_tasks f').
  Proof.
    intros Hq H. unfold main_move in H. destruct (f_main f); try done.
    - destruct (scheduler_next_and_focus _ _) as [[s [[s' m]|]]|]; injection H as <-; try done.
      by apply queue_ok_snoc.
    - injection H as <-. by apply queue_ok_snoc.
  Qed.

  Definition fine_ok (f : Fine) : Prop := locks_ok f ∧ queue_ok nthreads (f_tasks f).

  Lemma fine_init_ok n s : fine_ok (fine_init n s).
  Proof.
    split; [split|split]; simpl.
    - intros i. split; [done|intros (? & ? & ?)]. done.
    - intros i. split; [done|intros (? & ? & ?)]. done.
    - intros k i st st' _ Hk. done.
    - lia.
  Qed.

  Lemma fine_move_ok f m f' : fine_ok f → fine_move bd debug nthreads bound prob f m = Some f' → fine_ok f'.
  Proof.
    intros [Hl Hq] H. destruct m as [|i ch]; simpl in H.
    - split; [by eapply main_move_locks|by eapply main_move_queue].
    - split; [by eapply task_move_locks|by eapply task_move_queue].
  Qed.

  Lemma fine_run_ok f ms f' : fine_ok f → fine_run bd debug nthreads bound prob f ms = Some f' → fine_ok f'.
  Proof.
    revert f. induction ms as [|m ms IH]; intros f Hf H; simpl in H.
    - by injection H as <-.
    - destruct (fine_move _ _ _ _ _ f m) as [f1|] eqn:E; [|done]. cbn [mbind option_bind] in H.
      eapply IH; [|done]. by eapply fine_move_ok.
  Qed.

  Lemma fine_run_app f ms ms' f' :
    fine_run bd debug nthreads bound prob f ms = Some f' →
    fine_run bd debug nthreads bound prob f (ms ++ ms') = fine_run bd debug nthreads bound prob f' ms'.
  Proof.
    revert f. induction ms as [|m ms IH]; intros f H; simpl in H |- *.
    - by injection H as <-.
    - destruct (fine_move _ _ _ _ _ f m) as [f1|] eqn:E; [|done]. cbn [mbind option_bind] in H |- *. auto.
  Qed.
End moves.
