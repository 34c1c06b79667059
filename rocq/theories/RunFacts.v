(** * The search loops as sequences of iterations *)
From Verif Require Export CoverFacts Termination.

(** Both search loops have this shape: an iteration followed by a look at the
    timer. *)
Definition timed {X} (it : X → out (X + SearchState)) (st : X → SearchState)
    (timer : nat → bool) (s : nat * X) : out ((nat * X) + (MappedPaths * list N)) :=
  let* r := it s.2 in
  match r with
  | inr s' => Val (inr (ss_results s', ss_best s'))
  | inl s' =>
      if timer s.1 then Val (inr (ss_results (st s'), ss_best (st s')))
      else Val (inl (S s.1, s'))
  end.

Lemma do_search_timed bd timer :
  do_search_body bd timer = timed (search_iteration bd) id timer.
Proof. reflexivity. Qed.

Lemma do_probabilistic_search_timed bd timer acc smp :
  do_probabilistic_search_body bd timer acc smp
  = timed (probabilistic_iteration bd acc smp) snd timer.
Proof. reflexivity. Qed.

Lemma loop_ext {S R} (body body' : S → out (S + R)) (P : S → Prop) fuel s :
  (∀ s, P s → body s = body' s) → (∀ s s', P s → body s = Val (inl s') → P s') →
  P s → loop body fuel s = loop body' fuel s.
Proof.
  intros He Hp. revert s. induction fuel as [|fuel IH]; intros s Hs; [done|]. simpl.
  rewrite <- He by done. destruct (body s) as [[s'|r]|] eqn:E; [|done..].
  apply IH. by eapply Hp.
Qed.

Section run.
  Context (adj : spacial) (g : order) (Hin : wf_input adj g) (base : schedule).
  Notation n := (length adj).
  Notation cost := (cost adj).
  Notation iter_rel := (iter_rel adj g).
  Notation ok := (ok adj g base).
  Notation books := (books adj).
  Notation sound := (sound adj g).

  (** [j] iterations. *)
  Inductive iters (rand : bool) : nat → SearchState → SearchState → Prop :=
  | iters_0 s : iters rand 0 s s
  | iters_S j s s' s'' : iter_rel rand s (inl s') → iters rand j s' s'' → iters rand (S j) s s''.

  (** The last iteration before leaving the loop. *)
  Definition last_iter (rand : bool) (timeout : bool) (s s' : SearchState) : Prop :=
    iter_rel rand s (if timeout then inl s' else inr s').

  Section timed.
    Context {X} (it : X → out (X + SearchState)) (st : X → SearchState) (rand : bool).
    Context (Hit : ∀ x, ok (st x) → ∃ r, it x = Val r ∧
      iter_rel rand (st x) (match r with inl x' => inl (st x') | inr s' => inr s' end)).

    Lemma timed_run timer fuel k x o :
      ok (st x) → loop (timed it st timer) fuel (k, x) = Some o →
      ∃ j timeout s fin, o = Val (ss_results fin, ss_best fin) ∧
        iters rand j (st x) s ∧ last_iter rand timeout s fin ∧
        (∀ i, i < j → timer (k + i) = false) ∧ (timeout = true → timer (k + j) = true).
    Proof.
      revert k x. induction fuel as [|fuel IH]; intros k x Hok; [done|].
      simpl. unfold timed at 1. destruct (Hit x Hok) as (r & E & Hr). simpl. rewrite E. cbn [obind].
      destruct r as [x'|s'].
      - destruct (timer k) eqn:Et.
        + intros [= <-]. exists 0, true, (st x), (st x'). split; [done|]. split; [constructor|].
          split; [done|]. split; [lia|]. by rewrite Nat.add_0_r.
        + intros Hl. apply IH in Hl as (j & to & s & fin & -> & H1 & H2 & H3 & H4).
          * exists (S j), to, s, fin. split; [done|]. split; [by econstructor|]. split; [done|].
            split.
            -- intros [|i] Hi; [by rewrite Nat.add_0_r|].
               replace (k + S i) with (S k + i) by lia. apply H3. lia.
            -- intros Hto. replace (k + S j) with (S k + j) by lia. by apply H4.
          * apply (iter_rel_ok _ _ _ _ _ _ Hok Hr).
      - intros [= <-]. exists 0, false, (st x), s'. split; [done|]. split; [constructor|].
        split; [done|]. split; [lia|done].
    Qed.

    (** Two timers, the second of which does not finish earlier. *)
    Lemma timed_longer timer timer' start fuel fuel' k x res best res' best' :
      ok (st x) → books start (st x) →
      (∀ i, k ≤ i → timer' i = true → ∃ j, k ≤ j ≤ i ∧ timer j = true) →
      loop (timed it st timer) fuel (k, x) = Some (Val (res, best)) →
      loop (timed it st timer') fuel' (k, x) = Some (Val (res', best')) →
      ∀ t m q, res !! t = Some (m, q) → ∃ m' q', res' !! t = Some (m', q') ∧ (m' <= m)%N.
    Proof.
      assert (∀ timer fuel k x res best, ok (st x) → books start (st x) →
        loop (timed it st timer) fuel (k, x) = Some (Val (res, best)) →
        ∀ t m q, ss_results (st x) !! t = Some (m, q) →
          ∃ m' q', res !! t = Some (m', q') ∧ (m' <= m)%N) as Hgrow.
      { clear -Hit Hin. intros timer fuel. induction fuel as [|fuel IH]; intros k x res best Hok Hbk; [done|].
        simpl. unfold timed at 1. destruct (Hit x Hok) as (r & E & Hr). simpl. rewrite E. cbn [obind].
        pose proof (iter_rel_improve adj g Hin base rand start _ _ Hok Hbk Hr) as Himp.
        pose proof (iter_rel_ok adj g base _ _ _ Hok Hr) as Hok'.
        pose proof (iter_rel_books adj g Hin base _ _ _ _ Hok Hbk Hr) as Hbk'.
        destruct r as [x'|s']; simpl in *.
        - destruct (timer k).
          + intros [= <- <-]. apply Himp.
          + intros Hl t m q Ht. destruct (Himp t m q Ht) as (m1 & q1 & Hr1 & Hle).
            destruct (IH _ _ _ _ Hok' Hbk' Hl t m1 q1 Hr1) as (m2 & q2 & Hr2 & Hle2).
            exists m2, q2. split; [done|lia].
        - intros [= <- <-]. apply Himp. }
      revert fuel' k x. induction fuel as [|fuel IH]; intros fuel' k x Hok Hbk Htm; [done|].
      destruct fuel' as [|fuel']; [done|].
      simpl. unfold timed at 1 3. destruct (Hit x Hok) as (r & E & Hr). simpl. rewrite E. cbn [obind].
      pose proof (iter_rel_ok adj g base _ _ _ Hok Hr) as Hok'.
      pose proof (iter_rel_books adj g Hin base _ _ _ _ Hok Hbk Hr) as Hbk'.
      destruct r as [x'|s']; simpl in *.
      - destruct (timer k) eqn:Et.
        + intros [= <- <-]. destruct (timer' k).
          * intros [= <- <-] t m q Ht. exists m, q. split; [done|lia].
          * intros Hl. by eapply Hgrow.
        + destruct (timer' k) eqn:Et'.
          * destruct (Htm k ltac:(lia) Et') as (j & Hj & Hj'). assert (j = k) by lia. congruence.
          * intros H1 H2. eapply IH; [exact Hok'|exact Hbk'| |exact H1|exact H2].
            intros i Hi Hti. destruct (Htm i ltac:(lia) Hti) as (j & Hj & Hj').
            exists j. split; [|done]. destruct (decide (j = k)); [congruence|lia].
      - intros [= <- <-] [= <- <-] t m q Ht. exists m, q. split; [done|lia].
    Qed.
  End timed.

  (** ** Invariants along a run *)

  Lemma iters_ok rand j s s' : ok s → iters rand j s s' → ok s'.
  Proof.
    intros Hok. induction 1 as [|j s s' s'' H _ IH]; [done|]. apply IH.
    apply (iter_rel_ok _ _ _ _ _ _ Hok H).
  Qed.

  Lemma iters_sound rand j s s' : ok s → sound (ss_results s) → iters rand j s s' → sound (ss_results s').
  Proof.
    intros Hok Hs. induction 1 as [|j s s' s'' H _ IH]; [done|].
    apply IH; [apply (iter_rel_ok _ _ _ _ _ _ Hok H)|].
    apply (iter_rel_sound adj g Hin base _ _ _ Hok Hs H).
  Qed.

  Lemma iters_books rand start j s s' : ok s → books start s → iters rand j s s' → books start s'.
  Proof.
    intros Hok Hs. induction 1 as [|j s s' s'' H _ IH]; [done|].
    apply IH; [apply (iter_rel_ok _ _ _ _ _ _ Hok H)|].
    apply (iter_rel_books adj g Hin base _ _ _ _ Hok Hs H).
  Qed.

  Lemma iters_cover start j s s' σ :
    ok s → books start s → valid_schedule g σ → coverage adj s σ →
    iters false j s s' → coverage adj s' σ.
  Proof.
    intros Hok Hs Hv Hc. induction 1 as [|j s s' s'' H _ IH]; [done|].
    apply IH; [apply (iter_rel_ok _ _ _ _ _ _ Hok H)| |].
    - apply (iter_rel_books adj g Hin base _ _ _ _ Hok Hs H).
    - apply (iter_rel_cover adj g Hin base _ _ _ _ Hok Hs Hv Hc H).
  Qed.

  Lemma last_ok rand to s s' : ok s → last_iter rand to s s' → ok s'.
  Proof. intros Hok H. pose proof (iter_rel_ok _ _ _ _ _ _ Hok H) as H'. by destruct to. Qed.

  Lemma last_sound rand to s s' : ok s → sound (ss_results s) → last_iter rand to s s' → sound (ss_results s').
  Proof.
    intros Hok Hs H. pose proof (iter_rel_sound adj g Hin base _ _ _ Hok Hs H) as H'. by destruct to.
  Qed.

  Lemma last_books rand to start s s' : ok s → books start s → last_iter rand to s s' → books start s'.
  Proof.
    intros Hok Hs H. pose proof (iter_rel_books adj g Hin base _ _ _ _ Hok Hs H) as H'. by destruct to.
  Qed.

  (** ** The initial state *)

  Lemma search_root :
    ∃ s, search_scheduler adj g = Val s ∧ node adj g [] s ∧ SchedulerFacts.fresh s.
  Proof.
    destruct (search_scheduler_spec adj g Hin (T := Partition nat)) as (t & E & Hm & Hinv).
    destruct (fresh_root adj g t _ Hm Hinv) as [Hn Hf].
    eexists. split; [|done]. unfold search_scheduler. by rewrite E.
  Qed.

  Lemma books_start s start :
    antitone start → books start (mkSearchState (mkSweep s []) base start ∅).
  Proof.
    intros Ha. split; simpl; [done| | | |].
    - intros t a b H1 H2. assert (a = b) by congruence. lia.
    - intros. by left.
    - intros ???? _ H. by rewrite lookup_empty in H.
    - done.
  Qed.
End run.
