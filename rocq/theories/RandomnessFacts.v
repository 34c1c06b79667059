(** * One and several threads: the result depends on the verdicts only *)
From Verif Require Export Randomness CallbackFacts.

(** [q] and [q'] agree before call [k]. *)
Definition same_until (k : nat) (q q' : nat → Question) : Prop := ∀ j, j < k → q j = q' j.

Lemma same_until_used acc k q q' j :
  same_until k q q' → j ≤ k → used acc q j = used acc q' j.
Proof.
  intros Hq. induction j as [|j IH]; intros Hj; [done|]. cbn [used].
  rewrite (Hq j) by lia. rewrite IH by lia. done.
Qed.

(** How an iteration goes on, with the numbers of samples and calls. *)
Definition go (dr : Draws) (r : SearchState + SearchState)
    : out ((Draws * SearchState) + SearchState) :=
  Val (match r with inl s => inl (dr, s) | inr s => inr s end).

(** One iteration, seen from a state in which [k] calls have been made: either it
    asks nothing, or it asks one question. *)
Lemma iteration_question bd k s :
  (∃ r : out (SearchState + SearchState), ∀ acc smp n,
     probabilistic_iteration bd acc smp ((n, k), s)
     = match r with Val r => go (n, k) r | Panic => Panic end) ∨
  (∃ (y : Question) (yes no : SearchState + SearchState), ∀ acc smp n,
     probabilistic_iteration bd acc smp ((n, k), s)
     = match answer acc k y with
       | Panic => Panic
       | Val x => if SFleb f64_one x then go (n, S k) yes
                  else if SFltb (smp n) x then go (S n, S k) yes
                  else go (S n, S k) no
       end).
Proof.
  unfold probabilistic_iteration.
  destruct (sweep_next (ss_scheduler s)) as [[sch st]|]; simpl; [|left; by exists Panic].
  destruct st as [[mess|leaf]|]; simpl.
  - unfold probabilistic_forward.
    destruct (index (ss_best s) _) as [m|]; simpl; [|left; by exists Panic].
    destruct (m <=? _)%N.
    { left. destruct (skip_current sch) as [sch' []]; simpl.
      - by exists (Val (inl (mkSearchState sch' (ss_path s) (ss_best s) (ss_results s)))).
      - by exists (Val (inr (mkSearchState sch' (ss_path s) (ss_best s) (ss_results s)))). }
    destruct (last (ss_best s)) as [lb|]; simpl; [|left; by exists Panic].
    right.
    exists (f64_of_usize m, f64_of_usize lb,
            f64_of_usize (max_memory (s_space (current (ss_scheduler s)))),
            f64_of_usize (current_memory (s_space (current (ss_scheduler s)))),
            f64_of_usize (current_memory (s_space (current sch))),
            f64_of_usize (N.of_nat (num_remaining_nodes (s_time (current sch)))),
            f64_of_usize (N.of_nat (length (nodes (s_space (current sch)))))).
    exists (inl (mkSearchState sch (ss_path s ++ [mess]) (ss_best s) (ss_results s))).
    exists (match skip_current sch with
            | (sch', Ok _) => inl (mkSearchState sch' (ss_path s) (ss_best s) (ss_results s))
            | (sch', Err _) => inr (mkSearchState sch' (ss_path s) (ss_best s) (ss_results s))
            end).
    intros acc smp n. cbn [answer]. destruct (acc k _ _ _ _ _ _ _) as [x|]; [|done]. simpl.
    destruct (SFleb _ _); [done|]. destruct (SFltb _ _); [done|].
    by destruct (skip_current sch) as [? []].
  - left. destruct (backward _ _ _ _) as [[[p b] r]|]; simpl; [|by exists Panic].
    by exists (Val (inl (mkSearchState sch p b r))).
  - left. by exists (Val (inr (mkSearchState sch (ss_path s) (ss_best s) (ss_results s)))).
Qed.

(** The questions with [y] as number [k]. *)
Definition ask (k : nat) (y : Question) (q : nat → Question) : nat → Question :=
  λ j, if j =? k then y else q j.

Lemma ask_same k y q : ask k y q k = y.
Proof. unfold ask. by rewrite Nat.eqb_refl. Qed.

Lemma ask_until k y q : same_until k q (ask k y q).
Proof. intros j Hj. unfold ask. destruct (Nat.eqb_spec j k); [lia|done]. Qed.

Lemma same_until_mono k k' q q' : k ≤ k' → same_until k' q q' → same_until k q q'.
Proof. intros Hk H j Hj. apply H. lia. Qed.

Lemma same_until_trans k q q' q'' :
  same_until k q q' → same_until k q' q'' → same_until k q q''.
Proof. intros H H' j Hj. by rewrite (H j Hj), (H' j Hj). Qed.

(** The two runs make the same decision. *)
Lemma verdict_cases acc acc' smp smp' q k y (yes no : SearchState + SearchState) :
  q k = y → verdict acc' smp' q k = verdict acc smp q k →
  (answer acc k y = Panic ∧ answer acc' k y = Panic) ∨
  ∃ r,
    match answer acc k y with
    | Panic => Panic
    | Val x => if SFleb f64_one x then go (used acc q k, S k) yes
               else if SFltb (smp (used acc q k)) x then go (S (used acc q k), S k) yes
               else go (S (used acc q k), S k) no
    end = go (used acc q (S k), S k) r ∧
    match answer acc' k y with
    | Panic => Panic
    | Val x => if SFleb f64_one x then go (used acc' q k, S k) yes
               else if SFltb (smp' (used acc' q k)) x then go (S (used acc' q k), S k) yes
               else go (S (used acc' q k), S k) no
    end = go (used acc' q (S k), S k) r.
Proof.
  intros Hy. unfold verdict. cbn [used]. rewrite Hy.
  destruct (answer acc k y) as [x|], (answer acc' k y) as [x'|]; simpl; try done; [|by left].
  intros [= E]. right.
  destruct (SFleb f64_one x), (SFleb f64_one x'); simpl in E |- *;
    repeat match goal with |- context [SFltb ?a ?b] => destruct (SFltb a b) end;
    try discriminate; eauto.
Qed.

(** ** One thread *)

Lemma loop_step bd timer acc smp fuel p s :
  loop (do_probabilistic_search_body bd timer acc smp) (S fuel) (p, s)
  = match probabilistic_iteration bd acc smp s with
    | Panic => Some Panic
    | Val (inr s') => Some (Val (ss_results s', ss_best s'))
    | Val (inl s') =>
        if timer p then Some (Val (ss_results s'.2, ss_best s'.2))
        else loop (do_probabilistic_search_body bd timer acc smp) fuel (S p, s')
    end.
Proof.
  cbn [loop]. unfold do_probabilistic_search_body at 1. cbn [snd fst].
  destruct (probabilistic_iteration bd acc smp s) as [[s'|s']|]; simpl; [|done..].
  by destruct (timer p).
Qed.

Lemma do_probabilistic_verdicts bd timer acc smp fuel :
  ∀ q0 p k s,
  ∃ q, same_until k q0 q ∧
    ∀ acc' smp', (∀ j, verdict acc' smp' q j = verdict acc smp q j) →
    loop (do_probabilistic_search_body bd timer acc' smp') fuel (p, ((used acc' q k, k), s))
    = loop (do_probabilistic_search_body bd timer acc smp) fuel (p, ((used acc q0 k, k), s)).
Proof.
  induction fuel as [|fuel IH]; intros q0 p k s; [by exists q0|].
  rewrite (loop_step bd timer acc smp).
  destruct (iteration_question bd k s) as [[r Hr]|(y & yes & no & Hy)].
  - rewrite (Hr acc smp). destruct r as [[s'|s']|]; cbn [go].
    + destruct (timer p) eqn:Et.
      { exists q0. split; [done|]. intros acc' smp' _. rewrite (loop_step bd timer acc' smp'), (Hr acc' smp'). simpl. by rewrite Et. }
      destruct (IH q0 (S p) k s') as (q & Hq & H). exists q. split; [done|].
      intros acc' smp' Hv. rewrite (loop_step bd timer acc' smp'), (Hr acc' smp'). simpl. rewrite Et. by apply H.
    + exists q0. split; [done|]. intros acc' smp' _. by rewrite (loop_step bd timer acc' smp'), (Hr acc' smp').
    + exists q0. split; [done|]. intros acc' smp' _. by rewrite (loop_step bd timer acc' smp'), (Hr acc' smp').
  - set (q1 := ask k y q0).
    assert (same_until k q0 q1) as H01 by apply ask_until.
    assert (q1 k = y) as Hk by apply ask_same.
    assert (used acc q0 k = used acc q1 k) as -> by (eapply same_until_used; [done|lia]).
    destruct (verdict_cases acc acc smp smp q1 k y yes no Hk eq_refl) as [[E _]|(r & E & _)].
    + exists q1. split; [done|]. intros acc' smp' Hv. rewrite (loop_step bd timer acc' smp'), (Hy acc' smp'), (Hy acc smp), E.
      destruct (verdict_cases acc acc' smp smp' q1 k y yes no Hk (Hv k)) as [[_ E']|(r & E' & _)];
        [by rewrite E'|]. by rewrite E in E'.
    + rewrite (Hy acc smp), E. unfold go at 1. destruct r as [s'|s'].
      * destruct (timer p) eqn:Et.
        { exists q1. split; [done|]. intros acc' smp' Hv. rewrite (loop_step bd timer acc' smp'), (Hy acc' smp').
          destruct (verdict_cases acc acc' smp smp' q1 k y yes no Hk (Hv k))
            as [[E' _]|(r & E' & ->)]; [by rewrite E' in E|].
          rewrite E in E'. unfold go in E'. destruct r; simplify_eq. simpl. by rewrite Et. }
        destruct (IH q1 (S p) (S k) s') as (q & Hq & H).
        exists q. split; [eapply same_until_trans, same_until_mono; [done| |done]; lia|].
        intros acc' smp' Hv. rewrite (loop_step bd timer acc' smp'), (Hy acc' smp').
        assert (q k = y) as Hk' by (rewrite <- (Hq k); [done|lia]).
        destruct (verdict_cases acc acc' smp smp' q k y yes no Hk' (Hv k))
          as [[E' _]|(r & E' & ->)]; [by rewrite E' in E|].
        assert (used acc q k = used acc q1 k) as Ek by (symmetry; eapply same_until_used; [done|lia]).
        assert (used acc q (S k) = used acc q1 (S k)) as Ek' by (symmetry; eapply same_until_used; [done|lia]).
        rewrite Ek, Ek', E in E'. unfold go in E'. destruct r; simplify_eq. simpl. rewrite Et. by apply H.
      * exists q1. split; [done|]. intros acc' smp' Hv. rewrite (loop_step bd timer acc' smp'), (Hy acc' smp').
        destruct (verdict_cases acc acc' smp smp' q1 k y yes no Hk (Hv k))
          as [[E' _]|(r & E' & ->)]; [by rewrite E' in E|].
        rewrite E in E'. unfold go in E'. by destruct r; simplify_eq.
Qed.

(** ** Several threads *)

(** The tasks without the numbers of their samples. *)
Definition strip (st : Status) : Status :=
  match st with
  | Running t => Running (mkTask (t_search t) (t_initialized t) (t_counter t) (0, (t_drawn t).2))
  | Ending t => Ending (mkTask (t_search t) (t_initialized t) (t_counter t) (0, 0))
  | st => st
  end.
Definition alike (sys sys' : System) : Prop :=
  map strip (sys_tasks sys) = map strip (sys_tasks sys') ∧
  sys_best sys = sys_best sys' ∧ sys_results sys = sys_results sys'.

(** [K i] calls have been made by task [i]. *)
Definition counted (acc : nat → Accept) (q : nat → nat → Question) (K : nat → nat) (sys : System) : Prop :=
  ∀ i st, sys_tasks sys !! i = Some st →
  match st with
  | Waiting _ => K i = 0
  | Running t => t_drawn t = (used (acc i) (q i) (K i), K i)
  | Ending _ | Finished => True
  end.

Definition set_at {A} (i : nat) (a : A) (f : nat → A) : nat → A :=
  λ j, if j =? i then a else f j.
Lemma set_at_same {A} i (a : A) f : set_at i a f i = a.
Proof. unfold set_at. by rewrite Nat.eqb_refl. Qed.
Lemma set_at_other {A} i j (a : A) f : j ≠ i → set_at i a f j = f j.
Proof. intros H. unfold set_at. by destruct (Nat.eqb_spec j i). Qed.

Lemma alike_lookup sys sys' i st :
  alike sys sys' → sys_tasks sys !! i = Some st →
  ∃ st', sys_tasks sys' !! i = Some st' ∧ strip st = strip st'.
Proof.
  intros (H & _) E. apply (f_equal (λ l, l !! i)) in H.
  rewrite !list_lookup_fmap, E in H. simpl in H.
  destruct (sys_tasks sys' !! i) as [st'|]; simplify_eq/=. eauto.
Qed.
Lemma alike_None sys sys' i :
  alike sys sys' → sys_tasks sys !! i = None → sys_tasks sys' !! i = None.
Proof.
  intros (H & _) E. apply (f_equal (λ l, l !! i)) in H.
  rewrite !list_lookup_fmap, E in H. simpl in H. by destruct (sys_tasks sys' !! i).
Qed.
Lemma alike_insert sys sys' i st st' best res :
  alike sys sys' → strip st = strip st' →
  alike (mkSystem (<[i := st]> (sys_tasks sys)) best res)
    (mkSystem (<[i := st']> (sys_tasks sys')) best res).
Proof.
  intros (H & _) E. split; [|done]. simpl. change (map strip) with (fmap (M := list) strip) in *.
  by rewrite !list_fmap_insert, H, E.
Qed.

Lemma unfinished_strip l : unfinished (map strip l) = unfinished l.
Proof.
  unfold unfinished. induction l as [|st l IH]; [done|]. simpl. rewrite !filter_cons.
  destruct st; simpl; repeat case_decide; try done; simpl; by rewrite IH.
Qed.
Lemma alike_unfinished sys sys' i :
  alike sys sys' → unfinished (take i (sys_tasks sys)) = unfinished (take i (sys_tasks sys')).
Proof.
  intros (H & _). rewrite <- (unfinished_strip (take i (sys_tasks sys))).
  rewrite <- (unfinished_strip (take i (sys_tasks sys'))).
  change (map strip) with (fmap (M := list) strip) in *. by rewrite !fmap_take, H.
Qed.
Lemma alike_finished sys sys' : alike sys sys' → all_finished sys = all_finished sys'.
Proof.
  intros (H & _). unfold all_finished.
  assert (∀ l, forallb is_finished (map strip l) = forallb is_finished l) as E.
  { induction l as [|st l IH]; [done|]. simpl. rewrite IH. by destruct st. }
  by rewrite <- E, H, E.
Qed.

(** What becomes of a task after an iteration. *)
Definition task_after (shared : list N) (fin : bool) (t : Task) (dr : Draws)
    (r : SearchState + SearchState) : list N * Task * bool :=
  match r with
  | inr s => (shared, mkTask s (t_initialized t) (t_counter t) (t_drawn t), true)
  | inl s =>
      let '(shared, this, counter, stop) := update shared (ss_best s) (t_counter t) fin in
      (shared, mkTask (mkSearchState (ss_scheduler s) (ss_path s) this (ss_results s))
                 (t_initialized t) counter dr, stop)
  end.
Lemma task_iteration_go bd acc smp shared fin t dr r :
  probabilistic_iteration bd acc smp (t_drawn t, t_search t) = go dr r →
  task_iteration bd (Some (acc, smp)) shared fin t = Val (task_after shared fin t dr r).
Proof.
  intros E. unfold task_iteration. rewrite E. destruct r as [s|s]; simpl; [|done].
  by destruct (update _ _ _ _) as [[[??]?]?].
Qed.
Lemma task_iteration_Panic bd acc smp shared fin t :
  probabilistic_iteration bd acc smp (t_drawn t, t_search t) = Panic →
  task_iteration bd (Some (acc, smp)) shared fin t = Panic.
Proof. intros E. unfold task_iteration. by rewrite E. Qed.

(** Both systems after an iteration of task [i]. *)
Definition next_status (x : list N * Task * bool) : Status :=
  if x.2 then Ending x.1.2 else Running x.1.2.
Lemma exec_iter bd nthreads acc smp sys i fin t x :
  sys_tasks sys !! i = Some (Running t) →
  task_iteration bd (Some (acc i, smp i)) (sys_best sys) fin t = Val x →
  exec bd nthreads (Some (acc, smp)) sys (EIter i fin)
  = Some (Val (mkSystem (<[i := next_status x]> (sys_tasks sys)) x.1.1 (sys_results sys))).
Proof. intros E1 E2. simpl. rewrite E1, E2. by destruct x as [[??][]]. Qed.

Lemma task_after_alike shared fin t t' dr dr' r :
  strip (Running t) = strip (Running t') → dr.2 = dr'.2 →
  (task_after shared fin t dr r).1.1 = (task_after shared fin t' dr' r).1.1 ∧
  strip (next_status (task_after shared fin t dr r))
  = strip (next_status (task_after shared fin t' dr' r)).
Proof.
  intros [= E1 E2 E3 E4] Hd. unfold task_after, next_status. destruct r as [s|s]; simpl.
  - rewrite E2, E3. destruct (update _ _ _ _) as [[[??]?] []]; simpl; by rewrite ?Hd.
  - by rewrite E2, E3.
Qed.
Lemma task_after_drawn shared fin t dr r t' :
  next_status (task_after shared fin t dr r) = Running t' → t_drawn t' = dr.
Proof.
  unfold task_after, next_status. destruct r as [s|s]; simpl; [|done].
  destruct (update _ _ _ _) as [[[??]?] []]; simpl; intros [= <-]. done.
Qed.
Lemma next_status_cases x :
  (∃ t, next_status x = Running t) ∨ (∃ t, next_status x = Ending t).
Proof. unfold next_status. destruct x.2; eauto. Qed.

Lemma counted_insert acc q K sys i st best res :
  counted acc q K sys →
  match st with
  | Waiting _ => K i = 0
  | Running t => t_drawn t = (used (acc i) (q i) (K i), K i)
  | Ending _ | Finished => True
  end →
  counted acc q K (mkSystem (<[i := st]> (sys_tasks sys)) best res).
Proof.
  intros H Hst j st' E. simpl in E. apply list_lookup_insert_Some in E.
  destruct E as [(-> & -> & _)|(_ & E)]; [done|]. by apply H.
Qed.

(** Everything that has happened before is the same for other questions later. *)
Lemma counted_until acc q q' K sys :
  (∀ i, same_until (K i) (q i) (q' i)) → counted acc q K sys → counted acc q' K sys.
Proof.
  intros Hq H i st E. specialize (H i st E). destruct st as [|t|t|]; try done.
  rewrite H. f_equal. eapply same_until_used; [apply Hq|lia].
Qed.

(** The same outcome. *)
Definition same_outcome (x x' : option (out System)) : Prop :=
  match x, x' with
  | None, None | Some Panic, Some Panic => True
  | Some (Val sys), Some (Val sys') => alike sys sys'
  | _, _ => False
  end.

Lemma counted_next acc q K sys i shared fin t n r res :
  counted acc q K sys → n = used (acc i) (q i) (K i) →
  let x := task_after shared fin t (n, K i) r in
  counted acc q K (mkSystem (<[i := next_status x]> (sys_tasks sys)) x.1.1 res).
Proof.
  intros H Hn x. apply counted_insert; [done|].
  destruct (next_status_cases x) as [[t' E]|[t' E]]; rewrite E; [|done].
  rewrite <- Hn. by eapply task_after_drawn.
Qed.

Lemma counted_other acc q q' K k i sys shared fin t n r res :
  (∀ j, j ≠ i → q j = q' j) → same_until (K i) (q i) (q' i) →
  counted acc q K sys → n = used (acc i) (q' i) k →
  let x := task_after shared fin t (n, k) r in
  counted acc q' (set_at i k K) (mkSystem (<[i := next_status x]> (sys_tasks sys)) x.1.1 res).
Proof.
  intros Hq Hi H Hn x j st E. simpl in E. apply list_lookup_insert_Some in E.
  destruct E as [(<- & <- & _)|(Hj & E)].
  - destruct (next_status_cases x) as [[t' E]|[t' E]]; rewrite E; [|done].
    rewrite set_at_same, <- Hn. by eapply task_after_drawn.
  - rewrite set_at_other, <- Hq by done. by apply H.
Qed.

Lemma run_events_verdicts bd nthreads acc smp es :
  ∀ q0 K sys, counted acc q0 K sys →
  ∃ q, (∀ i, same_until (K i) (q0 i) (q i)) ∧
    ∀ acc' smp' sys',
      (∀ i k, verdict (acc' i) (smp' i) (q i) k = verdict (acc i) (smp i) (q i) k) →
      alike sys sys' → counted acc' q K sys' →
      same_outcome (run_events bd nthreads (Some (acc, smp)) sys es)
        (run_events bd nthreads (Some (acc', smp')) sys' es).
Proof.
  induction es as [|e es IH]; intros q0 K sys HI.
  { exists q0. split; [done|]. intros acc' smp' sys' _ Ha _. exact Ha. }
  cbn [run_events].
  assert (∀ P : (nat → Accept) → (nat → nat → f64) → System → Prop, (∀ acc' smp' sys', alike sys sys' → P acc' smp' sys') →
    ∃ q, (∀ i, same_until (K i) (q0 i) (q i)) ∧
    ∀ acc' smp' sys',
      (∀ i k, verdict (acc' i) (smp' i) (q i) k = verdict (acc i) (smp i) (q i) k) →
      alike sys sys' → counted acc' q K sys' → P acc' smp' sys') as Hstop.
  { intros P HP. exists q0. split; [done|]. intros acc' smp' sys' _ Ha _. by apply HP. }
  destruct e as [i|i fin|i].
  - (* start *)
    destruct (sys_tasks sys !! i) as [st|] eqn:Ei.
    2:{ apply Hstop. intros acc' smp' sys' Ha. simpl. rewrite Ei, (alike_None _ _ _ Ha Ei). done. }
    destruct st as [j|t|t|].
    2-4: apply Hstop; intros acc' smp' sys' Ha; destruct (alike_lookup _ _ _ _ Ha Ei) as (st' & Ei' & Es);
      simpl; rewrite Ei, Ei'; by destruct st'.
    destruct (unfinished (take i (sys_tasks sys)) <? nthreads) eqn:Eu.
    2:{ apply Hstop; intros acc' smp' sys' Ha. destruct (alike_lookup _ _ _ _ Ha Ei) as (st' & Ei' & Es).
        simpl. rewrite Ei, Ei', Eu. destruct st' as [j'|?|?|]; try done.
        by rewrite <- (alike_unfinished _ _ i Ha), Eu. }
    pose proof (HI i _ Ei) as HK. simpl in HK.
    destruct (IH q0 K (mkSystem (<[i := Running (task_start (sys_best sys) j)]> (sys_tasks sys))
                 (sys_best sys) (sys_results sys))) as (q & Hq & H).
    { apply counted_insert; [done|]. by rewrite HK. }
    exists q. split; [done|]. intros acc' smp' sys' Hv Ha HI'.
    destruct (alike_lookup _ _ _ _ Ha Ei) as (st' & Ei' & Es).
    simpl. rewrite Ei, Ei', Eu. destruct st' as [j'|?|?|]; try done. simpl in Es. injection Es as <-.
    rewrite <- (alike_unfinished _ _ i Ha), Eu.
    pose proof Ha as (_ & Hb & Hr). rewrite <- Hb, <- Hr. apply H; [done| |].
    + by apply alike_insert.
    + apply counted_insert; [done|]. by rewrite HK.
  - (* iteration *)
    destruct (sys_tasks sys !! i) as [st|] eqn:Ei.
    2:{ apply Hstop. intros acc' smp' sys' Ha. simpl. rewrite Ei, (alike_None _ _ _ Ha Ei). done. }
    destruct st as [j|t|t|].
    1,3,4: apply Hstop; intros acc' smp' sys' Ha; destruct (alike_lookup _ _ _ _ Ha Ei) as (st' & Ei' & Es);
      simpl; rewrite Ei, Ei'; by destruct st'.
    pose proof (HI i _ Ei) as HK. simpl in HK.
    destruct (iteration_question bd (K i) (t_search t)) as [[r Hr]|(y & yes & no & Hy)].
    + destruct r as [r|].
      2:{ exists q0. split; [done|]. intros acc' smp' sys' Hv Ha HI'.
          destruct (alike_lookup _ _ _ _ Ha Ei) as (st' & Ei' & Es).
          destruct st' as [?|t'|?|]; try done. pose proof (HI' i _ Ei') as HK'. simpl in HK'.
          pose proof Es as [= E1 E2 E3 E4].
          simpl. rewrite Ei, Ei'. rewrite (task_iteration_Panic bd (acc i)) by (rewrite HK; apply Hr).
          rewrite (task_iteration_Panic bd (acc' i)) by (rewrite HK', <- E1; apply Hr). done. }
      destruct (IH q0 K _ (counted_next acc q0 K sys i (sys_best sys) fin t _ r (sys_results sys) HI eq_refl))
        as (q & Hq & H).
      exists q. split; [done|]. intros acc' smp' sys' Hv Ha HI'.
      destruct (alike_lookup _ _ _ _ Ha Ei) as (st' & Ei' & Es).
      destruct st' as [?|t'|?|]; try done. pose proof (HI' i _ Ei') as HK'. simpl in HK'.
      pose proof Es as [= E1 E2 E3 E4].
      pose proof Ha as (_ & Hb & Hs).
      rewrite (exec_iter bd nthreads acc smp sys i fin t _ Ei)
        by (apply task_iteration_go; rewrite HK; apply Hr).
      rewrite (exec_iter bd nthreads acc' smp' sys' i fin t' _ Ei')
        by (apply task_iteration_go; rewrite HK', <- E1; apply Hr).
      rewrite <- Hb, <- Hs.
      apply H; [done| |by apply counted_next].
      destruct (task_after_alike (sys_best sys) fin t t' (used (acc i) (q0 i) (K i), K i)
        (used (acc' i) (q i) (K i), K i) r Es eq_refl) as [F1 F2].
      rewrite F1. by apply alike_insert.
    + set (q1 := set_at i (ask (K i) y (q0 i)) q0).
      assert (q1 i (K i) = y) as Hk by (unfold q1; rewrite set_at_same; apply ask_same).
      assert (same_until (K i) (q0 i) (q1 i)) as H01
        by (unfold q1; rewrite set_at_same; apply ask_until).
      assert (∀ j, j ≠ i → q0 j = q1 j) as H01' by (intros j Hj; unfold q1; by rewrite set_at_other).
      assert (used (acc i) (q0 i) (K i) = used (acc i) (q1 i) (K i)) as Eu
        by (eapply same_until_used; [done|lia]).
      assert (∀ j, same_until (K j) (q0 j) (q1 j)) as H01''.
      { intros j. destruct (decide (j = i)) as [->|Hj]; [done|]. rewrite (H01' j Hj). by intros ??. }
      rewrite Eu in HK.
      destruct (verdict_cases (acc i) (acc i) (smp i) (smp i) (q1 i) (K i) y yes no Hk eq_refl)
        as [[E _]|(r & E & _)].
      { exists q1. split; [done|]. intros acc' smp' sys' Hv Ha HI'.
        destruct (alike_lookup _ _ _ _ Ha Ei) as (st' & Ei' & Es).
        destruct st' as [?|t'|?|]; try done. pose proof (HI' i _ Ei') as HK'. simpl in HK'.
        pose proof Es as [= E1 E2 E3 E4].
        destruct (verdict_cases (acc i) (acc' i) (smp i) (smp' i) (q1 i) (K i) y yes no Hk (Hv i (K i)))
          as [[_ E']|(r & E' & _)]; [|by rewrite E in E'].
        simpl. rewrite Ei, Ei'. rewrite (task_iteration_Panic bd (acc i)) by (by rewrite HK, Hy, E).
        rewrite (task_iteration_Panic bd (acc' i)) by (by rewrite HK', <- E1, Hy, E'). done. }
      destruct (IH q1 (set_at i (S (K i)) K) _ (counted_other acc q0 q1 K (S (K i)) i sys (sys_best sys) fin t _ r
        (sys_results sys) H01' H01 HI eq_refl)) as (q & Hq & H).
      assert (same_until (S (K i)) (q1 i) (q i)) as Hqi.
      { specialize (Hq i). by rewrite set_at_same in Hq. }
      exists q. split.
      { intros j. destruct (decide (j = i)) as [->|Hj].
        - eapply same_until_trans, same_until_mono; [done| |done]. lia.
        - specialize (Hq j). rewrite set_at_other in Hq by done. by rewrite (H01' j Hj). }
      intros acc' smp' sys' Hv Ha HI'.
      destruct (alike_lookup _ _ _ _ Ha Ei) as (st' & Ei' & Es).
      destruct st' as [?|t'|?|]; try done. pose proof (HI' i _ Ei') as HK'. simpl in HK'.
      pose proof Es as [= E1 E2 E3 E4].
      pose proof Ha as (_ & Hb & Hs).
      assert (q i (K i) = y) as Hk' by (rewrite <- (Hqi (K i)); [done|lia]).
      destruct (verdict_cases (acc i) (acc' i) (smp i) (smp' i) (q i) (K i) y yes no Hk' (Hv i (K i)))
        as [[E' _]|(r' & E' & E'')]; [by rewrite E' in E|].
      assert (used (acc i) (q i) (K i) = used (acc i) (q1 i) (K i)) as Ek
        by (symmetry; eapply same_until_used; [done|lia]).
      assert (used (acc i) (q i) (S (K i)) = used (acc i) (q1 i) (S (K i))) as Ek'
        by (symmetry; eapply same_until_used; [done|lia]).
      assert (r' = r) as ->.
      { rewrite Ek, Ek', E in E'. unfold go in E'. destruct r, r'; simplify_eq; done. }
      rewrite (exec_iter bd nthreads acc smp sys i fin t _ Ei)
        by (apply task_iteration_go; rewrite HK, Hy; exact E).
      rewrite (exec_iter bd nthreads acc' smp' sys' i fin t' _ Ei')
        by (apply task_iteration_go; rewrite HK', <- E1, Hy; exact E'').
      rewrite <- Hb, <- Hs.
      destruct (task_after_alike (sys_best sys) fin t t' (used (acc i) (q1 i) (S (K i)), S (K i))
        (used (acc' i) (q i) (S (K i)), S (K i)) r Es eq_refl) as [F1 F2].
      apply H; [done| |].
      * rewrite F1. by apply alike_insert.
      * by eapply counted_other.
  - (* end *)
    destruct (sys_tasks sys !! i) as [st|] eqn:Ei.
    2:{ apply Hstop. intros acc' smp' sys' Ha. simpl. rewrite Ei, (alike_None _ _ _ Ha Ei). done. }
    destruct st as [j|t|t|].
    1,2,4: apply Hstop; intros acc' smp' sys' Ha; destruct (alike_lookup _ _ _ _ Ha Ei) as (st' & Ei' & Es);
      simpl; rewrite Ei, Ei'; by destruct st'.
    assert (∀ t', strip (Ending t) = strip (Ending t') → task_end t' = task_end t) as Hend.
    { intros t' [= E1 E2 E3]. unfold task_end. by rewrite E1, E2, E3. }
    destruct (task_end t) as [[new this]|] eqn:Ee.
    2:{ apply Hstop. intros acc' smp' sys' Ha; destruct (alike_lookup _ _ _ _ Ha Ei) as (st' & Ei' & Es).
        simpl. rewrite Ei, Ei', Ee. destruct st' as [?|?|t'|]; try done. by rewrite (Hend t' Es). }
    set (m := Threaded.merge (sys_best sys) (sys_results sys) new this).
    destruct (IH q0 K (mkSystem (<[i := Finished]> (sys_tasks sys)) m.1 m.2)) as (q & Hq & H).
    { by apply counted_insert. }
    exists q. split; [done|]. intros acc' smp' sys' Hv Ha HI'.
    destruct (alike_lookup _ _ _ _ Ha Ei) as (st' & Ei' & Es).
    simpl. rewrite Ei, Ei', Ee. destruct st' as [?|?|t'|]; try done. rewrite (Hend t' Es). simpl.
    pose proof Ha as (_ & Hb & Hr). rewrite <- Hb, <- Hr. fold m. apply H; [done| |].
    + by apply alike_insert.
    + by apply counted_insert.
Qed.
