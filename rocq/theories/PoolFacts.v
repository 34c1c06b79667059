(** * The thread pool for every input: termination, progress, timeouts *)
From Verif Require Export Termination SpawnFacts Executions.
From Verif Require Export Spec.

Lemma sum_list_insert (f : Status → nat) l i x y :
  l !! i = Some x → sum_list (map f (<[i := y]> l)) + f x = sum_list (map f l) + f y.
Proof.
  revert i. induction l as [|z l IH]; intros [|i] Hi; simpl in *; [done|done| |].
  - injection Hi as ->. lia.
  - specialize (IH i Hi). lia.
Qed.

(** ** Termination *)

(** A bound for the number of events that are left for a task. *)
Definition status_bound (st : Status) : nat :=
  match st with
  | Waiting j => 3 + sweep_bound (sweep_new (job_scheduler j))
  | Running t => 2 + state_bound (t_search t)
  | Ending _ => 1
  | Finished => 0
  end.

Definition sys_bound (sys : System) : nat := sum_list (map status_bound (sys_tasks sys)).

Lemma task_iteration_bound bd prob shared fin t shared' t' stop :
  task_iteration bd prob shared fin t = Val (shared', t', stop) →
  stop = true ∨ state_bound (t_search t') < state_bound (t_search t).
Proof.
  unfold task_iteration. destruct prob as [[acc smp]|].
  - destruct (probabilistic_iteration _ _ _ _) as [[[d s]|s]|] eqn:E; cbn [obind]; [| |done].
    + apply probabilistic_iteration_bound in E. simpl in E.
      destruct (update _ _ _ _) as [[[sh this] c] st]. intros [= <- <- <-]. by right.
    + intros [= <- <- <-]. by left.
  - destruct (search_iteration _ _) as [[s|s]|] eqn:E; cbn [obind]; [| |done].
    + apply search_iteration_bound in E.
      destruct (update _ _ _ _) as [[[sh this] c] st]. intros [= <- <- <-]. by right.
    + intros [= <- <- <-]. by left.
Qed.

Lemma exec_bound bd nthreads prob sys e sys' :
  exec bd nthreads prob sys e = Some (Val sys') → sys_bound sys' < sys_bound sys.
Proof.
  unfold sys_bound. destruct e as [i|i fin|i]; simpl;
    destruct (sys_tasks sys !! i) as [[j|t|t|]|] eqn:Ei; try done;
    pose proof (λ y, sum_list_insert status_bound _ _ _ y Ei) as Hs.
  - destruct (_ <? _); [|done]. intros [= <-]. cbn [sys_tasks].
    specialize (Hs (Running (task_start (sys_best sys) j))). simpl in Hs.
    unfold state_bound in Hs. simpl in Hs. lia.
  - destruct (task_iteration _ _ _ _ _) as [[[sh t'] stop]|] eqn:E; [|done]. cbn [obind].
    intros [= <-]. cbn [sys_tasks]. apply task_iteration_bound in E.
    specialize (Hs (if stop then Ending t' else Running t')).
    destruct E as [->|E]; [simpl in Hs; lia|]. destruct stop; simpl in Hs; lia.
  - destruct (task_end t) as [[res this]|]; [|done]. cbn [obind]. intros [= <-]. cbn [sys_tasks].
    specialize (Hs Finished). simpl in Hs. lia.
Qed.

Lemma run_events_bound bd nthreads prob sys es sys' :
  run_events bd nthreads prob sys es = Some (Val sys') → length es + sys_bound sys' ≤ sys_bound sys.
Proof.
  revert sys. induction es as [|e es IH]; intros sys; simpl.
  - intros [= <-]. done.
  - destruct (exec _ _ _ _ _) as [[sys1|]|] eqn:E; [|done..].
    apply exec_bound in E. intros H%IH. lia.
Qed.

Lemma run_events_app bd nthreads prob sys es es' sys' :
  run_events bd nthreads prob sys es = Some (Val sys') →
  run_events bd nthreads prob sys (es ++ es') = run_events bd nthreads prob sys' es'.
Proof.
  revert sys. induction es as [|e es IH]; intros sys; simpl.
  - by intros [= <-].
  - destruct (exec _ _ _ _ _) as [[sys1|]|]; [|done..]. by apply IH.
Qed.

Lemma run_events_split bd nthreads prob sys es es' sys' :
  run_events bd nthreads prob sys (es ++ es') = Some (Val sys') →
  ∃ sys1, run_events bd nthreads prob sys es = Some (Val sys1) ∧
    run_events bd nthreads prob sys1 es' = Some (Val sys').
Proof.
  revert sys. induction es as [|e es IH]; intros sys; simpl.
  - intros H. by exists sys.
  - destruct (exec _ _ _ _ _) as [[sys1|]|]; [|done..]. by apply IH.
Qed.

(** ** Progress *)

(** The first task that is not finished. *)
Lemma first_unfinished tasks :
  forallb is_finished tasks = false →
  ∃ i st, tasks !! i = Some st ∧ is_finished st = false ∧ unfinished (take i tasks) = 0.
Proof.
  unfold unfinished. induction tasks as [|st tasks IH]; simpl; [done|].
  destruct (is_finished st) eqn:E; simpl.
  - intros (i & st' & H1 & H2 & H3)%IH. exists (S i), st'. split; [done|]. split; [done|].
    simpl. rewrite filter_cons_False by (by rewrite E). done.
  - intros _. by exists 0, st.
Qed.

Lemma progress bd nthreads prob sys fin :
  1 ≤ nthreads → all_finished sys = false →
  ∃ i e, (e = EStart i ∨ e = EIter i fin ∨ e = EEnd i) ∧ is_Some (exec bd nthreads prob sys e).
Proof.
  intros Hn Hf. destruct (first_unfinished _ Hf) as (i & st & Hi & Hst & Hu). exists i.
  destruct st as [j|t|t|]; [| | |done].
  - exists (EStart i). split; [by left|]. simpl. rewrite Hi, Hu.
    destruct (Nat.ltb_spec 0 nthreads); [by eexists|lia].
  - exists (EIter i fin). split; [by right; left|]. simpl. rewrite Hi. by eexists.
  - exists (EEnd i). split; [by right; right|]. simpl. rewrite Hi. by eexists.
Qed.

(** Every execution can be continued to its end. *)
Lemma completion bd nthreads prob sys (fin : bool) :
  1 ≤ nthreads →
  ∃ es, (∀ i f, EIter i f ∈ es → f = fin) ∧
    (run_events bd nthreads prob sys es = Some Panic ∨
     ∃ sys', run_events bd nthreads prob sys es = Some (Val sys') ∧ all_finished sys' = true).
Proof.
  intros Hn. remember (sys_bound sys) as k eqn:Ek. revert sys Ek.
  induction (lt_wf k) as [k _ IH]. intros sys ->.
  destruct (all_finished sys) eqn:Ef.
  { exists []. split; [by intros ? ? ?%elem_of_nil|]. right. by exists sys. }
  destruct (progress bd nthreads prob sys fin Hn Ef) as (i & e & He & o & Eo).
  assert (∀ k f, EIter k f = e → f = fin) as Hfin.
  { intros k f <-. destruct He as [|[|]]; congruence. }
  destruct o as [sys1|].
  - destruct (IH _ (exec_bound _ _ _ _ _ _ Eo) sys1 eq_refl) as (es & H1 & H2).
    exists (e :: es). split.
    + intros k f [H|H]%elem_of_cons; [by eapply Hfin|by eapply H1].
    + simpl. rewrite Eo. done.
  - exists [e]. split.
    + intros k f H%elem_of_list_singleton. by eapply Hfin.
    + left. simpl. by rewrite Eo.
Qed.

(** ** Timeouts *)

(** Bound for the iterations of a task once the timer has finished. *)
Definition late_bound (st : option Status) : N :=
  match st with
  | Some (Waiting _) => 1001
  | Some (Running t) => 1001 - t_counter t
  | _ => 0
  end.

Definition counter_ok (sys : System) : Prop :=
  ∀ i t, sys_tasks sys !! i = Some (Running t) → (t_counter t <= 1000)%N.

Lemma task_iteration_counter bd prob shared fin t shared' t' stop :
  task_iteration bd prob shared fin t = Val (shared', t', stop) → (t_counter t <= 1000)%N →
  stop = true ∨ ((t_counter t' <= 1000)%N ∧
    ((t_counter t = 1000%N ∧ fin = false) ∨ t_counter t' = (t_counter t + 1)%N)).
Proof.
  unfold task_iteration. destruct prob as [[acc smp]|].
  - destruct (probabilistic_iteration _ _ _ _) as [[[d s]|s]|] eqn:E; cbn [obind]; [| |done].
    + unfold update. destruct (N.eqb_spec (t_counter t) UPDATE_INTERVAL) as [Heq|Hne]; unfold UPDATE_INTERVAL in *.
      * intros [= <- <- <-] _. destruct fin; [by left|right]. simpl. split; [lia|]. by left.
      * intros [= <- <- <-] Hle. right. simpl. split; [lia|]. by right.
    + intros [= <- <- <-]. by left.
  - destruct (search_iteration _ _) as [[s|s]|] eqn:E; cbn [obind]; [| |done].
    + unfold update. destruct (N.eqb_spec (t_counter t) UPDATE_INTERVAL) as [Heq|Hne]; unfold UPDATE_INTERVAL in *.
      * intros [= <- <- <-] _. destruct fin; [by left|right]. simpl. split; [lia|]. by left.
      * intros [= <- <- <-] Hle. right. simpl. split; [lia|]. by right.
    + intros [= <- <- <-]. by left.
Qed.

Lemma exec_counter bd nthreads prob sys e sys' :
  exec bd nthreads prob sys e = Some (Val sys') → counter_ok sys → counter_ok sys'.
Proof.
  intros E Hok i t. destruct e as [k|k fin|k]; simpl in E;
    destruct (sys_tasks sys !! k) as [[j|u|u|]|] eqn:Ek; try done.
  - destruct (_ <? _); [|done]. injection E as <-. cbn [sys_tasks].
    intros [(-> & [= <-] & _)|[_ H]]%list_lookup_insert_Some; [simpl; lia|by eapply Hok].
  - destruct (task_iteration _ _ _ _ _) as [[[sh t'] stop]|] eqn:Et; [|done]. cbn [obind] in E.
    injection E as <-. cbn [sys_tasks].
    intros [(-> & H & _)|[_ H]]%list_lookup_insert_Some; [|by eapply Hok].
    destruct stop; [done|]. injection H as ->.
    destruct (task_iteration_counter _ _ _ _ _ _ _ _ Et (Hok _ _ Ek)) as [?|[? _]]; [done|]. done.
  - destruct (task_end u) as [[res this]|]; [|done]. cbn [obind] in E. injection E as <-. cbn [sys_tasks].
    intros [(-> & [=] & _)|[_ H]]%list_lookup_insert_Some. by eapply Hok.
Qed.

Lemma run_events_counter bd nthreads prob sys es sys' :
  run_events bd nthreads prob sys es = Some (Val sys') → counter_ok sys → counter_ok sys'.
Proof.
  revert sys. induction es as [|e es IH]; intros sys; simpl.
  - by intros [= <-].
  - destruct (exec _ _ _ _ _) as [[sys1|]|] eqn:E; [|done..].
    intros H Hok. eapply IH; [done|]. by eapply exec_counter.
Qed.

Lemma counter_init n jobs : counter_ok (system_init n jobs).
Proof.
  intros i t. unfold system_init. cbn [sys_tasks]. rewrite list_lookup_fmap. by destruct (jobs !! i).
Qed.

Lemma late_iterations bd nthreads prob sys es sys' i :
  run_events bd nthreads prob sys es = Some (Val sys') → timed_out es → counter_ok sys →
  (N.of_nat (iterations i es) <= late_bound (sys_tasks sys !! i))%N.
Proof.
  revert sys. induction es as [|e es IH]; intros sys; cbn [run_events].
  { intros _ _ _. unfold iterations. simpl. lia. }
  destruct (exec _ _ _ _ _) as [[sys1|]|] eqn:E; [|done..].
  intros H Hto Hok. specialize (IH sys1 H).
  assert (timed_out es) as Hto' by (intros k f Hk; apply (Hto k f); by right).
  specialize (IH Hto' (exec_counter _ _ _ _ _ _ E Hok)).
  assert (∀ k f, e = EIter k f → f = true) as Hf by (intros k f ->; apply (Hto k f); left).
  assert (iterations i (e :: es) = (if is_iteration i e then 1 else 0) + iterations i es) as ->.
  { unfold iterations. destruct (is_iteration i e) eqn:Ee.
    - by rewrite filter_cons_True.
    - by rewrite filter_cons_False by (by rewrite Ee). }
  destruct e as [k|k fin|k]; simpl in E;
    destruct (sys_tasks sys !! k) as [[j|u|u|]|] eqn:Ek; try done.
  - destruct (_ <? _); [|done]. injection E as <-. cbn [sys_tasks] in IH. simpl is_iteration.
    destruct (decide (k = i)) as [->|Hne].
    + rewrite list_lookup_insert in IH by (by eapply lookup_lt_Some). rewrite Ek. simpl in *. lia.
    + rewrite list_lookup_insert_ne in IH by done. lia.
  - rewrite (Hf k fin eq_refl) in E.
    destruct (task_iteration _ _ _ _ _) as [[[sh t'] stop]|] eqn:Et; [|done]. cbn [obind] in E.
    injection E as <-. cbn [sys_tasks] in IH. unfold is_iteration.
    destruct (Nat.eqb_spec k i) as [->|Hne].
    + rewrite list_lookup_insert in IH by (by eapply lookup_lt_Some). rewrite Ek.
      pose proof (Hok _ _ Ek) as Hle.
      destruct (task_iteration_counter _ _ _ _ _ _ _ _ Et Hle) as [->|[H1 [[_ ?]|H2]]]; [|done|].
      * unfold late_bound in *. lia.
      * unfold late_bound in *. destruct stop; lia.
    + rewrite list_lookup_insert_ne in IH by done. lia.
  - destruct (task_end u) as [[res this]|]; [|done]. cbn [obind] in E. injection E as <-.
    cbn [sys_tasks] in IH. simpl is_iteration. destruct (decide (k = i)) as [->|Hne].
    + rewrite list_lookup_insert in IH by (by eapply lookup_lt_Some). rewrite Ek. simpl in *. lia.
    + rewrite list_lookup_insert_ne in IH by done. lia.
Qed.
