(** * The timer *)
From Verif Require Export Timer.

Global Instance timer_event_eq_dec : EqDecision timer_event.
Proof. solve_decision. Defined.
Global Instance timer_thread_eq_dec : EqDecision TimerThread.
Proof. solve_decision. Defined.

Lemma timer_run_app t es es' :
  timer_run t (es ++ es') = match timer_run t es with Some t' => timer_run t' es' | None => None end.
Proof.
  revert t. induction es as [|e es IH]; intros t; [done|]. simpl. destruct (timer_exec t e); [apply IH|done].
Qed.

Lemma ticks_app es es' : ticks (es ++ es') = ticks es + ticks es'.
Proof. unfold ticks. by rewrite filter_app, app_length. Qed.
Lemma starts_app es es' : starts (es ++ es') = starts es + starts es'.
Proof. unfold starts. by rewrite filter_app, app_length. Qed.
Lemma runs_app i es es' : runs i (es ++ es') = runs i es + runs i es'.
Proof. unfold runs. by rewrite filter_app, app_length. Qed.

(** A thread's part of an event. *)
Lemma timer_exec_step t i t' :
  timer_exec t (TStep i) = Some t' →
  ∃ th th' set, tm_threads t !! i = Some th ∧ held_by_other i (tm_threads t) = false ∧
    thread_step (tm_dropping t) (tm_now t) th = Some (th', set) ∧
    t' = mkTimer (tm_phase t) (tm_dropping t) (tm_finished t || set) (<[i := th']> (tm_threads t)) (tm_now t).
Proof.
  cbn [timer_exec]. destruct (tm_threads t !! i) as [th|] eqn:Ei; [|done].
  destruct (held_by_other i (tm_threads t)) eqn:Eh; [done|].
  destruct (thread_step _ _ th) as [[th' set]|] eqn:Es; [|done]. intros [= <-]. by exists th, th', set.
Qed.

Lemma runs_single i e : runs i [e] = if is_run i e then 1 else 0.
Proof. unfold runs, filter, list_filter. by destruct (is_run i e). Qed.
Lemma starts_single e : starts [e] = if is_start e then 1 else 0.
Proof. unfold starts, filter, list_filter. by destruct (is_start e). Qed.

Lemma lookup_snoc_Some (l : list TimerThread) x i y :
  (l ++ [x]) !! i = Some y → (i < length l ∧ l !! i = Some y) ∨ (i = length l ∧ x = y).
Proof.
  intros H. apply lookup_app_Some in H as [H|[Hle H]]; [left; split; [by eapply lookup_lt_Some|done]|].
  right. apply list_lookup_singleton_Some in H as [H ->]. split; [lia|done].
Qed.

Ltac exec_cases H e :=
  destruct e as [?d| | |?k|];
  [cbn [timer_exec] in H; repeat case_match; simplify_eq; simpl in *
  |cbn [timer_exec] in H; repeat case_match; simplify_eq; simpl in *
  |cbn [timer_exec] in H; repeat case_match; simplify_eq; simpl in *
  |apply timer_exec_step in H as (?th & ?th' & ?set & ?Hth & ?Hheld & ?Hstep & ->); simpl in *
  |cbn [timer_exec] in H; simplify_eq; simpl in *].

Lemma timer_exec_now t e t' : timer_exec t e = Some t' → tm_now t' = tm_now t + ticks [e].
Proof. intros H. exec_cases H e; unfold ticks; simpl; lia. Qed.

Lemma timer_exec_threads t e t' :
  timer_exec t e = Some t' →
  (∃ d, e = UStart d ∧ tm_threads t' = tm_threads t ++ [TSpawned d] ∧ tm_finished t' = tm_finished t) ∨
  (∃ i, e = TStep i ∧ length (tm_threads t') = length (tm_threads t)) ∨
  (tm_threads t' = tm_threads t ∧ tm_finished t' = tm_finished t ∧ is_start e = false ∧ ∀ i, is_run i e = false).
Proof.
  intros H. destruct e as [d| | |i|].
  - left. cbn [timer_exec] in H. destruct (tm_phase t); [|done..]. injection H as <-. by exists d.
  - right; right. cbn [timer_exec] in H. destruct (tm_phase t); [|done..]. destruct (existsb _ _); [done|].
    injection H as <-. done.
  - right; right. cbn [timer_exec] in H. destruct (tm_phase t); [done| |done].
    destruct (last (tm_threads t)) as [[]|]; try done; by injection H as <-.
  - right; left. apply timer_exec_step in H as (th & th' & set & _ & _ & _ & ->). exists i. simpl.
    by rewrite insert_length.
  - right; right. injection H as <-. done.
Qed.

Lemma timer_exec_monotone t e t' : timer_exec t e = Some t' → tm_finished t = true → tm_finished t' = true.
Proof.
  intros H Hf. destruct e as [d| | |i|].
  4:{ apply timer_exec_step in H as (th & th' & set & _ & _ & _ & ->). simpl. by rewrite Hf. }
  all: cbn [timer_exec] in H; repeat case_match; simplify_eq; done.
Qed.

Lemma timer_run_monotone t es t' : timer_run t es = Some t' → tm_finished t = true → tm_finished t' = true.
Proof.
  revert t. induction es as [|e es IH]; intros t; simpl; [by intros [= <-]|].
  destruct (timer_exec t e) as [t1|] eqn:E; [|done]. intros H Hf. eapply IH; [done|].
  by eapply timer_exec_monotone.
Qed.

(** ** No early finish *)

(** Each thread knows about a call of [start] that is long enough ago. *)
Definition explained (es : list timer_event) (now0 : nat) (t : Timer) : Prop :=
  tm_now t = now0 + ticks es ∧
  (∀ i th, tm_threads t !! i = Some th →
     match th with
     | TSpawned d => ∃ e1 e2, es = e1 ++ UStart d :: e2
     | TWaiting c d => ∃ e1 e2, es = e1 ++ UStart d :: e2 ∧ tm_now t ≤ c + ticks e2
     | TExpired => ∃ d e1 e2, es = e1 ++ UStart d :: e2 ∧ d < ticks e2
     | TDone => True
     end) ∧
  (tm_finished t = true → ∃ d e1 e2, es = e1 ++ UStart d :: e2 ∧ d < ticks e2).

Lemma split_snoc (es e1 e2 : list timer_event) d e :
  es = e1 ++ UStart d :: e2 → es ++ [e] = e1 ++ UStart d :: (e2 ++ [e]).
Proof. intros ->. by rewrite <-app_assoc. Qed.

Lemma ticks_snoc_le es e : ticks es ≤ ticks (es ++ [e]).
Proof. rewrite ticks_app. lia. Qed.

Lemma explained_exec es now0 t e t' :
  explained es now0 t → timer_exec t e = Some t' → explained (es ++ [e]) now0 t'.
Proof.
  intros (Hnow & Hth & Hfin) H.
  assert (tm_now t' = tm_now t + ticks [e]) as Hnow'.
  { by apply timer_exec_now. }
  assert (tm_finished t = true → ∃ d e1 e2, es ++ [e] = e1 ++ UStart d :: e2 ∧ d < ticks e2) as Hfin'.
  { intros Hf. destruct (Hfin Hf) as (d & e1 & e2 & E & Hd). exists d, e1, (e2 ++ [e]).
    split; [by apply split_snoc|]. pose proof (ticks_snoc_le e2 e). lia. }
  assert (∀ i th, tm_threads t !! i = Some th →
     match th with
     | TSpawned d => ∃ e1 e2, es ++ [e] = e1 ++ UStart d :: e2
     | TWaiting c d => ∃ e1 e2, es ++ [e] = e1 ++ UStart d :: e2 ∧ tm_now t' ≤ c + ticks e2
     | TExpired => ∃ d e1 e2, es ++ [e] = e1 ++ UStart d :: e2 ∧ d < ticks e2
     | TDone => True
     end) as Hth'.
  { intros i th Hi. specialize (Hth i th Hi). destruct th as [d|c d| |]; [| | |done].
    - destruct Hth as (e1 & e2 & E). exists e1, (e2 ++ [e]). by apply split_snoc.
    - destruct Hth as (e1 & e2 & E & Hle). exists e1, (e2 ++ [e]). split; [by apply split_snoc|].
      rewrite ticks_app. lia.
    - destruct Hth as (d & e1 & e2 & E & Hle). exists d, e1, (e2 ++ [e]). split; [by apply split_snoc|].
      rewrite ticks_app. lia. }
  split; [rewrite ticks_app; lia|].
  destruct (timer_exec_threads _ _ _ H) as [(d & -> & Ht & Ef)|[(i & -> & _)|(Ht & Ef & _)]].
  - rewrite Ht, Ef. split; [|done]. intros i th Hi.
    apply lookup_snoc_Some in Hi as [[_ Hi]|[-> <-]]; [by apply (Hth' i)|]. by exists es, [].
  - apply timer_exec_step in H as (th & th' & set & Hi & _ & Hs & ->). simpl in *.
    split.
    + intros k thk Hk. destruct (decide (i = k)) as [<-|Hne].
      * rewrite list_lookup_insert in Hk by (by eapply lookup_lt_Some). injection Hk as <-.
        specialize (Hth' i th Hi). unfold ticks in Hnow'; simpl in Hnow'.
        destruct th as [d|c d| |]; simpl in Hs; simplify_eq; [| |done]; unfold timer_check in *.
        -- destruct (tm_dropping t); [done|]. rewrite Nat.sub_diag. destruct (d <? 0) eqn:E; [apply Nat.ltb_lt in E; lia|].
           destruct Hth' as (e1 & e2 & E2). exists e1, e2. split; [done|]. lia.
        -- destruct (tm_dropping t); [done|]. destruct Hth' as (e1 & e2 & E2 & Hle).
           destruct (d <? tm_now t - c) eqn:E; [apply Nat.ltb_lt in E|]; [exists d|]; exists e1, e2; split; try done; lia.
      * rewrite list_lookup_insert_ne in Hk by done. by apply (Hth' k).
    + intros Hf. apply orb_true_iff in Hf as [Hf|Hf]; [by apply Hfin'|]. subst set.
      specialize (Hth' i th Hi). by destruct th; simpl in Hs; simplify_eq.
  - rewrite Ht, Ef. done.
Qed.

Lemma explained_run es0 now0 t es t' :
  explained es0 now0 t → timer_run t es = Some t' → explained (es0 ++ es) now0 t'.
Proof.
  revert es0 t. induction es as [|e es IH]; intros es0 t H; simpl; [intros [= <-]; by rewrite app_nil_r|].
  destruct (timer_exec t e) as [t1|] eqn:E; [|done]. intros Hr.
  rewrite (app_assoc es0 [e] es : es0 ++ e :: es = _). eapply IH; [|done]. by eapply explained_exec.
Qed.

Lemma explained_new now0 : explained [] now0 (timer_new now0).
Proof. split; [unfold ticks; simpl; lia|]. split; [|done]. intros i th Hi. simpl in Hi; by rewrite lookup_nil in Hi. Qed.

Lemma timer_not_early :
  ∀ now es t, timer_run (timer_new now) es = Some t → timer_finished t = true →
  ∃ d e1 e2, es = e1 ++ UStart d :: e2 ∧ d < ticks e2.
Proof.
  intros now es t H. destruct (explained_run [] now _ es t (explained_new now) H) as (_ & _ & Hf). exact Hf.
Qed.

Lemma timer_never_started :
  ∀ now es t, timer_run (timer_new now) es = Some t → (∀ d, UStart d ∉ es) → timer_finished t = false.
Proof.
  intros now es t H Hn. destruct (timer_finished t) eqn:Hf; [|done].
  destruct (timer_not_early now es t H Hf) as (d & e1 & e2 & -> & _).
  destruct (Hn d). set_solver.
Qed.

(** ** It finishes *)

Definition has_drop (es : list timer_event) : Prop := UDrop ∈ es.

Lemma alive_exec t e t' :
  timer_exec t e = Some t' → tm_phase t = Alive → e ≠ UDrop →
  tm_phase t' = Alive ∧ tm_dropping t' = tm_dropping t.
Proof.
  intros H Hp He. exec_cases H e; done.
Qed.

Lemma threads_exec t e t' i th :
  timer_exec t e = Some t' → is_run i e = false → tm_threads t !! i = Some th → tm_threads t' !! i = Some th.
Proof.
  intros H Hr Hi. destruct e as [d| | |k|].
  4:{ apply timer_exec_step in H as (th1 & th' & set & _ & _ & _ & ->). simpl in *.
      apply Nat.eqb_neq in Hr. by rewrite list_lookup_insert_ne. }
  all: cbn [timer_exec] in H; repeat case_match; simplify_eq; try done.
  simpl. by apply lookup_app_l_Some.
Qed.

(** Progress of the thread of a timer that is not dropped. *)
Definition in_time (c d i : nat) (t : Timer) : Prop :=
  tm_phase t = Alive ∧ tm_dropping t = false ∧ c ≤ tm_now t ∧
  match tm_threads t !! i with
  | Some (TWaiting c' d') => c' ≤ c ∧ d' = d
  | Some TExpired => True
  | Some TDone => tm_finished t = true
  | _ => False
  end.

Lemma in_time_exec c d i t e t' :
  in_time c d i t → timer_exec t e = Some t' → e ≠ UDrop → in_time c d i t'.
Proof.
  intros (Hp & Hd & Hc & Hi) H He. destruct (alive_exec t e t' H Hp He) as [Hp' Hd'].
  split; [done|]. split; [congruence|].
  assert (tm_now t ≤ tm_now t') as Hn.
  { rewrite (timer_exec_now _ _ _ H). lia. }
  split; [lia|].
  destruct (is_run i e) eqn:Er.
  - destruct e as [| | |k|]; simpl in Er; try done. apply Nat.eqb_eq in Er as ->.
    apply timer_exec_step in H as (th & th' & set & Hk & _ & Hs & ->). simpl. rewrite Hk in Hi.
    rewrite list_lookup_insert by (by eapply lookup_lt_Some). rewrite Hd in Hs.
    destruct th as [d'|c' d'| |]; [done|..]; simpl in Hs; simplify_eq; [|by rewrite orb_true_r].
    destruct Hi as [Hi ->]. unfold timer_check. by destruct (d <? tm_now t - c').
  - destruct (tm_threads t !! i) as [th|] eqn:Ei; [|done].
    rewrite (threads_exec _ _ _ _ _ H Er Ei). destruct th; try done. by eapply timer_exec_monotone.
Qed.

Lemma in_time_run c d i t es t' :
  in_time c d i t → timer_run t es = Some t' → UDrop ∉ es → in_time c d i t'.
Proof.
  revert t. induction es as [|e es IH]; intros t H; simpl; [by intros [= <-]|].
  destruct (timer_exec t e) as [t1|] eqn:E; [|done]. rewrite not_elem_of_cons. intros Hr [He Hes].
  eapply (IH t1); [|done..]. by eapply in_time_exec.
Qed.

(** When the time is over: at most two more steps of the thread. *)
Definition overdue (c d i : nat) (k : nat) (t : Timer) : Prop :=
  in_time c d i t ∧ c + d < tm_now t ∧
  match tm_threads t !! i with
  | Some (TWaiting _ _) => k = 2
  | Some TExpired => k = 1
  | _ => k = 0
  end.

Lemma overdue_exec c d i k t e t' :
  overdue c d i k t → timer_exec t e = Some t' → e ≠ UDrop →
  overdue c d i (k - runs i [e]) t' ∧ runs i [e] ≤ k.
Proof.
  intros (Hin & Hnow & Hk) H He. pose proof (in_time_exec _ _ _ _ _ _ Hin H He) as Hin'.
  assert (tm_now t ≤ tm_now t') as Hn.
  { rewrite (timer_exec_now _ _ _ H). lia. }
  destruct Hin as (_ & Hd & _ & Hi). unfold overdue. rewrite !runs_single.
  destruct (is_run i e) eqn:Er.
  - destruct e as [| | |j|]; simpl in Er; try done. apply Nat.eqb_eq in Er as ->.
    apply timer_exec_step in H as (th & th' & set & Hj & _ & Hs & ->). simpl in *.
    rewrite Hj in Hi, Hk. rewrite list_lookup_insert in * by (by eapply lookup_lt_Some).
    rewrite Hd in Hs.
    destruct th as [d'|c' d'| |]; [done|..]; simpl in Hs; simplify_eq; [|].
    + destruct Hi as [Hi ->]. unfold timer_check in *.
      destruct (d <? tm_now t - c') eqn:E; [|apply Nat.ltb_ge in E; lia]. split; [|lia]. done.
    + split; [|lia]. done.
  - split; [|lia]. split; [done|]. split; [lia|].
    destruct (tm_threads t !! i) as [th|] eqn:Ei; [|done].
    rewrite (threads_exec _ _ _ _ _ H Er Ei). destruct th; lia.
Qed.

Lemma overdue_run c d i k t es t' :
  overdue c d i k t → timer_run t es = Some t' → UDrop ∉ es →
  overdue c d i (k - runs i es) t' ∧ runs i es ≤ k.
Proof.
  revert k t. induction es as [|e es IH]; intros k t H; simpl.
  { intros [= <-] _. unfold runs. simpl. rewrite Nat.sub_0_r. split; [done|lia]. }
  destruct (timer_exec t e) as [t1|] eqn:E; [|done]. rewrite not_elem_of_cons. intros Hr [He Hes].
  destruct (overdue_exec _ _ _ _ _ _ _ H E (not_eq_sym He)) as [H1 Hle].
  destruct (IH _ _ H1 Hr Hes) as [H2 Hle2].
  rewrite (runs_app i [e] es : runs i (e :: es) = _). split; [|lia].
  replace (k - (runs i [e] + runs i es)) with (k - runs i [e] - runs i es) by lia. done.
Qed.

Lemma starts_threads t es t' :
  timer_run t es = Some t' → length (tm_threads t') = length (tm_threads t) + starts es.
Proof.
  revert t. induction es as [|e es IH]; intros t; simpl; [intros [= <-]; unfold starts; simpl; lia|].
  destruct (timer_exec t e) as [t1|] eqn:E; [|done]. intros Hr. rewrite (IH t1 Hr).
  rewrite (starts_app [e] es : starts (e :: es) = _).
  destruct (timer_exec_threads _ _ _ E) as [(d & -> & Ht & _)|[(i & -> & Hl)|(Ht & _ & Hs & _)]].
  - rewrite Ht, app_length, starts_single. simpl. lia.
  - rewrite starts_single. simpl. lia.
  - rewrite Ht, starts_single, Hs. lia.
Qed.

Lemma now_run t es t' : timer_run t es = Some t' → tm_now t' = tm_now t + ticks es.
Proof.
  revert t. induction es as [|e es IH]; intros t; simpl; [intros [= <-]; unfold ticks; simpl; lia|].
  destruct (timer_exec t e) as [t1|] eqn:E; [|done]. intros Hr. rewrite (IH t1 Hr).
  rewrite (ticks_app [e] es : ticks (e :: es) = _).
  rewrite (timer_exec_now _ _ _ E). lia.
Qed.

Lemma phase_run t es t' :
  timer_run t es = Some t' → tm_phase t = Alive → UDrop ∉ es →
  tm_phase t' = Alive ∧ tm_dropping t' = tm_dropping t.
Proof.
  revert t. induction es as [|e es IH]; intros t; simpl; [by intros [= <-]|].
  destruct (timer_exec t e) as [t1|] eqn:E; [|done]. rewrite not_elem_of_cons. intros Hr Hp [He Hes].
  destruct (alive_exec _ _ _ E Hp (not_eq_sym He)) as [Hp1 <-]. by apply (IH t1).
Qed.

Lemma threads_run t es t' i th :
  timer_run t es = Some t' → runs i es = 0 → tm_threads t !! i = Some th → tm_threads t' !! i = Some th.
Proof.
  revert t. induction es as [|e es IH]; intros t; simpl; [by intros [= <-]|].
  destruct (timer_exec t e) as [t1|] eqn:E; [|done].
  rewrite (runs_app i [e] es : runs i (e :: es) = _). intros Hr Hz Hi.
  apply (IH t1); [done|lia|]. eapply threads_exec; [done| |done].
  destruct (is_run i e) eqn:Er; [|done]. exfalso. rewrite runs_single, Er in Hz. lia.
Qed.

(** *** Mutual exclusion *)

Definition exclusive (ts : list TimerThread) : Prop :=
  ∀ i j, ts !! i = Some TExpired → ts !! j = Some TExpired → i = j.

Lemma held_by_other_spec i ts :
  held_by_other i ts = true ↔ ∃ j, j ≠ i ∧ ts !! j = Some TExpired.
Proof.
  unfold held_by_other. rewrite orb_true_iff, !existsb_exists. split.
  - intros [(x & Hin & Hx)|(x & Hin & Hx)]; apply elem_of_list_In, elem_of_list_lookup in Hin as (j & Hj);
      destruct x; try done.
    + apply lookup_take_Some in Hj as [Hj Hlt]. exists j. split; [lia|done].
    + rewrite lookup_drop in Hj. exists (S i + j). split; [lia|done].
  - intros (j & Hne & Hj). destruct (decide (j < i)) as [Hlt|Hge].
    + left. exists TExpired. split; [|done]. apply elem_of_list_In, elem_of_list_lookup. exists j.
      by rewrite lookup_take.
    + right. exists TExpired. split; [|done]. apply elem_of_list_In, elem_of_list_lookup. exists (j - S i).
      rewrite lookup_drop. replace (S i + (j - S i)) with j by lia. done.
Qed.

Lemma exclusive_exec t e t' : timer_exec t e = Some t' → exclusive (tm_threads t) → exclusive (tm_threads t').
Proof.
  intros H Hx. exec_cases H e; try done.
  - intros i j Hi Hj. apply lookup_snoc_Some in Hi as [[_ Hi]|[_ ?]]; [|done].
    apply lookup_snoc_Some in Hj as [[_ Hj]|[_ ?]]; [|done]. by apply Hx.
  - assert (∀ j, j ≠ k → tm_threads t !! j ≠ Some TExpired) as Hno.
    { intros j Hj Ej. apply (eq_true_false_abs _ (proj2 (held_by_other_spec k _) (ex_intro _ j (conj Hj Ej))) Hheld). }
    intros i j Hi Hj. destruct (decide (i = k)) as [->|Hik], (decide (j = k)) as [->|Hjk]; [done|..].
    + rewrite list_lookup_insert_ne in Hj by done. by apply Hno in Hj.
    + rewrite list_lookup_insert_ne in Hi by done. by apply Hno in Hi.
    + rewrite list_lookup_insert_ne in Hi by done. by apply Hno in Hi.
Qed.

Lemma exclusive_run t es t' : timer_run t es = Some t' → exclusive (tm_threads t) → exclusive (tm_threads t').
Proof.
  revert t. induction es as [|e es IH]; intros t; simpl; [by intros [= <-]|].
  destruct (timer_exec t e) as [t1|] eqn:E; [|done]. intros Hr Hx. eapply IH; [done|]. by eapply exclusive_exec.
Qed.

Lemma exclusive_new now : exclusive (tm_threads (timer_new now)).
Proof. intros i j Hi. simpl in Hi; by rewrite lookup_nil in Hi. Qed.

(** A thread that is not over can run, or the thread that holds the lock can. *)
Lemma step_possible t i th :
  exclusive (tm_threads t) → tm_threads t !! i = Some th → th ≠ TDone →
  (∃ t', timer_exec t (TStep i) = Some t') ∨
  (∃ j t', timer_exec t (TStep j) = Some t' ∧ tm_finished t' = true ∧
     existsb is_expired (tm_threads t') = false ∧ (∃ t'', timer_exec t' (TStep i) = Some t'')).
Proof.
  intros Hx Hi Hd. cbn [timer_exec]. rewrite Hi. destruct (held_by_other i (tm_threads t)) eqn:Eh.
  - right. apply held_by_other_spec in Eh as (j & Hne & Hj). exists j. rewrite Hj.
    destruct (held_by_other j (tm_threads t)) eqn:Eh2.
    { apply held_by_other_spec in Eh2 as (j' & Hne' & Hj'). destruct Hne'. by apply Hx. }
    simpl. eexists. split; [done|]. simpl. split; [apply orb_true_r|].
    assert (existsb is_expired (<[j:=TDone]> (tm_threads t)) = false) as Hno.
    { apply not_true_is_false. rewrite existsb_exists. intros (x & Hin & Hxx). destruct x; try done.
      apply elem_of_list_In, elem_of_list_lookup in Hin as (k & Hk).
      destruct (decide (k = j)) as [->|Hkj].
      - rewrite list_lookup_insert in Hk by (by eapply lookup_lt_Some). done.
      - rewrite list_lookup_insert_ne in Hk by done. apply Hkj. by apply Hx. }
    split; [done|]. rewrite list_lookup_insert_ne by done. rewrite Hi.
    destruct (held_by_other i (<[j:=TDone]> (tm_threads t))) eqn:Eh3.
    { apply held_by_other_spec in Eh3 as (k & _ & Hk). exfalso.
      assert (existsb is_expired (<[j:=TDone]> (tm_threads t)) = true); [|congruence].
      apply existsb_exists. exists TExpired. split; [|done]. apply elem_of_list_In. by eapply elem_of_list_lookup_2. }
    destruct th; simpl; by eauto.
  - left. destruct th; simpl; by eauto.
Qed.

(** The thread of a call of [start] runs for the first time, then more than [d]
    ticks pass; when it has run twice after that, the timer is finished.  In
    between anything but a drop can happen.  As long as the timer is not finished
    the thread can run, or the lock is held by a thread whose next action finishes
    the timer. *)
Lemma timer_finishes :
  ∀ now d e1 e2 e3 e4 t i,
  i = starts e1 → runs i e2 = 0 → d < ticks e3 →
  timer_run (timer_new now) (e1 ++ UStart d :: e2 ++ TStep i :: e3 ++ e4) = Some t →
  UDrop ∉ e1 ++ UStart d :: e2 ++ TStep i :: e3 ++ e4 →
  (2 ≤ runs i e4 → timer_finished t = true) ∧
  (timer_finished t = false →
     (∃ t', timer_exec t (TStep i) = Some t') ∨
     (∃ j t', timer_exec t (TStep j) = Some t' ∧ timer_finished t' = true)).
Proof.
  intros now d e1 e2 e3 e4 t i -> Hr2 Hd Hrun Hnd.
  assert (exclusive (tm_threads t)) as Hx by (eapply exclusive_run; [exact Hrun|apply exclusive_new]).
  rewrite timer_run_app in Hrun. destruct (timer_run (timer_new now) e1) as [t1|] eqn:E1; [|done].
  cbn [timer_run] in Hrun. destruct (timer_exec t1 (UStart d)) as [t2|] eqn:E2; [|done].
  rewrite timer_run_app in Hrun. destruct (timer_run t2 e2) as [t3|] eqn:E3; [|done].
  cbn [timer_run] in Hrun. destruct (timer_exec t3 (TStep (starts e1))) as [t4|] eqn:E4; [|done].
  rewrite timer_run_app in Hrun. destruct (timer_run t4 e3) as [t5|] eqn:E5; [|done].
  assert (UDrop ∉ e1 ∧ UDrop ∉ e2 ∧ UDrop ∉ e3 ∧ UDrop ∉ e4) as (N1 & N2 & N3 & N4) by set_solver.
  destruct (phase_run _ _ _ E1 eq_refl N1) as [P1 D1]. simpl in D1.
  destruct (alive_exec _ _ _ E2 P1 ltac:(done)) as [P2 D2].
  destruct (phase_run _ _ _ E3 P2 N2) as [P3 D3].
  destruct (alive_exec _ _ _ E4 P3 ltac:(done)) as [P4 D4].
  pose proof (starts_threads _ _ _ E1) as L1. simpl in L1.
  assert (tm_threads t2 !! starts e1 = Some (TSpawned d)) as T2.
  { cbn [timer_exec] in E2. rewrite P1 in E2. injection E2 as <-. simpl. rewrite <-L1.
    by rewrite lookup_app_r, Nat.sub_diag by lia. }
  pose proof (threads_run _ _ _ _ _ E3 Hr2 T2) as T3.
  assert (in_time (tm_now t4) d (starts e1) t4) as Hin.
  { split; [done|]. split; [congruence|]. split; [lia|].
    apply timer_exec_step in E4 as (th & th' & set & Hi & _ & Hs & ->). simpl in *.
    rewrite T3 in Hi. injection Hi as <-. simpl in Hs. injection Hs as <- <-.
    rewrite list_lookup_insert by (by eapply lookup_lt_Some).
    rewrite D3, D2, D1. unfold timer_check. rewrite Nat.sub_diag.
    destruct (d <? 0) eqn:E; [apply Nat.ltb_lt in E; lia|]. done. }
  pose proof (in_time_run _ _ _ _ _ _ Hin E5 N3) as Hin5.
  pose proof (now_run _ _ _ E5) as Hnow5.
  assert (∃ k, k ≤ 2 ∧ overdue (tm_now t4) d (starts e1) k t5) as (k & Hk & Hov).
  { destruct Hin5 as (P5 & D5 & C5 & T5).
    exists (match tm_threads t5 !! starts e1 with Some (TWaiting _ _) => 2 | Some TExpired => 1 | _ => 0 end).
    split; [by destruct (tm_threads t5 !! starts e1) as [[]|]; lia|].
    split; [done|]. split; [lia|]. by destruct (tm_threads t5 !! starts e1) as [[]|]. }
  destruct (overdue_run _ _ _ _ _ _ _ Hov Hrun N4) as [(Hin6 & _ & Hk6) Hle].
  destruct Hin6 as (_ & _ & _ & T6). split.
  - intros H2. assert (k - runs (starts e1) e4 = 0) as Ez by lia. rewrite Ez in Hk6.
    destruct (tm_threads t !! starts e1) as [[]|]; done.
  - intros Hf. destruct (tm_threads t !! starts e1) as [th|] eqn:Et; [|done].
    destruct (step_possible t (starts e1) th Hx Et) as [H|(j & t' & H & H' & _)].
    + intros ->. unfold timer_finished in Hf. congruence.
    + by left.
    + right. by exists j, t'.
Qed.

(** ** Dropping *)

Lemma dropped_exec t e t' :
  timer_exec t e = Some t' → tm_phase t ≠ Alive → tm_dropping t = true →
  existsb is_expired (tm_threads t) = false →
  tm_phase t' ≠ Alive ∧ tm_dropping t' = true ∧ existsb is_expired (tm_threads t') = false ∧
  tm_finished t' = tm_finished t.
Proof.
  intros H Hp Hd Hx. destruct e as [d| | |i|].
  4:{ apply timer_exec_step in H as (th & th' & set & Hi & _ & Hs & ->). simpl. rewrite Hd in *.
      assert (th ≠ TExpired) as Hne.
      { intros ->. apply (eq_true_false_abs _ (proj2 (existsb_exists _ _) (ex_intro _ _ (conj
          (proj1 (elem_of_list_In _ _) (elem_of_list_lookup_2 _ _ _ Hi)) eq_refl))) Hx). }
      assert (th' = TDone ∧ set = false) as [-> ->].
      { destruct th; simpl in Hs; unfold timer_check in Hs; by simplify_eq. }
      rewrite orb_false_r. split_and!; try done.
      apply not_true_is_false. intros Hex. apply existsb_exists in Hex as (x & Hin & Hxx).
      apply elem_of_list_In, elem_of_list_lookup in Hin as (k & Hk).
      destruct (decide (i = k)) as [<-|Hik].
      - rewrite list_lookup_insert in Hk by (by eapply lookup_lt_Some). by injection Hk as <-.
      - rewrite list_lookup_insert_ne in Hk by done.
        enough (existsb is_expired (tm_threads t) = true) by congruence.
        apply existsb_exists. exists x. split; [|done]. apply elem_of_list_In. by eapply elem_of_list_lookup_2. }
  all: cbn [timer_exec] in H; repeat case_match; simplify_eq; try done.
Qed.

Lemma dropped_run t es t' :
  timer_run t es = Some t' → tm_phase t ≠ Alive → tm_dropping t = true →
  existsb is_expired (tm_threads t) = false →
  tm_phase t' ≠ Alive ∧ tm_dropping t' = true ∧ existsb is_expired (tm_threads t') = false ∧
  tm_finished t' = tm_finished t.
Proof.
  revert t. induction es as [|e es IH]; intros t; simpl; [by intros [= <-]|].
  destruct (timer_exec t e) as [t1|] eqn:E; [|done]. intros Hr Hp Hd Hx.
  destruct (dropped_exec _ _ _ E Hp Hd Hx) as (H1 & H2 & H3 & <-). by apply IH.
Qed.

Lemma timer_monotone :
  ∀ now es es' t t', timer_run (timer_new now) es = Some t → timer_run t es' = Some t' →
  timer_finished t = true → timer_finished t' = true.
Proof. intros now es es' t t' _. apply timer_run_monotone. Qed.

(** [drop] can start at once, or as soon as the thread that has timed out has
    done its last action. *)
Lemma timer_drop_starts :
  ∀ now es t, timer_run (timer_new now) es = Some t → UDrop ∉ es →
  (∃ t', timer_exec t UDrop = Some t') ∨
  (∃ j t' t'', timer_exec t (TStep j) = Some t' ∧ timer_finished t' = true ∧
     timer_exec t' UDrop = Some t'').
Proof.
  intros now es t Hr Hn. destruct (phase_run _ _ _ Hr eq_refl Hn) as [Hp _].
  assert (exclusive (tm_threads t)) as Hx by (eapply exclusive_run; [exact Hr|apply exclusive_new]).
  cbn [timer_exec]. rewrite Hp. destruct (existsb is_expired (tm_threads t)) eqn:E; [|by left; eauto].
  right. apply existsb_exists in E as (x & Hin & Hxx). destruct x; try done.
  apply elem_of_list_In, elem_of_list_lookup in Hin as (j & Hj). exists j.
  destruct (held_by_other j (tm_threads t)) eqn:Eh.
  { apply held_by_other_spec in Eh as (j' & Hne' & Hj'). destruct Hne'. by apply Hx. }
  rewrite Hj. simpl. eexists _, _. split; [done|]. simpl. split; [apply orb_true_r|].
  destruct (existsb is_expired (<[j:=TDone]> (tm_threads t))) eqn:E2; [|done].
  exfalso. apply existsb_exists in E2 as (x & Hin & Hxx'). destruct x; try done.
  apply elem_of_list_In, elem_of_list_lookup in Hin as (k & Hk).
  destruct (decide (k = j)) as [->|Hkj].
  - rewrite list_lookup_insert in Hk by (by eapply lookup_lt_Some). done.
  - rewrite list_lookup_insert_ne in Hk by done. apply Hkj. by apply Hx.
Qed.

(** After the first part of [drop]: the flag does not change any more; [drop] can
    return at once or after one action of the thread it waits for, without any
    tick. *)
Lemma timer_drop_returns :
  ∀ now e1 e2 t t', timer_run (timer_new now) e1 = Some t → UDrop ∉ e1 →
  timer_run t (UDrop :: e2) = Some t' →
  timer_finished t' = timer_finished t ∧
  (UJoin ∈ e2 ∨ (∃ t'', timer_exec t' UJoin = Some t'') ∨
   (∃ t'', timer_run t' [TStep (starts e1 - 1); UJoin] = Some t'')).
Proof.
  intros now e1 e2 t t' Hr1 Hn Hr2. destruct (phase_run _ _ _ Hr1 eq_refl Hn) as [Hp _].
  cbn [timer_run] in Hr2. destruct (timer_exec t UDrop) as [t1|] eqn:Ed; [|done].
  cbn [timer_exec] in Ed. rewrite Hp in Ed.
  destruct (existsb is_expired (tm_threads t)) eqn:Ex; [done|]. injection Ed as <-.
  destruct (dropped_run _ _ _ Hr2 ltac:(done) eq_refl Ex) as (H1 & H2 & H3 & H4). simpl in H4.
  split; [done|].
  destruct (decide (UJoin ∈ e2)) as [Hin|Hnin]; [by left|right].
  assert (∀ es u, tm_phase u = Joining → timer_run u es = Some t' → UJoin ∉ es →
      tm_phase t' = Joining ∧ starts es = 0) as Hj.
  { clear. intros es. induction es as [|e es IH]; intros u Hu; simpl; [by intros [= <-]|].
    destruct (timer_exec u e) as [u1|] eqn:E; [|done]. rewrite not_elem_of_cons. intros Hr [He Hes].
    assert (tm_phase u1 = Joining ∧ is_start e = false) as [H1 H2].
    { exec_cases E e; try done; congruence. }
    destruct (IH u1 H1 Hr Hes) as [-> Hs]. split; [done|].
    rewrite (starts_app [e] es : starts (e :: es) = _), starts_single, H2. lia. }
  destruct (Hj e2 _ (eq_refl : tm_phase (mkTimer Joining true (tm_finished t) (tm_threads t) (tm_now t)) = Joining) Hr2 Hnin) as [Hp' Hs'].
  pose proof (starts_threads _ _ _ Hr1) as L1. simpl in L1.
  pose proof (starts_threads _ _ _ Hr2) as L2. simpl in L2.
  cbn [timer_exec timer_run]. rewrite Hp'.
  destruct (last (tm_threads t')) as [th|] eqn:El; [|by left; eauto].
  rewrite last_lookup in El. replace (pred (length (tm_threads t'))) with (starts e1 - 1) in El by lia.
  destruct (decide (th = TDone)) as [->|Hne]; [by left; eauto|]. right. rewrite El.
  destruct (held_by_other (starts e1 - 1) (tm_threads t')) eqn:Eh.
  { exfalso. apply held_by_other_spec in Eh as (j & _ & Hjx).
    enough (existsb is_expired (tm_threads t') = true) by congruence.
    apply existsb_exists. exists TExpired. split; [|done]. apply elem_of_list_In. by eapply elem_of_list_lookup_2. }
  rewrite H2.
  assert (∃ set, thread_step true (tm_now t') th = Some (TDone, set)) as [set ->].
  { destruct th; simpl; by eauto. }
  cbn [timer_exec tm_phase tm_threads]. rewrite last_lookup, insert_length.
  replace (pred (length (tm_threads t'))) with (starts e1 - 1) by lia.
  rewrite list_lookup_insert by (by eapply lookup_lt_Some). by eauto.
Qed.

(** With at most one call of [start] no thread outlives the timer. *)
Lemma timer_no_leak :
  ∀ now es t, timer_run (timer_new now) es = Some t → starts es ≤ 1 → tm_phase t = Gone →
  ∀ th, th ∈ tm_threads t → th = TDone.
Proof.
  intros now es t Hr Hs Hp.
  assert (∀ es u t, timer_run u es = Some t →
      (tm_phase u = Gone → last (tm_threads u) = None ∨ last (tm_threads u) = Some TDone) →
      tm_phase t = Gone → last (tm_threads t) = None ∨ last (tm_threads t) = Some TDone) as Hl.
  { clear. intros es. induction es as [|e es IH]; intros u t; simpl; [by intros [= <-]|].
    destruct (timer_exec u e) as [u1|] eqn:E; [|done]. intros Hr Hu. apply (IH u1 t Hr). clear IH.
    exec_cases E e; try done; try (intros _; by auto).
    intros Hg. destruct (Hu Hg) as [Hn|Hd].
    - apply last_None in Hn. rewrite Hn in Hth. done.
    - rewrite last_lookup in Hd |- *. rewrite insert_length.
      destruct (decide (k = pred (length (tm_threads u)))) as [->|Hne].
      + rewrite Hth in Hd. injection Hd as ->. done.
      + rewrite list_lookup_insert_ne by done. by right. }
  specialize (Hl _ _ _ Hr ltac:(done) Hp). pose proof (starts_threads _ _ _ Hr) as L. simpl in L.
  destruct (tm_threads t) as [|th0 [|? ?]]; simpl in *; [by intros th ?%elem_of_nil| |lia].
  intros th ->%elem_of_list_singleton. by destruct Hl as [?|[= ->]].
Qed.
