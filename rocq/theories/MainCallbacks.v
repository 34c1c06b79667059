(** * Accept functions: proofs of the properties in [Properties_Callbacks.v] *)
From Verif Require Export ArgumentFacts MainThreaded MainInterface MainPython.
From Verif Require Export Callbacks Spec.

(** ** Several threads: the questions *)

Section agree.
  Context (adj : spacial) (g : order) (Hin : wf_input adj g).
  Context (acc acc' : nat → Accept).
  Context (Hag : ∀ i k σ M a b c d e r n,
    question adj g (possible_limit adj g) σ M a b c d e r n →
    acc i k a b c d e r n = acc' i k a b c d e r n).

  Lemma achieved_limit best k m :
    achieved adj g best → best !! k = Some m → possible_limit adj g k m.
  Proof.
    intros Ha Hm. destruct (Ha k m Hm) as [->|(σ & H1 & H2 & ->)]; [by left|].
    right. by exists σ.
  Qed.

  Lemma exec_agree bd nthreads smp sys e :
    sys_inv adj g sys →
    exec bd nthreads (Some (acc, smp)) sys e = exec bd nthreads (Some (acc', smp)) sys e.
  Proof.
    intros [_ _ H3]. destruct e as [i|i fin|i]; simpl; [done| |done].
    destruct (sys_tasks sys !! i) as [[j|t|t|]|] eqn:Ei; try done.
    destruct (H3 i _ Ei) as [base Hr]. simpl in Hr. unfold task_iteration.
    rewrite (iteration_agree adj g Hin base (possible_limit adj g) bd (acc i) (acc' i)).
    - done.
    - apply Hr.
    - intros k m. apply achieved_limit, Hr.
    - intros. by eapply Hag.
  Qed.

  Lemma run_events_agree bd nthreads smp sys es :
    sys_inv adj g sys →
    run_events bd nthreads (Some (acc, smp)) sys es = run_events bd nthreads (Some (acc', smp)) sys es.
  Proof.
    revert sys. induction es as [|e es IH]; intros sys Hs; [done|]. cbn [run_events].
    rewrite <- exec_agree by done.
    destruct (exec bd nthreads (Some (acc, smp)) sys e) as [o|] eqn:E; [|done].
    destruct (exec_sstep adj g Hin _ _ _ _ _ _ Hs E) as (_ & [(sys' & -> & Hst)|[-> _]]); [|done].
    apply IH. by eapply sstep_inv.
  Qed.
End agree.

Lemma search_arguments :
  ∀ adj g acc acc', wf_input adj g →
  (∀ i k σ M a b c d e r n,
     question adj g (possible_limit adj g) σ M a b c d e r n →
     acc i k a b c d e r n = acc' i k a b c d e r n) →
  ∀ bd w nthreads task_bound, (∀ l, w_hash_order w l ≡ₚ l) →
    search bd w adj g nthreads (Some acc) task_bound
    = search bd w adj g nthreads (Some acc') task_bound.
Proof.
  intros adj g acc acc' Hin Hag bd w nthreads bound Hho. unfold search.
  destruct (Nat.ltb_spec nthreads 2) as [_|Hnt].
  - apply accept_arguments; [done|done|].
    intros k ps σ M a b c d e r n Hps Hq. apply (Hag 0 k σ M).
    assert (∀ t, possible_limit adj g t (lowest_space ps t)) as Hlim.
    { intros t. destruct (lowest_space_witness ps t) as [->|(p & Hp & Ht & <-)]; [by left|]. right.
      destruct Hps as [[_ ->]|(i & _ & Hret)]; [by apply elem_of_nil in Hp|].
      pose proof (search_paths adj g _ _ _ _ ps Hin Hho Hret) as Hok. rewrite Forall_forall in Hok.
      destruct (Hok p Hp) as (Hv & Ht' & Hs). exists (steps p). split; [done|]. rewrite <- Ht'. done. }
    destruct Hq as [? (k1 & m1 & ? & -> & ?) (m2 & -> & ?) ? ? ? ? ?]. split; try done.
    + exists k1, (lowest_space ps k1). split; [done|]. split; [apply Hlim|done].
    + exists (lowest_space ps (length adj)). split; [apply Hlim|done].
  - destruct (submitted_core adj g bound Hin)
      as (root & cs & rest & E & Hn & Hf & _ & _ & Hdet & Hbd & Hcs & Hrest & Hpend & _).
    rewrite E. unfold threaded_search.
    destruct (spawn bd (w_fuel w) bound root) as [o'|] eqn:Es; [|done].
    assert (o' = Val (spawned cs rest)) as -> by (by eapply Hdet).
    rewrite (run_events_agree adj g Hin acc acc' Hag); [done|].
    apply (system_init_inv adj g). by apply (spawned_ok adj g).
Qed.

(** ** Panics *)

Lemma task_iteration_extends bd acc acc' smp shared fin t :
  extends acc acc' →
  task_iteration bd (Some (acc, smp)) shared fin t = Panic ∨
  task_iteration bd (Some (acc, smp)) shared fin t = task_iteration bd (Some (acc', smp)) shared fin t.
Proof.
  intros Hx. unfold task_iteration.
  destruct (probabilistic_iteration_extends bd acc acc' smp (t_drawn t, t_search t) Hx) as [-> | ->];
    [by left|by right].
Qed.

Lemma exec_extends bd nthreads acc acc' smp sys e :
  (∀ i, extends (acc i) (acc' i)) →
  exec bd nthreads (Some (acc, smp)) sys e = Some Panic ∨
  exec bd nthreads (Some (acc, smp)) sys e = exec bd nthreads (Some (acc', smp)) sys e.
Proof.
  intros Hx. destruct e as [i|i fin|i]; simpl; [by right| |by right].
  destruct (sys_tasks sys !! i) as [[j|t|t|]|]; try by right.
  destruct (task_iteration_extends bd (acc i) (acc' i) (smp i) (sys_best sys) fin t (Hx i)) as [-> | ->];
    [by left|by right].
Qed.

Lemma run_events_extends bd nthreads acc acc' smp sys es :
  (∀ i, extends (acc i) (acc' i)) →
  run_events bd nthreads (Some (acc, smp)) sys es = Some Panic ∨
  run_events bd nthreads (Some (acc, smp)) sys es = run_events bd nthreads (Some (acc', smp)) sys es.
Proof.
  intros Hx. revert sys. induction es as [|e es IH]; intros sys; [by right|]. cbn [run_events].
  destruct (exec_extends bd nthreads acc acc' smp sys e Hx) as [-> | ->]; [by left|].
  destruct (exec _ _ _ _ _) as [[sys'|]|]; [apply IH|by right..].
Qed.

Lemma search_extends :
  ∀ bd w adj g nthreads task_bound acc acc', (∀ i, extends (acc i) (acc' i)) →
  search bd w adj g nthreads (Some acc) task_bound = Some Panic ∨
  search bd w adj g nthreads (Some acc) task_bound = search bd w adj g nthreads (Some acc') task_bound.
Proof.
  intros bd w adj g nthreads bound acc acc' Hx. unfold search.
  destruct (nthreads <? 2); [by apply search_single_extends|].
  destruct (search_scheduler adj g) as [root|]; [|by left]. unfold threaded_search.
  destruct (spawn _ _ _ _) as [[jobs|]|]; [|by left|by right].
  destruct (run_events_extends bd nthreads acc acc' (w_samples w)
    (system_init (length adj) jobs) (w_events w) Hx) as [-> | ->]; [by left|by right].
Qed.

Lemma run_extends :
  ∀ bd fuel env adj g do_search timeout nthreads task_bound seed f f',
  (∀ i, extends (f i) (f' i)) →
  run bd fuel env adj g do_search timeout nthreads task_bound (Some (Custom f, seed)) = Some Panic ∨
  run bd fuel env adj g do_search timeout nthreads task_bound (Some (Custom f, seed))
  = run bd fuel env adj g do_search timeout nthreads task_bound (Some (Custom f', seed)).
Proof.
  intros bd fuel env adj g [] timeout nthreads bound seed f f' Hx; [|by right].
  apply (search_extends _ _ _ _ _ _ f f' Hx).
Qed.

(** A Python callback that raises an exception where the other one returns. *)
Lemma py_run_extends :
  ∀ bd fuel env warn adj g do_search timeout nthreads seed task_bound (f f' : PyCallback),
  (∀ k a b c d e r n x, f k a b c d e r n = Ok x → f' k a b c d e r n = Ok x) →
  py_run bd fuel env warn adj g do_search timeout nthreads (Some (PyCustom f, seed)) task_bound
    = Some Panic ∨
  py_run bd fuel env warn adj g do_search timeout nthreads (Some (PyCustom f, seed)) task_bound
  = py_run bd fuel env warn adj g do_search timeout nthreads (Some (PyCustom f', seed)) task_bound.
Proof.
  intros bd fuel env warn adj g ds timeout nthreads seed bound f f' Hx. unfold py_run.
  destruct (1 <? nthreads); [by right|]. destruct (get_time_order warn g) as [g'|]; [|by right].
  cbn [option_map to_real].
  edestruct (run_extends bd fuel env adj g' ds (option_map from_secs timeout) nthreads bound seed)
    as [E|E]; [|rewrite E; by left|rewrite E; right; reflexivity].
  intros i k a b c d e r n x. destruct (f k a b c d e r n) as [y|] eqn:E; [|done].
  by rewrite (Hx _ _ _ _ _ _ _ _ _ E).
Qed.
