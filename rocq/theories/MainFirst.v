(** * The path of the run without search is the first one of the search *)
From Verif Require Export OrderFacts MainInterface.

Section leading.
  Context (adj : spacial) (g : order) (Hin : wf_input adj g).
  Notation n := (length adj).
  Notation cost := (cost adj).
  Notation ok := (ok adj g []).

  (** A node of the search stands where [get_time_optimal] stands. *)
  Record level (t : Scheduler (list nat)) (s : Scheduler (Partition nat)) : Prop := {
    lv_set : measurable (s_time t) = mset s;
    lv_deps : deps_counter (s_time t) = deps_counter (s_time s);
    lv_dependents : dependents (s_time t) = dependents (s_time s)
  }.

  Lemma level_root t root :
    from_dependency_graph g (dependency_buffer_new n) None = Val t →
    search_scheduler adj g = Val root →
    level (mkScheduler t (graph_new adj)) root.
  Proof.
    unfold search_scheduler, from_dependency_graph. destruct g as [|l r].
    - intros [= <-] [= <-]. by split.
    - destruct (first_loop r l _) as [[look m]|]; [|done]. cbn [obind].
      destruct (rest_loop r (look, ∅)) as [[look' deps]|]; [|done]. cbn [obind].
      intros [= <-] [= <-]. by split.
  Qed.

  Lemma partition_all (m : list nat) : NoDup m → time_partition m m = Val (Ok []).
  Proof.
    intros Hm. rewrite time_partition_ok by done. f_equal. f_equal.
    assert (∀ l, (∀ x, x ∈ l → x ∈ m) → filter (λ e, e ∉ m) l = []) as H; [|by apply H].
    induction l as [|x l IH]; intros Hl; [done|]. rewrite filter_cons_False.
    - apply IH. intros y Hy. apply Hl. by right.
    - intros Hx. apply Hx, Hl. left.
  Qed.

  (** The first child of a node and the next state of [get_time_optimal]. *)
  Lemma level_step p t cur child b r t' :
    node adj g p cur → level t cur → items cur = ([], b) :: r → b ≠ [] → b = mset cur →
    scheduler_next_and_focus Debug cur = Val (advance cur, Some (child, b)) →
    scheduler_focus_inplace Debug t b = Val (t', Ok tt) →
    level t' child.
  Proof.
    intros Hn [L1 L2 L3] Hi Hb Eb E1 E2.
    pose proof (node_nodup adj g _ _ Hn) as Hnd.
    unfold scheduler_focus_inplace, time_focus_inplace in E2. simpl ms_set in E2.
    rewrite L1, <- Eb, partition_all in E2 by (by rewrite Eb). cbn [obind] in E2.
    unfold scheduler_next_and_focus, time_next_and_focus, partition_next in E1.
    unfold items in Hi. destruct (piter (measurable (s_time cur))) as [|sub rest]; [done|].
    simpl in Hi. injection Hi as Hi _. simpl in E1. rewrite Hi in E1.
    destruct b as [|x b]; [done|]. unfold time_focus_unchecked in E1.
    cbn [dependents deps_counter s_time s_space] in E1.
    rewrite L2, L3 in E2.
    destruct (update_unchecked Debug (dependents (s_time cur)) (deps_counter (s_time cur)) (x :: b) [])
      as [[deps new]|]; [|done]. cbn [obind s_space] in E1, E2.
    destruct (graph_focus_inplace Debug (s_space cur) (x :: b)) as [[g1 [[]|]]|]; try done.
    cbn [obind] in E1. injection E1 as _ <-.
    destruct (space_focus_inplace Debug (s_space t) (x :: b)) as [[g2 [[]|]]|]; try done.
    cbn [obind] in E2. injection E2 as <-. by split.
  Qed.

  (** The first descent, in step with [get_time_optimal], which will return [q]. *)
  Record leading (q : schedule) (k : nat) (s : SearchState) : Prop := {
    ld_descent : descent adj g k s;
    ld_run : ∃ t m fuel m', loop (time_optimal_body Debug) fuel (t, ss_path s, m) = Some (Val (q, m')) ∧
      level t (current (ss_scheduler s))
  }.

  Lemma leading_step q k s r :
    ok s → leading q k s → iter_rel adj g false s r →
    match r with
    | inl s' => leading q (S k) s' ∨ (ss_results s' = {[ length q := (cost q, q) ]} ∧ k = length q)
    | inr s' => ss_results s' = ∅ ∧ ∀ b, ¬ listed g b
    end.
  Proof.
    intros Hok [Hd (t & m & fuel & m' & Hl & Hv)] H.
    pose proof (descent_step adj g Hin k s r Hok Hd H) as Hs.
    destruct Hok as [Hch Hlen]. destruct Hd as [Hres Hbest Hf Hgr Hk Hst].
    pose proof (chain_node _ _ _ _ _ _ Hch) as Hn. destruct H; simpl in *.
    - done.
    - exfalso. destruct (all_splits_head (mset cur)) as [r Hr]. unfold SchedulerFacts.fresh in Hf.
      apply H0, (H [] (mset cur)). rewrite Hf, Hr. left.
    - right. destruct fuel as [|fuel]; [done|]. simpl in Hl. unfold time_optimal_body in Hl at 1.
      rewrite (lv_set _ _ Hv), H0 in Hl. injection Hl as -> ->.
      split; [|by rewrite <- Hk]. by rewrite Hres, insert_empty.
    - left. destruct Hs as [Hd|[(p0 & e & _ & _ & He) _]].
      2: { simpl in He. by rewrite Hres, lookup_empty in He. }
      split; [exact Hd|]. simpl.
      destruct fuel as [|fuel]; [done|]. simpl in Hl.
      destruct (all_splits_head (mset cur)) as [r Hr]. unfold SchedulerFacts.fresh in Hf.
      pose proof H as Hit. rewrite Hf, Hr in H. injection H as <- <- <-.
      unfold time_optimal_body in Hl at 1. rewrite (lv_set _ _ Hv) in Hl.
      destruct (mset cur) as [|y M] eqn:Em; [done|]. rewrite <- Em in *.
      destruct (scheduler_focus_inplace Debug t (mset cur)) as [[t' [[]|]]|] eqn:Ef; try done.
      cbn [obind] in Hl. eexists _, _, fuel, m'. split; [exact Hl|].
      by eapply (level_step p t cur child (mset cur)).
    - destruct Hs as [Hd|[(p0 & e & _ & _ & He) _]].
      + exfalso. apply ds_fresh in Hd. simpl in Hd. unfold SchedulerFacts.fresh in Hd, Hf.
        rewrite advance_items, Hf in Hd. change (mset (advance cur)) with (mset cur) in Hd.
        apply (f_equal length) in Hd. destruct (all_splits_head (mset cur)) as [r Hr].
        rewrite Hr in Hd. simpl in Hd. lia.
      + by rewrite Hres, lookup_empty in He.
    - done.
  Qed.
End leading.

Lemma first_path_core :
  ∀ adj g timer ho, wf_input adj g → (∀ l, ho l ≡ₚ l) → (∃ b, listed g b) →
  ∃ p ps,
    (∀ bd, returns (λ fuel, get_time_optimal bd fuel adj g) [p]) ∧
    (∀ bd, returns (λ fuel, search_single bd fuel timer ho adj g None) ps) ∧
    (* interrupted before the first path is complete: nothing *)
    (∀ k, k < time p → timer k = true → ps = []) ∧
    (* interrupted as soon as the first path is complete: exactly this path *)
    ((∀ k, k < time p → timer k = false) → timer (time p) = true → ps = [p]).
Proof.
  intros adj g timer ho Hin Hho Hlisted.
  destruct (search_core_root adj g Hin) as (root & Eroot & Hn & Hf & Hok & Hbk & Hcore).
  destruct (search_finishes Debug timer ho adj g None) as (o & f0 & Ho).
  destruct (Hcore _ _ _ _ _ _ (Ho f0 (le_n _)) (or_introl I)) as (j & to & s & fin & Eo & H1 & H2 & Ht1 & Ht2).
  destruct (search_first adj g timer ho Hin Hho) as (ps & Hret & Hhead & Hne).
  assert (o = Val ps) as -> by (apply (finishes_det _ _ _ (ex_intro _ f0 Ho) (Hret Debug))).
  destruct (time_optimal_valid adj g Hin) as (p & Hopt & Hpok & Hfast & _).
  symmetry in Eo. exists p, ps. split; [done|]. split; [done|]. simpl in H1, H2.
  (* what [get_time_optimal] does *)
  pose proof (Hopt Debug) as [f1 Hopt1]. specialize (Hopt1 f1 (le_n _)).
  destruct (time_optimal_spec adj g Hin Debug f1 _ Hopt1) as (q & Eq & Hqv & Hqg). injection Eq as ->.
  simpl in *.
  assert (leading adj g q 0 (start_state (length adj) root)) as Hd0.
  { split; [by split|]. unfold get_time_optimal in Hopt1.
    destruct (from_dependency_graph g (dependency_buffer_new (length adj)) None) as [t|] eqn:Et; [|done].
    destruct (loop (time_optimal_body Debug) f1 _) as [[[q' m']|]|] eqn:El; try done.
    injection Hopt1 as _ _ ->. eexists _, _, f1, m'. split; [exact El|].
    by apply (level_root adj g). }
  (* the state after some iterations *)
  assert (∀ k j a b, ok adj g [] a → iters adj g false j a b → leading adj g q k a →
    k + j ≤ length q → leading adj g q (k + j) b) as Hgen.
  { clear -Hin. intros k j a b Hok Hi. revert k. induction Hi as [a|j a b c Hab _ IH]; intros k Hd Hle.
    - by rewrite Nat.add_0_r.
    - pose proof (iter_rel_ok _ _ _ _ _ _ Hok Hab) as Hok'.
      replace (k + S j) with (S k + j) by lia. apply IH; [done| |lia].
      destruct (leading_step adj g Hin _ _ _ _ Hok Hd Hab) as [?|[_ ?]]; [done|lia]. }
  assert (j ≤ length q → leading adj g q j s) as Hs.
  { intros Hle. by apply (Hgen 0 j _ s Hok H1). }
  pose proof (iters_ok _ _ _ _ _ _ _ Hok H1) as Hoks.
  destruct (finish_spec ho Hho (length adj) (ss_results fin)) as (ps' & Eps & _ & _ & Hps).
  rewrite Eps in Eo. injection Eo as ->.
  assert (q ≠ []) as Hqne.
  { intros ->. destruct Hlisted as [b Hb]. destruct Hqv as [_ Hc]. apply Hc in Hb. by apply elem_of_nil in Hb. }
  split.
  - intros k Hk Htk.
    assert (j ≤ k) as Hjk.
    { destruct (decide (j ≤ k)) as [|Hlt]; [done|]. rewrite Ht1 in Htk by lia. done. }
    pose proof (leading_step adj g Hin _ _ _ _ Hoks (Hs ltac:(lia)) H2) as Hl.
    assert (ss_results fin = ∅) as He.
    { destruct to; [|apply Hl]. destruct Hl as [Hl|[_ ?]]; [|lia]. apply Hl. }
    destruct ps as [|p0 ps0]; [done|]. exfalso.
    assert (p0 ∈ p0 :: ps0) as Hp by left. apply Hps in Hp as (_ & Hp & _).
    by rewrite He, lookup_empty in Hp.
  - intros Hbefore Hat.
    assert (j ≤ length q) as Hjq.
    { destruct (decide (j ≤ length q)) as [|Hlt]; [done|]. rewrite Ht1 in Hat by lia. done. }
    pose proof (leading_step adj g Hin _ _ _ _ Hoks (Hs Hjq) H2) as Hl.
    assert (to = true) as ->.
    { destruct to; [done|]. destruct Hl as [_ Hl], Hlisted as [b Hb]. by destruct (Hl b). }
    specialize (Ht2 eq_refl).
    assert (j = length q) as Hj.
    { destruct (decide (j = length q)) as [|Hlt]; [done|]. rewrite Hbefore in Ht2 by lia. done. }
    destruct Hl as [Hl|[Hl _]].
    { exfalso. pose proof (ds_length _ _ _ _ (ld_descent _ _ _ _ _ Hl)) as Hlen.
      pose proof (last_ok _ _ _ _ _ _ _ Hoks H2) as Hokf.
      assert (length (ss_path fin) ≤ length q); [|lia]. apply (greedy_optimal g); [apply Hl| |done].
      eapply nd_legal, chain_node, Hokf. }
    destruct (finish_matches ho Hho _ _ _ (length q) (cost adj q) q Eps) as (r & Hr & _ & _).
    { by rewrite Hl, lookup_singleton. }
    { apply (valid_length adj g Hin). done. }
    { apply (cost_lt_max adj g Hin). }
    assert (∀ r', r' ∈ ps → r' = MkPath (length q) (cost adj q) q) as Hall.
    { intros [tm sp st] Hr'. apply Hps in Hr' as (_ & Hr' & _). simpl in Hr'. rewrite Hl in Hr'.
      apply lookup_singleton_Some in Hr' as [<- [= <- <-]]. done. }
    destruct ps as [|r1 [|r2 ps]]; [by apply elem_of_nil in Hr| |].
    + f_equal. apply Hall. left.
    + exfalso. destruct (search_valid adj g timer ho None Hin Hho I) as (ps' & Hret' & _ & Htr).
      pose proof (finishes_det _ _ _ (Hret Debug) (Hret' Debug)) as [= <-].
      destruct (Htr 0 1 r1 r2) as [Hlt _]; [lia|done|done|].
      rewrite (Hall r1), (Hall r2) in Hlt by set_solver. lia.
Qed.

(** ** C77: the first path *)

Lemma first_path :
  ∀ adj g timer ho, wf_input adj g → (∀ l, ho l ≡ₚ l) → (∃ b, listed g b) →
  ∃ p ps,
    (∀ bd, returns (λ fuel, get_time_optimal bd fuel adj g) [p]) ∧
    (∀ bd, returns (λ fuel, search_single bd fuel timer ho adj g None) ps) ∧
    (* interrupted before the first path is complete: nothing *)
    (∀ k, k < time p → timer k = true → ps = []) ∧
    (* interrupted as soon as the first path is complete: exactly this path *)
    ((∀ k, k < time p → timer k = false) → timer (time p) = true → ps = [p]) ∧
    (* otherwise the first one of the list is as fast and needs no more space *)
    ((∀ k, k < time p → timer k = false) →
     ∃ q, head ps = Some q ∧ time q = time p ∧ (space q <= space p)%N).
Proof.
  intros adj g timer ho Hin Hho Hlisted.
  destruct (first_path_core adj g timer ho Hin Hho Hlisted) as (p & ps & Hopt & Hret & Hearly & Hexact).
  exists p, ps. split; [done|]. split; [done|]. split; [done|]. split; [done|]. intros Hbefore.
  destruct (first_path_core adj g (λ k, k =? time p) ho Hin Hho Hlisted) as (p' & ps0 & Hopt' & Hret0 & _ & Hexact0).
  pose proof (finishes_det _ _ _ (Hopt Debug) (Hopt' Debug)) as [= <-].
  assert (ps0 = [p]) as ->.
  { apply Hexact0; [|by apply Nat.eqb_eq]. intros k Hk. apply Nat.eqb_neq. lia. }
  destruct (search_longer adj g (λ k, k =? time p) timer ho ho None [p] ps Debug Debug Hin Hho Hho) with (p := p)
    as (r & Hr & Hr1 & Hr2); [|done|done|left|].
  { intros i Hi. exists (time p). split; [|by apply Nat.eqb_eq].
    destruct (decide (time p ≤ i)) as [|Hlt]; [done|]. rewrite Hbefore in Hi by lia. done. }
  destruct (search_valid adj g timer ho None Hin Hho I) as (ps' & Hret' & Hval & Htr).
  pose proof (finishes_det _ _ _ (Hret Debug) (Hret' Debug)) as [= <-].
  destruct (time_optimal_fastest adj g p Debug Hin (Hopt Debug)) as (Hfast & _).
  assert (∀ q, q ∈ ps → time p ≤ time q) as Hmin.
  { intros q Hq. rewrite Forall_forall in Hval. destruct (Hval q Hq) as (Hv & -> & _). by apply Hfast. }
  apply elem_of_list_lookup in Hr as [[|i] Hi].
  - exists r. split; [by destruct ps|]. split; [|done].
    assert (r ∈ ps) as Hrin by (by eapply elem_of_list_lookup_2). specialize (Hmin r Hrin). lia.
  - exfalso. destruct ps as [|r0 ps]; [done|]. destruct (Htr 0 (S i) r0 r) as [Hlt _]; [lia|done|done|].
    specialize (Hmin r0 ltac:(left)). lia.
Qed.

(** The same for the entry point. *)
Lemma run_first_path :
  ∀ adj g env timeout nthreads bound,
  wf_input adj g → (∀ l, e_hash_order env l ≡ₚ l) → (∃ b, listed g b) → nthreads ≤ 1 →
  let over := timer_answer timeout (e_clock env) in
  ∃ p ps,
    (∀ bd timeout' nthreads' bound' prob',
       returns (λ fuel, run bd fuel env adj g false timeout' nthreads' bound' prob') [p]) ∧
    (∀ bd, returns (λ fuel, run bd fuel env adj g true timeout nthreads bound None) ps) ∧
    (* interrupted before the first path is complete: nothing *)
    (∀ k, k < time p → over k = true → ps = []) ∧
    (* interrupted as soon as the first path is complete: the path without search *)
    ((∀ k, k < time p → over k = false) → over (time p) = true → ps = [p]) ∧
    (* otherwise the first one of the list is as fast and needs no more space *)
    ((∀ k, k < time p → over k = false) →
     ∃ q, head ps = Some q ∧ time q = time p ∧ (space q <= space p)%N).
Proof.
  intros adj g env timeout nthreads bound Hin Hho Hl Hn over.
  destruct (first_path adj g over (e_hash_order env) Hin Hho Hl) as (p & ps & H1 & H2 & H3).
  exists p, ps. split; [intros bd *; exact (H1 bd)|]. split; [|done].
  intros bd. destruct (H2 bd) as (f0 & Hf). exists f0. intros fuel Hfu.
  rewrite (run_few_threads _ _ _ _ _ _ _ _ _ None _ Hn). unfold run, search. simpl negb. cbv iota.
  simpl (1 <? 2). cbv iota. unfold world_of, task_samples. cbn [w_fuel w_timer w_hash_order w_samples].
  by apply Hf.
Qed.
