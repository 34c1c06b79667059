(** * Final statements about the default accept function and several threads *)
From Verif Require Export ThreadedDefault MainLocks.
From Verif Require Export Spec.

Local Arguments usize_max : simpl never.

(** ** The first task starts before the others exchange anything *)

Lemma threaded_eager_first adj g nthreads acc bound bd w o es1 es2 :
  wf_input adj g → 2 ≤ nthreads → (∀ l, w_hash_order w l ≡ₚ l) → (∃ b, listed g b) →
  (∀ i, eager (length adj) (acc i)) → length adj ≤ 1000 →
  w_events w = es1 ++ EStart 0 :: es2 →
  (∀ i, EEnd i ∉ es1) → (∀ i, iterations i es1 ≤ 1000) →
  search bd w adj g nthreads (Some acc) bound = Some (Val o) →
  ∃ p ps, o = p :: ps ∧ ∀ σ, valid_schedule g σ → time p ≤ time_cost σ.
Proof.
  intros Hin Hnt Hho Hl Hacc Hn Hes Hend Hit H.
  destruct (threaded_valid _ _ _ _ _ _ _ _ Hin Hnt Hho H) as [_ [(ps & [= ->] & Hvalid & Htr)|[? _]]]; [|done].
  unfold search in H. destruct (Nat.ltb_spec nthreads 2) as [?|_]; [lia|].
  destruct (submitted_core adj g bound Hin)
    as (root & cs & rest & E & Hnd & Hf & _ & _ & Hdet & Hbd & Hcs & Hrest & Hpend & _).
  rewrite E in H. unfold threaded_search in H.
  destruct (spawn bd (w_fuel w) bound root) as [o'|] eqn:Es; [|done].
  assert (o' = Val (spawned cs rest)) as -> by (by eapply Hdet).
  destruct (first_job adj g Hin _ _ _ _ _ Hnd Hf Hl Es) as (sch & M & Hj0 & Hsn & Hsf & Hsg).
  set (jobs := spawned cs rest) in *.
  assert (sys_inv adj g (system_init (length adj) jobs)) as Hsys.
  { apply (system_init_inv adj g). apply (spawned_ok adj g); done. }
  destruct (run_events bd nthreads _ _ (w_events w)) as [[sys|]|] eqn:Er; [|done..].
  destruct (run_events_ssteps adj g Hin _ _ _ _ _ _ Hsys Er) as (_ & [(sys0 & [= <-] & Hst)|[? _]]); [|done].
  cbn [is_some] in Hst. destruct (all_finished sys) eqn:Ef; [|done]. injection H as Eo.
  destruct (time_optimal_valid adj g Hin) as (p1 & Hr1 & (Hv1 & Ht1 & _) & Hmin & _).
  set (T := length (steps p1)).
  assert (∀ σ, valid_schedule g σ → T ≤ length σ) as HT.
  { intros σ Hσ. specialize (Hmin σ Hσ). unfold time_cost in Hmin. rewrite Ht1 in Hmin. exact Hmin. }
  assert (∀ p, valid_schedule g p → greedy g p → length p = T) as Hgreedy.
  { intros p Hp Hg. pose proof (greedy_optimal g p _ Hg (vs_legal _ _ Hp) Hv1). specialize (HT p Hp). unfold T in *. lia. }
  pose proof (ssteps_inv adj g Hin _ _ _ _ Hsys Hst) as Hs'.
  pose proof (kinv_steps adj g Hin T _ _ _ _ HT Hsys (kinv_init adj T jobs) Hst) as Hk.
  (* the time is known to all in the end *)
  assert (∃ a, sys_best sys !! T = Some a ∧ (a < usize_max)%N) as (a & Ha & Hlt).
  { rewrite Hes in Er.
    destruct (run_events_split _ _ _ _ _ _ _ Er) as (sys1 & Er1 & Er2).
    destruct (quiet_steps adj g Hin _ _ _ _ (mkJob sch (Some M)) _ _ (λ _, 0) Er1) as [(Q1 & Q2 & _) Hs1].
    { done. }
    { intros Hin0. pose proof (started_before _ _ _ _ _ _ 0 Er1 (or_introl Hin0)) as Hw.
      cbn [run_events exec] in Er2. destruct (sys_tasks sys1 !! 0) as [[j| | |]|]; try done. by apply (Hw j). }
    { intros i. specialize (Hit i). lia. }
    { done. }
    { split; [done|]. split.
      - unfold system_init. cbn [sys_tasks]. rewrite list_lookup_fmap, Hj0. done.
      - intros i t Hi. unfold system_init in Hi. cbn [sys_tasks] in Hi.
        rewrite list_lookup_fmap in Hi. by destruct (jobs !! i). }
    cbn [run_events] in Er2. destruct (exec _ _ _ sys1 (EStart 0)) as [[sys2|]|] eqn:Ee; [|done..].
    assert (promised adj g T sys2) as Hp2.
    { cbn [exec] in Ee. rewrite Q2 in Ee. destruct (_ <? _)%nat; [|done]. injection Ee as <-.
      right; left. cbn [sys_tasks]. rewrite list_lookup_insert by (by eapply lookup_lt_Some).
      eexists. split; [done|]. split; cbn; try done. }
    destruct (exec_sstep adj g Hin _ _ _ _ _ _ Hs1 Ee) as (_ & [(sys3 & [= <-] & Hst1)|[? _]]); [|done].
    pose proof (sstep_inv adj g Hin _ _ _ _ Hs1 Hst1) as [Hs2 _].
    destruct (promised_steps adj g Hin T Hgreedy _ _ _ _ _ _ _ Hn Hacc Hs2 Er2 Hp2)
      as [Hb|[(t & Ht & _)|(t & Ht & _)]]; [by eapply bounded_finished| |];
      apply all_finished_spec with (i := 0) in Ht; try done. }
  destruct (kinv_finished adj T sys a Ef Hk Ha) as [[m q] Hr]; [lia|].
  destruct (sy_sound _ _ _ Hs' _ _ _ Hr) as (Hvq & Hlq & Hmq).
  pose proof (valid_length adj g Hin _ Hv1) as Hlen.
  destruct (finish_matches _ Hho _ _ _ _ m q Eo Hr) as (p & Hp & Hp1 & Hp2).
  { unfold T. lia. } { rewrite Hmq. apply (cost_lt_max adj g Hin). }
  destruct ps as [|p0 ps]; [by apply elem_of_nil in Hp|]. exists p0, ps. split; [done|].
  assert (time p0 ≤ T) as Hle.
  { apply elem_of_list_lookup in Hp as [[|i] Hi]; [by injection Hi as ->|].
    destruct (Htr 0 (S i) p0 p) as [? _]; [lia|done|done|]. lia. }
  intros σ Hσ. specialize (HT σ Hσ). unfold time_cost. lia.
Qed.

Lemma threaded_default_first :
  ∀ adj g nthreads exp bound bd w o,
  wf_input adj g → 2 ≤ nthreads → (∀ l, w_hash_order w l ≡ₚ l) → (∃ b, listed g b) →
  exp_function exp → exp_near_zero exp → length adj ≤ 1000 →
  (* until the first task starts, no task ends or reaches an exchange *)
  (∃ es1 es2, w_events w = es1 ++ EStart 0 :: es2 ∧
     (∀ i, EEnd i ∉ es1) ∧ (∀ i, iterations i es1 ≤ 1000)) →
  search bd w adj g nthreads (Some (get_accept_func exp accept_func_default)) bound = Some o →
  ∃ p ps, o = Val (p :: ps) ∧ ∀ σ, valid_schedule g σ → time p ≤ time_cost σ.
Proof.
  intros adj g nthreads exp bound bd w o Hin Hnt Hho Hl H1 H2 Hn (es1 & es2 & Hes & He1 & He2) H.
  destruct (threaded_valid _ _ _ _ _ _ _ _ Hin Hnt Hho H) as [_ [(ps & -> & _)|[_ Hc]]].
  - destruct (threaded_eager_first adj g nthreads (get_accept_func exp accept_func_default) bound bd w ps es1 es2 Hin Hnt Hho Hl) as (p & ps' & -> & Hp);
      [|done..|by exists p, ps'].
    intros i. apply builtin_eager; [done|done|lia].
  - exfalso. apply Hc. done.
Qed.

(** ** The result is never empty *)

Lemma threaded_eager_nonempty adj g nthreads acc bound bd w ps :
  wf_input adj g → 2 ≤ nthreads → (∀ l, w_hash_order w l ≡ₚ l) → (∃ b, listed g b) →
  (∀ i, eager (length adj) (acc i)) → length adj ≤ 1000 →
  search bd w adj g nthreads (Some acc) bound = Some (Val ps) → ps ≠ [].
Proof.
  intros Hin Hnt Hho Hl Hacc Hn H.
  unfold search in H. destruct (Nat.ltb_spec nthreads 2) as [?|_]; [lia|].
  destruct (submitted_core adj g bound Hin)
    as (root & cs & rest & E & Hnd & Hf & _ & _ & Hdet & Hbd & Hcs & Hrest & Hpend & _).
  rewrite E in H. unfold threaded_search in H.
  destruct (spawn bd (w_fuel w) bound root) as [o'|] eqn:Es; [|done].
  assert (o' = Val (spawned cs rest)) as -> by (by eapply Hdet).
  destruct (first_job adj g Hin _ _ _ _ _ Hnd Hf Hl Es) as (sch & M & Hj0 & Hsn & Hsf & Hsg).
  set (jobs := spawned cs rest) in *.
  assert (sys_inv adj g (system_init (length adj) jobs)) as Hsys.
  { apply (system_init_inv adj g). apply (spawned_ok adj g); done. }
  destruct (run_events bd nthreads _ _ (w_events w)) as [[sys|]|] eqn:Er; [|done..].
  destruct (run_events_ssteps adj g Hin _ _ _ _ _ _ Hsys Er) as (_ & [(sys0 & [= <-] & Hst)|[? _]]); [|done].
  cbn [is_some] in Hst. destruct (all_finished sys) eqn:Ef; [|done]. injection H as Eo.
  pose proof (ssteps_inv adj g Hin _ _ _ _ Hsys Hst) as Hs'.
  assert (alive adj g (system_init (length adj) jobs)) as Ha.
  { right; left. exists sch, M. unfold system_init. cbn [sys_tasks]. by rewrite list_lookup_fmap, Hj0. }
  apply (alive_steps adj g Hin _ _ _ _ _ _ _ Hn Hacc Hsys Er) in Ha.
  assert (∃ l, ThreadedDefault.bounded 0 l sys) as [l Hb].
  { destruct Ha as [?|[(sc & M' & Ht & _)|[(t & Ht & _)|(t & Ht & _)]]]; [done| | |];
      apply all_finished_spec with (i := 0) in Ht; try done. }
  apply bounded_finished in Hb as (a & Ha' & Hlt); [|done].
  (* the least bounded time *)
  destruct (list_find (λ a, (a < usize_max)%N) (sys_best sys)) as [[T b]|] eqn:EL.
  2:{ apply list_find_None in EL. rewrite Forall_forall in EL. exfalso.
      apply (EL a); [by eapply elem_of_list_lookup_2|done]. }
  apply list_find_Some in EL as (HTb & Hbm & Hleast).
  assert (kinv adj T sys) as Hk.
  { eapply (shortest_kept adj g Hin _ _ _ _ T Hsys); [|apply kinv_init|exact Hst|done|].
    - intros i st s Hi Hs. unfold system_init in Hi. cbn [sys_tasks] in Hi.
      rewrite list_lookup_fmap in Hi. destruct (jobs !! i); [|done]. by injection Hi as <-.
    - intros l' a' Hl' Ha''. destruct (decide (T ≤ l')) as [?|Hlt']; [done|]. exfalso.
      eapply (Hleast l' a'); [done|lia|done]. }
  destruct (kinv_finished adj T sys b Ef Hk HTb) as [[m q] Hr]; [lia|].
  destruct (sy_sound _ _ _ Hs' _ _ _ Hr) as (Hvq & Hlq & Hmq).
  pose proof (valid_length adj g Hin _ Hvq) as Hlen.
  destruct (finish_matches _ Hho _ _ _ _ m q Eo Hr) as (p & Hp & _).
  { lia. } { rewrite Hmq. apply (cost_lt_max adj g Hin). }
  intros ->. by apply elem_of_nil in Hp.
Qed.

Lemma threaded_default_nonempty :
  ∀ adj g nthreads exp bound bd w o,
  wf_input adj g → 2 ≤ nthreads → (∀ l, w_hash_order w l ≡ₚ l) → (∃ b, listed g b) →
  exp_function exp → exp_near_zero exp → length adj ≤ 1000 →
  search bd w adj g nthreads (Some (get_accept_func exp accept_func_default)) bound = Some o →
  ∃ p ps, o = Val (p :: ps).
Proof.
  intros adj g nthreads exp bound bd w o Hin Hnt Hho Hl H1 H2 Hn H.
  destruct (threaded_valid _ _ _ _ _ _ _ _ Hin Hnt Hho H) as [_ [(ps & -> & _)|[_ Hc]]].
  - assert (ps ≠ []) as Hne.
    { eapply (threaded_eager_nonempty adj g nthreads (get_accept_func exp accept_func_default));
        [done|done|exact Hho|done| |done|exact H].
      intros i. apply builtin_eager; [done|done|lia]. }
    destruct ps as [|p ps]; [done|]. by exists p, ps.
  - by exfalso; apply Hc.
Qed.
