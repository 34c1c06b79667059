(** * Final statements about the multi threaded search *)
From Verif Require Export MainSearch MainSweep ThreadedExact PoolFacts Executions.
From Verif Require Export Spec.

Lemma spawn_mono bd fuel fuel' bound s r :
  spawn bd fuel bound s = Some r → fuel ≤ fuel' → spawn bd fuel' bound s = Some r.
Proof. apply loop_mono. Qed.

(** ** What happens *)

Lemma submitted_core adj g bound :
  wf_input adj g →
  ∃ root cs rest,
    search_scheduler adj g = Val root ∧ node adj g [] root ∧ SchedulerFacts.fresh root ∧
    mset root = map fst (default [] (head g)) ∧
    (∀ bd, returns (λ fuel, spawn bd fuel bound root) (spawned cs rest)) ∧
    (∀ bd fuel o, spawn bd fuel bound root = Some o → o = Val (spawned cs rest)) ∧
    (∀ bd bd' fuel, spawn bd fuel bound root = spawn bd' fuel bound root) ∧
    Forall (λ c, node adj g [c.2] c.1 ∧ SchedulerFacts.fresh c.1) cs ∧ node adj g [] rest ∧
    (∀ σ, valid_schedule g σ → pending σ [] [root] →
       (∃ c, c ∈ cs ∧ (pending σ [c.2] [c.1] ∨ mset c.1 = [] ∧ same_schedule [c.2] σ)) ∨
       pending σ [] [rest]) ∧
    (∀ bd ps, visits_root (FI := scheduler_focus_iterator bd) [] root ps →
       ∃ pss qs, Forall2 (λ c ps, visits (FI := scheduler_focus_iterator bd) [c.2] c.1 ps) cs pss ∧
         visits_root (FI := scheduler_focus_iterator bd) [] rest qs ∧ ps = concat pss ++ qs) ∧
    length cs = (if (0 <? bound)%Z then min (Z.to_nat bound) (children root) else children root).
Proof.
  intros Hin.
  destruct (search_scheduler_spec adj g Hin (T := Partition nat)) as (t & E & Hm & Hinv).
  destruct (fresh_root adj g t _ Hm Hinv) as [Hn Hf].
  set (root := mkScheduler t (graph_new adj)) in *.
  destruct (spawn_loop adj g Hin (S (children root)) bound root [] 0%Z Hn ltac:(lia))
    as (cs & rest & H1 & H2 & H3 & H4 & H5 & H6).
  assert (∀ bd fuel o, spawn bd fuel bound root = Some o → o = Val (spawned cs rest)) as Hdet.
  { intros bd fuel o Ho. eapply loop_det; [exact Ho|apply H1]. }
  exists root, cs, rest. split; [unfold search_scheduler; by rewrite E|]. split; [done|]. split; [done|].
  split; [unfold mset, root; simpl; by rewrite Hm|]. split; [|split; [done|split]].
  - intros bd. exists (S (children root)). intros fuel Hfu. eapply loop_mono; [apply H1|done].
  - intros bd bd' fuel. (* the loops need the same fuel *)
    unfold spawn. apply (loop_ext _ (spawn_body bd' bound) (λ s, node adj g [] s.1.1)); [| |done].
    + intros [[sch jobs] k] Hs. simpl in Hs. unfold spawn_body.
      destruct (items_cases adj g Hin [] sch Hs) as [[_ E']|(a & b & l & c & _ & _ & _ & _ & E')];
        by rewrite !E'.
    + intros [[sch jobs] k] [[sch' jobs'] k'] Hs. simpl in *. unfold spawn_body.
      destruct (items_cases adj g Hin [] sch Hs) as [[_ E']|(a & b & l & c & Ei & Hb & _ & _ & E')];
        rewrite E'; cbn [obind]; [done|].
      destruct (_ =? _)%Z; [done|]. intros [= <- _ _]. by apply advance_node.
  - rewrite Z.sub_0_r in H6. tauto.
Qed.

Lemma threaded_core adj g nthreads prob bound bd w o :
  wf_input adj g → 2 ≤ nthreads → search bd w adj g nthreads prob bound = Some o →
  (∀ bd', search bd' w adj g nthreads prob bound = Some o) ∧
  (o = Panic ∧ ¬ calm_function prob ∨
  ∃ jobs sys,
    sys_inv adj g (system_init (length adj) jobs) ∧
    ssteps adj g (is_some prob) (system_init (length adj) jobs) (w_events w) sys ∧
    all_finished sys = true ∧ o = finish (w_hash_order w) (length adj) (sys_results sys) ∧
    ((∃ b, listed g b) → ∀ σ, valid_schedule g σ → gcov adj (system_init (length adj) jobs) σ)).
Proof.
  intros Hin Hnt. unfold search. destruct (Nat.ltb_spec nthreads 2) as [?|_]; [lia|].
  destruct (submitted_core adj g bound Hin)
    as (root & cs & rest & E & Hn & Hf & _ & _ & Hdet & Hbd & Hcs & Hrest & Hpend & _).
  rewrite E. unfold threaded_search.
  destruct (spawn bd (w_fuel w) bound root) as [o'|] eqn:Es; [|done].
  assert (o' = Val (spawned cs rest)) as -> by (by eapply Hdet).
  set (jobs := spawned cs rest) in *.
  assert (sys_inv adj g (system_init (length adj) jobs)) as Hsys.
  { apply (system_init_inv adj g). apply (spawned_ok adj g); done. }
  set (p := match prob with Some a => Some (a, w_samples w) | None => None end).
  assert (is_some p = is_some prob) as Ep by (by destruct prob).
  destruct (run_events bd nthreads p _ (w_events w)) as [o1|] eqn:Er; [|done].
  destruct (run_events_ssteps adj g Hin _ _ _ _ _ _ Hsys Er) as (Her & [(sys & -> & Hst)|[-> Hc]]).
  2:{ intros [= <-]. split.
      - intros bd'. rewrite (Hbd bd' bd), Es. cbv beta iota. by rewrite Her.
      - left. split; [done|]. intros Hcalm. apply Hc. subst p. by destruct prob. }
  rewrite Ep in Hst.
  destruct (all_finished sys) eqn:Ef; [|done]. intros [= <-].
  split.
  { intros bd'. rewrite (Hbd bd' bd), Es. cbv beta iota. rewrite Her. cbv beta iota. by rewrite Ef. }
  right. exists jobs, sys. split; [done|]. split; [done|]. split; [done|]. split; [done|].
  intros [b0 Hb0] σ Hσ.
  assert (pending σ [] [root]) as Hp.
  { destruct σ as [|B τ].
    { apply (vs_complete _ _ Hσ) in Hb0. simpl in Hb0. by apply elem_of_nil in Hb0. }
    assert (legal_prefix g ([] ++ [B])) as Hl.
    { apply (legal_prefix_app g _ τ). apply Hσ. }
    destruct (fresh_item adj g [] root B Hn Hf Hl) as (a & b & Hi & Hpm).
    apply (pend_here (B :: τ) _ _ _ a b τ); [done| |].
    - intros ->. apply Permutation_nil in Hpm. subst B. apply legal_snoc in Hl as (_ & ? & _). done.
    - simpl. constructor; [done|apply same_schedule_refl]. }
  destruct (Hpend σ Hσ Hp) as [(c & Hc & Hcov)|Hr].
  - apply elem_of_list_lookup in Hc as [i Hi]. exists i, (Waiting (mkJob c.1 (Some c.2))).
    split.
    + unfold system_init, jobs, spawned. cbn [sys_tasks]. rewrite map_app.
      rewrite lookup_app_l by (rewrite !map_length; by eapply lookup_lt_Some).
      rewrite !list_lookup_fmap, Hi. done.
    + simpl. destruct Hcov as [?|[? ?]]; [by left|right]. done.
  - exists (length cs), (Waiting (mkJob rest None)). split.
    + unfold system_init, jobs, spawned. cbn [sys_tasks]. rewrite map_app.
      rewrite lookup_app_r by (rewrite !map_length; lia). rewrite !map_length, Nat.sub_diag. done.
    + simpl. by left.
Qed.

(** ** Every returned path *)

Lemma threaded_valid :
  ∀ adj g nthreads prob bound bd w o,
  wf_input adj g → 2 ≤ nthreads → (∀ l, w_hash_order w l ≡ₚ l) →
  search bd w adj g nthreads prob bound = Some o →
  (∀ bd', search bd' w adj g nthreads prob bound = Some o) ∧
  ((∃ ps, o = Val ps ∧ Forall (path_ok adj g) ps ∧ tradeoff ps) ∨
   (* a call of the accept function panicked *)
   o = Panic ∧ ¬ calm_function prob).
Proof.
  intros adj g nthreads prob bound bd w o Hin Hnt Hho H.
  destruct (threaded_core _ _ _ _ _ _ _ _ Hin Hnt H) as (Hbd & [?|(jobs & sys & Hs & Hst & Hf & -> & _)]); [by split; [|right]|].
  pose proof (ssteps_inv adj g Hin _ _ _ _ Hs Hst) as Hs'.
  destruct (finish_spec (w_hash_order w) Hho (length adj) (sys_results sys)) as (ps & Eps & _ & _ & Hps).
  split; [done|]. left. exists ps. split; [done|]. split.
  - apply Forall_forall. intros p Hp. apply Hps in Hp as (_ & Hp & _).
    apply (sy_sound _ _ _ Hs') in Hp as (Hv & Ht & Hc). by split.
  - by eapply finish_tradeoff.
Qed.

(** No thread panics, also not in an execution that is still going on. *)
Lemma threaded_no_panic :
  ∀ adj g nthreads prob bound bd jobs es o,
  wf_input adj g → submitted bd adj g bound jobs → all_calm prob →
  run_events bd nthreads prob (system_init (length adj) jobs) es = Some o →
  ∃ sys, o = Val sys.
Proof.
  intros adj g nthreads prob bound bd jobs es o Hin (root & E & f0 & Hj) Hcalm H.
  destruct (submitted_core adj g bound Hin)
    as (root' & cs & rest & E' & Hn & Hf & _ & _ & Hdet & Hbd & Hcs & Hrest & _).
  assert (root' = root) as -> by congruence.
  specialize (Hj f0 (le_n _)). apply Hdet in Hj. injection Hj as ->.
  assert (sys_inv adj g (system_init (length adj) (spawned cs rest))) as Hsys.
  { apply (system_init_inv adj g). apply (spawned_ok adj g); done. }
  destruct (run_events_ssteps adj g Hin _ _ _ _ _ _ Hsys H) as (_ & [(sys & -> & _)|[_ ?]]); [by exists sys|done].
Qed.

(** ** Optimality without exchange *)

Lemma threaded_optimal :
  ∀ adj g nthreads bound bd w o,
  wf_input adj g → 2 ≤ nthreads → (∀ l, w_hash_order w l ≡ₚ l) → (∃ b, listed g b) →
  no_timeout (w_events w) →
  (* no task reaches an exchange *)
  (∀ i, iterations i (w_events w) ≤ 1000) →
  search bd w adj g nthreads None bound = Some o →
  ∃ ps, o = Val ps ∧ pareto_front adj g ps.
Proof.
  intros adj g nthreads bound bd w o Hin Hnt Hho Hl Hto Hit H.
  destruct (threaded_valid _ _ _ _ _ _ _ _ Hin Hnt Hho H) as [_ [(ps & -> & Hvalid & Htr)|[_ Hc]]]; [|by exfalso; apply Hc].
  destruct (threaded_core _ _ _ _ _ _ _ _ Hin Hnt H) as [_ [[_ Hc]|(jobs & sys & Hs & Hst & Hf & Eo & Hcov)]]; [by exfalso; apply Hc|].
  symmetry in Eo. simpl in Hst.
  exists ps. split; [done|]. split; [done|]. split; [done|]. intros σ Hσ.
  pose proof (ssteps_inv adj g Hin _ _ _ _ Hs Hst) as Hs'.
  pose proof (gcov_steps adj g Hin _ _ _ _ Hs Hσ Hto Hst (Hcov Hl σ Hσ)) as Hc.
  apply gcov_finished in Hc; [|done].
  pose proof (jinv_steps adj g Hin _ _ _ _ Hs (jinv_init adj (w_events w) jobs Hit) Hst) as [Hw _].
  pose proof (valid_length adj g Hin σ Hσ) as Hlen.
  destruct (lookup_lt_is_Some_2 (sys_best sys) (length σ)) as [a Ha].
  { rewrite (si_length _ _ _ (sy_shared _ _ _ Hs')). lia. }
  specialize (Hc a Ha). pose proof (cost_lt_max adj g Hin σ) as Hmax.
  destruct (Hw _ _ Ha) as (t & q & Ht & Hr); [lia|].
  destruct (finish_matches _ Hho _ _ _ t a q Eo Hr) as (p & Hp & Hp1 & Hp2); [lia|lia|].
  exists p. split; [done|]. split; [unfold time_cost; lia|]. unfold cost in Hc. lia.
Qed.

(** ** The optimal time *)

Lemma threaded_first :
  ∀ adj g nthreads bound bd w o,
  wf_input adj g → 2 ≤ nthreads → (∀ l, w_hash_order w l ≡ₚ l) → (∃ b, listed g b) →
  no_timeout (w_events w) →
  search bd w adj g nthreads None bound = Some o →
  ∃ p ps, o = Val (p :: ps) ∧ (∀ σ, valid_schedule g σ → time p ≤ time_cost σ) ∧
    ∀ bd' p0, returns (λ fuel, get_time_optimal bd' fuel adj g) [p0] → time p = time p0.
Proof.
  intros adj g nthreads bound bd w o Hin Hnt Hho Hl Hto H.
  destruct (threaded_valid _ _ _ _ _ _ _ _ Hin Hnt Hho H) as [_ [(ps & -> & Hvalid & Htr)|[_ Hc]]]; [|by exfalso; apply Hc].
  destruct (threaded_core _ _ _ _ _ _ _ _ Hin Hnt H) as [_ [[_ Hc]|(jobs & sys & Hs & Hst & Hf & Eo & Hcov)]]; [by exfalso; apply Hc|].
  symmetry in Eo. simpl in Hst.
  destruct (time_optimal_valid adj g Hin) as (p1 & Hr1 & (Hv1 & Ht1 & _) & Hmin & _).
  pose proof (ssteps_inv adj g Hin _ _ _ _ Hs Hst) as Hs'.
  pose proof (gcov_steps adj g Hin _ _ _ _ Hs Hv1 Hto Hst (Hcov Hl _ Hv1)) as Hc.
  apply gcov_finished in Hc; [|done].
  assert (∀ σ, valid_schedule g σ → length (steps p1) ≤ length σ) as HT.
  { intros σ Hσ. specialize (Hmin σ Hσ). unfold time_cost in Hmin. rewrite Ht1 in Hmin. exact Hmin. }
  pose proof (kinv_steps adj g Hin _ _ _ _ _ HT Hs (kinv_init adj (length (steps p1)) jobs) Hst) as Hk.
  pose proof (valid_length adj g Hin _ Hv1) as Hlen.
  destruct (lookup_lt_is_Some_2 (sys_best sys) (length (steps p1))) as [a Ha].
  { rewrite (si_length _ _ _ (sy_shared _ _ _ Hs')). lia. }
  specialize (Hc a Ha). pose proof (cost_lt_max adj g Hin (steps p1)) as Hmax.
  destruct (kinv_finished adj (length (steps p1)) sys a Hf Hk Ha) as [[m q] Hr]; [lia|].
  destruct (sy_sound _ _ _ Hs' _ _ _ Hr) as (Hvq & Hlq & Hmq).
  destruct (finish_matches _ Hho _ _ _ _ m q Eo Hr) as (p & Hp & Hp1 & Hp2).
  { lia. } { rewrite Hmq. apply (cost_lt_max adj g Hin). }
  destruct ps as [|p0 ps]; [by apply elem_of_nil in Hp|]. exists p0, ps. split; [done|].
  assert (time p0 ≤ length (steps p1)) as Hle.
  { apply elem_of_list_lookup in Hp as [[|i] Hi]; [by injection Hi as ->|].
    destruct (Htr 0 (S i) p0 p) as [? _]; [lia|done|done|]. lia. }
  split.
  - intros σ Hσ. specialize (HT σ Hσ). unfold time_cost. lia.
  - intros bd' p' Hp'. pose proof (finishes_det _ _ _ Hp' (Hr1 bd')) as [= ->].
    rewrite Ht1. unfold time_cost. inversion Hvalid as [|? ? (Hv0 & Ht0 & _) _]; subst.
    specialize (HT _ Hv0). unfold time_cost in Ht0. lia.
Qed.

(** ** The tasks *)

Lemma tasks_split :
  ∀ adj g bound, wf_input adj g →
  ∃ root jobs pss, search_scheduler adj g = Val root ∧
    (∀ bd, returns (λ fuel, spawn bd fuel bound root) jobs) ∧
    (* what the tasks sweep *)
    (∀ bd, Forall2 (λ j ps, returns (λ fuel, job_paths bd fuel j) ps) jobs pss) ∧
    (* together and in order this is what a single sweep visits *)
    (∀ bd, returns (λ fuel, get_all_paths (H := scheduler_focus_iterator bd) fuel [] root) (concat pss)) ∧
    (* every schedule in exactly one place *)
    (∀ q m, (q, m) ∈ concat pss → valid_schedule g q ∧ m = cost adj q) ∧
    ((∃ b, listed g b) → ∀ σ, valid_schedule g σ →
       ∃ i q m, concat pss !! i = Some (q, m) ∧ same_schedule q σ ∧
         ∀ j q' m', concat pss !! j = Some (q', m') → same_schedule q' σ → j = i).
Proof.
  intros adj g bound Hin.
  destruct (submitted_core adj g bound Hin)
    as (root & cs & rest & E & Hn & Hf & _ & Hret & Hdet & Hbd & Hcs & Hrest & _ & Hvis & _).
  destruct (scheduler_sweep adj g (dependency_buffer_new (length adj)) Hin)
    as (t & ps & Et & Hv & Hval & Honce & _).
  { unfold dependency_buffer_new. by rewrite replicate_length. }
  assert (root = mkScheduler t (graph_new adj)) as ->.
  { unfold search_scheduler in E. rewrite Et in E. by injection E as <-. }
  destruct (Hvis Debug ps (Hv Debug)) as (pss & qs & Hpss & Hqs & Eps).
  exists (mkScheduler t (graph_new adj)), (spawned cs rest), (pss ++ [qs]).
  assert (concat (pss ++ [qs]) = ps) as ->.
  { rewrite concat_app. simpl. by rewrite app_nil_r. }
  split; [done|]. split; [done|]. split; [|split; [|split; [done|]]].
  - intros bd. destruct (Hvis bd ps (Hv bd)) as (pss' & qs' & Hpss' & Hqs' & Eps').
    assert (∀ p c l l', node adj g p c → visits (FI := scheduler_focus_iterator Debug) p c l →
      visits (FI := scheduler_focus_iterator bd) p c l' → l = l') as Hsame.
    { intros p c l l' Hc H1. revert l' Hc.
      induction H1 as [p c c' E1|p c c' d i l1 l2 E1 _ IH1 _ IH2]; intros l' Hc H2.
      - simpl in E1. destruct (items_cases adj g Hin p c Hc) as [[_ E2]|(a & b & l & ch & _ & _ & _ & _ & E2)];
          pose proof (E2 Debug) as E3; rewrite E1 in E3; [|done].
        inversion H2 as [? c2 E4|? c2 d2 i2 ? ? E4]; subst; simpl in E4; rewrite E2 in E4; [|done].
        by simplify_eq.
      - simpl in E1. destruct (items_cases adj g Hin p c Hc) as [[_ E2]|(a & b & l & ch & Ei & Hb & Hch & _ & E2)];
          pose proof (E2 Debug) as E3; rewrite E1 in E3; [done|].
        inversion H2 as [? c2 E4|? c2 d2 i2 l3 l4 E4 Hl3 Hl4]; subst; simpl in E4; rewrite E2 in E4; [done|].
        simplify_eq. f_equal; [by apply IH1|]. apply IH2; [by apply advance_node|done]. }
    assert (pss' = pss) as ->.
    { clear -Hpss Hpss' Hcs Hsame. revert pss' Hpss'. induction Hpss as [|c l cs pss H1 _ IH]; intros pss' Hpss'.
      - by inversion Hpss'.
      - inversion Hpss' as [|? l' ? pss1 H2 H3]; subst. inversion Hcs as [|? ? [Hc _] Hcs']; subst.
        f_equal; [|by apply IH]. symmetry. by apply (Hsame [c.2] c.1). }
    assert (qs' = qs) as -> by (rewrite Eps in Eps'; by apply app_inv_head in Eps').
    unfold spawned. apply Forall2_app.
    + clear -Hin Hpss' Hcs. induction Hpss' as [|c l cs pss H1 _ IH]; [constructor|].
      inversion Hcs as [|? ? [Hc Hfc] Hcs']; subst. constructor; [|by apply IH].
      unfold job_paths. cbn [job_measure job_scheduler].
      destruct (scheduler_at_leaf c.1) as [m|] eqn:El.
      * assert (mset c.1 = []) as Hm.
        { unfold scheduler_at_leaf in El. unfold mset. by destruct (pset _). }
        assert (l = [([c.2], m)]) as ->; [|exists 0; done].
        inversion H1 as [? t' E1|? t' d i l1 l2 E1 _ _]; subst; simpl in E1.
        -- apply scheduler_next_measure in E1 as (_ & _ & E1). simpl. by rewrite E1, El.
        -- exfalso. unfold SchedulerFacts.fresh in Hfc. rewrite Hm in Hfc.
           destruct (items_cases adj g Hin _ _ Hc) as [[_ E2]|(a & b & l & ch & Ei & Hb & _)].
           ++ by rewrite E2 in E1.
           ++ rewrite Hfc in Ei. by injection Ei as _ <- _.
      * assert (mset c.1 ≠ []) as Hm.
        { unfold scheduler_at_leaf in El. unfold mset. by destruct (pset _). }
        apply collect_returns. by apply visits_split.
    + constructor; [|constructor]. unfold job_paths. cbn [job_measure job_scheduler].
      by apply collect_returns.
  - intros bd. apply collect_returns, Hv.
  - intros Hl%qubits_listed σ Hσ. apply times_one. by apply Honce.
Qed.

Lemma tasks_count :
  ∀ adj g bound bd jobs, wf_input adj g → submitted bd adj g bound jobs →
  (* every nonempty subset of the first layer is a possible first step *)
  let first_steps := 2 ^ length (default [] (head g)) - 1 in
  length jobs = S (if (0 <? bound)%Z then min (Z.to_nat bound) first_steps else first_steps).
Proof.
  intros adj g bound bd jobs Hin (root & E & f0 & Hj).
  destruct (submitted_core adj g bound Hin)
    as (root' & cs & rest & E' & Hn & Hf & Hm & _ & Hdet & _ & _ & _ & _ & _ & Hlen).
  assert (root' = root) as -> by congruence.
  specialize (Hj f0 (le_n _)). apply Hdet in Hj. injection Hj as ->.
  unfold spawned. rewrite app_length, map_length, Hlen. simpl.
  rewrite (children_fresh root Hf), Hm, map_length. lia.
Qed.

(** ** Termination, progress, timeouts *)

Lemma spawn_finishes :
  ∀ bd bound s, ∃ o, finishes (λ fuel, spawn bd fuel bound s) o.
Proof.
  intros bd bound s. destruct (spawn_terminates bd bound (s, [], 0%Z) (S (nitems s))) as [o Ho]; [simpl; lia|].
  exists o. eapply finishes_of; [|exact Ho]. intros. by eapply spawn_mono.
Qed.

Lemma pool_terminates :
  ∀ bd nthreads prob sys, ∃ k, ∀ es sys',
  run_events bd nthreads prob sys es = Some (Val sys') → length es ≤ k.
Proof.
  intros bd nthreads prob sys. exists (sys_bound sys). intros es sys' H%run_events_bound. lia.
Qed.

Lemma pool_progress :
  ∀ bd nthreads prob sys, 1 ≤ nthreads → all_finished sys = false →
  ∃ i, ∀ fin, is_Some (exec bd nthreads prob sys (EStart i)) ∨
    is_Some (exec bd nthreads prob sys (EIter i fin)) ∨
    is_Some (exec bd nthreads prob sys (EEnd i)).
Proof.
  intros bd nthreads prob sys Hn Hf. destruct (first_unfinished _ Hf) as (i & st & Hi & Hst & Hu). exists i.
  intros fin. simpl. rewrite Hi. destruct st as [j|t|t|]; [left|right; left|right; right|done].
  - rewrite Hu. destruct (Nat.ltb_spec 0 nthreads); [by eexists|lia].
  - by eexists.
  - by eexists.
Qed.

Lemma threaded_completes :
  ∀ adj g nthreads prob bound bd w, 2 ≤ nthreads →
  ∀ jobs sys, submitted bd adj g bound jobs →
  run_events bd nthreads (match prob with Some a => Some (a, w_samples w) | None => None end)
    (system_init (length adj) jobs) (w_events w) = Some (Val sys) →
  ∃ fuel es o, no_timeout es ∧
    search bd (mkWorld fuel (w_timer w) (w_events w ++ es) (w_hash_order w) (w_samples w))
      adj g nthreads prob bound = Some o.
Proof.
  intros adj g nthreads prob bound bd w Hnt jobs sys (root & E & f0 & Hj) Hrun.
  destruct (completion bd nthreads (match prob with Some a => Some (a, w_samples w) | None => None end)
    sys false ltac:(lia)) as (es & Hes & Hc).
  exists f0, es. unfold search. destruct (Nat.ltb_spec nthreads 2) as [?|_]; [lia|]. rewrite E.
  unfold threaded_search. cbn [w_fuel w_events w_hash_order w_samples].
  rewrite (Hj f0 (le_n _)). rewrite (run_events_app _ _ _ _ _ _ _ Hrun).
  destruct Hc as [->|(sys' & -> & ->)]; by eexists.
Qed.

Lemma threaded_late :
  ∀ bd nthreads prob n jobs es es' sys i,
  run_events bd nthreads prob (system_init n jobs) (es ++ es') = Some (Val sys) →
  timed_out es' → iterations i es' ≤ 1001.
Proof.
  intros bd nthreads prob n jobs es es' sys i H Hto.
  destruct (run_events_split _ _ _ _ _ _ _ H) as (sys1 & H1 & H2).
  pose proof (run_events_counter _ _ _ _ _ _ H1 (counter_init n jobs)) as Hok.
  pose proof (late_iterations _ _ _ _ _ _ i H2 Hto Hok) as Hl.
  unfold late_bound in Hl. destruct (sys_tasks sys1 !! i) as [[j|t|t|]|]; lia.
Qed.

(** ** Inputs without nodes *)

(** A scheduler that cannot measure anything. *)
Definition stuck (s : Scheduler (Partition nat)) : Prop :=
  pset (measurable (s_time s)) = [] ∧
  (piter (measurable (s_time s)) = [] ∨ piter (measurable (s_time s)) = [[]]).

Lemma stuck_next bd s : stuck s → ∃ s', scheduler_next_and_focus bd s = Val (s', None) ∧ stuck s'.
Proof.
  destruct s as [[[set it] dc look] gr]. unfold stuck, scheduler_next_and_focus, time_next_and_focus. simpl.
  intros [-> [->| ->]]; simpl; (eexists; split; [reflexivity|]); simpl; tauto.
Qed.

Lemma stuck_iteration bd s :
  stuck (current (ss_scheduler s)) → stack (ss_scheduler s) = [] →
  (∃ s', search_iteration bd s = Val (inr s') ∧ ss_results s' = ss_results s) ∧
  (∀ acc smp d, ∃ s', probabilistic_iteration bd acc smp (d, s) = Val (inr s') ∧
     ss_results s' = ss_results s).
Proof.
  intros Hs Hst. destruct (stuck_next bd _ Hs) as (c & Ec & _).
  unfold search_iteration, probabilistic_iteration, sweep_next.
  cbn [next_and_focus scheduler_focus_iterator]. rewrite Ec, Hst. cbn [obind]. split; [|intros acc smp d]; by eexists.
Qed.

Lemma no_nodes_wf (g : order) n : (∀ b, ¬ listed g b) → wf_order n g.
Proof.
  intros Hno. assert (qubits g = []) as Hq.
  { destruct (qubits g) as [|b l] eqn:E; [done|]. destruct (Hno b). apply listed_qubits. rewrite E. left. }
  assert (∀ layer b ds, layer ∈ g → (b, ds) ∈ layer → False) as Hno'.
  { intros layer b ds Hl Hb. apply (Hno b). by exists layer, ds. }
  split.
  - intros b Hb. rewrite Hq in Hb. by apply elem_of_nil in Hb.
  - rewrite Hq. constructor.
  - intros b ds Hb. exfalso. destruct g as [|layer g]; [by apply elem_of_nil in Hb|].
    apply (Hno' layer b ds); [left|done].
  - intros k layer b ds Hl Hb. exfalso. apply (Hno' layer b ds); [|done]. by eapply elem_of_list_lookup_2.
Qed.

Lemma no_nodes_scheduler `{LawfulMeasurableSet T} (adj : spacial) (g : order) :
  (∀ b, ¬ listed g b) →
  ∃ dc look, from_dependency_graph (T := T) g (dependency_buffer_new (length adj)) None
    = Val (mkPathGenerator (ms_init []) dc look).
Proof.
  intros Hno.
  destruct (from_dependency_graph_spec (T := T) (length adj) g (dependency_buffer_new (length adj)))
    as (m & dc & look & E & -> & _).
  { by apply no_nodes_wf. } { unfold dependency_buffer_new. by rewrite replicate_length. }
  exists dc, look. rewrite E. do 3 f_equal. destruct g as [|[|[b ds] layer] g]; [done|done|].
  destruct (Hno b). exists ((b, ds) :: layer), ds. split; left.
Qed.

Lemma finish_empty ho n : (∀ l, ho l ≡ₚ l) → finish ho n ∅ = Val [].
Proof.
  intros Hho. destruct (finish_spec ho Hho n ∅) as (ps & -> & _ & _ & Hps).
  destruct ps as [|p ps]; [done|]. assert (p ∈ p :: ps) as Hp by left.
  apply Hps in Hp as (_ & Hp & _). by rewrite lookup_empty in Hp.
Qed.

(** The only task of a search without nodes. *)
Definition idle (sys : System) : Prop :=
  sys_results sys = ∅ ∧ ∃ st, sys_tasks sys = [st] ∧
  match st with
  | Waiting j => stuck (job_scheduler j) ∧ job_measure j = None
  | Running t => stuck (current (ss_scheduler (t_search t))) ∧ stack (ss_scheduler (t_search t)) = [] ∧
                 ss_results (t_search t) = ∅ ∧ t_initialized t = false
  | Ending t => ss_results (t_search t) = ∅ ∧ t_initialized t = false
  | Finished => True
  end.

Lemma idle_exec bd nthreads prob sys e o :
  idle sys → exec bd nthreads prob sys e = Some o → ∃ sys', o = Val sys' ∧ idle sys'.
Proof.
  destruct sys as [tasks shared res]. intros (Hr & st & Et & Hst). simpl in Hr, Et. subst.
  destruct e as [[|i]|[|i] fin|[|i]]; try done; simpl; destruct st as [j|t|t|]; try done.
  - destruct (_ <? _); [|done]. intros [= <-]. eexists. split; [done|]. split; [done|].
    eexists. split; [done|]. destruct Hst as [H1 H2]. simpl. by rewrite H2.
  - destruct Hst as (H1 & H2 & H3 & H4). unfold task_iteration.
    destruct (stuck_iteration bd (t_search t) H1 H2) as [(s1 & E1 & Es1) Hp].
    destruct prob as [[acc smp]|].
    + destruct (Hp (acc 0) (smp 0) (t_drawn t)) as (s2 & E2 & Es2). rewrite E2. cbn [obind].
      intros [= <-]. eexists. split; [done|]. split; [done|]. eexists. split; [done|].
      simpl. split; [congruence|done].
    + rewrite E1. cbn [obind].
      intros [= <-]. eexists. split; [done|]. split; [done|]. eexists. split; [done|].
      simpl. split; [congruence|done].
  - destruct Hst as [H1 H2]. unfold task_end. rewrite H2, andb_false_r. cbn [obind]. rewrite H1.
    intros [= <-]. eexists. split; [done|]. split; [done|]. by eexists.
Qed.

Lemma idle_events bd nthreads prob sys es o :
  idle sys → run_events bd nthreads prob sys es = Some o → ∃ sys', o = Val sys' ∧ idle sys'.
Proof.
  revert sys. induction es as [|e es IH]; intros sys Hi; simpl.
  - intros [= <-]. by exists sys.
  - destruct (exec _ _ _ _ _) as [o1|] eqn:E; [|done].
    destruct (idle_exec _ _ _ _ _ _ Hi E) as (sys1 & -> & Hi1). by apply IH.
Qed.

Lemma no_nodes_any :
  ∀ adj g bd, (∀ b, ¬ listed g b) →
  returns (λ fuel, get_time_optimal bd fuel adj g) [MkPath 0 0 []] ∧
  (∀ timer ho prob, (∀ l, ho l ≡ₚ l) → returns (λ fuel, search_single bd fuel timer ho adj g prob) []) ∧
  (∀ nthreads prob bound w o, (∀ l, w_hash_order w l ≡ₚ l) →
     search bd w adj g nthreads prob bound = Some o → o = Val []).
Proof.
  intros adj g bd Hno.
  destruct (no_nodes_scheduler (T := Partition nat) adj g Hno) as (dc & look & E).
  set (root := mkScheduler (mkPathGenerator (ms_init []) dc look) (graph_new adj) : Scheduler (Partition nat)).
  assert (search_scheduler adj g = Val root) as Er by (unfold search_scheduler; by rewrite E).
  assert (stuck root) as Hroot by (split; [done|by right]).
  assert (∀ timer ho prob, (∀ l, ho l ≡ₚ l) → ∀ fuel, 1 ≤ fuel →
    search_single bd fuel timer ho adj g prob = Some (Val [])) as Hsingle.
  { intros timer ho prob Hho fuel Hf. destruct fuel as [|fuel]; [lia|].
    unfold search_single. rewrite Er.
    destruct (stuck_iteration bd (search_init (sweep_new root) (length adj)) Hroot eq_refl) as [(s1 & E1 & Es1) Hp].
    destruct prob as [[acc smp]|].
    - destruct (Hp acc smp (0, 0)) as (s2 & E2 & Es2).
      unfold do_probabilistic_search. cbn [loop]. unfold do_probabilistic_search_body. cbn [fst snd].
      rewrite E2. cbn [obind]. rewrite Es2. f_equal. by apply finish_empty.
    - unfold do_search. cbn [loop]. unfold do_search_body. cbn [fst snd].
      rewrite E1. cbn [obind]. rewrite Es1. f_equal. by apply finish_empty. }
  split; [|split].
  - destruct (no_nodes_scheduler (T := list nat) adj g Hno) as (dc' & look' & E').
    exists 1. intros [|fuel] Hf; [lia|]. unfold get_time_optimal. rewrite E'. done.
  - intros timer ho prob Hho. exists 1. by apply Hsingle.
  - intros nthreads prob bound w o Hho. unfold search. destruct (nthreads <? 2).
    { destruct (w_fuel w) as [|fuel] eqn:Ef.
      - unfold search_single. rewrite Er. by destruct prob as [|].
      - rewrite Hsingle; [congruence|done|lia]. }
    rewrite Er. unfold threaded_search, spawn. destruct (w_fuel w) as [|fuel]; [done|].
    cbn [loop]. unfold spawn_body at 1. destruct (stuck_next bd _ Hroot) as (s' & -> & Hs'). cbn [obind].
    match goal with |- context [run_events ?a ?b ?c ?d ?e] =>
      destruct (run_events a b c d e) as [o1|] eqn:Ee; [|done] end.
    eapply idle_events in Ee as (sys & -> & Hi & _).
    + destruct (all_finished sys); [|done]. intros [= <-]. rewrite Hi. by apply finish_empty.
    + split; [done|]. by eexists.
Qed.
