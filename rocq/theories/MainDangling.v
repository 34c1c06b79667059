(** * Neighbours that are not nodes *)
From Verif Require Export DanglingSearch MainInterface.

Section main.
  Context (adj : spacial) (g : order).
  Notation n := (length adj).
  Notation fines := (Forall (λ b, ¬ dangling adj b)).
  Notation H := (∀ b, listed g b → ¬ dangling adj b).

  Lemma without_length : length (without_dangling adj) = n.
  Proof. apply map_length. Qed.

  Lemma graph_new_step : in_step adj (graph_new adj) (graph_new (without_dangling adj)).
  Proof.
    split.
    - unfold graph_new. cbn [nodes]. rewrite map_map. cbn [snd]. apply map_id.
    - intros b ns. unfold graph_new. cbn [nodes]. rewrite list_lookup_fmap. by destruct (adj !! b).
    - unfold prune, graph_new, without_dangling. cbn [nodes current_memory max_memory]. by rewrite !map_map.
  Qed.

  Lemma from_dependency_graph_listed `{LawfulMeasurableSet T} t :
    from_dependency_graph (T := T) g (dependency_buffer_new n) None = Val t → alike (listed g) t t.
  Proof.
    rewrite from_dependency_graph_eq. destruct (decide _) as [Hf|]; [|done]. intros [= <-].
    assert (∀ x, x ∈ qubits g → listed g x) as HQ by (intros x; apply listed_qubits).
    split; cbn [measurable deps_counter dependents]; try done.
    - rewrite ms_set_init. apply Forall_forall. intros x Hx. apply HQ. destruct g as [|first rest]; simpl in *.
      + by apply elem_of_nil in Hx.
      + unfold qubits. simpl. rewrite map_app, elem_of_app. by left.
    - intros b D _ HD. eapply fill_sub; [exact HQ| |exact HD].
      intros D'. unfold dependency_buffer_new. rewrite lookup_replicate. by intros [-> _].
  Qed.

  Definition same_paths (P : Prop) (ps qs : list path) : Prop :=
    ps = qs ∧ (P → ∀ p, p ∈ ps → fines (concat (steps p))).

  Lemma get_time_optimal_step bd fuel :
    locks H (same_paths True) (get_time_optimal bd fuel adj g) (get_time_optimal bd fuel (without_dangling adj) g).
  Proof.
    unfold get_time_optimal. rewrite without_length.
    destruct (from_dependency_graph g (dependency_buffer_new n) None) as [t|] eqn:Et; [|by intros _].
    apply from_dependency_graph_listed in Et.
    pose proof (lock_loop H (same_greedy adj (listed g)) (same_answer adj) (time_optimal_body bd)
      (time_optimal_body bd) fuel (mkScheduler t (graph_new adj), [], 0%N)
      (mkScheduler t (graph_new (without_dangling adj)), [], 0%N)
      (time_optimal_body_step adj (listed g) bd)) as Hl.
    match type of Hl with ?A → _ => assert A as HA end.
    { split; [split; [done|split; [done|apply graph_new_step]]|]. split; [done|]. split; [done|]. constructor. }
    specialize (Hl HA).
    destruct (loop _ _ _) as [[[p m]|]|]; simpl in Hl.
    - destruct Hl as (b & -> & <- & Hp). eexists. split; [reflexivity|]. split; [done|].
      intros _ q. rewrite elem_of_list_singleton. intros ->. done.
    - intros HH. by rewrite (Hl HH).
    - by rewrite Hl.
  Qed.

  Lemma finish_step ho res :
    fine_results adj res →
    locks H (same_paths (∀ l, ho l ≡ₚ l)) (Some (finish ho n res)) (Some (finish ho n res)).
  Proof.
    intros Hr. destruct (finish ho n res) as [ps|] eqn:E; [|done]. eexists. split; [reflexivity|].
    split; [done|]. intros Hho p Hp.
    destruct (finish_spec ho Hho n res) as (ps' & E' & _ & _ & Hin).
    assert (ps' = ps) as -> by congruence. apply Hin in Hp as (_ & Hl & _). by eapply Hr.
  Qed.

  Lemma search_scheduler_step :
    lock False (same_scheduler adj (listed g)) (search_scheduler adj g) (search_scheduler (without_dangling adj) g) ∧
    (search_scheduler adj g = Panic → search_scheduler (without_dangling adj) g = Panic).
  Proof.
    unfold search_scheduler. rewrite without_length.
    destruct (from_dependency_graph g (dependency_buffer_new n) None) as [t|] eqn:Et; cbn [obind]; [|by split].
    apply from_dependency_graph_listed in Et. split; [|done]. apply lock_val.
    split; [done|]. split; [done|]. apply graph_new_step.
  Qed.

  Lemma same_start s s' :
    same_scheduler adj (listed g) s s' →
    same_state adj (listed g) (search_init (sweep_new s) n) (search_init (sweep_new s') n).
  Proof.
    intros Hs. split; try done; cbn [ss_scheduler ss_path ss_results search_init].
    - by split; [|constructor].
    - constructor.
  Qed.

  Lemma single_step bd fuel timer ho prob :
    locks H (same_paths (∀ l, ho l ≡ₚ l)) (search_single bd fuel timer ho adj g prob)
      (search_single bd fuel timer ho (without_dangling adj) g prob).
  Proof.
    unfold search_single. rewrite without_length. destruct search_scheduler_step as [H1 H2].
    destruct (search_scheduler adj g) as [s|]; [|by rewrite (H2 eq_refl)].
    destruct H1 as (s' & -> & Hs). apply same_start in Hs.
    set (r := match prob with Some (a, b) => do_probabilistic_search bd fuel timer (sweep_new s) n a b
      | None => do_search bd fuel timer (sweep_new s) n end).
    set (r' := match prob with Some (a, b) => do_probabilistic_search bd fuel timer (sweep_new s') n a b
      | None => do_search bd fuel timer (sweep_new s') n end).
    assert (locks H (same_found adj) r r') as Hr.
    { unfold r, r'. destruct prob as [[acc smp]|].
      - apply (do_probabilistic_search_step adj (listed g)); [done|]. by split.
      - by apply (do_search_step adj (listed g)). }
    destruct r as [[[res best]|]|]; simpl in Hr.
    - destruct Hr as (b & -> & <- & Hf). by apply finish_step.
    - intros HH. by rewrite (Hr HH).
    - by rewrite Hr.
  Qed.

  Lemma search_step bd w nthreads prob bound :
    locks H (same_paths (∀ l, w_hash_order w l ≡ₚ l)) (search bd w adj g nthreads prob bound)
      (search bd w (without_dangling adj) g nthreads prob bound).
  Proof.
    unfold search. destruct (nthreads <? 2); [apply single_step|].
    rewrite without_length. destruct search_scheduler_step as [H1 H2].
    destruct (search_scheduler adj g) as [s|]; [|by rewrite (H2 eq_refl)].
    destruct H1 as (s' & -> & Hs). unfold threaded_search, spawn.
    pose proof (spawn_step adj (listed g) bd bound (w_fuel w) s s' [] [] 0%Z Hs ltac:(constructor)) as Hj.
    destruct (loop (spawn_body bd bound) (w_fuel w) (s, [], 0%Z)) as [[jobs|]|]; simpl in Hj.
    - destruct Hj as (jobs' & -> & Hj).
      assert (same_system adj (listed g) (system_init n jobs) (system_init n jobs')) as Hsys.
      { split; try done. cbn [sys_tasks system_init]. apply Forall2_fmap. exact Hj. }
      set (pr := match prob with Some _ => _ | None => _ end).
      pose proof (run_events_step adj (listed g) bd nthreads pr _ _ (w_events w) Hsys) as He.
      destruct (run_events bd nthreads pr (system_init n jobs) (w_events w)) as [[sys|]|]; simpl in He.
      + destruct He as (sys' & -> & Hs'). rewrite (all_finished_step _ _ _ _ Hs').
        destruct (all_finished sys); [|done]. destruct Hs' as [S1 S2 S3 S4]. rewrite S3. by apply finish_step.
      + intros HH. by rewrite (He HH).
      + by rewrite He.
    - intros HH. by rewrite (Hj HH).
    - by rewrite Hj.
  Qed.

  Lemma run_step bd fuel env do_search timeout nthreads bound prob :
    locks H (same_paths (∀ l, e_hash_order env l ≡ₚ l))
      (run bd fuel env adj g do_search timeout nthreads bound prob)
      (run bd fuel env (without_dangling adj) g do_search timeout nthreads bound prob).
  Proof.
    unfold run. destruct do_search; simpl.
    - apply (search_step bd (world_of fuel env timeout nthreads _)).
    - pose proof (get_time_optimal_step bd fuel) as HG.
      destruct (get_time_optimal bd fuel adj g) as [[ps|]|]; simpl in *; [|done..].
      destruct HG as (b & -> & <- & Hf). exists ps. split; [done|]. split; [done|]. auto.
  Qed.
End main.

(** ** Statements *)

Lemma dangling_never :
  ∀ bd adj g fuel env do_search timeout nthreads bound prob ps p b,
  (∀ l, e_hash_order env l ≡ₚ l) →
  run bd fuel env adj g do_search timeout nthreads bound prob = Some (Val ps) →
  p ∈ ps → b ∈ concat (steps p) → ¬ dangling adj b.
Proof.
  intros bd adj g fuel env do_search timeout nthreads bound prob ps p b Hho E Hp Hb.
  pose proof (run_step adj g bd fuel env do_search timeout nthreads bound prob) as Hr. rewrite E in Hr.
  destruct Hr as (ps' & _ & _ & Hf). specialize (Hf Hho p Hp). rewrite Forall_forall in Hf. auto.
Qed.

Lemma dangling_value :
  ∀ bd adj g fuel env do_search timeout nthreads bound prob ps,
  run bd fuel env adj g do_search timeout nthreads bound prob = Some (Val ps) →
  run bd fuel env (without_dangling adj) g do_search timeout nthreads bound prob = Some (Val ps).
Proof.
  intros bd adj g fuel env do_search timeout nthreads bound prob ps E.
  pose proof (run_step adj g bd fuel env do_search timeout nthreads bound prob) as Hr. rewrite E in Hr.
  by destruct Hr as (ps' & E' & <- & _).
Qed.

Lemma dangling_unlisted :
  ∀ bd adj g fuel env do_search timeout nthreads bound prob,
  (∀ b, listed g b → ¬ dangling adj b) →
  run bd fuel env adj g do_search timeout nthreads bound prob =
  run bd fuel env (without_dangling adj) g do_search timeout nthreads bound prob.
Proof.
  intros bd adj g fuel env do_search timeout nthreads bound prob HH.
  pose proof (run_step adj g bd fuel env do_search timeout nthreads bound prob) as Hr.
  destruct (run bd fuel env adj g do_search timeout nthreads bound prob) as [[ps|]|]; simpl in Hr.
  - by destruct Hr as (ps' & -> & <- & _).
  - by rewrite (Hr HH).
  - done.
Qed.

Lemma without_wf adj g :
  wf_order (length adj) g → (N.of_nat (length adj) < 2 ^ 64 - 1)%N → wf_input (without_dangling adj) g.
Proof.
  intros Hg Hn. split; [|by rewrite without_length]. split; [|by rewrite without_length].
  intros ns v Hns Hv. rewrite without_length. unfold without_dangling in Hns.
  apply elem_of_list_fmap in Hns as (ns' & -> & _). by apply elem_of_list_filter in Hv as [? _].
Qed.

(** A path of a well-formed dependency graph measures every qubit, in particular
    the one with the missing neighbour. *)
Lemma dangling_nothing :
  ∀ bd adj g fuel env do_search timeout nthreads bound prob ps b,
  wf_order (length adj) g → (N.of_nat (length adj) < 2 ^ 64 - 1)%N → (∀ l, e_hash_order env l ≡ₚ l) →
  listed g b → dangling adj b →
  run bd fuel env adj g do_search timeout nthreads bound prob = Some (Val ps) → ps = [].
Proof.
  intros bd adj g fuel env do_search timeout nthreads bound prob ps b Hg Hn Hho Hb Hd E.
  destruct ps as [|p ps]; [done|]. exfalso.
  pose proof (dangling_value _ _ _ _ _ _ _ _ _ _ _ E) as E'.
  destruct (run_valid (without_dangling adj) g env do_search timeout nthreads bound prob bd fuel _
    (without_wf _ _ Hg Hn) Hho E') as [(ps' & [= <-] & Hok & _)|[Hp _]]; [|done].
  apply Forall_cons in Hok as [[[_ Hc] _] _].
  eapply (dangling_never _ _ _ _ _ _ _ _ _ _ _ p b Hho E); [by left| |done]. by apply Hc.
Qed.

Lemma dangling_time_optimal :
  ∀ bd adj g env timeout nthreads bound prob b,
  wf_order (length adj) g → (N.of_nat (length adj) < 2 ^ 64 - 1)%N → listed g b → dangling adj b →
  finishes (λ fuel, run bd fuel env adj g false timeout nthreads bound prob) Panic.
Proof.
  intros bd adj g env timeout nthreads bound prob b Hg Hn Hb Hd. unfold run. simpl.
  destruct (time_optimal_finishes bd adj g) as [[ps|] Hf]; [|exact Hf]. exfalso.
  destruct Hf as [fuel Hf]. specialize (Hf fuel ltac:(lia)). cbn beta in Hf.
  pose (env' := mkEnv (e_clock env) (e_events env) (λ l, l) (e_generators env) (e_exp env)).
  assert (ps = []) as ->.
  { eapply (dangling_nothing bd adj g fuel env' false timeout nthreads bound prob ps b); try done. }
  revert Hf. unfold get_time_optimal. destruct (from_dependency_graph _ _ _) as [t|]; [|done].
  by destruct (loop _ _ _) as [[[q m]|]|].
Qed.

Lemma dangling_search :
  ∀ bd adj g env timeout nthreads bound b,
  wf_order (length adj) g → (N.of_nat (length adj) < 2 ^ 64 - 1)%N → (∀ l, e_hash_order env l ≡ₚ l) →
  listed g b → dangling adj b → nthreads ≤ 1 → within timeout (e_clock env) →
  finishes (λ fuel, run bd fuel env adj g true timeout nthreads bound None) Panic.
Proof.
  intros bd adj g env timeout nthreads bound b Hg Hn Hho Hb Hd Ht Hw.
  destruct (run_optimal (without_dangling adj) g env timeout nthreads bound (without_wf _ _ Hg Hn) Hho
    (ex_intro _ b Hb) Ht Hw) as (ps & Hp & Hr).
  specialize (Hr bd).
  assert (∃ o, finishes (λ fuel, run bd fuel env adj g true timeout nthreads bound None) o) as [[qs|] Ho].
  { unfold run. simpl. unfold search. rewrite (proj2 (Nat.ltb_lt nthreads 2)) by lia.
    cbn [w_fuel w_timer w_hash_order world_of]. apply search_finishes. }
  2: exact Ho.
  exfalso. destruct Ho as [f1 Ho], Hr as [f2 Hr].
  specialize (Ho (f1 + f2) ltac:(lia)). specialize (Hr (f1 + f2) ltac:(lia)). cbn beta in Ho, Hr.
  pose proof (dangling_nothing _ _ _ _ _ _ _ _ _ _ _ b Hg Hn Hho Hb Hd Ho) as ->.
  apply dangling_value in Ho. rewrite Hr in Ho. injection Ho as ->.
  destruct Hp as (_ & _ & Hc).
  destruct (time_optimal_valid (without_dangling adj) g (without_wf _ _ Hg Hn)) as (p & _ & [Hv _] & _).
  destruct (Hc _ Hv) as (q & Hq & _). by apply elem_of_nil in Hq.
Qed.

Lemma dangling_threaded :
  ∀ bd adj g env timeout nthreads bound fuel o b,
  wf_order (length adj) g → (N.of_nat (length adj) < 2 ^ 64 - 1)%N → (∀ l, e_hash_order env l ≡ₚ l) →
  listed g b → dangling adj b → 2 ≤ nthreads →
  (timeout = None ∨ ∃ d, timeout = Some d ∧ total_ticks (e_events env) ≤ d) →
  run bd fuel env adj g true timeout nthreads bound None = Some o → o = Panic.
Proof.
  intros bd adj g env timeout nthreads bound fuel o b Hg Hn Hho Hb Hd Ht Hw E.
  destruct o as [ps|]; [|done]. exfalso.
  pose proof (dangling_nothing _ _ _ _ _ _ _ _ _ _ _ b Hg Hn Hho Hb Hd E) as ->.
  apply dangling_value in E.
  destruct (run_threaded_time_optimal (without_dangling adj) g env timeout nthreads bound bd fuel _
    (without_wf _ _ Hg Hn) Hho (ex_intro _ b Hb) Ht Hw E) as (p & ps & [=] & _).
Qed.
