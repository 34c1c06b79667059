(** * Final statement about the property test [tests/roundtrip.rs] *)
From Verif Require Export RoundtripFacts MainBuffer.

Lemma andthen_val {A B} (a : A) (f : A → option (out B)) : andthen (Some (Val a)) f = f a.
Proof. done. Qed.

Lemma simple_input edges n g :
  wf_order n g → (N.of_nat n < 2 ^ 64 - 1)%N → (∀ u v, (u, v) ∈ edges → u < n ∧ v < n) →
  ∃ adj, graph_buffer_new edges n None true = Val adj ∧ length adj = n ∧ wf_input adj g.
Proof.
  intros Hg Hn He.
  destruct (buffer_checked edges n None) as (adj & E & Hl & _ & Hnb).
  { simpl. intros u v Huv _. unfold rename_edges in Huv.
    apply elem_of_list_fmap in Huv as ([u' v'] & [= -> ->] & Huv). by apply He. }
  exists adj. split; [done|]. split; [done|]. split; [split|by rewrite Hl].
  - intros ns v Hns Hv. apply elem_of_list_lookup in Hns as [u Hu].
    assert (v ∈ neighbours adj u) as Hi.
    { unfold neighbours. rewrite Hu. done. }
    apply Hnb in Hi as [_ Hj]. rewrite Hl. unfold joined, rename_edges in Hj.
    destruct Hj as [Hj|Hj]; apply elem_of_list_fmap in Hj as ([u' v'] & [= -> ->] & Huv);
      apply He in Huv; simpl in *; tauto.
  - by rewrite Hl.
Qed.

(** ** C62: the test passes *)

(** What the test does with a well-formed input. *)
Record tested (adj : spacial) (g : order) (t : PathGenerator (Partition nat))
    (all : list (schedule * N)) : Prop := {
  te_generator : from_dependency_graph g (dependency_buffer_new (length adj)) None = Val t;
  te_node : node adj g [] (mkScheduler t (graph_new adj));
  te_visits : ∀ bd, visits_root (FI := scheduler_focus_iterator bd) [] (mkScheduler t (graph_new adj)) all;
  te_valid : ∀ q m, (q, m) ∈ all → valid_schedule g q ∧ m = cost adj q;
  te_nodup : NoDup (map fst all)
}.

Lemma tested_input adj g : wf_input adj g → ∃ t all, tested adj g t all.
Proof.
  intros Hin. destruct (scheduler_sweep adj g (dependency_buffer_new (length adj)) Hin)
    as (t & all & Et & Hv & Hall & Ht & H0 & _).
  { unfold dependency_buffer_new. rewrite replicate_length. lia. }
  exists t, all. split; [done| |done|done|].
  - destruct (search_root adj g Hin) as (s & Es & Hs & _). unfold search_scheduler in Es.
    rewrite Et in Es. cbn [obind] in Es. by injection Es as <-.
  - apply NoDup_alt. intros i j q Hi Hj. rewrite list_lookup_fmap in Hi, Hj.
    destruct (all !! i) as [[qi mi]|] eqn:Ei; [|done]. destruct (all !! j) as [[qj mj]|] eqn:Ej; [|done].
    injection Hi as ->. injection Hj as ->.
    pose proof (elem_of_list_lookup_2 _ _ _ Ei) as Hq. destruct (Hall _ _ Hq) as [Hqv _].
    destruct (decide (qubits g = [])) as [Hq0|Hq0].
    { rewrite (H0 Hq0) in Hq. by apply elem_of_nil in Hq. }
    destruct (times_one q all (Ht Hq0 q Hqv)) as (k & q' & m' & _ & _ & Huniq).
    rewrite (Huniq i q mi Ei), (Huniq j q mj Ej); [done|apply same_schedule_refl..].
Qed.

Lemma tested_tasks adj g t all num_tasks :
  wf_input adj g → tested adj g t all → 0 < num_tasks →
  ∃ k tasks, (∀ bd fuel, k < fuel → split_instructions bd fuel t num_tasks = Some (Val tasks)) ∧
    (∀ bd, replay_all bd (graph_new adj) tasks = Val all) ∧
    (if length all <? num_tasks then length tasks = 1
     else length tasks = num_tasks ∧
       ∀ task, task ∈ tasks → num_leaves task = length all / num_tasks ∨
                              num_leaves task = length all / num_tasks + 1).
Proof.
  intros Hin [Et Hroot Hv Hall Hnd] Hnum.
  destruct (root_trace adj g Hin _ all (Hv Debug) Hroot) as (tr & Hrun & Hleaves & Hnest & Hfresh).
  assert (∀ bd k, length tr < k → all_steps bd k t = Some (Val tr)) as Hsteps.
  { intros bd. destruct (Hrun bd) as (s1 & s2 & Hr1 & Hr2). by eapply all_steps_run. }
  assert (legal_prefix g []) as Hnil by apply Hroot.
  assert (num_leaves tr = length all) as Hnl.
  { rewrite (num_leaves_leaves []), Hleaves. apply map_length. }
  assert (map (λ q, (q, cost adj q)) (map fst all) = all) as Hmap.
  { clear -Hall. induction all as [|[q m] all IH]; [done|]. simpl. f_equal.
    - destruct (Hall q m) as [_ ->]; [left|done].
    - apply IH. intros q' m' Hq. apply Hall. by right. }
  exists (length tr). unfold split_instructions.
  destruct (Nat.ltb_spec (length all) num_tasks) as [Hlt|Hge].
  - exists [tr]. split; [|split; [|done]].
    + intros bd fuel Hf. rewrite Hsteps by done. rewrite andthen_val, Hnl.
      by apply Nat.ltb_lt in Hlt as ->.
    + intros bd. rewrite (replay_all_spec adj g Hin).
      * simpl. by rewrite app_nil_r, Hleaves, Hmap.
      * by intros ? ->%elem_of_list_singleton.
  - destruct (split_spec (legal_prefix g) (legal_prefix_app g) tr num_tasks (S (length tr)))
      as (tasks & E & Hnt & Htl & Hlen & Hsize).
    + lia.
    + done.
    + done.
    + destruct tr as [|[i|[|]] tr]; [done..| |done]. by destruct Hfresh.
    + lia.
    + exists tasks. split; [|split].
      * intros bd fuel Hf. rewrite Hsteps by done. rewrite andthen_val.
        assert (num_leaves tr <? num_tasks = false) as -> by (apply Nat.ltb_ge; lia).
        assert (num_tasks =? 0 = false) as -> by (apply Nat.eqb_neq; lia).
        eapply loop_mono; [exact E|lia].
      * intros bd. rewrite (replay_all_spec adj g Hin) by done. by rewrite Htl, Hleaves, Hmap.
      * rewrite Hnl in Hsize. done.
Qed.

Lemma split_covers :
  ∀ edges n g num_tasks, wf_order n g → (N.of_nat n < 2 ^ 64 - 1)%N →
  (∀ u v, (u, v) ∈ edges → u < n ∧ v < n) → 0 < num_tasks →
  ∃ t adj all tasks,
    from_dependency_graph g (dependency_buffer_new n) None = Val t ∧
    graph_buffer_new edges n None true = Val adj ∧
    (∀ bd, returns (λ fuel, get_all_paths (H := scheduler_focus_iterator bd) fuel []
                              (mkScheduler t (graph_new adj))) all) ∧
    (∀ bd, returns (λ fuel, split_instructions bd fuel t num_tasks) tasks) ∧
    (* the tasks, carried out one after the other on a graph, give all paths
       with their memory in the same order *)
    (∀ bd, replay_all bd (graph_new adj) tasks = Val all) ∧
    (* and there are as many tasks as asked for, of almost the same size, unless
       there are fewer paths *)
    (if length all <? num_tasks then length tasks = 1
     else length tasks = num_tasks ∧
       ∀ task, task ∈ tasks → num_leaves task = length all / num_tasks ∨
                              num_leaves task = length all / num_tasks + 1).
Proof.
  intros edges n g num_tasks Hg Hn He Hnum.
  destruct (simple_input edges n g Hg Hn He) as (adj & Eadj & Hl & Hin).
  destruct (tested_input adj g Hin) as (t & all & Ht).
  destruct (tested_tasks adj g t all num_tasks Hin Ht Hnum) as (k & tasks & H1 & H2 & H3).
  exists t, adj, all, tasks. split; [rewrite <- Hl; apply Ht|]. split; [done|].
  split; [intros bd; apply collect_returns, Ht|]. split; [|done].
  intros bd. exists (S k). intros fuel Hf. by apply H1.
Qed.

Lemma roundtrip_passes :
  ∀ edges n g, wf_order n g → (N.of_nat n < 2 ^ 64 - 1)%N →
  (∀ u v, (u, v) ∈ edges → u < n ∧ v < n) →
  ∀ bd, returns (λ fuel, roundtrip bd fuel g edges n) tt.
Proof.
  intros edges n g Hg Hn He bd.
  destruct (simple_input edges n g Hg Hn He) as (adj & Eadj & Hl & Hin).
  destruct (tested_input adj g Hin) as (t & all & Ht).
  destruct (tested_tasks adj g t all 4 Hin Ht) as (k2 & tasks & Hsplit & Hreplay & _); [lia|].
  destruct Ht as [Et Hroot Hv Hall Hnd].
  set (root := mkScheduler t (graph_new adj)) in *.
  (* all paths *)
  destruct (collect_returns _ _ _ _ (Hv bd)) as [k1 H1].
  (* the search of the test *)
  set (s0 := mkSearchState (sweep_new root) [] (replicate (length adj + 1) (N.of_nat (length adj) + 1)%N) ∅).
  destruct (skipper_loop adj g Hin all [] s0 (S (state_bound s0))) as (R & HR & HsR).
  { lia. }
  { split; [by constructor|]. apply replicate_length. }
  { apply books_start, antitone_replicate. }
  { split.
    - exists all. split; [done|]. constructor. apply Hv.
    - split; simpl; [by intros ? ? ? ?%elem_of_nil|]. intros ? ? ?. by rewrite lookup_empty. }
  { done. }
  (* the filters *)
  assert (∀ q m, (q, m) ∈ all → length q ≤ length adj ∧ (m <= N.of_nat (length adj))%N) as Hbound.
  { intros q m Hq. destruct (Hall q m Hq) as [Hqv ->].
    split; [by apply (valid_length adj g Hin)|by apply (cost_le adj g Hin)]. }
  destruct (final_filter_selected _ _ _ HsR Hbound) as (f1 & Ef1 & Hf1).
  destruct (final_filter_selected _ _ _ (filtered_all_summary all) Hbound) as (f2 & Ef2 & Hf2).
  assert (f1 = f2) as <-.
  { apply map_eq. intros i. apply option_eq. intros [m q]. by rewrite Hf1, Hf2. }
  destruct (as_set_spec all Hnd) as (X & EX & _).
  exists (k1 + S (state_bound s0) + S k2). intros fuel Hf.
  unfold roundtrip. rewrite Eadj, <- Hl, Et. fold root. rewrite H1 by lia. rewrite andthen_val.
  assert (skipper bd fuel root (length adj) = Some (Val R)) as ->.
  { unfold skipper. eapply loop_mono; [apply (HR bd)|lia]. }
  rewrite andthen_val, Ef1, andthen_val, Ef2, andthen_val, decide_True by done.
  rewrite Hsplit by lia. rewrite andthen_val, Hreplay, andthen_val, EX, andthen_val, andthen_val.
  by rewrite decide_True.
Qed.
