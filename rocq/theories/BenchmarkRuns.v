(** * The benchmark programs can always finish

    For all arguments there are executions of all the searches (interleavings,
    timers) with which the two programs return; so the facts about their results
    are not void. *)
From stdpp Require Import strings.
From Verif Require Export MainBenchmark.
From Verif Require Import Spec.

(** [m2] returns what [m1] returns, if [m1] returns. *)
Definition lebind {A} (m1 m2 : option (out A)) : Prop := ∀ o, m1 = Some o → m2 = Some o.

Lemma lebind_refl {A} (m : option (out A)) : lebind m m.
Proof. by intros o. Qed.
Lemma rbind_le {A B} (m1 m2 : option (out A)) (f1 f2 : A → option (out B)) :
  lebind m1 m2 → (∀ a, lebind (f1 a) (f2 a)) → lebind (rbind m1 f1) (rbind m2 f2).
Proof.
  intros Hm Hf o H. destruct m1 as [[a|]|]; [| |done]; rewrite (Hm _ eq_refl); simpl in *; [by apply Hf|done].
Qed.
Lemma rfold_le {A S} (f1 f2 : S → A → option (out S)) l s :
  (∀ s a, lebind (f1 s a) (f2 s a)) → lebind (rfold f1 l s) (rfold f2 l s).
Proof. intros Hf. revert s. induction l as [|a l IH]; intros s; [apply lebind_refl|]. simpl. apply rbind_le; auto. Qed.

(** ** More fuel does not change anything *)

Lemma search_fuel bd fuel fuel' timer es ho samples adj g nthreads prob bound : fuel ≤ fuel' →
  lebind (search bd (mkWorld fuel timer es ho samples) adj g nthreads prob bound)
    (search bd (mkWorld fuel' timer es ho samples) adj g nthreads prob bound).
Proof.
  intros Hf o. unfold search. destruct (nthreads <? 2).
  - intros H. by eapply search_single_mono.
  - cbn [w_fuel w_events w_hash_order w_samples]. destruct (search_scheduler adj g) as [s|]; [|done].
    unfold threaded_search. destruct (spawn bd fuel bound s) as [r|] eqn:E; [|done].
    by rewrite (spawn_mono _ _ _ _ _ _ E Hf).
Qed.

Lemma run_fuel bd fuel fuel' env adj g do_search timeout nthreads bound prob : fuel ≤ fuel' →
  lebind (run bd fuel env adj g do_search timeout nthreads bound prob)
    (run bd fuel' env adj g do_search timeout nthreads bound prob).
Proof.
  intros Hf. unfold run. destruct do_search; cbn [negb].
  - by apply search_fuel.
  - intros o H. by eapply get_time_optimal_mono.
Qed.

Lemma get_order_fuel fuel fuel' induced rng d size k : fuel ≤ fuel' →
  lebind (get_order fuel induced rng d size k) (get_order fuel' induced rng d size k).
Proof.
  intros Hf. unfold get_order. destruct (size =? 0); [apply lebind_refl|].
  apply rbind_le; [apply lebind_refl|]. intros x. apply rbind_le; [|intros; apply lebind_refl].
  unfold get_frames. intros o H. destruct (loop _ fuel _) as [r|] eqn:E; [|done].
  by rewrite (loop_mono _ _ fuel' _ _ E Hf).
Qed.

Lemma do_it_body_fuel bd fuel fuel' induced rng size ed cd timeout get_full s shot : fuel ≤ fuel' →
  lebind (do_it_body bd fuel induced rng size ed cd timeout get_full s shot)
    (do_it_body bd fuel' induced rng size ed cd timeout get_full s shot).
Proof.
  intros Hf. destruct s as [[rm [[t1 t2] t3]] k]. unfold do_it_body.
  apply rbind_le; [apply lebind_refl|]. intros [adj k1].
  apply rbind_le; [by apply get_order_fuel|]. intros [g k2].
  apply rbind_le; [by apply run_fuel|]. intros ps1.
  apply rbind_le; [by apply run_fuel|]. intros ps2.
  apply rbind_le; [|intros; apply lebind_refl].
  destruct get_full; [|apply lebind_refl]. apply rbind_le; [by apply run_fuel|]. intros. apply lebind_refl.
Qed.

Lemma do_it_fuel bd fuel fuel' induced rng size ed cd timeout get_full shots k : fuel ≤ fuel' →
  lebind (do_it bd fuel induced rng size ed cd timeout get_full shots k)
    (do_it bd fuel' induced rng size ed cd timeout get_full shots k).
Proof.
  intros Hf. unfold do_it. apply rbind_le; [|intros; apply lebind_refl].
  apply rfold_le. intros. by apply do_it_body_fuel.
Qed.

(** ** Executions *)

Lemma timed_events_no_timeout t es : no_timeout es → timed_events t (map inr es) = es.
Proof.
  intros Hes. induction es as [|e es IH]; [done|]. simpl.
  assert (timed_events t (map inr es) = es) as IH'.
  { apply IH. intros i fin Hi. apply (Hes i). apply elem_of_cons. by right. }
  destruct e as [i|i fin|i]; rewrite IH'; [done| |done].
  rewrite (Hes i fin); [done|]. apply elem_of_cons. by left.
Qed.

Definition quiet (es : list (timer_event + event)) (gens : Generators) (exp : f64 → f64) : Env :=
  mkEnv (λ _, []) es id gens exp.

Lemma run_possible bd adj g timeout nthreads bound prob gens exp : 2 ≤ nthreads →
  ∃ es fuel o, run bd fuel (quiet es gens exp) adj g true timeout nthreads bound prob = Some o.
Proof.
  intros Hn. unfold run. cbn [negb]. unfold world_of. cbn [quiet e_clock e_events e_hash_order e_generators e_exp].
  set (samples := task_samples _ _ _). set (p := match prob with Some (f, _) => Some _ | None => None end).
  set (b := match bound with Some b => Z.of_N b | None => _ end).
  destruct (search_scheduler adj g) as [s|] eqn:E.
  - destruct (spawn_finishes bd b s) as [[jobs|] Hj].
    + destruct (threaded_completes adj g nthreads p b bd
        (mkWorld 0 (timer_answer timeout (λ _, [])) [] id samples) Hn jobs (system_init (length adj) jobs))
        as (fuel & es & o & Hes & Ho); [by exists s|done|].
      cbn [w_timer w_events w_hash_order w_samples app] in Ho.
      exists (map inr es), fuel, o. by rewrite timed_events_no_timeout.
    + destruct Hj as [f0 Hj]. exists [], f0, Panic. unfold search. destruct (Nat.ltb_spec nthreads 2); [lia|].
      rewrite E. unfold threaded_search. cbn [w_fuel]. by rewrite Hj.
  - exists [], 0, Panic. unfold search. destruct (Nat.ltb_spec nthreads 2); [lia|]. by rewrite E.
Qed.

Lemma do_it_body_possible bd induced rng size ed cd timeout get_full s gens exp :
  induces_orders induced → (∀ k n, 0 < n → r_range rng k n < n) → (N.of_nat size < 2 ^ 64 - 1)%N →
  density_ok ed size → density_ok cd size →
  ∃ shot fuel o, shot_ok shot ∧ e_generators (sh_approx shot) = gens ∧ e_exp (sh_approx shot) = exp ∧
    do_it_body bd fuel induced rng size ed cd timeout get_full s shot = Some o.
Proof.
  intros Hind Hrng Hsize Hed Hcd. destruct s as [[rm [[t1 t2] t3]] k].
  apply density_ok_get in Hed, Hcd.
  assert (∃ x, size = 0 ∨ density_value ed size x) as [x Hx].
  { destruct Hed as [->|[x ?]]; [exists f64_zero; by left|exists x; right; by apply density_get_value]. }
  destruct (random_graph rng ed x size k Hx) as (adj & Eg & Hsimple & _).
  destruct (get_order_spec induced rng cd size (k + length (node_pairs size)) Hind Hrng Hcd) as (g & k2 & Ho & Hg & _).
  assert (wf_input adj g) as Hin.
  { split; [by eapply simple_wf|]. destruct Hsimple as (-> & _). done. }
  destruct (run_time_optimal adj g Hin) as (p & _ & _ & Hr).
  destruct (Hr bd (quiet [] gens exp) None 1 None None) as (f1 & Hf1). clear Hr.
  destruct (run_possible bd adj g (Some (N.to_nat timeout)) NCPUS None
    (Some (BuiltinHeavyside, Some (r_u64 rng k2))) gens exp ltac:(unfold NCPUS; lia)) as (es2 & f2 & o2 & Ho2).
  destruct (run_possible bd adj g None NCPUS None None gens exp ltac:(unfold NCPUS; lia)) as (es3 & f3 & o3 & Ho3).
  exists (mkShot (quiet [] gens exp) (quiet es2 gens exp) (quiet es3 gens exp) (0, 0, 0)%N), (S size + f1 + f2 + f3).
  assert (∃ o, do_it_body bd (S size + f1 + f2 + f3) induced rng size ed cd timeout get_full
    (rm, (t1, t2, t3), k) (mkShot (quiet [] gens exp) (quiet es2 gens exp) (quiet es3 gens exp) (0, 0, 0)%N) = Some o) as [o Hres].
  { unfold do_it_body. rewrite Eg. cbn [rbind]. rewrite Ho by lia. cbn [rbind sh_time_optimal sh_approx sh_full].
    rewrite Hf1 by lia. cbn [rbind]. rewrite (run_fuel _ f2 (S size + f1 + f2 + f3) _ _ _ _ _ _ _ _ ltac:(lia) _ Ho2).
    destruct o2 as [ps2|]; cbn [rbind]; [|by eexists].
    destruct get_full; cbn [rbind].
    - rewrite (run_fuel _ f3 (S size + f1 + f2 + f3) _ _ _ _ _ _ _ _ ltac:(lia) _ Ho3). destruct o3 as [ps3|]; cbn [rbind]; [|by eexists].
      destruct (obind _ _) as [?|]; cbn [sh_elapsed]; by eexists.
    - destruct (obind _ _) as [?|]; cbn [sh_elapsed]; by eexists. }
  exists o. split; [|done]. split; [done|]. split; [done|]. by vm_compute.
Qed.

(** Choose an execution for every round of a loop. *)
Lemma rfold_possible {C S} (P : C → Prop) (f : nat → S → C → nat → option (out S)) (l : list nat) s :
  NoDup l → (∃ c, P c) → (∀ fuel fuel' s c a, fuel ≤ fuel' → lebind (f fuel s c a) (f fuel' s c a)) →
  (∀ s a, a ∈ l → ∃ c fuel o, P c ∧ f fuel s c a = Some o) →
  ∃ (c : nat → C) fuel o, (∀ a, P (c a)) ∧ rfold (λ s a, f fuel s (c a) a) l s = Some o.
Proof.
  intros Hnd [c0 Hc0] Hmono. revert s. induction Hnd as [|a l Ha Hnd IH]; intros s Hf.
  - exists (λ _, c0), 0, (Val s). done.
  - destruct (Hf s a) as (c1 & f1 & o1 & Hc1 & H1); [by left|]. destruct o1 as [s1|].
    + destruct (IH s1) as (c & f2 & o2 & Hc & H2); [intros; apply Hf; by right|].
      exists (λ x, if x =? a then c1 else c x), (f1 + f2), o2. split.
      { intros x. by destruct (x =? a). }
      cbn [rfold]. rewrite Nat.eqb_refl. rewrite (Hmono f1 (f1 + f2) _ _ _ ltac:(lia) _ H1). cbn [rbind].
      assert (∀ l' s, a ∉ l' → lebind (rfold (λ s a, f f2 s (c a) a) l' s)
        (rfold (λ s0 a0, f (f1 + f2) s0 (if a0 =? a then c1 else c a0) a0) l' s)) as Hle.
      { clear -Hmono. induction l' as [|b l' IH]; intros s Hb; [apply lebind_refl|]. cbn [rfold]. apply rbind_le.
        - destruct (Nat.eqb_spec b a) as [->|_]; [destruct Hb; by left|]. apply Hmono. lia.
        - intros s'. apply IH. intros ?. apply Hb. by right. }
      by apply Hle.
    + exists (λ _, c1), f1, Panic. split; [done|]. cbn [rfold]. by rewrite H1.
Qed.

Lemma rfold_map {A B S} (f : S → B → option (out S)) (h : A → B) l s :
  rfold f (map h l) s = rfold (λ s a, f s (h a)) l s.
Proof. revert s. induction l as [|a l IH]; intros s; [done|]. cbn [map rfold]. destruct (f s (h a)) as [[s'|]|]; [apply IH|done..]. Qed.

(** A well behaved shot whose approximate search has these generators and this
    exponential function. *)
Definition shot_with (gens : Generators) (exp : f64 → f64) (shot : Shot) : Prop :=
  shot_ok shot ∧ e_generators (sh_approx shot) = gens ∧ e_exp (sh_approx shot) = exp.

Lemma shot_exists gens exp : ∃ shot, shot_with gens exp shot.
Proof.
  pose (e := quiet [] gens exp).
  exists (mkShot e e e (0, 0, 0)%N). split; [|done]. split; [done|]. split; [done|]. by vm_compute.
Qed.

Lemma do_it_possible :
  ∀ bd induced rng size ed cd timeout get_full k gens exp,
  induces_orders induced → (∀ k n, 0 < n → r_range rng k n < n) → (N.of_nat size < 2 ^ 64 - 1)%N →
  density_ok ed size → density_ok cd size →
  ∃ shots fuel o, (∀ i, shot_with gens exp (shots i)) ∧
    do_it bd fuel induced rng size ed cd timeout get_full shots k = Some o.
Proof.
  intros bd induced rng size ed cd timeout get_full k gens exp Hind Hrng Hsize Hed Hcd. unfold do_it.
  generalize (replicate (if get_full then 8 else 4) (@nil N)), (replicate (if get_full then 8 else 4) f64_zero).
  intros c m.
  destruct (rfold_possible (shot_with gens exp)
    (λ fuel s shot _, do_it_body bd fuel induced rng size ed cd timeout get_full s shot)
    (seq 0 NUM_AVERAGE) (c, m, (0, 0, 0)%N, k)) as (shots & fuel & o & Hs & Ho).
  - apply NoDup_seq.
  - apply shot_exists.
  - intros. by apply do_it_body_fuel.
  - intros s a _.
    destruct (do_it_body_possible bd induced rng size ed cd timeout get_full s
      gens exp) as (shot & fuel & o & Hs & Hg & He & Ho); [done..|]. exists shot, fuel, o. done.
  - exists shots, fuel. rewrite rfold_map. rewrite Ho.
    destruct o as [[[rm [[t1 t2] t3]] k']|]; cbn [rbind]; [|by exists Panic].
    destruct (obind _ _) as [?|]; by eexists.
Qed.

Lemma node_run_possible :
  ∀ bd induced rng args gens exp,
  induces_orders induced → (∀ k n, 0 < n → r_range rng k n < n) →
  ∃ shots fuel o, (∀ size i, shot_with gens exp (shots size i)) ∧
    node_run bd fuel induced rng args shots = Some o.
Proof.
  intros bd induced rng args gens exp Hind Hrng. unfold node_run. destruct (shot_exists gens exp) as [sh0 Hsh0].
  destruct (density_new (n_edge_density_type args) (n_edge_density args)) as [ed|] eqn:Eed; cbn [rbind].
  2: { exists (λ _ _, sh0), 0, Panic. done. }
  destruct (density_new (n_correction_density_type args) (n_correction_density args)) as [cd|] eqn:Ecd; cbn [rbind].
  2: { exists (λ _ _, sh0), 0, Panic. done. }
  destruct node_timeouts as [ts|]; cbn [rbind].
  2: { exists (λ _ _, sh0), 0, Panic. done. }
  generalize (replicate 16 (@nil f64)). intros c.
  destruct (rfold_possible (λ sh : nat → Shot, ∀ i, shot_with gens exp (sh i))
    (λ fuel s sh size, node_body bd fuel induced rng ed cd ts (λ _, sh) s size)
    node_RANGE (c, [], 0)) as (shots & fuel & o & Hs & Ho).
  - apply NoDup_seq.
  - by exists (λ _, sh0).
  - intros f f' [[rs tr] k] sh size Hf. unfold node_body. apply rbind_le; [apply lebind_refl|]. intros t.
    apply rbind_le; [by apply do_it_fuel|]. intros. apply lebind_refl.
  - intros [[rs tr] k] size Hsize. unfold node_RANGE in Hsize. apply elem_of_seq in Hsize. unfold node_body.
    assert (2 ≤ size ≤ 45) as Hsz by (unfold MAX_SIZE in Hsize; lia). clear Hsize.
    destruct (index ts size) as [timeout|]; cbn [rbind].
    2: { exists (λ _, sh0), 0, Panic. done. }
    assert (∀ d, density_ok d size) as Hd.
    { intros d. left. lia. }
    destruct (do_it_possible bd induced rng size ed cd timeout (size <=? MAX_EXACT_SIZE) k gens exp) as (sh & fuel & o & Hsh & Ho);
      [done|done|lia|apply Hd|apply Hd|].
    exists sh, fuel. rewrite Ho. destruct o as [[[res tm] k']|]; cbn [rbind]; [|by eexists].
    destruct (push_results rs res); cbn [rbind]; by eexists.
  - exists shots, fuel.
    match type of Ho with rfold ?f _ _ = _ => replace (rfold (node_body bd fuel induced rng ed cd ts shots) node_RANGE (c, [], 0)) with (rfold f node_RANGE (c, [], 0)) by reflexivity end.
    rewrite Ho. destruct o as [[[? ?] ?]|]; cbn [rbind]; eexists; (split; [exact Hs|reflexivity]).
Qed.

Lemma density_run_possible :
  ∀ bd induced rng args gens exp,
  induces_orders induced → (∀ k n, 0 < n → r_range rng k n < n) → (N.of_nat (d_num_nodes args) < 2 ^ 64 - 1)%N →
  ∃ shots fuel o, (∀ m i, shot_with gens exp (shots m i)) ∧
    density_run bd fuel induced rng args shots = Some o.
Proof.
  intros bd induced rng args gens exp Hind Hrng Hsize. unfold density_run. destruct (shot_exists gens exp) as [sh0 Hsh0].
  destruct (density (d_edge_density_multiplier args)) as [ed|] eqn:Eed; cbn [rbind].
  2: { exists (λ _ _, sh0), 0, Panic. done. }
  assert (∀ m d, density m = Val d → density_ok d (d_num_nodes args)) as Hok.
  { intros m d H. unfold density in H. destruct (check_factor _) as [x|]; simpl in H; [|done]. injection H as <-.
    right. by eexists. }
  generalize (replicate 8 (@nil f64)). intros c.
  destruct (rfold_possible (λ sh : nat → Shot, ∀ i, shot_with gens exp (sh i))
    (λ fuel s sh m, density_body bd fuel induced rng (d_num_nodes args) ed (λ _, sh) s m)
    density_RANGE (c, [], 0)) as (shots & fuel & o & Hs & Ho).
  - apply NoDup_seq.
  - by exists (λ _, sh0).
  - intros f f' [[rs tr] k] sh m Hf. unfold density_body. apply rbind_le; [apply lebind_refl|]. intros cd.
    apply rbind_le; [apply lebind_refl|]. intros t.
    apply rbind_le; [by apply do_it_fuel|]. intros. apply lebind_refl.
  - intros [[rs tr] k] m _. unfold density_body.
    destruct (density (f64_of_usize (N.of_nat m))) as [cd|] eqn:Ecd; cbn [rbind].
    2: { exists (λ _, sh0), 0, Panic. done. }
    destruct (index density_timeouts m) as [timeout|]; cbn [rbind].
    2: { exists (λ _, sh0), 0, Panic. done. }
    destruct (do_it_possible bd induced rng (d_num_nodes args) ed cd timeout false k gens exp) as (sh & fuel & o & Hsh & Ho);
      [done|done|done|by eapply Hok|by eapply Hok|].
    exists sh, fuel. rewrite Ho. destruct o as [[[res tm] k']|]; cbn [rbind]; [|by eexists].
    destruct (push_results rs res); cbn [rbind]; by eexists.
  - exists shots, fuel.
    match type of Ho with rfold ?f _ _ = _ => replace (rfold (density_body bd fuel induced rng (d_num_nodes args) ed shots) density_RANGE (c, [], 0)) with (rfold f density_RANGE (c, [], 0)) by reflexivity end.
    rewrite Ho. destruct o as [[[? ?] ?]|]; cbn [rbind]; eexists; (split; [exact Hs|reflexivity]).
Qed.
