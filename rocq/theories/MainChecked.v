(** * What debug builds check *)
From Verif Require Export CheckedFacts Measured MainSearch Interface FilterFacts BufferFacts.

Lemma checked_run :
  ∀ adj g fuel env do_search timeout nthreads bound prob ps, wf_spacial adj →
  (∀ l, e_hash_order env l ≡ₚ l) →
  run Debug fuel env adj g do_search timeout nthreads bound prob = Some (Val ps) →
  Forall (measured_once adj) ps ∧ tradeoff ps.
Proof.
  intros adj g fuel env do_search timeout nthreads bound prob ps Hsp Hho. unfold run.
  destruct do_search; simpl.
  - intros H. apply any_right in H as (res & Hr & H); [|done]. cbn [w_hash_order world_of] in H.
    split; [|by eapply finish_tradeoff].
    destruct (finish_spec (e_hash_order env) Hho (length adj) res) as (ps' & E & _ & _ & Hin).
    assert (ps' = ps) as -> by congruence.
    apply Forall_forall. intros p Hp. apply Hin in Hp as (_ & Hl & _).
    apply Hr in Hl as (Ht & [H1 H2 H3] & Hc). by split.
  - unfold get_time_optimal. destruct (from_dependency_graph _ _ _) as [t|]; [|done].
    destruct (loop _ _ _) as [[[q m]|]|] eqn:E; [|done|done]. intros [= <-].
    apply (time_optimal_checked adj Hsp) in E as ([H1 H2 H3] & -> & _).
    + split; [constructor; [by split|constructor]|].
      intros i j p p' Hij Hp Hp'. apply lookup_lt_Some in Hp, Hp'. simpl in *. lia.
    + simpl. apply (graph_at_new adj (proj2 Hsp)).
    + apply clean_nil.
    + done.
Qed.

Lemma first_loop_measurable rest first look l look' l' :
  ofold (λ (s : Dependents * list nat) (e : nat * list nat),
    let* look := resolve e.1 rest s.1 in Val (look, s.2 ++ [e.1])) first (look, l) = Val (look', l') →
  l' = l ++ map fst first.
Proof.
  revert look l. induction first as [|e first IH]; intros look l; cbn [ofold].
  - intros [= _ <-]. simpl. by rewrite app_nil_r.
  - cbn [fst snd]. destruct (resolve e.1 rest look) as [look1|]; cbn [obind]; [|done].
    intros H. apply IH in H as ->. simpl. by rewrite <- app_assoc.
Qed.

Lemma checked_repeated :
  ∀ adj g env timeout nthreads bound prob, wf_spacial adj →
  ¬ NoDup (map fst (default [] (head g))) →
  finishes (λ fuel, run Debug fuel env adj g false timeout nthreads bound prob) Panic.
Proof.
  intros adj g env timeout nthreads bound prob Hsp Hdup. unfold run. simpl.
  destruct (time_optimal_finishes Debug adj g) as [o H].
  destruct o as [ps|]; [|exact H]. exfalso. destruct H as [fuel H].
  specialize (H fuel ltac:(lia)). revert H. unfold get_time_optimal.
  destruct g as [|first rest]; [simpl in Hdup; destruct Hdup; constructor|]. simpl in Hdup.
  unfold from_dependency_graph.
  destruct (first_loop rest first _) as [[look l]|] eqn:E; cbn [obind]; [|done].
  unfold first_loop in E. apply first_loop_measurable in E. rewrite app_nil_l in E. subst l.
  destruct (rest_loop rest _) as [[look' deps]|]; cbn [obind]; [|done].
  destruct (loop _ _ _) as [[[q m]|]|] eqn:E; [|done|done]. intros _.
  apply (time_optimal_checked adj Hsp) in E as ([H1 H2 H3] & _ & [k Hq]).
  - cbn [s_time measurable] in Hq. change (ms_init (map fst first)) with (map fst first) in Hq.
    apply Hdup. rewrite Hq in H1. destruct (map fst first) as [|b M] eqn:EM; [constructor|].
    rewrite app_nil_l in H1. change ([b :: M] ++ k) with ((b :: M) :: k) in H1.
    rewrite concat_cons in H1. by apply NoDup_app in H1 as [? _].
  - simpl. apply (graph_at_new adj (proj2 Hsp)).
  - apply clean_nil.
  - done.
Qed.

Lemma checked_out_of_range :
  ∀ bd adj g env do_search timeout nthreads bound prob b, listed g b → length adj ≤ b →
  finishes (λ fuel, run bd fuel env adj g do_search timeout nthreads bound prob) Panic.
Proof.
  intros bd adj g env do_search timeout nthreads bound prob b Hb Hle. exists 0. intros fuel _.
  assert (¬ fits (qubits g) (dependency_buffer_new (length adj))) as Hf.
  { unfold fits. rewrite Forall_forall. intros H. apply listed_qubits in Hb. apply H in Hb.
    unfold dependency_buffer_new in Hb. rewrite replicate_length in Hb. lia. }
  unfold run. destruct do_search; simpl.
  - assert (search_scheduler adj g = Panic) as E.
    { unfold search_scheduler. rewrite from_dependency_graph_eq, decide_False by done. done. }
    unfold search, search_single. rewrite E. by destruct (nthreads <? 2).
  - unfold get_time_optimal. rewrite from_dependency_graph_eq, decide_False by done. done.
Qed.
