(** * Inputs that consist of two independent parts: results *)
From Verif Require Export PartsFacts MainMetamorphic.

(** The list is what some uninterrupted deterministic single threaded search returns. *)
Definition searched (adj : spacial) (g : order) (ps : list path) : Prop :=
  ∃ env timeout nthreads bound bd, (∀ l, e_hash_order env l ≡ₚ l) ∧ nthreads ≤ 1 ∧ within timeout (e_clock env) ∧
    returns (λ fuel, run bd fuel env adj g true timeout nthreads bound None) ps.

Lemma searched_front adj g ps : wf_input adj g → (∃ b, listed g b) → searched adj g ps → pareto_front adj g ps.
Proof.
  intros Hin [b Hb] (env & timeout & nthreads & bound & bd & Hho & Hn & Hw & Hr).
  apply run_exact in Hr; [|done|done]. destruct (exact_search _ _ _ _ _ Hin Hho Hr) as [?|[Hno _]]; [done|].
  by destruct (Hno b).
Qed.

Lemma tradeoff_head ps p q : tradeoff ps → head ps = Some p → q ∈ ps → time p ≤ time q.
Proof.
  intros Ht Hp Hq. destruct ps as [|p' ps]; [done|]. injection Hp as ->.
  apply elem_of_list_lookup in Hq as (j & Hj). destruct j as [|j]; [by injection Hj as ->|].
  destruct (Ht 0 (S j) p q); [lia|done|done|lia].
Qed.

Lemma tradeoff_last ps p q : tradeoff ps → last ps = Some p → q ∈ ps → (space p <= space q)%N.
Proof.
  intros Ht Hp Hq. rewrite last_lookup in Hp.
  apply elem_of_list_lookup in Hq as (j & Hj). pose proof (lookup_lt_Some _ _ _ Hj) as Hlt.
  destruct (decide (j = pred (length ps))) as [->|Hne]; [assert (p = q) as -> by congruence; lia|].
  destruct (Ht j (pred (length ps)) q p); [lia|done|done|lia].
Qed.

Section fronts.
  Context (c : nat → bool) (adj : spacial) (g : order) (ps ps1 ps2 : list path).
  Context (Hin : wf_input adj g) (Hs : separated c adj g).
  Context (Hps : pareto_front adj g ps).
  Context (Hps1 : pareto_front adj (part c true g) ps1) (Hps2 : pareto_front adj (part c false g) ps2).

  Lemma front_down p :
    p ∈ ps → ∃ p1 p2, p1 ∈ ps1 ∧ p2 ∈ ps2 ∧ max (time p1) (time p2) ≤ time p ∧
      (N.max (space p1) (space p2) <= space p)%N.
  Proof.
    intros Hp. assert (N.of_nat (length adj) < 2 ^ 64 - 1)%N as Hn by exact (proj2 (proj1 Hin)).
    destruct (front_better adj g ps adj (part c true g) ps1 Hps Hps1) with p as (p1 & H1 & H2 & H3); [|done|].
    { intros σ Hσ. exists (restrict c true σ). split; [by eapply restrict_valid|]. split; [apply restrict_length|].
      eapply restrict_space; [done|done|apply Hσ]. }
    destruct (front_better adj g ps adj (part c false g) ps2 Hps Hps2) with p as (p2 & H4 & H5 & H6); [|done|].
    { intros σ Hσ. exists (restrict c false σ). split; [by eapply restrict_valid|]. split; [apply restrict_length|].
      eapply restrict_space; [done|done|apply Hσ]. }
    exists p1, p2. split; [done|]. split; [done|]. split; lia.
  Qed.

  Lemma front_up p1 p2 :
    p1 ∈ ps1 → p2 ∈ ps2 → ∃ p, p ∈ ps ∧ time p ≤ max (time p1) (time p2) ∧ (space p <= space p1 + space p2)%N.
  Proof.
    intros H1 H2. destruct Hps as (_ & _ & Hc). destruct Hps1 as (Ho1 & _), Hps2 as (Ho2 & _).
    rewrite Forall_forall in Ho1, Ho2. destruct (Ho1 _ H1) as (Hv1 & Ht1 & Hm1), (Ho2 _ H2) as (Hv2 & Ht2 & Hm2).
    destruct (Hc (parallel (steps p1) (steps p2))) as (p & Hp & Hpt & Hpm); [by eapply parallel_valid|].
    exists p. split; [done|]. split.
    - rewrite Ht1, Ht2. unfold time_cost in *. by rewrite parallel_length in Hpt.
    - pose proof (parallel_space adj (steps p1) (steps p2)). lia.
  Qed.

  Lemma front_sequence p1 p2 :
    exhausting adj g → p1 ∈ ps1 → p2 ∈ ps2 →
    ∃ p, p ∈ ps ∧ time p ≤ time p1 + time p2 ∧ (space p <= N.max (space p1) (space p2))%N.
  Proof.
    intros Hex H1 H2. destruct Hps as (_ & _ & Hc). destruct Hps1 as (Ho1 & _), Hps2 as (Ho2 & _).
    rewrite Forall_forall in Ho1, Ho2. destruct (Ho1 _ H1) as (Hv1 & Ht1 & Hm1), (Ho2 _ H2) as (Hv2 & Ht2 & Hm2).
    destruct (Hc (steps p1 ++ steps p2)) as (p & Hp & Hpt & Hpm); [by eapply sequence_valid|].
    exists p. split; [done|]. split.
    - rewrite Ht1, Ht2. unfold time_cost in *. by rewrite app_length in Hpt.
    - pose proof (sequence_space c adj g Hs (steps p1) (steps p2) Hv1 Hex). lia.
  Qed.
End fronts.

Lemma run_parts :
  ∀ c adj g ps ps1 ps2,
  wf_input adj g → separated c adj g → (∃ b, listed g b ∧ c b = true) → (∃ b, listed g b ∧ c b = false) →
  searched adj g ps → searched adj (part c true g) ps1 → searched adj (part c false g) ps2 →
  (* no path beats the paths of the parts *)
  (∀ p, p ∈ ps → ∃ p1 p2, p1 ∈ ps1 ∧ p2 ∈ ps2 ∧
     max (time p1) (time p2) ≤ time p ∧ (N.max (space p1) (space p2) <= space p)%N) ∧
  (* any two of them can be combined: side by side *)
  (∀ p1 p2, p1 ∈ ps1 → p2 ∈ ps2 → ∃ p, p ∈ ps ∧
     time p ≤ max (time p1) (time p2) ∧ (space p <= space p1 + space p2)%N) ∧
  (* or, if nothing is left over, one after the other *)
  (exhausting adj g → ∀ p1 p2, p1 ∈ ps1 → p2 ∈ ps2 → ∃ p, p ∈ ps ∧
     time p ≤ time p1 + time p2 ∧ (space p <= N.max (space p1) (space p2))%N) ∧
  (* hence the least times and the least memories *)
  (∀ p p1 p2, head ps = Some p → head ps1 = Some p1 → head ps2 = Some p2 → time p = max (time p1) (time p2)) ∧
  (exhausting adj g → ∀ p p1 p2, last ps = Some p → last ps1 = Some p1 → last ps2 = Some p2 →
     space p = N.max (space p1) (space p2)).
Proof.
  intros c adj g ps ps1 ps2 Hin Hs (b1 & Hb1 & Hc1) (b2 & Hb2 & Hc2) Hps Hps1 Hps2.
  apply searched_front in Hps; [|done|by exists b1].
  apply searched_front in Hps1; [|by apply part_wf|exists b1; by apply part_listed].
  apply searched_front in Hps2; [|by apply part_wf|exists b2; by apply part_listed].
  pose proof (front_down c adj g ps ps1 ps2 Hin Hs Hps Hps1 Hps2) as Hdown.
  pose proof (front_up c adj g ps ps1 ps2 Hps Hps1 Hps2) as Hup.
  pose proof (front_sequence c adj g ps ps1 ps2 Hs Hps Hps1 Hps2) as Hseq.
  split; [done|]. split; [done|]. split; [intros Hex p1 p2; by apply Hseq|].
  destruct Hps as (_ & Ht & _), Hps1 as (_ & Ht1 & _), Hps2 as (_ & Ht2 & _). split.
  - intros p p1 p2 Hp Hp1 Hp2. apply Nat.le_antisymm.
    + destruct (Hup p1 p2) as (q & Hq & Hqt & _); [by apply head_Some_elem_of|by apply head_Some_elem_of|].
      pose proof (tradeoff_head _ _ _ Ht Hp Hq). lia.
    + destruct (Hdown p) as (q1 & q2 & Hq1 & Hq2 & Hqt & _); [by apply head_Some_elem_of|].
      pose proof (tradeoff_head _ _ _ Ht1 Hp1 Hq1). pose proof (tradeoff_head _ _ _ Ht2 Hp2 Hq2). lia.
  - intros Hex p p1 p2 Hp Hp1 Hp2. apply N.le_antisymm.
    + destruct (Hseq p1 p2) as (q & Hq & _ & Hqt); [done|by apply last_Some_elem_of|by apply last_Some_elem_of|].
      pose proof (tradeoff_last _ _ _ Ht Hp Hq). lia.
    + destruct (Hdown p) as (q1 & q2 & Hq1 & Hq2 & _ & Hqt); [by apply last_Some_elem_of|].
      pose proof (tradeoff_last _ _ _ Ht1 Hp1 Hq1). pose proof (tradeoff_last _ _ _ Ht2 Hp2 Hq2). lia.
Qed.

(** Without search the parts run side by side. *)
Lemma run_parts_time :
  ∀ c adj g env env1 env2 timeout timeout1 timeout2 nthreads nthreads1 nthreads2 bound bound1 bound2
    prob prob1 prob2 bd bd1 bd2 p p1 p2,
  wf_input adj g → separated c adj g →
  returns (λ fuel, run bd fuel env adj g false timeout nthreads bound prob) [p] →
  returns (λ fuel, run bd1 fuel env1 adj (part c true g) false timeout1 nthreads1 bound1 prob1) [p1] →
  returns (λ fuel, run bd2 fuel env2 adj (part c false g) false timeout2 nthreads2 bound2 prob2) [p2] →
  (∀ k b, (∃ S, steps p !! k = Some S ∧ b ∈ S) ↔
     (∃ S, steps p1 !! k = Some S ∧ b ∈ S) ∨ (∃ S, steps p2 !! k = Some S ∧ b ∈ S)) ∧
  time p = max (time p1) (time p2) ∧ (N.max (space p1) (space p2) <= space p <= space p1 + space p2)%N.
Proof.
  intros c adj g env env1 env2 timeout timeout1 timeout2 nthreads nthreads1 nthreads2 bound bound1 bound2
    prob prob1 prob2 bd bd1 bd2 p p1 p2 Hin Hs Hp Hp1 Hp2.
  destruct (time_optimal_greedy adj g bd p Hin Hp) as [(Hv & Ht & Hm) Hg].
  destruct (time_optimal_greedy adj _ bd1 p1 (part_wf c true adj g Hin Hs) Hp1) as [(Hv1 & Ht1 & Hm1) Hg1].
  destruct (time_optimal_greedy adj _ bd2 p2 (part_wf c false adj g Hin Hs) Hp2) as [(Hv2 & Ht2 & Hm2) Hg2].
  assert (same_schedule (steps p) (parallel (steps p1) (steps p2))) as E.
  { apply (greedy_unique g); [done|by eapply parallel_greedy|done|by eapply parallel_valid]. }
  split; [|split].
  - intros k b. split.
    + intros (S & HS & Hb). destruct (Forall2_lookup_l _ _ _ _ _ E HS) as (S' & HS' & HE).
      rewrite HE in Hb. by apply (parallel_lookup _ _ _ _ _ HS').
    + intros H. destruct (parallel (steps p1) (steps p2) !! k) as [S'|] eqn:HS'.
      * destruct (Forall2_lookup_r _ _ _ _ _ E HS') as (S & HS & HE). exists S. split; [done|].
        rewrite HE. by apply (parallel_lookup _ _ _ _ _ HS').
      * exfalso. apply lookup_ge_None in HS'. rewrite parallel_length in HS'.
        destruct H as [(S & HS%lookup_lt_Some & _)|(S & HS%lookup_lt_Some & _)]; lia.
  - rewrite Ht, Ht1, Ht2. unfold time_cost. by rewrite (Forall2_length _ _ _ E), parallel_length.
  - rewrite Hm, Hm1, Hm2, (space_cost_same adj _ _ E).
    pose proof (parallel_space adj (steps p1) (steps p2)).
    pose proof (parallel_space_left c adj g Hs (steps p1) (steps p2) Hv1 Hv2).
    pose proof (parallel_space_right c adj g Hs (steps p1) (steps p2) Hv1 Hv2). lia.
Qed.
