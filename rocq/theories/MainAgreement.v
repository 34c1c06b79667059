(** * One thread and several threads: results *)
From Verif Require Export MainParts MainMetamorphic MainUnion.

(** No run, whatever its settings are, is better than an uninterrupted deterministic
    search with one thread. *)
Lemma run_matched :
  ∀ adj g qs env do_search timeout nthreads bound prob bd fuel ps,
  wf_input adj g → (∃ b, listed g b) → searched adj g qs → (∀ l, e_hash_order env l ≡ₚ l) →
  run bd fuel env adj g do_search timeout nthreads bound prob = Some (Val ps) →
  ∀ p, p ∈ ps → ∃ q, q ∈ qs ∧ time q ≤ time p ∧ (space q <= space p)%N.
Proof.
  intros adj g qs env do_search timeout nthreads bound prob bd fuel ps Hin Hne Hqs Hho Hr p Hp.
  destruct (run_valid _ _ _ _ _ _ _ _ _ _ _ Hin Hho Hr) as [(ps' & [= <-] & Hok & _)|[? _]]; [|done].
  rewrite Forall_forall in Hok. destruct (Hok p Hp) as (Hv & Ht & Hm).
  apply searched_front in Hqs as (_ & _ & Hc); [|done|done].
  destruct (Hc _ Hv) as (q & Hq & H1 & H2). exists q. split; [done|]. rewrite Ht, Hm. by split.
Qed.

(** Several threads find the same trade-offs if the exchanges of the tasks do not get
    into the way of each other. *)
Lemma run_threads_costs :
  ∀ adj g qs env timeout nthreads bound bd fuel o,
  wf_input adj g → (∃ b, listed g b) → searched adj g qs → (∀ l, e_hash_order env l ≡ₚ l) → 2 ≤ nthreads →
  no_timeout (timed_events (search_timer timeout) (e_events env)) →
  undisturbed (timed_events (search_timer timeout) (e_events env)) →
  run bd fuel env adj g true timeout nthreads bound None = Some o →
  ∃ ps, o = Val ps ∧ costs ps = costs qs.
Proof.
  intros adj g qs env timeout nthreads bound bd fuel o Hin Hne Hqs Hho Hnt Hto Hun Hr.
  unfold run in Hr. cbn [negb] in Hr.
  destruct (threaded_undisturbed adj g nthreads (match bound with Some b => Z.of_N b | None => 100000%Z end) bd
    (world_of fuel env timeout nthreads None) o) as (ps & -> & Hok & Htr & Hc); [done|done|done|done|done|done|exact Hr|].
  exists ps. split; [done|]. apply searched_front in Hqs as (Hok' & Htr' & Hc'); [|done|done].
  rewrite Forall_forall in Hok, Hok'. apply front_costs; [done|done|..]; intros p Hp.
  - destruct (Hok p Hp) as (Hv & -> & ->). destruct (Hc' _ Hv) as (q & Hq & H1 & H2). by exists q.
  - destruct (Hok' p Hp) as (Hv & -> & ->). destruct (Hc _ Hv) as (q & Hq & H1 & H2). by exists q.
Qed.
