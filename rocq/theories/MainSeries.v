(** * Inputs one part of which has to wait for the other: results *)
From Verif Require Export SeriesFacts MainWidth.

Lemma run_series :
  ∀ adj g g1 g2 ps ps1 ps2,
  wf_input adj g → wf_input adj g1 → wf_input adj g2 → series g1 g2 g → disconnected adj g1 g2 →
  (∃ b, listed g1 b) → (∃ b, listed g2 b) →
  searched adj g ps → searched adj g1 ps1 → searched adj g2 ps2 →
  (* every path costs what a path of the first part and one of the second part cost *)
  (∀ p, p ∈ ps → ∃ p1 p2, p1 ∈ ps1 ∧ p2 ∈ ps2 ∧
     time p = time p1 + time p2 ∧ space p = N.max (space p1) (space p2)) ∧
  (* and any two of them are matched *)
  (∀ p1 p2, p1 ∈ ps1 → p2 ∈ ps2 → ∃ p, p ∈ ps ∧
     time p ≤ time p1 + time p2 ∧ (space p <= N.max (space p1) (space p2))%N) ∧
  (* every path measures the first part, then the second part *)
  (∀ p, p ∈ ps → ∃ σ1 σ2, steps p = σ1 ++ σ2 ∧ valid_schedule g1 σ1 ∧ valid_schedule g2 σ2) ∧
  (* hence the least time and the least memory *)
  (∀ p p1 p2, head ps = Some p → head ps1 = Some p1 → head ps2 = Some p2 → time p = time p1 + time p2) ∧
  (∀ p p1 p2, last ps = Some p → last ps1 = Some p1 → last ps2 = Some p2 → space p = N.max (space p1) (space p2)).
Proof.
  intros adj g g1 g2 ps ps1 ps2 Hin Hin1 Hin2 Hse Hd (b1 & Hb1) (b2 & Hb2) Hps Hps1 Hps2.
  apply searched_front in Hps; [|done|exists b1; apply (se_listed _ _ _ Hse); by left].
  apply searched_front in Hps1; [|done|by exists b1]. apply searched_front in Hps2; [|done|by exists b2].
  assert (N.of_nat (length adj) < 2 ^ 64 - 1)%N as Hn by exact (proj2 (proj1 Hin)).
  destruct Hps as (Ho & Ht & Hc), Hps1 as (Ho1 & Ht1 & Hc1), Hps2 as (Ho2 & Ht2 & Hc2).
  rewrite Forall_forall in Ho, Ho1, Ho2.
  assert (∀ p, p ∈ ps → ∃ σ1 σ2, steps p = σ1 ++ σ2 ∧ valid_schedule g1 σ1 ∧ valid_schedule g2 σ2) as Hsplit.
  { intros p Hp. destruct (Ho p Hp) as (Hv & _). eapply series_split; [done|apply Hin1|apply Hin2|done]. }
  assert (∀ p1 p2, p1 ∈ ps1 → p2 ∈ ps2 → ∃ p, p ∈ ps ∧
     time p ≤ time p1 + time p2 ∧ (space p <= N.max (space p1) (space p2))%N) as Hup.
  { intros p1 p2 H1 H2. destruct (Ho1 p1 H1) as (Hv1 & Et1 & Em1), (Ho2 p2 H2) as (Hv2 & Et2 & Em2).
    destruct (Hc (steps p1 ++ steps p2)) as (p & Hp & Hpt & Hpm);
      [eapply series_app; [done|apply Hin|done|done]|].
    exists p. split; [done|]. unfold time_cost in *. rewrite app_length in Hpt. split; [lia|].
    rewrite (series_space g1 g2 g Hse adj _ _ Hn Hd Hv1 Hv2) in Hpm. lia. }
  assert (∀ p, p ∈ ps → ∃ p1 p2, p1 ∈ ps1 ∧ p2 ∈ ps2 ∧
     time p1 + time p2 ≤ time p ∧ (N.max (space p1) (space p2) <= space p)%N) as Hdown.
  { intros p Hp. destruct (Hsplit p Hp) as (σ1 & σ2 & E & Hv1 & Hv2). destruct (Ho p Hp) as (Hv & Et & Em).
    destruct (Hc1 σ1 Hv1) as (p1 & Hp1 & Hpt1 & Hpm1), (Hc2 σ2 Hv2) as (p2 & Hp2 & Hpt2 & Hpm2).
    exists p1, p2. split; [done|]. split; [done|]. rewrite E in Et, Em. unfold time_cost in *. rewrite app_length in Et.
    rewrite (series_space g1 g2 g Hse adj _ _ Hn Hd Hv1 Hv2) in Em. split; lia. }
  split; [|split; [done|split; [done|split]]].
  - intros p Hp. destruct (Hdown p Hp) as (p1 & p2 & H1 & H2 & Hpt & Hpm). exists p1, p2. split; [done|]. split; [done|].
    destruct (Hup p1 p2 H1 H2) as (q & Hq & Hqt & Hqm).
    apply elem_of_list_lookup in Hp as (i & Hi). apply elem_of_list_lookup in Hq as (j & Hj).
    destruct (Nat.lt_trichotomy i j) as [Hij|[->|Hij]].
    + destruct (Ht i j p q Hij Hi Hj). lia.
    + assert (p = q) as -> by congruence. split; lia.
    + destruct (Ht j i q p Hij Hj Hi). lia.
  - intros p p1 p2 Hp Hp1 Hp2. apply Nat.le_antisymm.
    + destruct (Hup p1 p2) as (q & Hq & Hqt & _); [by apply head_Some_elem_of|by apply head_Some_elem_of|].
      pose proof (tradeoff_head _ _ _ Ht Hp Hq). lia.
    + destruct (Hdown p) as (q1 & q2 & Hq1 & Hq2 & Hqt & _); [by apply head_Some_elem_of|].
      pose proof (tradeoff_head _ _ _ Ht1 Hp1 Hq1). pose proof (tradeoff_head _ _ _ Ht2 Hp2 Hq2). lia.
  - intros p p1 p2 Hp Hp1 Hp2. apply N.le_antisymm.
    + destruct (Hup p1 p2) as (q & Hq & _ & Hqt); [by apply last_Some_elem_of|by apply last_Some_elem_of|].
      pose proof (tradeoff_last _ _ _ Ht Hp Hq). lia.
    + destruct (Hdown p) as (q1 & q2 & Hq1 & Hq2 & _ & Hqt); [by apply last_Some_elem_of|].
      pose proof (tradeoff_last _ _ _ Ht1 Hp1 Hq1). pose proof (tradeoff_last _ _ _ Ht2 Hp2 Hq2). lia.
Qed.

(** Without search the steps of the second part follow those of the first part. *)
Lemma run_series_time :
  ∀ adj g g1 g2 env env1 env2 timeout timeout1 timeout2 nthreads nthreads1 nthreads2 bound bound1 bound2
    prob prob1 prob2 bd bd1 bd2 p p1 p2,
  wf_input adj g → wf_input adj g1 → wf_input adj g2 → series g1 g2 g →
  returns (λ fuel, run bd fuel env adj g false timeout nthreads bound prob) [p] →
  returns (λ fuel, run bd1 fuel env1 adj g1 false timeout1 nthreads1 bound1 prob1) [p1] →
  returns (λ fuel, run bd2 fuel env2 adj g2 false timeout2 nthreads2 bound2 prob2) [p2] →
  same_schedule (steps p) (steps p1 ++ steps p2) ∧ time p = time p1 + time p2 ∧
  (disconnected adj g1 g2 → space p = N.max (space p1) (space p2)).
Proof.
  intros adj g g1 g2 env env1 env2 timeout timeout1 timeout2 nthreads nthreads1 nthreads2 bound bound1 bound2
    prob prob1 prob2 bd bd1 bd2 p p1 p2 Hin Hin1 Hin2 Hse Hp Hp1 Hp2.
  destruct (time_optimal_greedy adj g bd p Hin Hp) as [(Hv & Ht & Hm) Hg].
  destruct (time_optimal_greedy adj _ bd1 p1 Hin1 Hp1) as [(Hv1 & Ht1 & Hm1) Hg1].
  destruct (time_optimal_greedy adj _ bd2 p2 Hin2 Hp2) as [(Hv2 & Ht2 & Hm2) Hg2].
  assert (same_schedule (steps p) (steps p1 ++ steps p2)) as E.
  { apply (greedy_unique g); [done| |done|eapply series_app; [done|apply Hin|done|done]].
    eapply series_greedy; [done|apply Hin2|apply Hin|done..]. }
  split; [done|]. split.
  - rewrite Ht, Ht1, Ht2. unfold time_cost. by rewrite (Forall2_length _ _ _ E), app_length.
  - intros Hd. assert (N.of_nat (length adj) < 2 ^ 64 - 1)%N as Hn by exact (proj2 (proj1 Hin)).
    rewrite Hm, Hm1, Hm2, (space_cost_same adj _ _ E), (series_space g1 g2 g Hse adj _ _ Hn Hd Hv1 Hv2). lia.
Qed.

(** ** Total orders *)

Lemma concat_singles (l : list nat) : concat (map (λ b, [b]) l) = l.
Proof. induction l as [|b l IH]; [done|]. simpl. by rewrite IH. Qed.

Lemma total_unique g l σ : total_order g l → valid_schedule g σ → σ = map (λ b, [b]) l.
Proof.
  intros (Hnd & Hl & Hlater) [Hσ Hc].
  assert (∀ k, k ≤ length l → take k σ = map (λ b, [b]) (take k l)) as Htake.
  { induction k as [|k IH]; intros Hk; [done|]. specialize (IH ltac:(lia)).
    destruct (lookup_lt_is_Some_2 l k) as (b & Hb); [lia|].
    assert (∀ i x, l !! i = Some x → x ∈ take k l → i < k) as Hpos.
    { intros i x Hi (j & Hj)%elem_of_list_lookup. apply lookup_take_Some in Hj as [Hj Hlt].
      by rewrite (NoDup_lookup _ _ _ _ Hnd Hi Hj). }
    assert (concat (take k σ) = take k l) as Ec by (rewrite IH; apply concat_singles).
    destruct (σ !! k) as [M|] eqn:HM.
    - assert (∀ x, x ∈ M → x = b) as HMb.
      { intros x Hx. assert (x ∈ l) as Hxl.
        { apply Hl, (lp_listed _ _ Hσ), elem_of_concat. exists M. split; [by eapply elem_of_list_lookup_2|done]. }
        apply elem_of_list_lookup in Hxl as (i & Hi).
        assert (¬ i < k) as Hik.
        { intros Hlt. apply (step_not_before g σ k M x Hσ HM Hx). rewrite Ec. apply elem_of_list_lookup.
          exists i. by rewrite lookup_take. }
        destruct (decide (i = k)) as [->|Hne]; [congruence|]. destruct i as [|i]; [lia|].
        destruct (lookup_lt_is_Some_2 l i) as (d & Hd); [apply lookup_lt_Some in Hi; lia|].
        pose proof (later_before g σ k M x d Hσ (Hlater i x d Hd Hi) HM Hx) as Hin. rewrite Ec in Hin.
        pose proof (Hpos i d Hd Hin). lia. }
      assert (M = [b]) as ->.
      { assert (NoDup M) as HndM.
        { pose proof (lp_once _ _ Hσ) as H. rewrite <- (take_drop_middle σ k M HM), concat_app in H.
          apply NoDup_app in H as (_ & _ & H). simpl in H. by apply NoDup_app in H as (H & _). }
        destruct M as [|x M]; [by destruct (lp_nonempty _ _ Hσ []); [eapply elem_of_list_lookup_2|]|].
        rewrite (HMb x) by left. destruct M as [|y M]; [done|]. exfalso.
        apply NoDup_cons in HndM as [H _]. apply H. rewrite (HMb x), (HMb y) by (left || (right; left)). left. }
      rewrite (take_S_r _ _ _ HM), (take_S_r _ _ _ Hb), map_app, IH. done.
    - exfalso. apply lookup_ge_None in HM. assert (b ∈ concat σ) as Hbσ.
      { apply Hc, Hl. by eapply elem_of_list_lookup_2. }
      rewrite <- (take_ge σ k), Ec in Hbσ by done. pose proof (Hpos k b Hb Hbσ). lia. }
  specialize (Htake (length l) (le_n _)). rewrite (take_ge l) in Htake by done.
  destruct (σ !! length l) as [M|] eqn:HM.
  - exfalso. destruct M as [|x M]; [by destruct (lp_nonempty _ _ Hσ []); [eapply elem_of_list_lookup_2|]|].
    apply (step_not_before g σ (length l) (x :: M) x Hσ HM); [left|]. rewrite Htake, concat_singles.
    apply Hl, (lp_listed _ _ Hσ), elem_of_concat. exists (x :: M). split; [by eapply elem_of_list_lookup_2|left].
  - apply lookup_ge_None in HM. by rewrite take_ge in Htake.
Qed.

(** If the dependencies order all qubits, there is nothing to optimize: every run, with
    whatever settings, returns the only path or nothing. *)
Lemma run_total :
  ∀ adj g l env do_search timeout nthreads bound prob bd fuel ps,
  wf_input adj g → (∀ l, e_hash_order env l ≡ₚ l) → total_order g l →
  run bd fuel env adj g do_search timeout nthreads bound prob = Some (Val ps) →
  let only := MkPath (length l) (N.of_nat (space_cost adj (map (λ b, [b]) l))) (map (λ b, [b]) l) in
  ps = [] ∨ ps = [only].
Proof.
  intros adj g l env do_search timeout nthreads bound prob bd fuel ps Hin Hho Hl Hr only.
  destruct (run_valid adj g env do_search timeout nthreads bound prob bd fuel _ Hin Hho Hr)
    as [(ps' & [= <-] & Hok & Ht)|[? _]]; [|done].
  assert (∀ p, p ∈ ps → p = only) as Hall.
  { intros p Hp. rewrite Forall_forall in Hok. destruct (Hok p Hp) as (Hv & Et & Em).
    pose proof (total_unique g l _ Hl Hv) as E. destruct p as [t m σ]. simpl in *. subst σ t m. unfold only. f_equal.
    unfold time_cost. apply map_length. }
  destruct ps as [|p [|q ps]]; [by left|right; by rewrite (Hall p) by left|]. exfalso.
  destruct (Ht 0 1 p q) as [H _]; [lia|done|done|]. rewrite (Hall p), (Hall q) in H by (left || (right; left)). lia.
Qed.

Lemma searched_total :
  ∀ adj g l ps, wf_input adj g → total_order g l → l ≠ [] → searched adj g ps →
  ps = [MkPath (length l) (N.of_nat (space_cost adj (map (λ b, [b]) l))) (map (λ b, [b]) l)].
Proof.
  intros adj g l ps Hin Hl Hne Hps. pose proof Hps as (env & timeout & nthreads & bound & bd & Hho & Hn & Hw & [f Hr]).
  destruct (run_total adj g l env true timeout nthreads bound None bd f ps Hin Hho Hl (Hr f (le_n _))) as [->|?]; [|done].
  apply searched_front in Hps as (_ & _ & Hc); [|done|].
  - destruct (time_optimal_path adj g Hin) as (p & _ & Hv & _). destruct (Hc _ Hv) as (q & Hq & _). by apply elem_of_nil in Hq.
  - destruct l as [|b l]; [done|]. exists b. destruct Hl as (_ & Hl & _). apply Hl. left.
Qed.

(** ** A wire: every qubit is joined with the next one and has to wait for the one before *)

Definition wire_order (n : nat) : order :=
  map (λ i, [(i, match i with 0 => [] | S j => [j] end)]) (seq 0 n).

Lemma wire_take n k : take k (wire_order n) = wire_order (min k n).
Proof.
  unfold wire_order. rewrite <- fmap_take. f_equal. apply list_eq. intros i.
  destruct (decide (i < k)) as [H|H]; [rewrite lookup_take by done|rewrite lookup_take_ge by lia].
  - destruct (decide (i < n)); [rewrite !lookup_seq_lt by lia; done|rewrite !lookup_seq_ge by lia; done].
  - by rewrite lookup_seq_ge by lia.
Qed.

Lemma wire_qubits n : qubits (wire_order n) = seq 0 n.
Proof.
  unfold qubits, wire_order. generalize 0. induction n as [|n IH]; intros s; [done|]. simpl. by rewrite IH.
Qed.

Lemma wire_entry n k layer b ds :
  wire_order n !! k = Some layer → (b, ds) ∈ layer → k < n ∧ b = k ∧ ds = match k with 0 => [] | S j => [j] end.
Proof.
  intros Hk Hb. unfold wire_order in Hk. apply list_lookup_fmap_inv in Hk as (i & -> & Hi).
  apply lookup_seq in Hi as [-> Hi]. apply elem_of_list_singleton in Hb as [= -> ->]. done.
Qed.

Lemma wire_wf n : (N.of_nat n < 2 ^ 64 - 1)%N → wf_input (line n) (wire_order n).
Proof.
  intros Hn. split; [by apply (line_wf n Hn)|]. rewrite line_length. split.
  - intros b. rewrite wire_qubits, elem_of_seq. lia.
  - rewrite wire_qubits. apply NoDup_seq.
  - intros b ds. destruct n as [|n]; simpl; [by intros ?%elem_of_nil|]. by intros [= -> ->]%elem_of_list_singleton.
  - intros k layer b ds Hk Hb. destruct (wire_entry _ _ _ _ _ Hk Hb) as (Hlt & -> & ->). split; [done|].
    split; [apply NoDup_singleton|]. intros d ->%elem_of_list_singleton. rewrite wire_take, wire_qubits, elem_of_seq. lia.
Qed.

Lemma wire_total n : total_order (wire_order n) (seq 0 n).
Proof.
  split; [apply NoDup_seq|]. split; [intros b; by rewrite listed_qubits, wire_qubits|].
  intros k b d [-> Hd]%lookup_seq [-> Hb]%lookup_seq. simpl in *. apply tc_once.
  exists [(S k, [k])], [k]. split; [|split; [left|left]].
  apply elem_of_list_fmap. exists (S k). split; [done|]. apply elem_of_seq. lia.
Qed.

Lemma wire_space n : 2 ≤ n → space_cost (line n) (map (λ b, [b]) (seq 0 n)) = 2.
Proof.
  intros Hn.
  assert (∀ k, concat (take k (map (λ b, [b]) (seq 0 n))) = take k (seq 0 n)) as Hc.
  { intros k. rewrite <- fmap_take. apply concat_singles. }
  assert (∀ k v, v ∈ take k (seq 0 n) ↔ v < k ∧ v < n) as Hin.
  { intros k v. rewrite elem_of_list_lookup. split.
    - intros (i & Hi). apply lookup_take_Some in Hi as [Hi ?]. apply lookup_seq in Hi as [-> ?]. simpl. lia.
    - intros [H1 H2]. exists v. rewrite lookup_take by done. apply lookup_seq. lia. }
  apply Nat.le_antisymm.
  - apply space_cost_lub. intros k Hk. unfold memory_at.
    assert (filter (occupies (line n) (map (λ b, [b]) (seq 0 n)) k) (seq 0 (length (line n))) ⊆+ [k; S k]) as H%submseteq_length; [|done].
    apply NoDup_submseteq; [apply NoDup_filter, NoDup_seq|]. intros v [[H1 H2] Hv]%elem_of_list_filter.
    rewrite Hc, Hin in H1. rewrite Hc in H2. rewrite line_length in Hv. apply elem_of_seq in Hv.
    rewrite !elem_of_cons, elem_of_nil. destruct H2 as [H2|(u & Hu & Hv')].
    + apply Hin in H2. lia.
    + apply Hin in Hu. apply line_neighbours in Hv'. lia.
  - etrans; [|apply (memory_space _ _ 0); rewrite map_length, seq_length; lia]. unfold memory_at.
    assert ([0; 1] ⊆+ filter (occupies (line n) (map (λ b, [b]) (seq 0 n)) 0) (seq 0 (length (line n)))) as H%submseteq_length; [|done].
    apply NoDup_submseteq; [apply NoDup_cons; split; [by rewrite elem_of_list_singleton|apply NoDup_singleton]|].
    intros v Hv. apply elem_of_list_filter. rewrite line_length, elem_of_seq.
    assert (v = 0 ∨ v = 1) as Hv' by (rewrite !elem_of_cons, elem_of_nil in Hv; tauto). clear Hv. split; [|lia].
    split; [by intros ?%elem_of_nil|]. rewrite Hc. destruct Hv' as [-> | ->].
    + left. apply Hin. lia.
    + right. exists 0. split; [apply Hin; lia|]. apply line_neighbours. lia.
Qed.

Lemma run_wire :
  ∀ n ps, 2 ≤ n → (N.of_nat n < 2 ^ 64 - 1)%N → searched (line n) (wire_order n) ps →
  ps = [MkPath n 2 (map (λ b, [b]) (seq 0 n))].
Proof.
  intros n ps Hn Hb Hps.
  rewrite (searched_total (line n) (wire_order n) (seq 0 n) ps (wire_wf n Hb) (wire_total n)); [|destruct n; [lia|done]|done].
  by rewrite wire_space, seq_length.
Qed.
