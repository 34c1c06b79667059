(** * The default accept function and several threads: whole runs and benchmarks *)
From stdpp Require Import strings.
From Verif Require Export MainBenchmark MainThreadedDefault LocksInterface.
From Verif Require Import Spec.

(** ** Whole runs *)

Lemma run_default_nonempty :
  ∀ adj g env timeout nthreads bound seed bd fuel o,
  wf_input adj g → (∀ l, e_hash_order env l ≡ₚ l) → (∃ b, listed g b) → 2 ≤ nthreads →
  exp_function (e_exp env) → exp_near_zero (e_exp env) → length adj ≤ 1000 →
  run bd fuel env adj g true timeout nthreads bound (Some (accept_func_default, seed)) = Some o →
  ∃ p ps, o = Val (p :: ps).
Proof.
  intros adj g env timeout nthreads bound seed bd fuel o Hin Hho Hl Hn H1 H2 Hlen H.
  unfold run in H. simpl negb in H. cbv iota in H.
  eapply threaded_default_nonempty; [exact Hin|exact Hn| |exact Hl|exact H1|exact H2|exact Hlen|exact H].
  exact Hho.
Qed.

Lemma moves_default_nonempty :
  ∀ adj g nthreads exp bound bd debug ms ho smp o,
  wf_input adj g → 2 ≤ nthreads → (∀ l, ho l ≡ₚ l) → (∃ b, listed g b) →
  exp_function exp → exp_near_zero exp → length adj ≤ 1000 →
  fine_search bd debug ms ho adj g nthreads
    (Some (get_accept_func exp accept_func_default, smp)) bound = Some o →
  ∃ p ps, o = Val (p :: ps).
Proof.
  intros adj g nthreads exp bound bd debug ms ho smp o Hin Hn Hho Hl H1 H2 Hlen H.
  destruct (fine_to_coarse bd debug ms (mkWorld 0 (λ _, false) [] ho smp) adj g nthreads
    (Some (get_accept_func exp accept_func_default)) bound o Hn H) as (fuel & es & _ & Hs).
  by eapply (threaded_default_nonempty adj g nthreads exp bound bd (mkWorld fuel (λ _, false) es ho smp) o).
Qed.

(** ** Benchmarks *)

(** The exponential function of the approximate search of a shot. *)
Definition shot_exp (shot : Shot) : Prop :=
  exp_function (e_exp (sh_approx shot)) ∧ exp_near_zero (e_exp (sh_approx shot)).

(** Every kind of path has been recorded. *)
Definition sample_full (get_full : bool) (r : Sample) : Prop :=
  is_Some (s_approx r) ∧ (get_full = true → is_Some (s_full_first r) ∧ is_Some (s_full_last r)).

Lemma from_shot_full bd fuel induced rng size ed cd timeout get_full k shot r k' :
  1 ≤ size ≤ 1000 → shot_ok shot → shot_exp shot → sample_ok size get_full r →
  from_shot bd fuel induced rng size ed cd timeout get_full k shot r k' → sample_full get_full r.
Proof.
  intros Hs (Hho & _) [H1 H2] Hr (k1 & k2 & ps2 & _ & _ & _ & _ & Hrun & Hlast & _).
  pose proof (so_simple _ _ _ Hr) as Hsimple. split.
  - assert (wf_input (s_adj r) (s_order r)) as Hin.
    { assert (N.of_nat size < 2 ^ 64 - 1)%N by lia. split; [by eapply simple_wf|]. destruct Hsimple as (-> & _). exact (so_order _ _ _ Hr). }
    assert (length (s_adj r) = size) as Hlen by (by destruct Hsimple).
    destruct (run_default_nonempty (s_adj r) (s_order r) (sh_approx shot) (Some (N.to_nat timeout)) NCPUS None
      (Some (r_u64 rng k2)) bd fuel (Val ps2)) as (p & ps & [= ->]); [done|done| |unfold NCPUS; lia|done|done|lia|done|].
    { exists 0. apply (so_listed _ _ _ Hr). lia. }
    rewrite Hlast, last_cons. by destruct (last ps).
  - intros Hg. destruct (so_full _ _ _ Hr Hg) as (p & q & -> & -> & _); [lia|done].
Qed.

Lemma series_full bd fuel induced rng size ed cd timeout get_full k shots rs k' :
  1 ≤ size ≤ 1000 → Forall shot_ok shots → Forall shot_exp shots → Forall (sample_ok size get_full) rs →
  series (from_shot bd fuel induced rng size ed cd timeout get_full) k shots rs k' →
  Forall (sample_full get_full) rs.
Proof.
  intros Hs Hok. revert k rs. induction Hok as [|shot shots Hok Hoks IH]; intros k [|r rs] He Hr H; cbn in H; try done.
  destruct H as (k1 & H1 & H). inversion_clear He. inversion_clear Hr. constructor; [by eapply from_shot_full|by eapply IH].
Qed.

Lemma times_of_full f rs : Forall (λ r, is_Some (f r)) rs → length (times_of f rs) = length rs.
Proof.
  unfold times_of. induction 1 as [|r rs [p Hp] _ IH]; [done|]. simpl. rewrite Hp. cbn [length]. by f_equal.
Qed.
Lemma spaces_of_full f rs : Forall (λ r, is_Some (f r)) rs → length (spaces_of f rs) = length rs.
Proof.
  unfold spaces_of. induction 1 as [|r rs [p Hp] _ IH]; [done|]. simpl. rewrite Hp. cbn [length]. by f_equal.
Qed.

Lemma columns_full get_full rs :
  Forall (sample_full get_full) rs → Forall (λ col, length col = length rs) (columns get_full rs).
Proof.
  intros H. assert (Forall (λ r, is_Some (s_approx r)) rs) as H1 by (eapply Forall_impl; [exact H|by intros ? [? _]]).
  unfold columns. destruct get_full.
  - assert (Forall (λ r, is_Some (s_full_first r)) rs) as H2
      by (eapply Forall_impl; [exact H|by intros ? [_ Hf]; apply Hf]).
    assert (Forall (λ r, is_Some (s_full_last r)) rs) as H3
      by (eapply Forall_impl; [exact H|by intros ? [_ Hf]; apply Hf]).
    repeat constructor; first [apply times_of_full|apply spaces_of_full]; try done;
      apply Forall_forall; intros; done.
  - repeat constructor; first [apply times_of_full|apply spaces_of_full]; try done;
      apply Forall_forall; intros; done.
Qed.

Lemma measured_full bd fuel induced rng size ed cd timeout get_full shots k rs times k' :
  1 ≤ size ≤ 1000 → (∀ i, shot_ok (shots i)) → (∀ i, shot_exp (shots i)) →
  measured bd fuel induced rng size ed cd timeout get_full shots k rs times k' →
  Forall (λ col, N.of_nat (length col) = 3000%N) (columns get_full rs).
Proof.
  intros Hs Hok He (Hlen & Hrs & Hser & _).
  assert (Forall shot_ok (map shots (seq 0 (N.to_nat 3000)))) as H1 by (apply Forall_map, Forall_forall; intros; apply Hok).
  assert (Forall shot_exp (map shots (seq 0 (N.to_nat 3000)))) as H2 by (apply Forall_map, Forall_forall; intros; apply He).
  eapply Forall_impl; [apply columns_full; by eapply series_full|]. cbn beta. by intros col ->.
Qed.
