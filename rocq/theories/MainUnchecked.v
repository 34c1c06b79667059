(** * From files to files, whatever the files contain *)
From stdpp Require Import strings.
From Verif Require Import MainFiles MainChecked BuildsFacts MainDangling.
From Verif Require Export MainCli Measured Dangling.

Lemma without_spacial adj : (N.of_nat (length adj) < 2 ^ 64 - 1)%N → wf_spacial (without_dangling adj).
Proof.
  intros Hn. split; [|by rewrite without_length]. intros ns v Hns Hv.
  rewrite without_length. apply elem_of_list_fmap in Hns as (ms & -> & _). by apply elem_of_list_filter in Hv as [Hv _].
Qed.

Lemma without_neighbours adj u v : v < length adj → v ∈ neighbours (without_dangling adj) u ↔ v ∈ neighbours adj u.
Proof.
  intros Hv. unfold neighbours, without_dangling. rewrite list_lookup_fmap.
  destruct (adj !! u) as [ns|]; simpl; [|done]. rewrite elem_of_list_filter. naive_solver.
Qed.

Lemma without_space adj σ : space_cost (without_dangling adj) σ = space_cost adj σ.
Proof.
  unfold space_cost. f_equal. apply map_ext. intros k. unfold memory_at. rewrite without_length.
  f_equal. apply filter_length_ext_in. intros v Hv. apply elem_of_seq in Hv.
  unfold occupies, needed. split; (intros [H1 H2]; split; [exact H1|]); destruct H2 as [H2|(u & Hu & H2)]; [by left| |by left|];
    right; exists u; (split; [done|]); by (apply without_neighbours; [lia|]) || (apply without_neighbours in H2; [done|lia]).
Qed.

(** No assumption about the spacial graph but its size. *)
Lemma unchecked_run :
  ∀ adj g fuel env do_search timeout nthreads bound prob ps,
  (N.of_nat (length adj) < 2 ^ 64 - 1)%N → (∀ l, e_hash_order env l ≡ₚ l) →
  run Debug fuel env adj g do_search timeout nthreads bound prob = Some (Val ps) →
  Forall (measured_once adj) ps ∧ tradeoff ps ∧
  ∀ p b, p ∈ ps → b ∈ concat (steps p) → ¬ dangling adj b.
Proof.
  intros adj g fuel env do_search timeout nthreads bound prob ps Hn Hho Hr.
  pose proof (dangling_value _ _ _ _ _ _ _ _ _ _ _ Hr) as Hr'.
  destruct (checked_run _ _ _ _ _ _ _ _ _ _ (without_spacial adj Hn) Hho Hr') as [Hm Ht].
  split; [|split; [exact Ht|]].
  - eapply Forall_impl; [exact Hm|]. intros p [H1 H2 H3 H4 H5].
    rewrite without_length in H2. rewrite without_space in H5. by split.
  - intros p b. by eapply dangling_never.
Qed.

Lemma measured_fits adj p : (N.of_nat (length adj) < 2 ^ 64 - 1)%N → measured_once adj p →
  time p ≤ length adj ∧ path_fits p ∧ spacial_lengths (steps p).
Proof.
  intros Hn [H1 H2 H3 H4 H5].
  assert (length (concat (steps p)) ≤ length adj) as Hl.
  { rewrite <- (seq_length (length adj) 0). apply submseteq_length, NoDup_submseteq; [done|].
    intros b Hb. apply elem_of_seq. specialize (H2 b Hb). lia. }
  assert (length (steps p) ≤ length adj) as Hs.
  { etransitivity; [|exact Hl]. clear -H3. induction (steps p) as [|S σ IH]; [done|].
    apply not_elem_of_cons in H3 as [HS H3]. simpl. rewrite app_length.
    destruct S; [done|]. simpl. specialize (IH H3). lia. }
  assert (∀ n, n ≤ length adj → fits (N.of_nat n)) as Hf by (intros n Hle; unfold fits; lia).
  pose proof (space_cost_le adj Hn (steps p)) as Hsp. unfold time_cost in H4.
  split; [lia|]. split.
  - split; [apply Hf; lia|]. split; [rewrite H5; by apply Hf|].
    intros l v Hl' Hv. apply Hf. assert (v ∈ concat (steps p)) as Hc by (apply elem_of_concat; by exists l).
    apply H2 in Hc. lia.
  - split; [by apply Hf|]. intros l Hl'. apply Hf. pose proof (concat_element _ _ Hl'). lia.
Qed.

Lemma tradeoff_length ps n : tradeoff ps → (∀ p, p ∈ ps → time p ≤ n) → length ps ≤ S n.
Proof.
  intros Ht Hn.
  assert (∀ i p, ps !! i = Some p → i ≤ time p) as Hi.
  { induction i as [|i IH]; intros p Hp; [lia|].
    assert (is_Some (ps !! i)) as [q Hq] by (apply lookup_lt_is_Some; apply lookup_lt_Some in Hp; lia).
    pose proof (Ht i (S i) q p ltac:(lia) Hq Hp) as [H1 _]. specialize (IH q Hq). lia. }
  destruct (decide (length ps ≤ S n)) as [|Hl]; [done|]. exfalso.
  destruct (lookup_lt_is_Some_2 ps (S n)) as [p Hp]; [lia|].
  specialize (Hi _ _ Hp). apply elem_of_list_lookup_2, Hn in Hp. lia.
Qed.

(** Debug builds. *)
Lemma files_unchecked :
  ∀ fuel env os fs args fs' adj,
  stored json_spacial_text bin_spacial_text os fs (a_spacial_graph args) (a_spacial_graph_format args) adj →
  (N.of_nat (length adj) < 2 ^ 64 - 1)%N → (∀ l, e_hash_order env l ≡ₚ l) →
  main Debug fuel env (with_codecs os) fs args = Some (Val fs') →
  (∃ ps, paths_in fs' (a_paths args) (a_paths_format args) = Some ps ∧
     Forall (measured_once adj) ps ∧ tradeoff ps ∧
     ∀ p b, p ∈ ps → b ∈ concat (steps p) → ¬ dangling adj b) ∧
  (∀ q, q ≠ a_paths args → f_contents fs' !! q = f_contents fs !! q) ∧
  main Release fuel env (with_codecs os) fs args = Some (Val fs').
Proof.
  intros fuel env os fs args fs' adj Ha Hn Hho Hm. apply stored_spacial in Ha.
  apply main_exit in Hm. pose proof Hm as Hm'.
  apply run_serialized_outcome in Hm as [Hq (adj' & g & ps & b & Ha' & Hg & Hr & Hb & Hfs)].
  assert (adj' = adj) as ->.
  { apply deserialize_spec in Ha, Ha'. unfold holds_spacial in *. simpl in *. congruence. }
  destruct (unchecked_run _ _ _ _ _ _ _ _ _ _ Hn Hho Hr) as (H1 & H2 & H3).
  split; [|split; [exact Hq|]].
  - exists ps. split; [|done]. eapply encoding_read_back; [exact Hb|exact Hfs| |].
    + assert (length ps ≤ S (length adj)) as Hl.
      { apply tradeoff_length; [done|]. intros p Hp. rewrite Forall_forall in H1. by apply measured_fits, H1. }
      unfold fits. lia.
    + eapply Forall_impl; [exact H1|]. intros p Hp. by eapply measured_fits.
  - apply main_exit. rewrite (run_serialized_run _ _ _ _ _ _ _ _ _ _ _ _ _ adj g Ha Hg), Hr in Hm'.
    by rewrite (run_serialized_run _ _ _ _ _ _ _ _ _ _ _ _ _ adj g Ha Hg), (builds_agree _ _ _ _ _ _ _ _ _ _ Hr).
Qed.

(** Both builds: if a qubit that is to be measured has a neighbour that is not a
    node, the only result that is ever written is the empty list. *)
Lemma files_nothing :
  ∀ bd fuel env os fs args fs' adj g b,
  stored json_spacial_text bin_spacial_text os fs (a_spacial_graph args) (a_spacial_graph_format args) adj →
  stored json_order_text bin_order_text os fs (a_dependency_graph args) (a_dependency_graph_format args) g →
  wf_order (length adj) g → (N.of_nat (length adj) < 2 ^ 64 - 1)%N → (∀ l, e_hash_order env l ≡ₚ l) →
  listed g b → dangling adj b →
  main bd fuel env (with_codecs os) fs args = Some (Val fs') →
  paths_in fs' (a_paths args) (a_paths_format args) = Some [] ∧
  a_search args = true ∧ (a_timeout args ≠ None ∨ a_probabilistic args = true).
Proof.
  intros bd fuel env os fs args fs' adj g b Ha Hg Hwf Hn Hho Hb Hd Hm.
  apply stored_spacial in Ha. apply stored_order in Hg. apply main_exit in Hm.
  apply run_serialized_outcome in Hm as [_ (adj' & g' & ps & c & Ha' & Hg' & Hr & Hc & Hfs)].
  assert (adj' = adj) as ->.
  { apply deserialize_spec in Ha, Ha'. unfold holds_spacial in *. simpl in *. congruence. }
  assert (g' = g) as ->.
  { apply deserialize_spec in Hg, Hg'. simpl in *. congruence. }
  assert (ps = []) as -> by (by eapply dangling_nothing).
  split; [eapply encoding_read_back; [exact Hc|exact Hfs|by vm_compute|constructor]|].
  destruct (a_search args) eqn:Es.
  2:{ exfalso. pose proof (dangling_time_optimal bd adj g env
        (option_map (λ t, N.to_nat (t * 10 ^ 9)) (a_timeout args)) (a_nthreads args) (a_task_bound args)
        (option_map (λ f, (f, None)) (if a_probabilistic args then Some BuiltinHeavyside else None)) b Hwf Hn Hb Hd) as Hf.
      assert (finishes (λ fuel, get_time_optimal bd fuel adj g) (Val [])) as Hf'.
      { eapply finishes_of; [|exact Hr]. intros. by eapply get_time_optimal_mono. }
      by pose proof (finishes_det _ _ _ Hf Hf'). }
  split; [done|]. destruct (a_timeout args) eqn:Et; [by left|]. right.
  destruct (a_probabilistic args); [done|]. exfalso. simpl option_map in Hr.
  destruct (decide (2 ≤ a_nthreads args)) as [Hth|Hth].
  { by pose proof (dangling_threaded _ _ _ _ _ _ _ _ _ b Hwf Hn Hho Hb Hd Hth (or_introl eq_refl) Hr). }
  pose proof (dangling_search bd adj g env None (a_nthreads args) (a_task_bound args) b Hwf Hn Hho Hb Hd ltac:(lia) I) as Hf.
  assert (returns (λ fuel, run bd fuel env adj g true None (a_nthreads args) (a_task_bound args) None) []) as Hf'.
  { eapply finishes_of; [|exact Hr]. unfold run. simpl. unfold search.
    rewrite (proj2 (Nat.ltb_lt (a_nthreads args) 2)) by lia.
    cbn [w_fuel w_timer w_hash_order world_of]. intros. by eapply search_single_mono. }
  by pose proof (finishes_det _ _ _ Hf Hf').
Qed.

Lemma program_unchecked :
  ∀ fuel env os fs argv fs' a adj, asks argv a →
  stored json_spacial_text bin_spacial_text os fs (a_spacial_graph a) (a_spacial_graph_format a) adj →
  (N.of_nat (length adj) < 2 ^ 64 - 1)%N → (∀ l, e_hash_order env l ≡ₚ l) →
  program Debug fuel env (with_codecs os) fs argv = Some (Val (Ran fs')) →
  (∃ ps, paths_in fs' (a_paths a) (a_paths_format a) = Some ps ∧
     Forall (measured_once adj) ps ∧ tradeoff ps ∧
     ∀ p b, p ∈ ps → b ∈ concat (steps p) → ¬ dangling adj b) ∧
  (∀ q, q ≠ a_paths a → f_contents fs' !! q = f_contents fs !! q) ∧
  program Release fuel env (with_codecs os) fs argv = Some (Val (Ran fs')).
Proof.
  intros fuel env os fs argv fs' a adj Hask Ha Hn Hho Hp.
  rewrite (proj1 (program_outcome Debug _ _ _ _ _) _ Hask) in Hp.
  destruct (main Debug _ _ _ _ _) as [[fs1|]|] eqn:Hm; [|done..]. injection Hp as <-.
  destruct (files_unchecked _ _ _ _ _ _ _ Ha Hn Hho Hm) as (H1 & H2 & H3).
  split; [done|]. split; [done|].
  rewrite (proj1 (program_outcome Release _ _ _ _ _) _ Hask). by rewrite H3.
Qed.
