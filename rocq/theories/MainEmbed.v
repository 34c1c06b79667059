(** * Inputs that are contained in other inputs: results *)
From Verif Require Export EmbedSpec MainOrder.

Section embed.
  Context (f : nat → nat) (adj' : spacial) (g' : order) (adj : spacial) (g : order).
  Context (Hin' : wf_input adj' g') (E : embeds f adj' g' adj g).
  Context (Hn : (N.of_nat (length adj) < 2 ^ 64 - 1)%N).

  (** What a step of the large input measures of the small one. *)
  Definition pulled (A : list nat) : list nat := filter (λ b, f b ∈ A) (qubits g').
  Definition pullback (σ : schedule) : schedule := filter (λ M : step, M ≠ []) (map pulled σ).

  Lemma elem_of_pulled A b : b ∈ pulled A ↔ f b ∈ A ∧ listed g' b.
  Proof. unfold pulled. by rewrite elem_of_list_filter, listed_qubits. Qed.

  Lemma pullback_snoc σ M :
    pullback (σ ++ [M]) = pullback σ ++ (if decide (pulled M = []) then [] else [pulled M]).
  Proof.
    unfold pullback. rewrite map_app, filter_app. f_equal. simpl. rewrite filter_cons.
    destruct (decide (pulled M = [])) as [H|H]; [rewrite decide_False by auto|rewrite decide_True by done]; done.
  Qed.

  Lemma elem_of_pullback σ b : b ∈ concat (pullback σ) ↔ f b ∈ concat σ ∧ listed g' b.
  Proof.
    induction σ as [|M σ IH] using rev_ind.
    { simpl. rewrite !elem_of_nil. naive_solver. }
    rewrite pullback_snoc, !concat_app, !elem_of_app, IH. simpl. rewrite app_nil_r.
    pose proof (elem_of_pulled M b) as H. case_decide as D; simpl.
    - rewrite D in H. rewrite elem_of_nil in *. naive_solver.
    - rewrite app_nil_r, H. naive_solver.
  Qed.

  Lemma pullback_length σ : length (pullback σ) ≤ length σ.
  Proof. unfold pullback. etrans; [apply filter_length|]. by rewrite map_length. Qed.

  Lemma pullback_legal σ : legal_prefix g σ → legal_prefix g' (pullback σ).
  Proof.
    induction σ as [|M σ IH] using rev_ind; intros Hl.
    { split; simpl; try done; try by intros ? ?%elem_of_nil. constructor. }
    pose proof Hl as Hfull. apply legal_snoc in Hl as (Hl & Hne & Hnd & Hen). rewrite pullback_snoc.
    case_decide as D; [rewrite app_nil_r; by apply IH|].
    apply legal_snoc. split; [by apply IH|]. split; [done|].
    split; [apply NoDup_filter, (wf_nodup _ _ (proj2 Hin'))|].
    intros b [Hb Hbl]%elem_of_pulled. destruct (Hen _ Hb) as (H1 & H2 & H3). split; [done|]. split.
    - by intros [? _]%elem_of_pullback.
    - intros d Hd. apply elem_of_pullback. split.
      + assert (later g (f b) (f d)) as Hlater by (apply (em_later _ _ _ _ _ E); by apply tc_once).
        assert ((σ ++ [M]) !! length σ = Some M) as HM by (by rewrite lookup_app_r, Nat.sub_diag).
        pose proof (later_before _ _ _ _ _ _ Hfull Hlater HM Hb) as H. by rewrite take_app in H.
      + apply (wf_depends_listed _ _ _ _ (proj2 Hin') Hd).
  Qed.

  Lemma pullback_valid σ : valid_schedule g σ → valid_schedule g' (pullback σ).
  Proof.
    intros [Hl Hc]. split; [by apply pullback_legal|]. intros b Hb. apply elem_of_pullback. split; [|done].
    apply Hc. by apply (em_listed _ _ _ _ _ E).
  Qed.

  Lemma needed_pulled A v : needed adj' (pulled A) v → needed adj A (f v).
  Proof.
    intros [[? _]%elem_of_pulled|(u & [Hu Hl]%elem_of_pulled & Hv)]; [by left|]. right. exists (f u).
    split; [done|]. by apply (em_edges _ _ _ _ _ E).
  Qed.

  Lemma needed_listed A v : needed adj' (pulled A) v → listed g (f v) → listed g' v.
  Proof.
    intros [[_ Hl]%elem_of_pulled|(u & [_ Hl]%elem_of_pulled & Hv)] Hg; [done|]. by apply (em_kept _ _ _ _ _ E u v).
  Qed.

  Lemma needed_same A B v : (∀ b, b ∈ A ↔ b ∈ B) → needed adj' A v → needed adj' B v.
  Proof.
    intros H [Hv|(u & Hu & Hv)]; [left; by apply H|]. right. exists u. split; [by apply H|done].
  Qed.

  Lemma pullback_space σ : legal_prefix g σ → space_cost adj' (pullback σ) ≤ space_cost adj σ.
  Proof.
    assert (N.of_nat (length adj') < 2 ^ 64 - 1)%N as Hn' by exact (proj2 (proj1 Hin')).
    induction σ as [|M σ IH] using rev_ind; intros Hl; [done|].
    pose proof Hl as Hfull. apply legal_snoc in Hl as (Hl & _). specialize (IH Hl).
    rewrite pullback_snoc, (space_cost_snoc adj Hn). case_decide as D; [rewrite app_nil_r; lia|].
    rewrite (space_cost_snoc adj' Hn'). apply Nat.max_le_compat; [done|].
    unfold memory_at. apply (filter_length_inj _ _ f).
    2: { intros u v Hu Hv. by apply (em_inj _ _ _ _ _ E). }
    intros v Hv H. split; [by apply (em_range _ _ _ _ _ E)|]. revert H. unfold occupies.
    rewrite !take_app, !take_ge by (rewrite app_length; simpl; lia).
    rewrite !concat_app. simpl. rewrite !app_nil_r.
    intros [H1 H2]. apply (needed_same _ (pulled (concat σ ++ M))) in H2.
    2: { intros b. rewrite elem_of_app, elem_of_pullback, !elem_of_pulled, elem_of_app. naive_solver. }
    split; [|by apply needed_pulled].
    intros Hm. apply H1, elem_of_pullback. split; [done|]. eapply needed_listed; [done|].
    apply (lp_listed _ _ Hl), Hm.
  Qed.
End embed.

(** ** Whole runs *)

(** Whatever a run for the large input returns, an uninterrupted search for the small
    one returns something at least as good. *)
Lemma run_embeds :
  ∀ f adj' g' adj g qs env do_search timeout nthreads bound prob bd fuel ps,
  wf_input adj' g' → wf_input adj g → embeds f adj' g' adj g → (∃ b, listed g' b) →
  searched adj' g' qs → (∀ l, e_hash_order env l ≡ₚ l) →
  run bd fuel env adj g do_search timeout nthreads bound prob = Some (Val ps) →
  ∀ p, p ∈ ps → ∃ q, q ∈ qs ∧ time q ≤ time p ∧ (space q <= space p)%N.
Proof.
  intros f adj' g' adj g qs env do_search timeout nthreads bound prob bd fuel ps Hin' Hin E Hne Hqs Hho Hr p Hp.
  destruct (run_valid _ _ _ _ _ _ _ _ _ _ _ Hin Hho Hr) as [(ps' & [= <-] & Hok & _)|[? _]]; [|done].
  rewrite Forall_forall in Hok. destruct (Hok p Hp) as (Hv & Ht & Hm).
  apply searched_front in Hqs as (_ & _ & Hc); [|done|done].
  destruct (Hc (pullback f g' (steps p))) as (q & Hq & H1 & H2); [by eapply pullback_valid|].
  exists q. split; [done|]. rewrite Ht, Hm. unfold time_cost in *.
  pose proof (pullback_length f g' (steps p)) as Hlen.
  pose proof (pullback_space f adj' g' adj g Hin' E (proj2 (proj1 Hin)) (steps p) (vs_legal _ _ Hv)). split; lia.
Qed.

(** Without search the number of steps is the least one already. *)
Lemma run_embeds_time :
  ∀ f adj' g' adj g env' timeout' nthreads' bound' prob' bd' q env do_search timeout nthreads bound prob bd fuel ps,
  wf_input adj' g' → wf_input adj g → embeds f adj' g' adj g →
  returns (λ fuel, run bd' fuel env' adj' g' false timeout' nthreads' bound' prob') [q] →
  (∀ l, e_hash_order env l ≡ₚ l) →
  run bd fuel env adj g do_search timeout nthreads bound prob = Some (Val ps) →
  ∀ p, p ∈ ps → time q ≤ time p.
Proof.
  intros f adj' g' adj g env' timeout' nthreads' bound' prob' bd' q env do_search timeout nthreads bound prob bd fuel ps
    Hin' Hin E Hq Hho Hr p Hp.
  destruct (run_valid _ _ _ _ _ _ _ _ _ _ _ Hin Hho Hr) as [(ps' & [= <-] & Hok & _)|[? _]]; [|done].
  rewrite Forall_forall in Hok. destruct (Hok p Hp) as (Hv & Ht & _).
  destruct (time_optimal_valid adj' g' Hin') as (q' & Hq' & _ & Hle & _).
  assert (q = q') as ->.
  { destruct Hq as [f1 H1]. destruct (Hq' bd') as [f2 H2]. specialize (H1 (max f1 f2) ltac:(lia)).
    specialize (H2 (max f1 f2) ltac:(lia)). cbn in H1. congruence. }
  etrans; [by apply Hle, (pullback_valid f adj' g' adj g Hin' E)|]. rewrite Ht. apply pullback_length.
Qed.
