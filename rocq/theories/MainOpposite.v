(** * The opposite order: results *)
From Verif Require Export MainOrder.

Lemma concat_reverse (σ : schedule) : concat (reverse σ) ≡ₚ concat σ.
Proof.
  induction σ as [|M σ IH]; [done|]. rewrite reverse_cons, concat_app. simpl. rewrite app_nil_r, IH. apply Permutation_app_comm.
Qed.

Lemma once_same_step (σ : schedule) i j A B b :
  NoDup (concat σ) → σ !! i = Some A → σ !! j = Some B → b ∈ A → b ∈ B → i = j.
Proof.
  intros Hnd HA HB HbA HbB. destruct (decide (i = j)) as [|Hne]; [done|]. exfalso.
  assert (∀ i j A B, i < j → σ !! i = Some A → σ !! j = Some B → b ∈ A → b ∈ B → False) as H.
  { clear i j A B HA HB HbA HbB Hne. intros i j A B Hij HA HB HbA HbB.
    rewrite <- (take_drop_middle _ _ _ HB), concat_app in Hnd. apply NoDup_app in Hnd as (_ & Hnd & _).
    apply (Hnd b); [|cbn; apply elem_of_app; by left]. apply elem_of_concat. exists A. split; [|done].
    apply elem_of_list_lookup. exists i. by apply lookup_take_Some. }
  destruct (decide (i < j)); [by eapply (H i j)|eapply (H j i); [lia|done..]].
Qed.

Lemma opposite_valid g g' σ : opposite_order g g' → valid_schedule g σ → valid_schedule g' (reverse σ).
Proof.
  intros [Hl Ho] [Hs Hc]. split; [split|].
  - intros M HM. apply (lp_nonempty _ _ Hs M). by rewrite elem_of_reverse in HM.
  - rewrite concat_reverse. apply (lp_once _ _ Hs).
  - intros b Hb. rewrite concat_reverse in Hb. by apply Hl, (lp_listed _ _ Hs).
  - intros k M b d HM Hb Hd. assert (later g d b) as Hlater by (apply Ho; by apply tc_once).
    assert (d ∈ concat σ) as Hdσ.
    { apply Hc. inversion Hlater as [? ? H|? ? ? H _]; subst; destruct H as (l & ds & Hll & Hdl & _);
        exists l, ds; done. }
    apply elem_of_concat in Hdσ as (M' & HM' & HdM'). apply elem_of_list_lookup in HM' as (j & Hj).
    pose proof (later_before _ _ _ _ _ _ Hs Hlater Hj HdM') as Hbefore.
    apply elem_of_concat in Hbefore as (M'' & HM'' & HbM''). apply elem_of_list_lookup in HM'' as (i & Hi).
    apply lookup_take_Some in Hi as [Hi Hij].
    pose proof (lookup_lt_Some _ _ _ Hj) as Hjl. pose proof (lookup_lt_Some _ _ _ HM) as Hkl. rewrite reverse_length in Hkl.
    rewrite reverse_lookup in HM by done.
    assert (length σ - S k = i) as Ek by (eapply once_same_step; [apply (lp_once _ _ Hs)|done..]).
    apply elem_of_concat. exists M'. split; [|done]. apply elem_of_list_lookup. exists (length σ - S j).
    apply lookup_take_Some. split; [|lia]. rewrite reverse_lookup by lia.
    by replace (length σ - S (length σ - S j)) with j by lia.
  - intros b Hb. rewrite concat_reverse. by apply Hc, Hl.
Qed.

Lemma opposite_sym g g' : opposite_order g g' → opposite_order g' g.
Proof. intros [Hl Ho]. split; [intros b; by rewrite Hl|]. intros b d. by rewrite Ho. Qed.

(** The least number of steps is the same. *)
Lemma run_opposite_time :
  ∀ adj adj' g g' env env' timeout timeout' nthreads nthreads' bound bound' prob prob' bd bd' p p',
  wf_input adj g → wf_input adj' g' → opposite_order g g' →
  returns (λ fuel, run bd fuel env adj g false timeout nthreads bound prob) [p] →
  returns (λ fuel, run bd' fuel env' adj' g' false timeout' nthreads' bound' prob') [p'] →
  time p = time p'.
Proof.
  intros adj adj' g g' env env' timeout timeout' nthreads nthreads' bound bound' prob prob' bd bd' p p' Hin Hin' Ho Hp Hp'.
  assert (∀ A (f : nat → option (out A)) x y, returns f x → returns f y → x = y) as Hu.
  { intros A f x y [f1 H1] [f2 H2]. specialize (H1 (max f1 f2) ltac:(lia)).
    specialize (H2 (max f1 f2) ltac:(lia)). congruence. }
  destruct (time_optimal_valid adj g Hin) as (q & Hq & (Hv & Et & _) & Hle & _).
  destruct (time_optimal_valid adj' g' Hin') as (q' & Hq' & (Hv' & Et' & _) & Hle' & _).
  pose proof (Hu _ _ _ _ Hp (Hq bd)) as [= ->]. pose proof (Hu _ _ _ _ Hp' (Hq' bd')) as [= ->].
  pose proof (Hle _ (opposite_valid g' g _ (opposite_sym _ _ Ho) Hv')) as H1.
  pose proof (Hle' _ (opposite_valid g g' _ Ho Hv)) as H2.
  rewrite Et, Et' in *. unfold time_cost in *. rewrite reverse_length in *. lia.
Qed.

(** A path of any run, backwards, is a schedule for the opposite order. *)
Lemma run_opposite_valid :
  ∀ adj g g' env do_search timeout nthreads bound prob bd fuel ps p,
  wf_input adj g → (∀ l, e_hash_order env l ≡ₚ l) → opposite_order g g' →
  run bd fuel env adj g do_search timeout nthreads bound prob = Some (Val ps) → p ∈ ps →
  valid_schedule g' (reverse (steps p)).
Proof.
  intros adj g g' env do_search timeout nthreads bound prob bd fuel ps p Hin Hho Ho H Hp.
  destruct (run_valid _ _ _ _ _ _ _ _ _ _ _ Hin Hho H) as [(ps' & [= <-] & Hok & _)|[? _]]; [|done].
  rewrite Forall_forall in Hok. apply (opposite_valid g g'); [done|]. apply Hok, Hp.
Qed.
