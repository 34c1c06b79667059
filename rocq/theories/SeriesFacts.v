(** * Inputs one part of which has to wait for the other: the schedules *)
From Verif Require Export SeriesSpec MainParts.

Lemma wf_depends_listed n g b d : wf_order n g → depends g b d → listed g b ∧ listed g d.
Proof.
  intros Hwf (layer & ds & Hl & Hb & Hd). split; [by exists layer, ds|].
  apply elem_of_list_lookup in Hl as (k & Hk). destruct k as [|k].
  - destruct g as [|l0 g]; [done|]. injection Hk as ->.
    rewrite (wf_first _ _ Hwf b ds Hb) in Hd. by apply elem_of_nil in Hd.
  - destruct (wf_later _ _ Hwf k layer b ds Hk Hb) as (_ & _ & H). specialize (H d Hd).
    apply listed_qubits. unfold qubits in *. rewrite elem_of_list_fmap in *. destruct H as (e & -> & He).
    exists e. split; [done|]. apply elem_of_concat in He as (l & Hl & He). apply elem_of_concat. exists l. split; [|done].
    apply elem_of_list_lookup in Hl as (j & Hj). apply lookup_take_Some in Hj as [Hj _].
    by eapply elem_of_list_lookup_2.
Qed.

Lemma later_before g σ k M b d :
  legal_prefix g σ → later g b d → σ !! k = Some M → b ∈ M → d ∈ concat (take k σ).
Proof.
  intros Hl Hd. revert k M. induction Hd as [b d Hd|b m d Hm Hd IH]; intros k M HM Hb.
  - by apply (lp_order _ _ Hl k M b d).
  - pose proof (lp_order _ _ Hl k M b m HM Hb Hm) as Hm'.
    apply elem_of_concat in Hm' as (M' & HM' & Hm'). apply elem_of_list_lookup in HM' as (j & Hj).
    apply lookup_take_Some in Hj as [Hj Hlt]. specialize (IH j M' Hj Hm').
    apply elem_of_concat in IH as (M'' & HM'' & Hd'). apply elem_of_concat. exists M''. split; [|done].
    apply elem_of_list_lookup in HM'' as (i & Hi). apply lookup_take_Some in Hi as [Hi Hlt'].
    apply elem_of_list_lookup. exists i. apply lookup_take_Some. split; [done|lia].
Qed.

Section series.
  Context (n : nat) (g1 g2 g : order) (Hse : series g1 g2 g).
  Context (Hw1 : wf_order n g1) (Hw2 : wf_order n g2) (Hw : wf_order n g).

  Lemma series_app σ1 σ2 : valid_schedule g1 σ1 → valid_schedule g2 σ2 → valid_schedule g (σ1 ++ σ2).
  Proof.
    intros [H1 C1] [H2 C2]. split; [split|].
    - intros M [HM|HM]%elem_of_app; [by apply (lp_nonempty _ _ H1)|by apply (lp_nonempty _ _ H2)].
    - rewrite concat_app. apply NoDup_app. split; [apply H1|]. split; [|apply H2].
      intros b Hb Hb'. apply (se_apart _ _ _ Hse b); [by apply (lp_listed _ _ H1)|by apply (lp_listed _ _ H2)].
    - intros b. rewrite concat_app, elem_of_app, (se_listed _ _ _ Hse).
      intros [Hb|Hb]; [left; by apply (lp_listed _ _ H1)|right; by apply (lp_listed _ _ H2)].
    - intros k M b d HM Hb Hd. destruct (decide (k < length σ1)) as [Hk|Hk].
      + rewrite lookup_app_l in HM by done. rewrite take_app_le by lia.
        apply (lp_order _ _ H1 k M b d); [done|done|]. apply (se_first _ _ _ Hse); [|done].
        apply (lp_listed _ _ H1), elem_of_concat. exists M. split; [by eapply elem_of_list_lookup_2|done].
      + rewrite lookup_app_r in HM by lia. rewrite take_app_ge by lia. rewrite concat_app, elem_of_app.
        assert (listed g2 b) as Hlb.
        { apply (lp_listed _ _ H2), elem_of_concat. exists M. split; [by eapply elem_of_list_lookup_2|done]. }
        pose proof (wf_depends_listed n g b d Hw Hd) as [_ Hld]. apply (se_listed _ _ _ Hse) in Hld as [Hld|Hld].
        * left. by apply C1.
        * right. apply (lp_order _ _ H2 _ M b d HM); [done|]. by apply (se_second _ _ _ Hse).
    - intros b. rewrite concat_app, elem_of_app, (se_listed _ _ _ Hse). intros [Hb|Hb]; [left; by apply C1|right; by apply C2].
  Qed.

  Lemma series_cut σ k :
    legal_prefix g σ → (∀ b, b ∈ concat (take k σ) → listed g1 b) → (∀ b, listed g1 b → b ∈ concat (take k σ)) →
    (∀ b, listed g b → b ∈ concat σ) →
    valid_schedule g1 (take k σ) ∧ valid_schedule g2 (drop k σ).
  Proof.
    intros Hl Hk1 Hk2 Hc. pose proof (take_drop k σ) as Htd.
    pose proof (lp_once _ _ Hl) as Hnd. rewrite <- Htd, concat_app in Hnd. apply NoDup_app in Hnd as (Hnd1 & Hnd2 & Hnd3).
    assert (∀ b, b ∈ concat (drop k σ) → listed g2 b) as Hd2.
    { intros b Hb. assert (listed g b) as Hlb.
      { apply (lp_listed _ _ Hl). rewrite <- Htd, concat_app. apply elem_of_app. by right. }
      apply (se_listed _ _ _ Hse) in Hlb as [Hlb|?]; [|done]. destruct (Hnd2 b); [by apply Hk2|done]. }
    split; split; [split| |split|].
    - intros M HM. apply (lp_nonempty _ _ Hl). rewrite <- Htd. apply elem_of_app. by left.
    - done.
    - done.
    - intros j M b d HM Hb Hd. apply lookup_take_Some in HM as [HM Hj]. rewrite take_take, Nat.min_l by lia.
      apply (lp_order _ _ Hl j M b d); [done|done|]. apply (se_first _ _ _ Hse); [|done].
      by apply (wf_depends_listed n g1 b d Hw1).
    - done.
    - intros M HM. apply (lp_nonempty _ _ Hl). rewrite <- Htd. apply elem_of_app. by right.
    - done.
    - done.
    - intros j M b d HM Hb Hd. rewrite lookup_drop in HM.
      pose proof (wf_depends_listed n g2 b d Hw2 Hd) as [Hlb Hld].
      assert (d ∈ concat (take (k + j) σ)) as H.
      { apply (lp_order _ _ Hl (k + j) M b d); [done|done|]. by apply (se_second _ _ _ Hse). }
      rewrite <- Htd in H at 1. pose proof (lookup_lt_Some _ _ _ HM) as Hlt.
      rewrite take_app_ge in H by (rewrite take_length; lia). rewrite concat_app in H.
      apply elem_of_app in H as [H|H]; [by destruct (se_apart _ _ _ Hse d (Hk1 d H))|].
      rewrite take_length in H. replace (k + j - min k (length σ)) with j in H by lia. done.
    - intros b Hb. assert (b ∈ concat σ) as H by (apply Hc, (se_listed _ _ _ Hse); by right).
      rewrite <- Htd, concat_app in H. apply elem_of_app in H as [H|H]; [|done].
      by destruct (se_apart _ _ _ Hse b (Hk1 b H)).
  Qed.

  Lemma series_split σ :
    valid_schedule g σ → ∃ σ1 σ2, σ = σ1 ++ σ2 ∧ valid_schedule g1 σ1 ∧ valid_schedule g2 σ2.
  Proof.
    intros [Hl Hc]. destruct (list_find (λ M, Exists (λ b, listed g2 b) M) σ) as [[k M]|] eqn:E.
    - apply list_find_Some in E as (HM & Hex & Hbefore). apply Exists_exists in Hex as (b & Hb & Hlb).
      exists (take k σ), (drop k σ). split; [by rewrite take_drop|]. apply series_cut; [done| | |done].
      + intros x Hx. assert (listed g x) as Hlx.
        { apply (lp_listed _ _ Hl). rewrite <- (take_drop k σ), concat_app. apply elem_of_app. by left. }
        apply (se_listed _ _ _ Hse) in Hlx as [?|Hlx]; [done|]. exfalso.
        apply elem_of_concat in Hx as (M' & HM' & Hx). apply elem_of_list_lookup in HM' as (j & Hj).
        apply lookup_take_Some in Hj as [Hj Hlt]. apply (Hbefore j M' Hj Hlt), Exists_exists. by exists x.
      + intros d Hd. apply (later_before g σ k M b d); [done| |done|done]. by apply (se_later _ _ _ Hse).
    - apply list_find_None in E. assert (∀ b, b ∈ concat σ → listed g1 b) as Hall.
      { intros b Hb. pose proof (lp_listed _ _ Hl b Hb) as Hlb. apply (se_listed _ _ _ Hse) in Hlb as [?|Hlb]; [done|].
        exfalso. apply elem_of_concat in Hb as (M & HM & Hb). rewrite Forall_forall in E.
        apply (E M HM), Exists_exists. by exists b. }
      exists (take (length σ) σ), (drop (length σ) σ). split; [by rewrite take_drop|].
      apply series_cut; [done| | |done]; rewrite take_ge by done; [done|].
      intros b Hb. apply Hc, (se_listed _ _ _ Hse). by left.
  Qed.

  Lemma series_space adj σ1 σ2 :
    (N.of_nat (length adj) < 2 ^ 64 - 1)%N → disconnected adj g1 g2 → valid_schedule g1 σ1 → valid_schedule g2 σ2 →
    space_cost adj (σ1 ++ σ2) = max (space_cost adj σ1) (space_cost adj σ2).
  Proof.
    intros Hn [He1 He2] [H1 C1] [H2 C2]. apply Nat.le_antisymm.
    - apply space_cost_lub. intros k Hk. rewrite app_length in Hk.
      destruct (decide (k < length σ1)) as [Hlt|Hge].
      + etrans; [|apply Nat.le_max_l]. etrans; [|by apply (memory_space adj σ1 k)]. unfold memory_at.
        apply (filter_length_inj _ _ id); [|done]. intros v Hv [Ha Hb]. unfold id, occupies.
        rewrite take_app_le in Ha by lia. rewrite take_app_le in Hb by lia. done.
      + etrans; [|apply Nat.le_max_r]. etrans; [|apply (memory_space adj σ2 (k - length σ1)); lia]. unfold memory_at.
        apply (filter_length_inj _ _ id); [|done]. intros v Hv [Ha Hb]. unfold id, occupies.
        rewrite take_app_ge in Ha by lia. rewrite take_app_ge in Hb by lia.
        replace (S k - length σ1) with (S (k - length σ1)) in Hb by lia.
        rewrite concat_app, not_elem_of_app in Ha. destruct Ha as [Ha Ha']. split; [done|]. split; [done|].
        rewrite concat_app in Hb. apply needed_app in Hb as [Hb|Hb]; [|done]. exfalso. apply Ha.
        destruct Hb as [?|(u & Hu & Hv')]; [done|]. apply C1. apply (He1 u); [by apply (lp_listed _ _ H1)|done].
    - apply Nat.max_lub; [by apply space_cost_prefix|]. apply space_cost_lub. intros k Hk.
      etrans; [|apply (memory_space adj _ (length σ1 + k)); rewrite app_length; lia]. unfold memory_at.
      apply (filter_length_inj _ _ id); [|done]. intros v Hv [Ha Hb]. unfold id, occupies. split; [done|].
      rewrite !take_app_ge by lia. rewrite !concat_app.
      replace (length σ1 + k - length σ1) with k by lia. replace (S (length σ1 + k) - length σ1) with (S k) by lia.
      assert (∀ u, u ∈ concat (take (S k) σ2) → listed g2 u) as Hli.
      { intros u Hu. apply (lp_listed _ _ H2). rewrite <- (take_drop (S k) σ2), concat_app. apply elem_of_app. by left. }
      split; [|apply needed_app; by right]. rewrite not_elem_of_app. split; [|done]. intros Hv1.
      apply (lp_listed _ _ H1) in Hv1. destruct Hb as [Hb|(u & Hu & Huv)].
      + by apply (se_apart _ _ _ Hse v Hv1), Hli.
      + by apply (He2 u v); [apply Hli|..].
  Qed.

  (** Every qubit as early as possible, in both parts. *)
  Lemma series_greedy σ1 σ2 :
    valid_schedule g1 σ1 → valid_schedule g2 σ2 → greedy g1 σ1 → greedy g2 σ2 → greedy g (σ1 ++ σ2).
  Proof.
    intros Hv1 Hv2 Hg1 Hg2 k M HM b. destruct (decide (k < length σ1)) as [Hk|Hk].
    - rewrite lookup_app_l in HM by done. rewrite take_app_le by lia. rewrite (Hg1 k M HM b). unfold enabled.
      assert (∀ x, x ∈ concat (take k σ1) → listed g1 x) as Hli.
      { intros u Hu. apply (lp_listed _ _ (vs_legal _ _ Hv1)). rewrite <- (take_drop k σ1), concat_app. apply elem_of_app. by left. }
      split.
      + intros (Ha & Hb & Hc). split; [apply (se_listed _ _ _ Hse); by left|]. split; [done|].
        intros d Hd. apply Hc. by apply (se_first _ _ _ Hse).
      + intros (Ha & Hb & Hc). apply (se_listed _ _ _ Hse) in Ha as [Ha|Ha].
        * split; [done|]. split; [done|]. intros d Hd. apply Hc. by apply (se_first _ _ _ Hse).
        * exfalso. destruct M as [|d M]; [by apply (lp_nonempty _ _ (vs_legal _ _ Hv1) []); [eapply elem_of_list_lookup_2|]|].
          destruct (proj1 (Hg1 k _ HM d)) as (Hd1 & Hd2 & _); [left|].
          pose proof (se_later _ _ _ Hse b d Ha Hd1) as Hla.
          assert (∀ x y, later g x y → x ∈ concat (take k σ1) → y ∈ concat (take k σ1)) as Hdown.
          { intros x y Hxy Hx. apply elem_of_concat in Hx as (A & HA & Hx). apply elem_of_list_lookup in HA as (j & Hj).
            apply lookup_take_Some in Hj as [Hj Hlt].
            assert (y ∈ concat (take j (σ1 ++ σ2))) as Hy.
            { apply (later_before g _ j A x y); [by apply (series_app σ1 σ2)|done| |done]. by rewrite lookup_app_l by lia. }
            rewrite take_app_le in Hy by lia. apply elem_of_concat in Hy as (B & HB & Hy). apply elem_of_concat.
            exists B. split; [|done]. apply elem_of_list_lookup in HB as (i & Hi). apply lookup_take_Some in Hi as [Hi Hlt'].
            apply elem_of_list_lookup. exists i. apply lookup_take_Some. split; [done|lia]. }
          destruct Hla as [b d Hd|b m d Hm Hd]; [by apply Hd2, Hc|].
          apply Hd2, (Hdown m); [done|by apply Hc].
    - rewrite lookup_app_r in HM by lia. rewrite take_app_ge by lia. rewrite concat_app.
      rewrite (Hg2 _ M HM b). unfold enabled. rewrite not_elem_of_app. setoid_rewrite elem_of_app. split.
      + intros (Ha & Hb & Hc). split; [apply (se_listed _ _ _ Hse); by right|]. split; [split; [|done]|].
        * intros Hx%(lp_listed _ _ (vs_legal _ _ Hv1)). by apply (se_apart _ _ _ Hse b).
        * intros d Hd. pose proof (wf_depends_listed n g b d Hw Hd) as [_ Hld].
          apply (se_listed _ _ _ Hse) in Hld as [Hld|Hld]; [left; by apply (vs_complete _ _ Hv1)|].
          right. apply Hc. by apply (se_second _ _ _ Hse).
      + intros (Ha & [Hb Hb'] & Hc). apply (se_listed _ _ _ Hse) in Ha as [Ha|Ha]; [by destruct Hb; apply (vs_complete _ _ Hv1)|].
        split; [done|]. split; [done|]. intros d Hd. pose proof (wf_depends_listed n g2 b d Hw2 Hd) as [_ Hld].
        destruct (Hc d) as [Hx|?]; [by apply (se_second _ _ _ Hse)| |done].
        apply (lp_listed _ _ (vs_legal _ _ Hv1)) in Hx. by destruct (se_apart _ _ _ Hse d).
  Qed.
End series.
