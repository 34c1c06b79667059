(** * Histories of a [Graph] *)
From Verif Require Export SpaceFacts Histories.

Lemma filter_map_length {A B} (f : A → B) (P : B → Prop) `{∀ x, Decision (P x)} l :
  length (filter P (map f l)) = length (filter (λ x, P (f x)) l).
Proof.
  induction l as [|x l IH]; [done|]. simpl. rewrite !filter_cons.
  destruct (decide (P (f x))); simpl; by rewrite IH.
Qed.

Section graph.
  Context (adj : spacial) (Hwf : wf_spacial adj).
  Notation n := (length adj).
  Let Hr := proj1 Hwf.
  Let Hs := proj2 Hwf.

  Lemma first_bad (P M : list nat) :
    (NoDup M ∧ (∀ v, v ∈ M → v < n) ∧ (∀ v, v ∈ M → v ∉ P)) ∨
    ∃ M1 b M2, M = M1 ++ b :: M2 ∧
      (NoDup M1 ∧ (∀ v, v ∈ M1 → v < n) ∧ (∀ v, v ∈ M1 → v ∉ P)) ∧
      (n ≤ b ∨ b < n ∧ b ∈ P ++ M1).
  Proof.
    induction M as [|b M IH] using rev_ind.
    { left. split; [apply NoDup_nil_2|]. split; by intros ? ?%elem_of_nil. }
    destruct IH as [(H1 & H2 & H3)|(M1 & b' & M2 & -> & HM & Hb)].
    - destruct (decide (n ≤ b)); [right; exists M, b, []; tauto|].
      destruct (decide (b ∈ P ++ M)) as [|Hb]; [right; exists M, b, []; split; [done|]; split; [done|right; split; [lia|done]]|].
      rewrite elem_of_app in Hb. left. split.
      + apply NoDup_app. split; [done|]. split; [|apply NoDup_singleton].
        intros x Hx ->%elem_of_list_singleton. tauto.
      + split; intros v; rewrite elem_of_app, elem_of_list_singleton; intros [?| ->]; auto; lia.
    - right. exists M1, b', (M2 ++ [b]). split; [by rewrite <- app_assoc|done].
  Qed.

  Lemma measure_all_panic bd P mx M1 b M2 :
    (∀ v, v ∈ M1 → v < n) → NoDup M1 → (∀ v, v ∈ M1 → v ∉ P) → n ≤ b →
    measure_all bd (graph_mid adj P [] mx) (M1 ++ b :: M2) = Panic.
  Proof.
    intros H1 H2 H3 Hb. erewrite measure_all_app.
    2:{ apply measure_all_spec; [done..|]. intros v Hv. rewrite app_nil_r. by apply H3. }
    simpl. unfold measure. by rewrite measure_raw_range.
  Qed.

  Lemma focus_inplace_cases bd σ M :
    (NoDup M ∧ (∀ v, v ∈ M → v < n) ∧ (∀ v, v ∈ M → v ∉ concat σ) ∧
     graph_focus_inplace bd (graph_at adj σ) M = Val (graph_at adj (σ ++ [M]), Ok tt)) ∨
    (∃ v, v ∈ M ∧ n ≤ v) ∧ (graph_focus_inplace bd (graph_at adj σ) M = Panic ∨
      ∃ gr b, graph_focus_inplace bd (graph_at adj σ) M = Val (gr, Err b)) ∨
    (∃ M1 b M2, M = M1 ++ b :: M2 ∧ NoDup M1 ∧ (∀ v, v ∈ M1 → v < n) ∧
      (∀ v, v ∈ M1 → v ∉ concat σ) ∧ b < n ∧ b ∈ concat σ ++ M1 ∧
      graph_focus_inplace bd (graph_at adj σ) M
      = Val (graph_mid adj (concat σ) M1 (N.of_nat (space_cost adj σ)), Err (mkAlreadyMeasured b))).
  Proof.
    destruct (first_bad (concat σ) M) as [(H1 & H2 & H3)|(M1 & b & M2 & -> & (H1 & H2 & H3) & Hb)].
    - left. split; [done|]. split; [done|]. split; [done|]. by apply graph_focus_inplace_spec.
    - destruct Hb as [Hb|[Hb1 Hb2]].
      + right. left. split; [exists b; split; [apply elem_of_app; right; left|done]|].
        left. unfold graph_focus_inplace, graph_at. by rewrite measure_all_panic.
      + right. right. exists M1, b, M2. repeat (split; [done|]).
        unfold graph_focus_inplace, graph_at. by rewrite measure_all_error.
  Qed.

  Lemma graph_reached_spec σ gr :
    graph_reached adj σ gr →
    gr = graph_at adj σ ∧ NoDup (concat σ) ∧ ∀ v, v ∈ concat σ → v < n.
  Proof.
    induction 1 as [|bd σ gr M gr' _ (-> & Hnd & Hlt) H|bd σ gr M gr0 gr' _ (-> & Hnd & Hlt) H].
    - split; [exact (graph_at_new adj Hs)|]. split; [apply NoDup_nil_2|by intros ? ?%elem_of_nil].
    - destruct (focus_inplace_cases bd σ M) as [(H1 & H2 & H3 & E)|[[_ [E|(?&?&E)]]|(?&?&?&_&_&_&_&_&_&E)]];
        rewrite E in H; try discriminate. injection H as <-. split; [done|].
      rewrite concat_app. simpl. rewrite app_nil_r. split.
      + apply NoDup_app. split; [done|]. split; [|done]. intros x Hx1 Hx2. by apply (H3 x).
      + intros v. rewrite elem_of_app. intros [?|?]; auto.
    - unfold graph_focus in H.
      destruct (focus_inplace_cases bd σ M) as [(H1 & H2 & H3 & E)|[[_ [E|(?&?&E)]]|(?&?&?&_&_&_&_&_&_&E)]];
        rewrite E in H; try discriminate. injection H as _ <-. split; [done|].
      rewrite concat_app. simpl. rewrite app_nil_r. split.
      + apply NoDup_app. split; [done|]. split; [|done]. intros x Hx1 Hx2. by apply (H3 x).
      + intros v. rewrite elem_of_app. intros [?|?]; auto.
  Qed.

  Lemma graph_at_in_memory σ : nodes_in_memory (graph_at adj σ) = occ adj (concat σ) (state_of adj (concat σ)).
  Proof.
    unfold nodes_in_memory, graph_at, graph_mid, rep, occ. simpl. rewrite app_nil_r.
    rewrite filter_map_length. f_equal. apply filter_length_ext_in.
    intros v _. simpl. rewrite state_of_inmemory, state_of_sleeping.
    split; [tauto|]. intros [H1 H2]. split; [done|]. apply dec_stable. tauto.
  Qed.

  Lemma current_le_max σ :
    NoDup (concat σ) → (∀ v, v ∈ concat σ → v < n) →
    (current_memory (graph_at adj σ) <= max_memory (graph_at adj σ))%N.
  Proof.
    intros Hnd Hlt. unfold graph_at, graph_mid. simpl. rewrite app_nil_r.
    destruct σ as [|M σ _] using rev_ind.
    - simpl. assert (occ adj [] (state_of adj []) = 0) as ->; [|done].
      unfold occ. rewrite (filter_length_ext_in _ (λ _, False)).
      + induction (seq 0 n); [done|]. rewrite filter_cons_False; tauto.
      + intros v _. rewrite state_of_sleeping. split; [|done]. intros [_ H]. apply H.
        split; [apply not_elem_of_nil|]. intros [H'%elem_of_nil|(u & H'%elem_of_nil & _)]; done.
    - rewrite space_cost_snoc by done. rewrite concat_app in *. simpl in *. rewrite app_nil_r in *.
      rewrite memory_at_last by done.
      apply NoDup_app in Hnd as (H1 & H2 & H3).
      rewrite (occ_after adj Hs (concat σ) M); [lia|done| |].
      + intros v Hv. apply Hlt. apply elem_of_app. by right.
      + intros v Hv Hv'. by apply (H2 v).
  Qed.

  (** ** Invariance of the cost *)

  Lemma space_cost_graph adj' σ :
    length adj' = n →
    (∀ u v, u ≠ v → v ∈ neighbours adj u ↔ v ∈ neighbours adj' u) →
    space_cost adj σ = space_cost adj' σ.
  Proof.
    intros Hl Hn. unfold space_cost. f_equal. apply map_ext. intros k.
    unfold memory_at. rewrite Hl. f_equal. apply filter_length_ext_in. intros v _.
    unfold occupies, needed.
    assert (∀ P : list nat, (v ∈ P ∨ ∃ u, u ∈ P ∧ v ∈ neighbours adj u) ↔
                 (v ∈ P ∨ ∃ u, u ∈ P ∧ v ∈ neighbours adj' u)) as H; [|by rewrite H].
    intros P. split; (intros [?|(u & Hu & Hv)]; [by left|]); destruct (decide (u = v)) as [->|Hne];
      (try (by left)); right; exists u; (split; [done|]); by apply (Hn u v).
  Qed.
End graph.

(** ** Executions *)

Section executions.
  Context (adj : spacial).
  Notation n := (length adj).

  (** Everything needed by [σ] up to a step is live during the step. *)
  Lemma peak_live live ops : length live ≤ peak live ops.
  Proof. destruct ops as [|[]]; simpl; lia. Qed.

  Lemma steps_of_cons o ops :
    steps_of (o :: ops) = match o with Init _ => steps_of ops | MeasureStep M => M :: steps_of ops end.
  Proof. by destruct o. Qed.

  Lemma obeys_lower σ0 live ops :
    obeys adj live (concat σ0) ops →
    (∀ v, needed adj (concat σ0) v → v ∈ live ∨ v ∈ concat σ0) →
    ∀ k, length σ0 ≤ k < length (σ0 ++ steps_of ops) →
      memory_at adj (σ0 ++ steps_of ops) k ≤ peak live ops.
  Proof.
    revert σ0 live. induction ops as [|[v|M] ops IH]; intros σ0 live Hob Hneed k Hk.
    - unfold steps_of in Hk. simpl in Hk. rewrite app_nil_r in Hk. lia.
    - rewrite steps_of_cons in *. destruct Hob as (_ & _ & _ & Hob). simpl.
      etrans; [eapply (IH σ0 (v :: live)); [done| |done]|lia].
      intros w Hw. destruct (Hneed w Hw); [left; by right|by right].
    - rewrite steps_of_cons in *. destruct Hob as (HM & Hlive & Hnb & Hob). simpl peak.
      assert (∀ v, needed adj (concat σ0 ++ M) v → v ∈ live ∨ v ∈ concat σ0) as Hneed'.
      { intros v Hv. apply needed_app in Hv as [Hv|[Hv|(u & Hu & Hv)]]; [by apply Hneed|left; by apply Hlive|].
        by eapply Hnb. }
      rewrite (cons_middle M), app_assoc in *.
      destruct (decide (k = length σ0)) as [->|Hne].
      + etrans; [|apply Nat.le_max_l].
        unfold memory_at.
        apply submseteq_length, NoDup_submseteq; [apply NoDup_filter, NoDup_seq|].
        intros v. rewrite elem_of_list_filter. intros [[Hv1 Hv2] _].
        rewrite <- app_assoc, take_app in Hv1.
        rewrite take_app_le in Hv2 by (rewrite app_length; simpl; lia).
        rewrite take_ge in Hv2 by (rewrite app_length; simpl; lia).
        rewrite concat_app in Hv2. simpl in Hv2. rewrite app_nil_r in Hv2.
        destruct (Hneed' v Hv2); tauto.
      + etrans; [|apply Nat.le_max_r].
        apply (IH (σ0 ++ [M])).
        * rewrite concat_app. simpl. by rewrite app_nil_r.
        * intros v. rewrite concat_app. simpl. rewrite app_nil_r. intros Hv.
          rewrite elem_of_list_filter, elem_of_app.
          destruct (Hneed' v Hv); [|tauto]. destruct (decide (v ∈ M)); tauto.
        * rewrite !app_length in *. simpl in *. lia.
  Qed.

  Lemma max_list_lub l k : (∀ x, x ∈ l → x ≤ k) → max_list l ≤ k.
  Proof.
    induction l as [|x l IH]; intros H; simpl; [lia|].
    apply Nat.max_lub; [apply H; left|]. apply IH. intros y Hy. apply H. by right.
  Qed.

  Lemma max_list_elem l x : x ∈ l → x ≤ max_list l.
  Proof. induction 1; simpl; lia. Qed.

  Lemma execution_lower ops : obeys adj [] [] ops → space_cost adj (steps_of ops) ≤ peak [] ops.
  Proof.
    intros H. unfold space_cost. apply max_list_lub. intros x Hx.
    apply elem_of_list_fmap in Hx as (k & -> & Hk). apply elem_of_seq in Hk.
    apply (obeys_lower [] [] ops); [done| |simpl; lia].
    intros v [Hv%elem_of_nil|(u & Hu%elem_of_nil & _)]; done.
  Qed.

  (** The lazy execution: initialize what a step needs just before the step. *)
  Definition wanted (P M live : list nat) : list nat :=
    filter (λ v, needed adj (P ++ M) v ∧ v ∉ live ∧ v ∉ P) (seq 0 n).

  Fixpoint lazy (P live : list nat) (σ : schedule) : list action :=
    match σ with
    | [] => []
    | M :: σ =>
        let w := wanted P M live in
        map Init w ++ MeasureStep M :: lazy (P ++ M) (filter (λ v, v ∉ M) (reverse w ++ live)) σ
    end.

  Lemma steps_of_inits w ops : steps_of (map Init w ++ ops) = steps_of ops.
  Proof. induction w; done. Qed.

  Lemma lazy_steps P live σ : steps_of (lazy P live σ) = σ.
  Proof.
    revert P live. induction σ as [|M σ IH]; intros P live; [done|].
    cbn [lazy]. rewrite steps_of_inits, steps_of_cons. by rewrite IH.
  Qed.

  Lemma obeys_inits w live gone ops :
    NoDup w → (∀ v, v ∈ w → v < n ∧ v ∉ live ∧ v ∉ gone) →
    obeys adj (reverse w ++ live) gone ops → obeys adj live gone (map Init w ++ ops).
  Proof.
    revert live. induction w as [|v w IH]; intros live Hnd Hw Hob; [done|].
    apply NoDup_cons in Hnd as [Hv Hnd]. simpl.
    destruct (Hw v) as (? & ? & ?); [left|]. split; [done|]. split; [done|]. split; [done|].
    apply IH; [done| |by rewrite reverse_cons, <- app_assoc in Hob].
    intros u Hu. destruct (Hw u) as (? & ? & ?); [by right|]. split; [done|]. split; [|done].
    rewrite elem_of_cons. intros [->|]; done.
  Qed.

  Lemma peak_inits w live ops :
    peak live (map Init w ++ ops) = max (length live) (peak (reverse w ++ live) ops).
  Proof.
    revert live. induction w as [|v w IH]; intros live.
    - simpl. pose proof (peak_live live ops). lia.
    - simpl map. simpl app. cbn [peak]. rewrite IH, reverse_cons, <- app_assoc. simpl.
      pose proof (peak_live (reverse w ++ v :: live) ops) as H.
      rewrite app_length in H. simpl in H. lia.
  Qed.

  Context (Hr : ∀ ns v, ns ∈ adj → v ∈ ns → v < n).

  Lemma lazy_spec σ σ0 live :
    NoDup (concat (σ0 ++ σ)) → (∀ v, v ∈ concat (σ0 ++ σ) → v < n) →
    NoDup live → (∀ v, v ∈ live ↔ v < n ∧ needed adj (concat σ0) v ∧ v ∉ concat σ0) →
    obeys adj live (concat σ0) (lazy (concat σ0) live σ) ∧
    peak live (lazy (concat σ0) live σ) ≤ max (length live) (space_cost adj (σ0 ++ σ)).
  Proof.
    revert σ0 live. induction σ as [|M σ IH]; intros σ0 live Hnd Hlt Hl Hlive; [simpl; split; [done|lia]|].
    cbn [lazy]. set (w := wanted (concat σ0) M live).
    assert (NoDup w) as Hw by apply NoDup_filter, NoDup_seq.
    assert (∀ v, v ∈ w ↔ v < n ∧ needed adj (concat σ0 ++ M) v ∧ v ∉ live ∧ v ∉ concat σ0) as Hw'.
    { intros v. unfold w, wanted. rewrite elem_of_list_filter, elem_of_seq. split; [intros [? ?]; repeat split; try tauto; lia|].
      intros (? & ?). split; [tauto|lia]. }
    assert (∀ v, v ∈ reverse w ++ live ↔ v < n ∧ needed adj (concat σ0 ++ M) v ∧ v ∉ concat σ0) as Hlv.
    { intros v. rewrite elem_of_app, elem_of_reverse, Hw'. split.
      - intros [?|Hv]; [tauto|]. apply Hlive in Hv as (? & ? & ?). split; [done|]. split; [|done].
        apply needed_app. by left.
      - intros (? & ? & ?). destruct (decide (v ∈ live)); [by right|]. left. tauto. }
    assert (NoDup (reverse w ++ live)) as Hndl.
    { apply NoDup_app. split; [by rewrite reverse_Permutation|]. split; [|done].
      intros v. rewrite elem_of_reverse. intros Hv. apply Hw' in Hv. tauto. }
    rewrite concat_app in Hnd, Hlt. simpl in Hnd, Hlt.
    assert (concat (σ0 ++ [M]) = concat σ0 ++ M) as Ec.
    { rewrite concat_app. simpl. by rewrite app_nil_r. }
    assert (∀ v, v ∈ M → v < n ∧ v ∉ concat σ0) as HM.
    { intros v Hv. split; [apply Hlt; set_solver|]. intros Hv'.
      apply NoDup_app in Hnd as (_ & Hnd & _). apply (Hnd v Hv'). set_solver. }
    destruct (IH (σ0 ++ [M]) (filter (λ v, v ∉ M) (reverse w ++ live))) as [Hob Hpk].
    { rewrite concat_app, Ec, <- app_assoc. done. }
    { intros v. rewrite concat_app, Ec, <- app_assoc. apply Hlt. }
    { by apply NoDup_filter. }
    { intros v. rewrite elem_of_list_filter, Hlv, Ec. rewrite elem_of_app. tauto. }
    rewrite Ec in Hob, Hpk. rewrite <- app_assoc in Hpk. simpl in Hpk. split.
    - apply obeys_inits; [done|intros v Hv; apply Hw' in Hv; tauto|].
      cbn [obeys]. split; [|split; [|split]].
      + apply NoDup_app in Hnd as (_ & _ & Hnd). by apply NoDup_app in Hnd as [? _].
      + intros u Hu. apply Hlv. destruct (HM u Hu). split; [done|]. split; [|done].
        apply needed_app. right. by left.
      + intros u v Hu Hv. destruct (decide (v ∈ concat σ0)); [by right|]. left. apply Hlv.
        split; [by eapply neighbours_range|]. split; [|done]. apply needed_app. right. right.
        by exists u.
      + done.
    - rewrite peak_inits. cbn [peak].
      assert (length (reverse w ++ live) ≤ space_cost adj (σ0 ++ M :: σ)) as Hle.
      { unfold space_cost. etrans; [|apply max_list_elem, elem_of_list_fmap; exists (length σ0); split; [reflexivity|]].
        - unfold memory_at. apply submseteq_length, NoDup_submseteq; [done|].
          intros v Hv. apply Hlv in Hv as (Hv1 & Hv2 & Hv3).
          rewrite elem_of_list_filter, elem_of_seq. split; [|lia]. split.
          + by rewrite take_app.
          + rewrite cons_middle, app_assoc, take_app_alt by (rewrite app_length; simpl; lia).
            by rewrite Ec.
        - apply elem_of_seq. rewrite app_length. simpl. lia. }
      assert (length (filter (λ v, v ∉ M) (reverse w ++ live)) ≤ length (reverse w ++ live)) as Hf
        by apply filter_length.
      lia.
  Qed.

  Lemma execution_attained σ :
    NoDup (concat σ) → (∀ v, v ∈ concat σ → v < n) →
    ∃ ops, obeys adj [] [] ops ∧ steps_of ops = σ ∧ peak [] ops = space_cost adj σ.
  Proof.
    intros Hnd Hlt. exists (lazy [] [] σ).
    destruct (lazy_spec σ [] []) as [Hob Hpk]; [done..|apply NoDup_nil_2| |].
    { intros v. rewrite elem_of_nil. split; [done|]. intros (_ & [Hv%elem_of_nil|(u & Hu%elem_of_nil & _)] & _); done. }
    split; [done|]. split; [apply lazy_steps|].
    pose proof (execution_lower (lazy [] [] σ) Hob) as Hlow. rewrite lazy_steps in Hlow.
    simpl in Hpk. lia.
  Qed.
End executions.
