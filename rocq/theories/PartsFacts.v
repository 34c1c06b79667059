(** * Inputs that consist of two independent parts: proofs *)
From Verif Require Export PartsSpec Metamorphic.

(** ** The parts *)

Lemma part_listed c x g b : listed (part c x g) b ↔ listed g b ∧ c b = x.
Proof.
  unfold listed, part. split.
  - intros (l & ds & (l' & -> & Hl)%elem_of_list_fmap & [Hc Hb]%elem_of_list_filter). split; [|done].
    by exists l', ds.
  - intros [(l & ds & Hl & Hb) Hc]. exists (filter (λ e, c e.1 = x) l), ds. split.
    + apply elem_of_list_fmap. by exists l.
    + by apply elem_of_list_filter.
Qed.

Lemma part_depends c x g b d : depends (part c x g) b d ↔ depends g b d ∧ c b = x.
Proof.
  unfold depends, part. split.
  - intros (l & ds & (l' & -> & Hl)%elem_of_list_fmap & [Hc Hb]%elem_of_list_filter & Hd). split; [|done].
    by exists l', ds.
  - intros [(l & ds & Hl & Hb & Hd) Hc]. exists (filter (λ e, c e.1 = x) l), ds. split; [|split].
    + apply elem_of_list_fmap. by exists l.
    + by apply elem_of_list_filter.
    + done.
Qed.

Lemma map_fst_filter (c : nat → bool) x (l : list (nat * list nat)) :
  map fst (filter (λ e, c e.1 = x) l) = filter (λ b, c b = x) (map fst l).
Proof.
  induction l as [|e l IH]; [done|]. simpl. rewrite !filter_cons. case_decide; simpl; by rewrite IH.
Qed.

Lemma part_qubits c x g : qubits (part c x g) = filter (λ b, c b = x) (qubits g).
Proof.
  unfold qubits, part. induction g as [|l g IH]; [done|]. simpl.
  by rewrite !map_app, filter_app, IH, map_fst_filter.
Qed.

Lemma part_wf c x adj g : wf_input adj g → separated c adj g → wf_input adj (part c x g).
Proof.
  intros [Ha Hg] Hs. split; [done|]. split.
  - intros b Hb. rewrite part_qubits in Hb. apply elem_of_list_filter in Hb as [_ Hb]. by apply Hg.
  - rewrite part_qubits. apply NoDup_filter, Hg.
  - intros b ds. destruct g as [|l g]; simpl; [by intros ?%elem_of_nil|].
    intros [_ Hb]%elem_of_list_filter. by apply (wf_first _ _ Hg b).
  - intros k layer b ds Hl Hb. unfold part in Hl. apply list_lookup_fmap_inv in Hl as (l & -> & Hl).
    apply elem_of_list_filter in Hb as [Hc Hb]. simpl in Hc.
    destruct (wf_later _ _ Hg k l b ds Hl Hb) as (H1 & H2 & H3). split; [done|]. split; [done|].
    intros d Hd. assert (take (S k) (part c x g) = part c x (take (S k) g)) as ->.
    { unfold part. exact (firstn_map _ _ _). }
    rewrite part_qubits. apply elem_of_list_filter. split; [|by apply H3].
    rewrite <- Hc. apply (sp_deps _ _ _ Hs). exists l, ds. split; [|done]. by eapply elem_of_list_lookup_2.
Qed.

(** ** One part of a schedule *)

Section restrict.
  Context (c : nat → bool) (x : bool) (adj : spacial) (g : order) (Hs : separated c adj g).
  Context (Hn : (N.of_nat (length adj) < 2 ^ 64 - 1)%N).

  Definition mine (l : list nat) : list nat := filter (λ b, c b = x) l.
  Definition restrict (σ : schedule) : schedule := filter (λ M : step, M ≠ []) (map mine σ).

  Lemma restrict_snoc σ M :
    restrict (σ ++ [M]) = restrict σ ++ (if decide (mine M = []) then [] else [mine M]).
  Proof.
    unfold restrict. rewrite map_app, filter_app. f_equal. simpl. rewrite filter_cons.
    destruct (decide (mine M = [])) as [E|E]; [rewrite decide_False by auto|rewrite decide_True by done]; done.
  Qed.

  Lemma restrict_concat σ : concat (restrict σ) = mine (concat σ).
  Proof.
    unfold restrict, mine. induction σ as [|M σ IH]; [done|]. simpl. rewrite filter_app, filter_cons.
    case_decide as E; simpl; rewrite IH; [done|].
    by rewrite E.
  Qed.

  Lemma restrict_length σ : length (restrict σ) ≤ length σ.
  Proof. unfold restrict. etrans; [apply filter_length|]. by rewrite map_length. Qed.

  Lemma restrict_legal σ : legal_prefix g σ → legal_prefix (part c x g) (restrict σ).
  Proof.
    induction σ as [|M σ IH] using rev_ind; intros Hl.
    { split; simpl; try done; try by intros ? ?%elem_of_nil. constructor. }
    apply legal_snoc in Hl as (Hl & Hne & Hnd & Hen). rewrite restrict_snoc.
    case_decide as E; [rewrite app_nil_r; by apply IH|].
    apply legal_snoc. split; [by apply IH|]. split; [done|]. split; [by apply NoDup_filter|].
    intros b [Hc Hb]%elem_of_list_filter. destruct (Hen b Hb) as (H1 & H2 & H3). split; [|split].
    - by apply part_listed.
    - rewrite restrict_concat. by intros [_ ?]%elem_of_list_filter.
    - intros d [Hd _]%part_depends. rewrite restrict_concat. apply elem_of_list_filter.
      split; [by rewrite (sp_deps _ _ _ Hs _ _ Hd)|by apply H3].
  Qed.

  Lemma restrict_valid σ : valid_schedule g σ → valid_schedule (part c x g) (restrict σ).
  Proof.
    intros [Hl Hc]. split; [by apply restrict_legal|]. intros b [Hb Hx]%part_listed.
    rewrite restrict_concat. apply elem_of_list_filter. split; [done|by apply Hc].
  Qed.

  Lemma needed_colour A v : (∀ u, u ∈ A → listed g u) → needed adj (mine A) v → c v = x.
  Proof.
    intros HA [[? _]%elem_of_list_filter|(u & [Hu HuA]%elem_of_list_filter & Hv)]; [done|].
    rewrite (sp_edges _ _ _ Hs u v); [done|by apply HA|done].
  Qed.

  Lemma needed_mine A v : needed adj (mine A) v → needed adj A v.
  Proof.
    intros [[_ ?]%elem_of_list_filter|(u & [_ ?]%elem_of_list_filter & ?)]; [by left|]. right. by exists u.
  Qed.

  Lemma restrict_space σ : legal_prefix g σ → space_cost adj (restrict σ) ≤ space_cost adj σ.
  Proof.
    induction σ as [|M σ IH] using rev_ind; intros Hl; [done|].
    pose proof (lp_listed _ _ Hl) as Hli. rewrite concat_app in Hli. simpl in Hli. rewrite app_nil_r in Hli.
    apply legal_snoc in Hl as (Hl & _). specialize (IH Hl).
    rewrite restrict_snoc, (space_cost_snoc adj Hn). case_decide as E; [rewrite app_nil_r; lia|].
    rewrite (space_cost_snoc adj Hn). apply Nat.max_le_compat; [done|].
    unfold memory_at. apply (filter_length_inj _ _ id); [|done]. intros v Hv. unfold id, occupies. split; [done|].
    rewrite !take_app_alt in * by done. rewrite !take_ge in * by (rewrite app_length; simpl; lia).
    rewrite !concat_app in *. simpl in *. rewrite !app_nil_r in *. rewrite restrict_concat in *.
    destruct H as [H1 H2]. assert (mine (concat σ) ++ mine M = mine (concat σ ++ M)) as Em
      by (unfold mine; by rewrite filter_app).
    rewrite Em in H2. split; [|by apply needed_mine].
    intros Hv'. apply H1, elem_of_list_filter. split; [|done]. by eapply needed_colour.
  Qed.
End restrict.

(** ** Both parts at the same time *)

Fixpoint parallel (σ τ : schedule) : schedule :=
  match σ, τ with
  | [], _ => τ
  | _, [] => σ
  | A :: σ, B :: τ => (A ++ B) :: parallel σ τ
  end.

Lemma parallel_nil_r σ : parallel σ [] = σ.
Proof. by destruct σ. Qed.

Lemma parallel_length σ τ : length (parallel σ τ) = max (length σ) (length τ).
Proof.
  revert τ. induction σ as [|A σ IH]; intros [|B τ]; simpl; try lia. rewrite IH. lia.
Qed.

Lemma parallel_take k σ τ : take k (parallel σ τ) = parallel (take k σ) (take k τ).
Proof.
  revert σ τ. induction k as [|k IH]; intros [|A σ] [|B τ]; simpl; try done. by rewrite IH.
Qed.

Lemma parallel_concat σ τ : concat (parallel σ τ) ≡ₚ concat σ ++ concat τ.
Proof.
  revert τ. induction σ as [|A σ IH]; intros [|B τ]; simpl; [done|done|by rewrite app_nil_r|].
  rewrite IH. rewrite <- !app_assoc. apply Permutation_app_head.
  rewrite !app_assoc. apply Permutation_app_tail, Permutation_app_comm.
Qed.

Lemma parallel_lookup σ τ k M b :
  parallel σ τ !! k = Some M → b ∈ M ↔ (∃ A, σ !! k = Some A ∧ b ∈ A) ∨ (∃ B, τ !! k = Some B ∧ b ∈ B).
Proof.
  revert σ τ. induction k as [|k IH]; intros [|A σ] [|B τ]; simpl; intros H; try done; try naive_solver.
  injection H as <-. rewrite elem_of_app. naive_solver.
Qed.

Lemma parallel_nonempty σ τ M :
  (∀ A, A ∈ σ → A ≠ []) → (∀ B, B ∈ τ → B ≠ []) → M ∈ parallel σ τ → M ≠ [].
Proof.
  revert τ. induction σ as [|A σ IH]; intros [|B τ] H1 H2; simpl; try naive_solver.
  rewrite elem_of_cons. intros [->|H].
  - intros [E _]%app_eq_nil. apply (H1 A); [left|done].
  - apply (IH τ); [| |done]; intros; [apply H1|apply H2]; by right.
Qed.

Lemma filter_length_or {A} (P Q R : A → Prop) `{∀ x, Decision (P x)} `{∀ x, Decision (Q x)}
    `{∀ x, Decision (R x)} (l : list A) :
  (∀ x, P x → Q x ∨ R x) → length (filter P l) ≤ length (filter Q l) + length (filter R l).
Proof.
  intros HP. induction l as [|x l IH]; [done|]. rewrite !filter_cons.
  destruct (decide (P x)) as [Hp|Hp], (decide (Q x)), (decide (R x)); simpl; try lia.
  by destruct (HP x Hp).
Qed.

(** After its last step a schedule occupies no more than during this step. *)
Lemma memory_after adj σ k : memory_at adj σ k ≤ space_cost adj σ.
Proof.
  destruct (decide (k < length σ)) as [Hk|Hk]; [by apply memory_space|].
  destruct σ as [|M σ _] using rev_ind.
  - unfold memory_at. assert (∀ l, filter (occupies adj [] k) l = []) as ->; [|done].
    induction l as [|v l IH]; [done|]. rewrite filter_cons_False; [done|]. intros [_ H].
    rewrite take_nil in H. destruct H as [?%elem_of_nil|(u & ?%elem_of_nil & _)]; done.
  - rewrite app_length in Hk. simpl in Hk. etrans; [|apply (memory_space adj _ (length σ)); rewrite app_length; simpl; lia].
    unfold memory_at. apply (filter_length_inj _ _ id); [|done]. intros v Hv [H1 H2]. unfold id, occupies.
    split; [done|]. rewrite take_app_alt by done.
    rewrite take_ge in H1 by (rewrite app_length; simpl; lia). rewrite take_ge in H2 by (rewrite app_length; simpl; lia).
    rewrite take_ge by (rewrite app_length; simpl; lia). split; [|done].
    intros H. apply H1. rewrite concat_app. apply elem_of_app. by left.
Qed.

Section combine.
  Context (c : nat → bool) (adj : spacial) (g : order) (Hs : separated c adj g).
  Context (σ τ : schedule).
  Context (Hσ : valid_schedule (part c true g) σ) (Hτ : valid_schedule (part c false g) τ).

  Lemma combined_nodup : NoDup (concat σ ++ concat τ).
  Proof.
    apply NoDup_app. split; [apply Hσ|]. split; [|apply Hτ].
    intros b Hb Hb'. apply (lp_listed _ _ (vs_legal _ _ Hσ)), part_listed in Hb as [_ Hb].
    apply (lp_listed _ _ (vs_legal _ _ Hτ)), part_listed in Hb' as [_ Hb']. congruence.
  Qed.

  Lemma combined_listed b : b ∈ concat σ ++ concat τ → listed g b.
  Proof.
    rewrite elem_of_app. intros [Hb|Hb].
    - by apply (lp_listed _ _ (vs_legal _ _ Hσ)), part_listed in Hb as [? _].
    - by apply (lp_listed _ _ (vs_legal _ _ Hτ)), part_listed in Hb as [? _].
  Qed.

  Lemma combined_complete b : listed g b → b ∈ concat σ ++ concat τ.
  Proof.
    intros Hb. apply elem_of_app. destruct (c b) eqn:E.
    - left. apply (vs_complete _ _ Hσ), part_listed. done.
    - right. apply (vs_complete _ _ Hτ), part_listed. done.
  Qed.

  Lemma parallel_valid : valid_schedule g (parallel σ τ).
  Proof.
    split; [split|].
    - intros M. apply parallel_nonempty; [apply Hσ|apply Hτ].
    - rewrite parallel_concat. apply combined_nodup.
    - intros b. rewrite parallel_concat. apply combined_listed.
    - intros k M b d HM Hb Hd. rewrite parallel_take, parallel_concat, elem_of_app.
      apply (parallel_lookup _ _ _ _ _ HM) in Hb. destruct Hb as [(A & HA & HbA)|(B & HB & HbB)].
      + left. apply (lp_order _ _ (vs_legal _ _ Hσ) k A b d); [done|done|]. apply part_depends. split; [done|].
        assert (listed (part c true g) b) as Hl; [|by apply part_listed in Hl as [_ ?]].
        apply (lp_listed _ _ (vs_legal _ _ Hσ)), elem_of_concat. exists A. split; [by eapply elem_of_list_lookup_2|done].
      + right. apply (lp_order _ _ (vs_legal _ _ Hτ) k B b d); [done|done|]. apply part_depends. split; [done|].
        assert (listed (part c false g) b) as Hl; [|by apply part_listed in Hl as [_ ?]].
        apply (lp_listed _ _ (vs_legal _ _ Hτ)), elem_of_concat. exists B. split; [by eapply elem_of_list_lookup_2|done].
    - intros b Hb. rewrite parallel_concat. by apply combined_complete.
  Qed.

  Lemma needed_app A B v : needed adj (A ++ B) v ↔ needed adj A v ∨ needed adj B v.
  Proof. unfold needed. setoid_rewrite elem_of_app. naive_solver. Qed.

  Lemma needed_perm A B v : A ≡ₚ B → needed adj A v → needed adj B v.
  Proof. intros E. unfold needed. setoid_rewrite E. done. Qed.

  Lemma parallel_space : space_cost adj (parallel σ τ) ≤ space_cost adj σ + space_cost adj τ.
  Proof.
    apply space_cost_lub. intros k _. etrans; [|apply Nat.add_le_mono; apply (memory_after adj _ k)].
    unfold memory_at. apply filter_length_or. intros v [H1 H2]. unfold occupies.
    rewrite parallel_take in H1. rewrite parallel_concat, not_elem_of_app in H1. destruct H1 as [H1 H1'].
    rewrite parallel_take in H2. eapply needed_perm, needed_app in H2; [|apply parallel_concat].
    destruct H2; [left|right]; done.
  Qed.

  Lemma part_step x ρ k A b :
    valid_schedule (part c x g) ρ → ρ !! k = Some A → b ∈ A → c b = x.
  Proof.
    intros Hρ HA Hb. assert (listed (part c x g) b) as Hl; [|by apply part_listed in Hl as [_ ?]].
    apply (lp_listed _ _ (vs_legal _ _ Hρ)), elem_of_concat. exists A. split; [by eapply elem_of_list_lookup_2|done].
  Qed.

  Lemma part_take x ρ k b : valid_schedule (part c x g) ρ → b ∈ concat (take k ρ) → c b = x.
  Proof.
    intros Hρ (A & HA & Hb)%elem_of_concat. apply elem_of_list_lookup in HA as (j & HA).
    apply lookup_take_Some in HA as [HA _]. by eapply part_step.
  Qed.

  Lemma part_enabled x A B b :
    (∀ u, u ∈ B → c u ≠ x) → c b = x → enabled (part c x g) A b ↔ enabled g (A ++ B) b.
  Proof.
    intros HB Hb. unfold enabled. rewrite part_listed, not_elem_of_app. setoid_rewrite part_depends.
    setoid_rewrite elem_of_app. split.
    - intros ([H1 _] & H2 & H3). split; [done|]. split; [split; [done|intros H; by apply (HB b)]|]. intros d Hd.
      left. by apply H3.
    - intros (H1 & [H2 _] & H3). split; [done|]. split; [done|]. intros d [Hd _].
      destruct (H3 d Hd) as [?|H]; [done|]. destruct (HB d H). by rewrite (sp_deps _ _ _ Hs _ _ Hd).
  Qed.

  (** Whether the part [ρ] measures the qubit now. *)
  Lemma part_now x ρ B k b :
    valid_schedule (part c x g) ρ → greedy (part c x g) ρ → (∀ u, u ∈ B → c u ≠ x) → c b = x →
    (∃ A, ρ !! k = Some A ∧ b ∈ A) ↔ enabled g (concat (take k ρ) ++ B) b.
  Proof.
    intros Hρ Hg HB Hb. rewrite <- (part_enabled x) by done. destruct (ρ !! k) as [A|] eqn:E.
    - rewrite <- (Hg k A E b). naive_solver.
    - split; [naive_solver|]. intros (H1 & H2 & _). destruct H2. apply lookup_ge_None in E.
      rewrite take_ge by done. by apply (vs_complete _ _ Hρ).
  Qed.

  Lemma enabled_perm A B b : A ≡ₚ B → enabled g A b ↔ enabled g B b.
  Proof. intros E. unfold enabled. setoid_rewrite E. done. Qed.

  Lemma parallel_greedy :
    greedy (part c true g) σ → greedy (part c false g) τ → greedy g (parallel σ τ).
  Proof.
    intros Hg1 Hg2 k M HM b. rewrite (parallel_lookup _ _ _ _ _ HM), parallel_take.
    rewrite (enabled_perm _ (concat (take k σ) ++ concat (take k τ))) by apply parallel_concat.
    destruct (c b) eqn:Ec.
    - rewrite <- (part_now true σ (concat (take k τ)) k b Hσ Hg1); [|by intros u ->%(part_take false)|done].
      split; [|by left]. intros [?|(B & HB & Hb)]; [done|]. pose proof (part_step _ _ _ _ _ Hτ HB Hb). congruence.
    - rewrite (enabled_perm _ (concat (take k τ) ++ concat (take k σ))) by apply Permutation_app_comm.
      rewrite <- (part_now false τ (concat (take k σ)) k b Hτ Hg2); [|by intros u ->%(part_take true)|done].
      split; [|by right]. intros [(A & HA & Hb)|?]; [|done]. pose proof (part_step _ _ _ _ _ Hσ HA Hb). congruence.
  Qed.

  (** Side by side, each part needs its memory. *)
  Lemma part_memory x ρ π :
    valid_schedule (part c x g) ρ → (∀ k, k < length ρ → k < length π) →
    (∀ k u, u ∈ concat (take k π) → c u = x → u ∈ concat (take k ρ)) →
    (∀ k u, u ∈ concat (take k ρ) → u ∈ concat (take k π)) →
    space_cost adj ρ ≤ space_cost adj π.
  Proof.
    intros Hρ Hk Hback Hforth. apply space_cost_lub. intros k Hlt.
    etrans; [|apply (memory_space adj π k); by apply Hk]. unfold memory_at.
    apply (filter_length_inj _ _ id); [|done]. intros v Hv [H1 H2]. unfold id, occupies. split; [done|]. split.
    - intros H. apply H1, Hback; [done|]. destruct H2 as [H2|(u & Hu & Huv)]; [by eapply part_take|].
      rewrite (sp_edges _ _ _ Hs u v); [by eapply part_take| |done].
      apply elem_of_concat in Hu as (A & HA & Hu). apply elem_of_list_lookup in HA as (j & HA).
      apply lookup_take_Some in HA as [HA _].
      assert (listed (part c x g) u) as Hl; [|by apply part_listed in Hl as [? _]].
      apply (lp_listed _ _ (vs_legal _ _ Hρ)), elem_of_concat. exists A. split; [by eapply elem_of_list_lookup_2|done].
    - destruct H2 as [H2|(u & Hu & Huv)]; [left; by apply Hforth|right; exists u; split; [by apply Hforth|done]].
  Qed.

  Lemma parallel_space_left : space_cost adj σ ≤ space_cost adj (parallel σ τ).
  Proof.
    apply (part_memory true); [done|intros k; rewrite parallel_length; lia| |].
    - intros k u. rewrite parallel_take, parallel_concat, elem_of_app. intros [?|Hu]; [done|].
      apply (part_take false) in Hu; [|done]. congruence.
    - intros k u Hu. rewrite parallel_take, parallel_concat, elem_of_app. by left.
  Qed.

  Lemma parallel_space_right : space_cost adj τ ≤ space_cost adj (parallel σ τ).
  Proof.
    apply (part_memory false); [done|intros k; rewrite parallel_length; lia| |].
    - intros k u. rewrite parallel_take, parallel_concat, elem_of_app. intros [Hu|?]; [|done].
      apply (part_take true) in Hu; [|done]. congruence.
    - intros k u Hu. rewrite parallel_take, parallel_concat, elem_of_app. by right.
  Qed.

  (** ** One part after the other *)

  Lemma sequence_valid : valid_schedule g (σ ++ τ).
  Proof.
    split; [split|].
    - intros M [H|H]%elem_of_app; [by apply (lp_nonempty _ _ (vs_legal _ _ Hσ))|by apply (lp_nonempty _ _ (vs_legal _ _ Hτ))].
    - rewrite concat_app. apply combined_nodup.
    - intros b. rewrite concat_app. apply combined_listed.
    - intros k M b d HM Hb Hd. destruct (decide (k < length σ)) as [Hk|Hk].
      + rewrite lookup_app_l in HM by done. rewrite take_app_le by lia.
        apply (lp_order _ _ (vs_legal _ _ Hσ) k M b d); [done|done|]. apply part_depends. split; [done|].
        assert (listed (part c true g) b) as Hl; [|by apply part_listed in Hl as [_ ?]].
        apply (lp_listed _ _ (vs_legal _ _ Hσ)), elem_of_concat. exists M. split; [by eapply elem_of_list_lookup_2|done].
      + rewrite lookup_app_r in HM by lia. rewrite take_app_ge by lia. rewrite concat_app, elem_of_app. right.
        apply (lp_order _ _ (vs_legal _ _ Hτ) _ M b d HM); [done|]. apply part_depends. split; [done|].
        assert (listed (part c false g) b) as Hl; [|by apply part_listed in Hl as [_ ?]].
        apply (lp_listed _ _ (vs_legal _ _ Hτ)), elem_of_concat. exists M. split; [by eapply elem_of_list_lookup_2|done].
    - intros b Hb. rewrite concat_app. by apply combined_complete.
  Qed.

  Lemma sequence_space : exhausting adj g → space_cost adj (σ ++ τ) ≤ max (space_cost adj σ) (space_cost adj τ).
  Proof.
    intros Hex. apply space_cost_lub. intros k Hk. rewrite app_length in Hk.
    destruct (decide (k < length σ)) as [Hlt|Hge].
    - etrans; [|apply Nat.le_max_l]. etrans; [|by apply (memory_space adj σ k)]. unfold memory_at.
      apply (filter_length_inj _ _ id); [|done]. intros v Hv [H1 H2]. unfold id, occupies.
      rewrite take_app_le in H1 by lia. rewrite take_app_le in H2 by lia. done.
    - etrans; [|apply Nat.le_max_r]. etrans; [|apply (memory_space adj τ (k - length σ)); lia]. unfold memory_at.
      apply (filter_length_inj _ _ id); [|done]. intros v Hv [H1 H2]. unfold id, occupies.
      rewrite take_app_ge in H1 by lia. rewrite take_app_ge in H2 by lia.
      replace (S k - length σ) with (S (k - length σ)) in H2 by lia.
      rewrite concat_app, not_elem_of_app in H1. destruct H1 as [H1 H1']. split; [done|]. split; [done|].
      rewrite concat_app in H2. apply needed_app in H2 as [H2|H2]; [|done]. exfalso. apply H1.
      destruct H2 as [?|(u & Hu & Hv')]; [done|].
      pose proof (lp_listed _ _ (vs_legal _ _ Hσ) u Hu) as [Hlu Hcu]%part_listed.
      apply (vs_complete _ _ Hσ), part_listed. split; [by apply (Hex u)|]. by rewrite (sp_edges _ _ _ Hs u v).
  Qed.
End combine.
