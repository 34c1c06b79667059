(** * How the Pareto fronts of related inputs are related *)
From Verif Require Export MainSearch.

(** ** Comparing costs *)

Lemma max_list_le l m : (∀ x, x ∈ l → x ≤ m) → max_list l ≤ m.
Proof.
  induction l as [|x l IH]; intros H; simpl; [lia|]. apply Nat.max_lub.
  - apply H. left.
  - apply IH. intros y Hy. apply H. by right.
Qed.

Lemma max_list_ge l x : x ∈ l → x ≤ max_list l.
Proof.
  induction l as [|y l IH]; [by intros ?%elem_of_nil|]. rewrite elem_of_cons. simpl.
  intros [->|H%IH]; lia.
Qed.

Lemma space_cost_lub adj σ m : (∀ k, k < length σ → memory_at adj σ k ≤ m) → space_cost adj σ ≤ m.
Proof.
  intros H. unfold space_cost. apply max_list_le. intros x (k & -> & Hk)%elem_of_list_fmap.
  apply elem_of_seq in Hk. apply H. lia.
Qed.

Lemma memory_space adj σ k : k < length σ → memory_at adj σ k ≤ space_cost adj σ.
Proof.
  intros Hk. unfold space_cost. apply max_list_ge, elem_of_list_fmap. exists k. split; [done|].
  apply elem_of_seq. lia.
Qed.

Lemma filter_length_inj (P Q : nat → Prop) `{∀ x, Decision (P x)} `{∀ x, Decision (Q x)} (f : nat → nat) n n' :
  (∀ v, v < n → P v → f v < n' ∧ Q (f v)) →
  (∀ u v, u < n → v < n → f u = f v → u = v) →
  length (filter P (seq 0 n)) ≤ length (filter Q (seq 0 n')).
Proof.
  intros Hf Hinj. rewrite <- (map_length f (filter P (seq 0 n))).
  apply submseteq_length, NoDup_submseteq.
  - assert (∀ l, NoDup l → (∀ v, v ∈ l → v < n) → NoDup (map f l)) as Hnd.
    { induction l as [|x l IH]; intros Hl Hlt; simpl; [constructor|].
      apply NoDup_cons in Hl as [Hx Hl]. constructor.
      - intros (y & Hy & Hyl)%elem_of_list_fmap. apply Hinj in Hy; [by subst|apply Hlt; left|apply Hlt; by right].
      - apply IH; [done|]. intros v Hv. apply Hlt. by right. }
    apply Hnd; [apply NoDup_filter, NoDup_seq|]. intros v [_ Hv]%elem_of_list_filter.
    apply elem_of_seq in Hv. lia.
  - intros x (v & -> & [Hp Hv]%elem_of_list_filter)%elem_of_list_fmap. apply elem_of_seq in Hv.
    apply Hf in Hp as [H1 H2]; [|lia]. apply elem_of_list_filter. split; [done|]. apply elem_of_seq. lia.
Qed.

(** ** Comparing fronts *)

Lemma front_better adj g ps adj' g' ps' :
  pareto_front adj g ps → pareto_front adj' g' ps' →
  (∀ σ, valid_schedule g σ → ∃ τ, valid_schedule g' τ ∧ time_cost τ ≤ time_cost σ ∧
     space_cost adj' τ ≤ space_cost adj σ) →
  ∀ p, p ∈ ps → ∃ p', p' ∈ ps' ∧ time p' ≤ time p ∧ (space p' <= space p)%N.
Proof.
  intros [Hps _] [_ [_ Hcov]] Hsim p Hp. rewrite Forall_forall in Hps.
  destruct (Hps p Hp) as (Hv & Ht & Hs). destruct (Hsim _ Hv) as (τ & Hτ & H1 & H2).
  destruct (Hcov τ Hτ) as (q & Hq & H3 & H4). exists q. split; [done|]. lia.
Qed.

(** Tradeoffs that match each other have the same costs. *)
Lemma tradeoff_cons p ps : tradeoff (p :: ps) → tradeoff ps.
Proof. intros H i j q r Hij Hq Hr. apply (H (S i) (S j) q r); [lia|done|done]. Qed.

Lemma tradeoff_head p ps q : tradeoff (p :: ps) → q ∈ ps → time p < time q ∧ (space q < space p)%N.
Proof.
  intros H [i Hi]%elem_of_list_lookup. apply (H 0 (S i) p q); [lia|done|done].
Qed.

Lemma front_costs ps ps' :
  tradeoff ps → tradeoff ps' →
  (∀ p, p ∈ ps → ∃ p', p' ∈ ps' ∧ time p' ≤ time p ∧ (space p' <= space p)%N) →
  (∀ p, p ∈ ps' → ∃ p', p' ∈ ps ∧ time p' ≤ time p ∧ (space p' <= space p)%N) →
  costs ps = costs ps'.
Proof.
  revert ps'. induction ps as [|p ps IH]; intros ps' Ht Ht' H1 H2.
  { destruct ps' as [|p' ps']; [done|]. destruct (H2 p') as (q & Hq & _); [left|]. by apply elem_of_nil in Hq. }
  destruct ps' as [|p' ps'].
  { destruct (H1 p) as (q & Hq & _); [left|]. by apply elem_of_nil in Hq. }
  assert (∀ q, q ∈ p :: ps → time p ≤ time q ∧ (time q ≤ time p → q = p)) as Hp.
  { intros q [->|Hq]%elem_of_cons; [done|]. pose proof (tradeoff_head _ _ _ Ht Hq). split; [lia|lia]. }
  assert (∀ q, q ∈ p' :: ps' → time p' ≤ time q ∧ (time q ≤ time p' → q = p')) as Hp'.
  { intros q [->|Hq]%elem_of_cons; [done|]. pose proof (tradeoff_head _ _ _ Ht' Hq). split; [lia|lia]. }
  assert (time p = time p' ∧ space p = space p') as [E1 E2].
  { destruct (H1 p) as (q & Hq & Ha & Hb); [left|]. destruct (H2 p') as (r & Hr & Hc & Hd); [left|].
    destruct (Hp' q Hq) as [Hq1 Hq2]. destruct (Hp r Hr) as [Hr1 Hr2].
    rewrite (Hq2 ltac:(lia)) in Hb. rewrite (Hr2 ltac:(lia)) in Hd. lia. }
  simpl. rewrite E1, E2. f_equal. apply IH.
  - by eapply tradeoff_cons.
  - by eapply tradeoff_cons.
  - intros q Hq. destruct (H1 q) as (r & Hr & Ha & Hb); [by right|].
    apply elem_of_cons in Hr as [->|Hr]; [|by exists r].
    destruct (tradeoff_head _ _ _ Ht Hq). lia.
  - intros q Hq. destruct (H2 q) as (r & Hr & Ha & Hb); [by right|].
    apply elem_of_cons in Hr as [->|Hr]; [|by exists r].
    destruct (tradeoff_head _ _ _ Ht' Hq). lia.
Qed.

(** The exact search returns a Pareto front, and nothing if there is nothing to
    measure. *)
Lemma exact_search adj g ho bd ps :
  wf_input adj g → (∀ l, ho l ≡ₚ l) →
  returns (λ fuel, search_single bd fuel (λ _, false) ho adj g None) ps →
  pareto_front adj g ps ∨ (∀ b, ¬ listed g b) ∧ ps = [].
Proof.
  intros Hin Hho Hr. destruct (qubits g) as [|b l] eqn:E.
  - right. assert (∀ b, ¬ listed g b) as Hno.
    { intros b Hb%listed_qubits. rewrite E in Hb. by apply elem_of_nil in Hb. }
    split; [done|]. destruct (no_nodes adj g (λ _, false) ho None bd Hin Hho Hno) as [_ Hr'].
    by pose proof (finishes_det _ _ _ Hr Hr') as [= ->].
  - left. destruct (search_optimal adj g ho Hin Hho) as (ps' & Hr' & Hf & _).
    { exists b. apply listed_qubits. rewrite E. left. }
    by pose proof (finishes_det _ _ _ Hr (Hr' bd)) as [= ->].
Qed.

Lemma pareto_listed adj g ps : pareto_front adj g ps → ps ≠ [] → (∀ b, ¬ listed g b) → ∀ p, p ∈ ps → steps p = [].
Proof.
  intros [Hok _] _ Hno p Hp. rewrite Forall_forall in Hok. destruct (Hok p Hp) as ([Hl _] & _).
  destruct (steps p) as [|M σ]; [done|].
  assert (M ≠ []) as HM by (apply (lp_nonempty _ _ Hl); left). destruct M as [|b M]; [done|].
  destruct (Hno b). apply (lp_listed _ _ Hl). simpl. left.
Qed.

Lemma search_better adj g adj' g' ho ho' bd bd' ps ps' :
  wf_input adj g → wf_input adj' g' → (∀ l, ho l ≡ₚ l) → (∀ l, ho' l ≡ₚ l) →
  returns (λ fuel, search_single bd fuel (λ _, false) ho adj g None) ps →
  returns (λ fuel, search_single bd' fuel (λ _, false) ho' adj' g' None) ps' →
  ((∃ b, listed g b) → ∃ b, listed g' b) →
  (∀ σ, valid_schedule g σ → ∃ τ, valid_schedule g' τ ∧ time_cost τ ≤ time_cost σ ∧
     space_cost adj' τ ≤ space_cost adj σ) →
  ∀ p, p ∈ ps → ∃ p', p' ∈ ps' ∧ time p' ≤ time p ∧ (space p' <= space p)%N.
Proof.
  intros Hin Hin' Hho Hho' Hr Hr' Hl Hsim.
  destruct (exact_search _ _ _ _ _ Hin Hho Hr) as [Hf|[_ ->]]; [|by intros p ?%elem_of_nil].
  destruct (exact_search _ _ _ _ _ Hin' Hho' Hr') as [Hf'|[Hno' ->]]; [by eapply front_better|].
  intros p Hp. exfalso.
  destruct (qubits g) as [|b l] eqn:E.
  - assert (∀ b, ¬ listed g b) as Hno.
    { intros b Hb%listed_qubits. rewrite E in Hb. by apply elem_of_nil in Hb. }
    destruct (no_nodes adj g (λ _, false) ho None bd Hin Hho Hno) as [_ Hr0].
    pose proof (finishes_det _ _ _ Hr Hr0) as [= ->]. by apply elem_of_nil in Hp.
  - destruct Hl as [b' Hb']; [|by apply (Hno' b')]. exists b. apply listed_qubits. rewrite E. left.
Qed.

(** ** C51: the names of the qubits *)

Section renamed.
  Context (f b : nat → nat) (adj : spacial) (g : order) (adj' : spacial) (g' : order).
  Context (Hr : renamed f b adj g adj' g') (Hin : wf_input adj g) (Hin' : wf_input adj' g').
  Notation n := (length adj).
  Notation mv := (map (map f)).

  Lemma renamed_inj u v : u < n → v < n → f u = f v → u = v.
  Proof.
    intros Hu Hv E. rewrite <- (proj2 (rn_forth _ _ _ _ _ _ Hr u Hu)), <- (proj2 (rn_forth _ _ _ _ _ _ Hr v Hv)).
    by rewrite E.
  Qed.

  Lemma concat_map_map (σ : schedule) : concat (mv σ) = map f (concat σ).
  Proof. induction σ as [|M σ IH]; simpl; [done|]. by rewrite map_app, IH. Qed.

  Lemma elem_of_map_inj (l : list nat) v : (∀ u, u ∈ l → u < n) → v < n → f v ∈ map f l ↔ v ∈ l.
  Proof.
    intros Hl Hv. rewrite elem_of_list_fmap. split.
    - intros (u & E & Hu). apply renamed_inj in E; [by subst|done|auto].
    - intros H. by exists v.
  Qed.

  Lemma take_mv k (σ : schedule) : take k (mv σ) = mv (take k σ).
  Proof. revert σ. induction k as [|k IH]; intros [|M σ]; simpl; [done..|]. by rewrite IH. Qed.

  Lemma legal_range (h : order) m p : wf_order m h → legal_prefix h p → ∀ v, v ∈ concat p → v < m.
  Proof. intros Hh Hl v Hv. apply (listed_range m h Hh). by apply (lp_listed _ _ Hl). Qed.

  Lemma renamed_valid σ : valid_schedule g σ → valid_schedule g' (mv σ).
  Proof.
    intros [Hl Hc]. pose proof (legal_range g n σ (proj2 Hin) Hl) as Hrg.
    assert (∀ v, v < n → f v < length adj') as Hlt.
    { intros v Hv. rewrite (rn_length _ _ _ _ _ _ Hr). by apply (rn_forth _ _ _ _ _ _ Hr). }
    split; [split|].
    - intros M (S & -> & HS)%elem_of_list_fmap E. apply (lp_nonempty _ _ Hl S HS).
      by apply fmap_nil_inv in E.
    - rewrite concat_map_map. clear -Hrg Hl Hr. destruct Hl as [_ Hnd _ _]. revert Hnd Hrg.
      generalize (concat σ). induction l as [|x l IH]; intros Hnd Hrg; simpl; [constructor|].
      apply NoDup_cons in Hnd as [Hx Hnd]. constructor.
      + rewrite elem_of_map_inj; [done|intros; apply Hrg; by right|apply Hrg; left].
      + apply IH; [done|]. intros; apply Hrg; by right.
    - intros v. rewrite concat_map_map. intros (u & -> & Hu)%elem_of_list_fmap.
      apply (rn_listed _ _ _ _ _ _ Hr); [auto|]. by apply (lp_listed _ _ Hl).
    - intros k S v d Hk Hv Hd. rewrite list_lookup_fmap in Hk.
      destruct (σ !! k) as [S0|] eqn:Ek; [|done]. simpl in Hk. injection Hk as <-.
      apply elem_of_list_fmap in Hv as (u & -> & Hu).
      assert (u ∈ concat σ) as Hu'.
      { apply elem_of_concat. exists S0. split; [|done]. by eapply elem_of_list_lookup_2. }
      assert (d < n) as Hdn.
      { rewrite <- (rn_length _ _ _ _ _ _ Hr). apply (listed_range _ g' (proj2 Hin')).
        by eapply (depends_listed _ _ (proj2 Hin')). }
      destruct (rn_back _ _ _ _ _ _ Hr d Hdn) as [Hbd Efb]. rewrite <- Efb in Hd |- *.
      apply (rn_depends _ _ _ _ _ _ Hr) in Hd; [|auto|done].
      rewrite take_mv, concat_map_map. apply elem_of_list_fmap. exists (b d). split; [done|].
      by apply (lp_order _ _ Hl k S0 u).
    - intros v Hv. rewrite concat_map_map.
      assert (v < n) as Hvn.
      { rewrite <- (rn_length _ _ _ _ _ _ Hr). by apply (listed_range _ g' (proj2 Hin')). }
      destruct (rn_back _ _ _ _ _ _ Hr v Hvn) as [Hbv Efb]. rewrite <- Efb in Hv |- *.
      apply (rn_listed _ _ _ _ _ _ Hr) in Hv; [|done]. apply elem_of_list_fmap. exists (b v). split; [done|auto].
  Qed.

  Lemma renamed_space σ : valid_schedule g σ → space_cost adj' (mv σ) ≤ space_cost adj σ.
  Proof.
    intros [Hl _]. pose proof (legal_range g n σ (proj2 Hin) Hl) as Hrg.
    apply space_cost_lub. rewrite map_length. intros k Hk.
    etrans; [|by apply (memory_space adj σ k)]. unfold memory_at. rewrite (rn_length _ _ _ _ _ _ Hr).
    apply (filter_length_inj _ _ b).
    - intros v Hv [H1 H2]. destruct (rn_back _ _ _ _ _ _ Hr v Hv) as [Hbv Efb]. split; [done|].
      rewrite <- Efb in H1, H2. rewrite take_mv, concat_map_map in H1, H2.
      assert (∀ j u, u ∈ concat (take j σ) → u < n) as Htk.
      { intros j u Hu. apply Hrg. rewrite <- (take_drop j σ), concat_app. apply elem_of_app. by left. }
      split.
      + intros H. by apply H1, (elem_of_map_inj (concat (take k σ)) (b v) (Htk k) Hbv).
      + destruct H2 as [H2|(u & Hu & H2)].
        * left. by apply (elem_of_map_inj (concat (take (S k) σ)) (b v) (Htk (S k)) Hbv).
        * apply elem_of_list_fmap in Hu as (w & -> & Hw). pose proof (Htk _ _ Hw) as Hwn.
          destruct (decide (w = b v)) as [->|Hne]; [by left|]. right. exists w. split; [done|].
          by apply (rn_edges _ _ _ _ _ _ Hr).
    - intros u v Hu Hv E.
      rewrite <- (proj2 (rn_back _ _ _ _ _ _ Hr u Hu)), <- (proj2 (rn_back _ _ _ _ _ _ Hr v Hv)). by rewrite E.
  Qed.

  Lemma renamed_sym : renamed b f adj' g' adj g.
  Proof.
    pose proof (rn_length _ _ _ _ _ _ Hr) as El. split; rewrite ?El.
    - done.
    - apply (rn_back _ _ _ _ _ _ Hr).
    - apply (rn_forth _ _ _ _ _ _ Hr).
    - intros u v Hu Hv Hne. destruct (rn_back _ _ _ _ _ _ Hr u Hu) as [H1 E1].
      destruct (rn_back _ _ _ _ _ _ Hr v Hv) as [H2 E2].
      rewrite (rn_edges _ _ _ _ _ _ Hr (b u) (b v)); [by rewrite E1, E2|done|done|congruence].
    - intros v Hv. destruct (rn_back _ _ _ _ _ _ Hr v Hv) as [H1 E1].
      rewrite (rn_listed _ _ _ _ _ _ Hr (b v)); [by rewrite E1|done].
    - intros u v Hu Hv. destruct (rn_back _ _ _ _ _ _ Hr u Hu) as [H1 E1].
      destruct (rn_back _ _ _ _ _ _ Hr v Hv) as [H2 E2].
      rewrite (rn_depends _ _ _ _ _ _ Hr (b u) (b v)); [by rewrite E1, E2|done|done].
  Qed.

  Lemma renamed_inhabited : (∃ v, listed g v) → ∃ v, listed g' v.
  Proof.
    intros [v Hv]. exists (f v). apply (rn_listed _ _ _ _ _ _ Hr); [|done].
    by apply (listed_range _ g (proj2 Hin)).
  Qed.
End renamed.

Lemma returned_tradeoff adj g ho bd ps :
  wf_input adj g → (∀ l, ho l ≡ₚ l) →
  returns (λ fuel, search_single bd fuel (λ _, false) ho adj g None) ps → tradeoff ps.
Proof.
  intros Hin Hho Hr. destruct (search_valid adj g (λ _, false) ho None Hin Hho I) as (ps' & Hr' & _ & Ht).
  by pose proof (finishes_det _ _ _ Hr (Hr' bd)) as [= ->].
Qed.

Lemma search_renamed :
  ∀ f b adj g adj' g' ho ho' bd bd' ps ps',
  wf_input adj g → wf_input adj' g' → (∀ l, ho l ≡ₚ l) → (∀ l, ho' l ≡ₚ l) →
  renamed f b adj g adj' g' →
  returns (λ fuel, search_single bd fuel (λ _, false) ho adj g None) ps →
  returns (λ fuel, search_single bd' fuel (λ _, false) ho' adj' g' None) ps' →
  costs ps = costs ps'.
Proof.
  intros f b adj g adj' g' ho ho' bd bd' ps ps' Hin Hin' Hho Hho' Hr Hps Hps'.
  pose proof (renamed_sym _ _ _ _ _ _ Hr) as Hr'.
  apply front_costs.
  - by apply (returned_tradeoff adj g ho bd).
  - by apply (returned_tradeoff adj' g' ho' bd').
  - apply (search_better adj g adj' g' ho ho' bd bd'); [done..|exact (renamed_inhabited _ _ _ _ _ _ Hr Hin)|].
    intros σ Hσ. exists (map (map f) σ). split; [by eapply renamed_valid|].
    unfold time_cost. rewrite map_length. split; [done|]. by eapply renamed_space.
  - apply (search_better adj' g' adj g ho' ho bd' bd); [done..|exact (renamed_inhabited _ _ _ _ _ _ Hr' Hin')|].
    intros σ Hσ. exists (map (map b) σ). split; [by eapply renamed_valid|].
    unfold time_cost. rewrite map_length. split; [done|]. by eapply renamed_space.
Qed.

(** ** C52: fewer edges, fewer dependencies *)

Lemma relaxed_valid adj g adj' g' σ : relaxed adj g adj' g' → valid_schedule g σ → valid_schedule g' σ.
Proof.
  intros Hx [[H1 H2 H3 H4] H5]. split; [split; [done|done| |]|].
  - intros v Hv. by apply (rx_listed _ _ _ _ Hx), H3.
  - intros k S v d Hk Hv Hd. eapply H4; [done|done|]. by apply (rx_depends _ _ _ _ Hx).
  - intros v Hv. apply H5. by apply (rx_listed _ _ _ _ Hx).
Qed.

Lemma relaxed_space adj g adj' g' σ : relaxed adj g adj' g' → space_cost adj' σ ≤ space_cost adj σ.
Proof.
  intros Hx. apply space_cost_lub. intros k Hk. etrans; [|by apply (memory_space adj σ k)].
  unfold memory_at. rewrite (rx_length _ _ _ _ Hx). apply (filter_length_inj _ _ id); [|done].
  intros v Hv [H1 H2]. split; [done|]. split; [done|]. destruct H2 as [H2|(u & Hu & H2)]; [by left|].
  right. exists u. split; [done|]. by apply (rx_edges _ _ _ _ Hx).
Qed.

Lemma search_relaxed :
  ∀ adj g adj' g' ho ho' bd bd' ps ps',
  wf_input adj g → wf_input adj' g' → (∀ l, ho l ≡ₚ l) → (∀ l, ho' l ≡ₚ l) →
  relaxed adj g adj' g' →
  returns (λ fuel, search_single bd fuel (λ _, false) ho adj g None) ps →
  returns (λ fuel, search_single bd' fuel (λ _, false) ho' adj' g' None) ps' →
  ∀ p, p ∈ ps → ∃ p', p' ∈ ps' ∧ time p' ≤ time p ∧ (space p' <= space p)%N.
Proof.
  intros adj g adj' g' ho ho' bd bd' ps ps' Hin Hin' Hho Hho' Hx Hps Hps'.
  apply (search_better adj g adj' g' ho ho' bd bd'); [done..| |].
  - intros [v Hv]. exists v. by apply (rx_listed _ _ _ _ Hx).
  - intros σ Hσ. exists σ. split; [by eapply relaxed_valid|]. split; [done|]. by eapply relaxed_space.
Qed.

(** ** C53: one qubit at a time *)

Definition singles (l : list nat) : schedule := map (λ v, [v]) l.

Lemma concat_singles l : concat (singles l) = l.
Proof. induction l as [|x l IH]; simpl; [done|]. by rewrite IH. Qed.

Lemma take_singles k l : take k (singles l) = singles (take k l).
Proof. revert l. induction k as [|k IH]; intros [|x l]; simpl; [done..|]. by rewrite IH. Qed.

Lemma singles_sequential l : sequential (singles l).
Proof. by intros S (v & -> & _)%elem_of_list_fmap. Qed.

(** The step of a position. *)
Lemma concat_position (σ : schedule) i :
  i < length (concat σ) →
  ∃ k S j, σ !! k = Some S ∧ j < length S ∧
    take i (concat σ) = concat (take k σ) ++ take j S ∧
    take (Datatypes.S i) (concat σ) = concat (take k σ) ++ take (Datatypes.S j) S.
Proof.
  revert i. induction σ as [|S σ IH]; intros i Hi; simpl in *; [lia|].
  rewrite app_length in Hi. destruct (decide (i < length S)) as [Hlt|Hge].
  - exists 0, S, i. split; [done|]. split; [done|]. simpl. rewrite !take_app_le by lia. done.
  - destruct (IH (i - length S)) as (k & S' & j & Hk & Hj & H1 & H2); [lia|].
    exists (Datatypes.S k), S', j. split; [done|]. split; [done|]. simpl.
    rewrite <- !app_assoc, <- H1, <- H2.
    replace i with (length S + (i - length S)) at 1 by lia.
    replace (Datatypes.S i) with (length S + Datatypes.S (i - length S)) by lia.
    rewrite !take_add_app by done. done.
Qed.

Lemma singles_valid g σ : valid_schedule g σ → valid_schedule g (singles (concat σ)).
Proof.
  intros [Hl Hc]. split; [split|].
  - by intros S (v & -> & _)%elem_of_list_fmap.
  - rewrite concat_singles. apply Hl.
  - intros v. rewrite concat_singles. apply (lp_listed _ _ Hl).
  - intros i S v d Hi Hv Hd. rewrite take_singles, concat_singles.
    unfold singles in Hi. rewrite list_lookup_fmap in Hi. destruct (concat σ !! i) as [w|] eqn:Ew; [|done].
    simpl in Hi. injection Hi as <-. apply elem_of_list_singleton in Hv as ->.
    destruct (concat_position σ i) as (k & S & j & Hk & Hj & H1 & H2); [by eapply lookup_lt_Some|].
    rewrite H1. apply elem_of_app. left. eapply (lp_order _ _ Hl); [done| |done].
    assert (take (Datatypes.S i) (concat σ) = take i (concat σ) ++ [w]) as E by (by apply take_S_r).
    rewrite H1, H2, <- app_assoc in E. apply app_inv_head in E.
    assert (w ∈ take j S ++ [w]) as Hw by (apply elem_of_app; right; left). rewrite <- E in Hw.
    apply elem_of_take in Hw as (m & Hm & _). by eapply elem_of_list_lookup_2.
  - intros v Hv. rewrite concat_singles. by apply Hc.
Qed.

Lemma singles_space adj σ : space_cost adj (singles (concat σ)) ≤ space_cost adj σ.
Proof.
  apply space_cost_lub. unfold singles at 1. rewrite map_length. intros i Hi.
  destruct (concat_position σ i Hi) as (k & S & j & Hk & Hj & H1 & H2).
  etrans; [|apply (memory_space adj σ k); by eapply lookup_lt_Some]. unfold memory_at.
  apply (filter_length_inj _ _ id); [|done]. intros v Hv [Ha Hb]. split; [done|].
  rewrite take_singles, concat_singles in Ha, Hb. rewrite H1 in Ha. rewrite H2 in Hb. split.
  - intros H. apply Ha, elem_of_app. by left.
  - assert (∀ u, u ∈ concat (take k σ) ++ take (Datatypes.S j) S → u ∈ concat (take (Datatypes.S k) σ)) as Hsub.
    { intros u. rewrite (take_S_r _ _ _ Hk), concat_app, !elem_of_app. simpl. rewrite app_nil_r.
      intros [?|(m & ? & _)%elem_of_take]; [by left|]. right. by eapply elem_of_list_lookup_2. }
    simpl. destruct Hb as [Hb|(u & Hu & Hb)]; [left; by apply Hsub|]. right. exists u. split; [by apply Hsub|done].
Qed.

Lemma search_sequential :
  ∀ adj g ho bd ps, wf_input adj g → (∀ l, ho l ≡ₚ l) → (∃ b, listed g b) →
  returns (λ fuel, search_single bd fuel (λ _, false) ho adj g None) ps →
  ∃ p, last ps = Some p ∧
    (* the memory of the last path is the least that is possible one qubit at a time *)
    (∃ σ, valid_schedule g σ ∧ sequential σ ∧ space p = N.of_nat (space_cost adj σ)) ∧
    ∀ σ, valid_schedule g σ → sequential σ → (space p <= N.of_nat (space_cost adj σ))%N.
Proof.
  intros adj g ho bd ps Hin Hho Hl Hr.
  destruct (search_optimal adj g ho Hin Hho Hl) as (ps' & Hr' & (Hok & _) & _ & _ & (p & Hp & Hbest)).
  pose proof (finishes_det _ _ _ Hr (Hr' bd)) as [= ->]. exists p. split; [done|].
  split; [|intros σ Hσ _; by apply Hbest].
  rewrite Forall_forall in Hok. assert (p ∈ ps') as Hin'.
  { destruct ps' as [|q ps' _] using rev_ind; [done|]. rewrite last_snoc in Hp. injection Hp as ->.
    apply elem_of_app. right. left. }
  destruct (Hok p Hin') as (Hv & Ht & Hs). exists (singles (concat (steps p))).
  split; [by apply singles_valid|]. split; [apply singles_sequential|].
  pose proof (Hbest _ (singles_valid _ _ Hv)). pose proof (singles_space adj (steps p)). lia.
Qed.

(** ** C54: how many paths there are and how large the costs are *)

Lemma tradeoff_length ps lo hi :
  tradeoff ps → (∀ p, p ∈ ps → lo < time p ∧ time p ≤ hi) → length ps ≤ hi - lo.
Proof.
  revert lo. induction ps as [|p ps IH]; intros lo Ht Hb; simpl; [lia|].
  destruct (Hb p ltac:(left)) as [H1 H2].
  assert (length ps ≤ hi - time p); [|lia]. apply IH; [by eapply tradeoff_cons|].
  intros q Hq. split; [by apply (tradeoff_head p ps)|]. apply Hb. by right.
Qed.

Lemma valid_time adj g σ : wf_input adj g → valid_schedule g σ → length σ ≤ length (qubits g).
Proof.
  intros Hin [Hl _]. etrans; [apply concat_length_ge, Hl|].
  apply submseteq_length, NoDup_submseteq; [apply Hl|]. intros v Hv. apply listed_qubits. by apply (lp_listed _ _ Hl).
Qed.

Lemma valid_space_pos adj g σ :
  wf_input adj g → valid_schedule g σ → σ ≠ [] → 1 ≤ space_cost adj σ.
Proof.
  intros Hin [Hl _] Hne. destruct σ as [|M σ]; [done|].
  assert (M ≠ []) as HM by (apply (lp_nonempty _ _ Hl); left). destruct M as [|b M]; [done|].
  etrans; [|apply (memory_space _ _ 0); simpl; lia]. unfold memory_at.
  assert (b < length adj) as Hb.
  { apply (listed_range _ g (proj2 Hin)), (lp_listed _ _ Hl). simpl. left. }
  assert (b ∈ filter (occupies adj ((b :: M) :: σ) 0) (seq 0 (length adj))) as Hf.
  { apply elem_of_list_filter. split; [|apply elem_of_seq; lia]. split; [by intros ?%elem_of_nil|]. left. simpl. left. }
  destruct (filter _ _); [by apply elem_of_nil in Hf|]. simpl. lia.
Qed.

Lemma paths_bounds adj g ps :
  wf_input adj g → (∃ b, listed g b) → Forall (path_ok adj g) ps → tradeoff ps →
  length ps ≤ length (qubits g) ∧
  ∀ p, p ∈ ps → 1 ≤ time p ≤ length (qubits g) ∧ (1 <= space p <= N.of_nat (length adj))%N.
Proof.
  intros Hin [b Hb] Hok Ht. rewrite Forall_forall in Hok.
  assert (∀ p, p ∈ ps → 1 ≤ time p ≤ length (qubits g) ∧ (1 <= space p <= N.of_nat (length adj))%N) as H.
  { intros p Hp. destruct (Hok p Hp) as (Hv & -> & ->). unfold time_cost.
    assert (steps p ≠ []) as Hne.
    { intros E. apply (vs_complete _ _ Hv) in Hb. rewrite E in Hb. by apply elem_of_nil in Hb. }
    pose proof (valid_time _ _ _ Hin Hv). pose proof (valid_space_pos _ _ _ Hin Hv Hne).
    pose proof (space_cost_le adj (proj2 (proj1 Hin)) (steps p)).
    destruct (steps p); [done|]. simpl in *. lia. }
  split; [|done].
  assert (length ps ≤ length (qubits g) - 0); [|lia]. apply tradeoff_length; [done|].
  intros p Hp. specialize (H p Hp). lia.
Qed.

(** ** The time optimal path *)

Lemma greedy_step g p k M b σ j S :
  greedy g p → valid_schedule g p → p !! k = Some M → b ∈ M →
  legal_prefix g σ → σ !! j = Some S → b ∈ S → k ≤ j.
Proof.
  intros Hg Hv Hk Hb Hσ Hj Hs. destruct (decide (k ≤ j)) as [|Hlt]; [done|]. exfalso.
  pose proof (lookup_lt_Some _ _ _ Hk).
  assert (b ∈ concat (take (Datatypes.S j) p)) as Hin.
  { apply (greedy_ahead g p σ Hg Hσ); [lia|]. apply elem_of_take_S. right. by exists S. }
  apply (Hg k M Hk) in Hb as (_ & Hnot & _). apply Hnot.
  replace (take k p) with (take (Datatypes.S j) p ++ take (k - Datatypes.S j) (drop (Datatypes.S j) p)).
  - rewrite concat_app. apply elem_of_app. by left.
  - rewrite <- (take_drop (Datatypes.S j) p) at 3. rewrite take_app_ge; rewrite ?take_length; [|lia].
    rewrite Nat.min_l by lia. done.
Qed.

(** There is only one schedule that measures everything as early as possible. *)
Lemma greedy_unique g p q :
  greedy g p → greedy g q → valid_schedule g p → valid_schedule g q → same_schedule p q.
Proof.
  intros Hp Hq Hvp Hvq.
  assert (length p = length q) as Hlen.
  { pose proof (greedy_optimal g p q Hp (vs_legal _ _ Hvp) Hvq).
    pose proof (greedy_optimal g q p Hq (vs_legal _ _ Hvq) Hvp). lia. }
  apply Forall2_same_length_lookup_2; [done|]. intros k M S HM HS.
  assert (∀ (r : schedule) i R, legal_prefix g r → r !! i = Some R → NoDup R) as Hnd.
  { intros r i R [_ Hnd _ _] Hi. apply elem_of_list_split_length in Hi as (l1 & l2 & -> & _).
    rewrite concat_app in Hnd. apply NoDup_app in Hnd as (_ & _ & Hnd). simpl in Hnd.
    by apply NoDup_app in Hnd as [? _]. }
  apply NoDup_Permutation.
  - by eapply Hnd; [apply Hvp|].
  - by eapply Hnd; [apply Hvq|].
  - assert (∀ (r s : schedule) R T b, greedy g r → greedy g s → valid_schedule g r → valid_schedule g s →
      r !! k = Some R → s !! k = Some T → b ∈ R → b ∈ T) as Hsub.
    { clear. intros r s R T b Hr Hs Hvr Hvs HR HT Hb.
      assert (b ∈ concat s) as Hbs.
      { apply (vs_complete _ _ Hvs), (lp_listed _ _ (vs_legal _ _ Hvr)), elem_of_concat.
        exists R. split; [by eapply elem_of_list_lookup_2|done]. }
      apply elem_of_concat in Hbs as (T' & HT' & Hb'). apply elem_of_list_lookup in HT' as [j Hj].
      pose proof (greedy_step g r k R b s j T' Hr Hvr HR Hb (vs_legal _ _ Hvs) Hj Hb').
      pose proof (greedy_step g s j T' b r k R Hs Hvs Hj Hb' (vs_legal _ _ Hvr) HR Hb).
      assert (j = k) as -> by lia. rewrite HT in Hj. by injection Hj as ->. }
    intros b. split; intros Hb; [by eapply (Hsub p q)|by eapply (Hsub q p)].
Qed.

Lemma greedy_renamed f b adj g adj' g' p :
  renamed f b adj g adj' g' → wf_input adj g → wf_input adj' g' →
  valid_schedule g p → greedy g p → greedy g' (map (map f) p).
Proof.
  intros Hr Hin Hin' Hv Hp k M Hk v. rewrite list_lookup_fmap in Hk.
  destruct (p !! k) as [S|] eqn:Ek; [|done]. simpl in Hk. injection Hk as <-.
  pose proof (legal_range g (length adj) p (proj2 Hin) (vs_legal _ _ Hv)) as Hrg.
  assert (∀ j u, u ∈ concat (take j p) → u < length adj) as Htk.
  { intros j u Hu. apply Hrg. rewrite <- (take_drop j p), concat_app. apply elem_of_app. by left. }
  rewrite take_mv, concat_map_map.
  assert (∀ u, listed g' u → u < length adj) as Hl'.
  { intros u Hu. rewrite <- (rn_length _ _ _ _ _ _ Hr). by apply (listed_range _ g' (proj2 Hin')). }
  split.
  - intros (u & -> & Hu)%elem_of_list_fmap.
    apply (Hp k S Ek) in Hu as (H1 & H2 & H3).
    assert (u < length adj) as Hun by (by apply (listed_range _ g (proj2 Hin))).
    split; [by apply (rn_listed _ _ _ _ _ _ Hr)|]. split.
    + intros H. by apply (elem_of_map_inj _ _ _ _ _ _ Hr _ u (Htk k) Hun) in H.
    + intros d Hd. pose proof (Hl' d (depends_listed _ _ (proj2 Hin') _ _ Hd)) as Hdn.
      destruct (rn_back _ _ _ _ _ _ Hr d Hdn) as [Hbd Efb]. rewrite <- Efb in Hd |- *.
      apply (rn_depends _ _ _ _ _ _ Hr) in Hd; [|done|done].
      apply elem_of_list_fmap. exists (b d). split; [done|]. by apply H3.
  - intros (H1 & H2 & H3). pose proof (Hl' v H1) as Hvn.
    destruct (rn_back _ _ _ _ _ _ Hr v Hvn) as [Hbv Efb].
    apply elem_of_list_fmap. exists (b v). split; [done|]. apply (Hp k S Ek). split; [|split].
    + apply (rn_listed _ _ _ _ _ _ Hr); [done|]. by rewrite Efb.
    + intros H. apply H2. rewrite <- Efb. apply elem_of_list_fmap. by exists (b v).
    + intros d Hd. assert (d < length adj) as Hdn.
      { apply (listed_range _ g (proj2 Hin)). by eapply (depends_listed _ _ (proj2 Hin)). }
      apply (elem_of_map_inj _ _ _ _ _ _ Hr _ d (Htk k) Hdn). apply H3. rewrite <- Efb.
      by apply (rn_depends _ _ _ _ _ _ Hr).
Qed.

Lemma time_optimal_greedy adj g bd p :
  wf_input adj g → returns (λ fuel, get_time_optimal bd fuel adj g) [p] →
  path_ok adj g p ∧ greedy g (steps p).
Proof.
  intros Hin [f0 Hr]. destruct (time_optimal_spec adj g Hin bd f0 _ (Hr f0 (le_n _))) as (q & [= ->] & Hv & Hg).
  by split.
Qed.

Lemma time_optimal_renamed f b adj g adj' g' bd bd' p p' :
  wf_input adj g → wf_input adj' g' → renamed f b adj g adj' g' →
  returns (λ fuel, get_time_optimal bd fuel adj g) [p] →
  returns (λ fuel, get_time_optimal bd' fuel adj' g') [p'] →
  same_schedule (map (map f) (steps p)) (steps p') ∧ time p = time p' ∧ space p = space p'.
Proof.
  intros Hin Hin' Hr H H'. destruct (time_optimal_greedy _ _ _ _ Hin H) as [(Hv & Ht & Hs) Hg].
  destruct (time_optimal_greedy _ _ _ _ Hin' H') as [(Hv' & Ht' & Hs') Hg'].
  pose proof (renamed_sym _ _ _ _ _ _ Hr) as Hr'.
  assert (same_schedule (map (map f) (steps p)) (steps p')) as Hsame.
  { apply (greedy_unique g'); [by eapply greedy_renamed|done|by eapply renamed_valid|done]. }
  assert (same_schedule (map (map b) (steps p')) (steps p)) as Hsame'.
  { apply (greedy_unique g); [by eapply greedy_renamed|done|by eapply renamed_valid|done]. }
  split; [done|]. split.
  - rewrite Ht, Ht'. unfold time_cost. apply Forall2_length in Hsame. by rewrite map_length in Hsame.
  - rewrite Hs, Hs'. f_equal. apply Nat.le_antisymm.
    + rewrite <- (space_cost_same adj _ _ Hsame'). by eapply renamed_space.
    + rewrite <- (space_cost_same adj' _ _ Hsame). by eapply renamed_space.
Qed.

(** ** C55: as early as possible *)

Lemma time_optimal_earliest :
  ∀ adj g bd p, wf_input adj g → returns (λ fuel, get_time_optimal bd fuel adj g) [p] →
  ∀ k S b, steps p !! k = Some S → b ∈ S →
  (* after a chain of [k] dependencies *)
  (∃ l, length l = k ∧ chained g (l ++ [b]) ∧ ∀ c, c ∈ l → listed g c) ∧
  (* no legal schedule measures the qubit earlier *)
  ∀ σ j S', legal_prefix g σ → σ !! j = Some S' → b ∈ S' → k ≤ j.
Proof.
  intros adj g bd p Hin Hr k S b Hk Hb. destruct (time_optimal_greedy _ _ _ _ Hin Hr) as [(Hv & _) Hg]. split.
  - eapply (greedy_chain (length adj) g); [apply Hin|done|done|done].
  - intros σ j S' Hσ Hj Hb'. by eapply (greedy_step g (steps p)).
Qed.
