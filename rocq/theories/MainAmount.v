(** * The number of schedules *)
From Verif Require Import MainSweep MainOrder SeriesFacts MainSeries PartsFacts.
From Verif Require Export AmountSpec OrderSpec PartsSpec.

(** ** Counting *)

(** Every element of the first list has a partner in the second one, and no two have
    the same. *)
Lemma partners {A B} (R : A → B → Prop) (L : list A) (M : list B) :
  (∀ i a, L !! i = Some a → ∃ j b, M !! j = Some b ∧ R a b) →
  (∀ i i' j a a' b, L !! i = Some a → L !! i' = Some a' → M !! j = Some b → R a b → R a' b → i = i') →
  length L ≤ length M.
Proof.
  intros Hex Huniq.
  assert (∃ js, Forall2 (λ a j, ∃ b, M !! j = Some b ∧ R a b) L js) as (js & Hjs).
  { clear Huniq. induction L as [|a L IH]; [by exists []|]. destruct IH as (js & Hjs).
    - intros i b Hb. by apply (Hex (S i)).
    - destruct (Hex 0 a eq_refl) as (j & b & Hj). exists (j :: js). constructor; [by exists b|done]. }
  rewrite (Forall2_length _ _ _ Hjs), <- (seq_length (length M) 0). apply submseteq_length, NoDup_submseteq.
  - apply NoDup_alt. intros i i' j Hi Hi'.
    destruct (Forall2_lookup_r _ _ _ _ _ Hjs Hi) as (a & Ha & b & Hb & HR).
    destruct (Forall2_lookup_r _ _ _ _ _ Hjs Hi') as (a' & Ha' & b' & Hb' & HR').
    assert (b' = b) as -> by congruence. by eapply Huniq.
  - intros j Hj. apply elem_of_list_lookup in Hj as (i & Hi).
    destruct (Forall2_lookup_r _ _ _ _ _ Hjs Hi) as (a & _ & b & Hb & _).
    apply elem_of_seq. apply lookup_lt_Some in Hb. lia.
Qed.

Definition lists (g : order) (L : list schedule) : Prop :=
  (∀ σ, σ ∈ L → valid_schedule g σ) ∧
  ∀ σ, valid_schedule g σ →
    ∃ i τ, L !! i = Some τ ∧ same_schedule τ σ ∧ ∀ j υ, L !! j = Some υ → same_schedule υ σ → j = i.

Lemma lists_find g L σ : lists g L → valid_schedule g σ → ∃ i τ, L !! i = Some τ ∧ same_schedule τ σ.
Proof. intros [_ H] Hv. destruct (H σ Hv) as (i & τ & Hi & Hs & _). by exists i, τ. Qed.

Lemma lists_same g L i j σ τ : lists g L → L !! i = Some σ → L !! j = Some τ → same_schedule σ τ → i = j.
Proof.
  intros [H1 H2] Hi Hj Hs. destruct (H2 τ) as (k & υ & Hk & Hsk & Hu); [by apply H1; eapply elem_of_list_lookup_2|].
  rewrite (Hu i σ Hi Hs). symmetry. apply (Hu j τ Hj). apply same_schedule_refl.
Qed.

Lemma lists_valid g L i σ : lists g L → L !! i = Some σ → valid_schedule g σ.
Proof. intros [H _] Hi. apply H. by eapply elem_of_list_lookup_2. Qed.

Lemma lists_le g g' L L' : lists g L → lists g' L' → (∀ σ, valid_schedule g' σ → valid_schedule g σ) →
  length L' ≤ length L.
Proof.
  intros HL HL' Hsub. apply (partners (λ σ τ, same_schedule τ σ)).
  - intros i σ Hi. by eapply lists_find, Hsub, lists_valid.
  - intros i i' j σ σ' τ Hi Hi' _ H1 H2. eapply (lists_same g' L'); [done..|].
    eapply same_schedule_trans; [by apply same_schedule_sym|done].
Qed.

Global Instance same_schedule_dec σ τ : Decision (same_schedule σ τ).
Proof. unfold same_schedule. apply _. Defined.

Lemma same_valid g σ τ : same_schedule σ τ → valid_schedule g σ → valid_schedule g τ.
Proof.
  intros Hs [[H1 H2 H3 H4] H5]. pose proof (same_schedule_concat _ _ Hs) as Hc. split; [split|].
  - intros M HM. apply elem_of_list_lookup in HM as (k & Hk).
    destruct (Forall2_lookup_r _ _ _ _ _ Hs Hk) as (M' & HM' & Hp). intros ->.
    apply (H1 M'); [by eapply elem_of_list_lookup_2|]. by apply Permutation_nil_r in Hp.
  - by rewrite <- Hc.
  - intros b Hb. apply H3. by rewrite Hc.
  - intros k M b d HM Hb Hd. destruct (Forall2_lookup_r _ _ _ _ _ Hs HM) as (M' & HM' & Hp).
    rewrite <- (same_schedule_concat _ _ (same_schedule_take _ _ k Hs)). apply (H4 k M' b d HM'); [by rewrite Hp|done].
  - intros b Hb. rewrite <- Hc. by apply H5.
Qed.

(** Fewer schedules, unless they are the same. *)
Lemma lists_eq g g' L L' : lists g L → lists g' L' → (∀ σ, valid_schedule g' σ → valid_schedule g σ) →
  length L' = length L → ∀ σ, valid_schedule g σ → valid_schedule g' σ.
Proof.
  intros HL HL' Hsub He σ Hσ.
  destruct (decide (Exists (λ τ, same_schedule τ σ) L')) as [Hex|Hno].
  { apply Exists_exists in Hex as (τ & Hτ & Hs). eapply same_valid; [exact Hs|]. by apply HL'. }
  exfalso. assert (length (σ :: L') ≤ length L) as Hle; [|simpl in Hle; lia].
  assert (∀ i τ, L' !! i = Some τ → ¬ same_schedule τ σ) as Hn.
  { intros i τ Hi Hs. apply Hno, Exists_exists. exists τ. split; [by eapply elem_of_list_lookup_2|done]. }
  apply (partners (λ σ τ, same_schedule τ σ)).
  - intros [|i] τ Hi; [injection Hi as <-; by eapply lists_find|]. simpl in Hi. by eapply lists_find, Hsub, lists_valid.
  - intros [|i] [|i'] j τ τ' υ Hi Hi' _ H1 H2; simpl in *; [done| | |].
    + injection Hi as <-. destruct (Hn _ _ Hi'). eapply same_schedule_trans; [by apply same_schedule_sym|done].
    + injection Hi' as <-. destruct (Hn _ _ Hi). eapply same_schedule_trans; [by apply same_schedule_sym|done].
    + f_equal. eapply (lists_same g' L'); [done..|]. eapply same_schedule_trans; [by apply same_schedule_sym|done].
Qed.

(** ** Statements *)

Lemma amount_unique : ∀ g k k', amount g k → amount g k' → k = k'.
Proof.
  intros g k k' (L & <- & HL) (L' & <- & HL').
  pose proof (lists_le g g L L' HL HL' (λ _ H, H)). pose proof (lists_le g g L' L HL' HL (λ _ H, H)). lia.
Qed.

(** What a sweep counts. *)
Lemma amount_swept :
  ∀ adj g buf, wf_input adj g → length adj ≤ length buf → (∃ b, listed g b) →
  ∃ t ps qs, from_dependency_graph (T := Partition nat) g buf None = Val t ∧
    (∀ bd, returns (λ fuel, get_all_paths (H := time_focus_iterator bd) fuel [] t) ps) ∧
    (∀ bd, returns (λ fuel, get_all_paths (H := scheduler_focus_iterator bd) fuel []
                              (mkScheduler t (graph_new adj))) qs) ∧
    amount g (length ps) ∧ amount g (length qs) ∧ length ps = length qs.
Proof.
  intros adj g buf Hin Hb Hl.
  destruct (generator_paths (length adj) g buf (proj2 Hin) Hb (proj2 (proj1 Hin))) as (t & ps & Ht & Hr & Hv & Hc & _).
  destruct (scheduler_paths adj g buf Hin Hb) as (t' & qs & Ht' & Hr' & Hv' & Hc' & _).
  assert (t' = t) as -> by congruence. exists t, ps, qs. split; [done|]. split; [done|]. split; [done|].
  assert (amount g (length ps)) as H1.
  { exists ps.*1. split; [by rewrite fmap_length|]. split.
    - intros σ Hσ. apply elem_of_list_fmap in Hσ as ([q l] & -> & Hq). by eapply Hv.
    - intros σ Hσ. destruct (Hc Hl σ Hσ) as (i & q & Hi & Hs & Hu). exists i, q.
      split; [by rewrite list_lookup_fmap, Hi|]. split; [done|]. intros j υ Hj Hsj.
      rewrite list_lookup_fmap in Hj. destruct (ps !! j) as [[q' []]|] eqn:Ej; [|done]. injection Hj as <-. by eapply Hu. }
  assert (amount g (length qs)) as H2.
  { exists qs.*1. split; [by rewrite fmap_length|]. split.
    - intros σ Hσ. apply elem_of_list_fmap in Hσ as ([q l] & -> & Hq). by eapply Hv'.
    - intros σ Hσ. destruct (Hc' Hl σ Hσ) as (i & q & m & Hi & Hs & Hu). exists i, q.
      split; [by rewrite list_lookup_fmap, Hi|]. split; [done|]. intros j υ Hj Hsj.
      rewrite list_lookup_fmap in Hj. destruct (qs !! j) as [[q' m']|] eqn:Ej; [|done]. injection Hj as <-. by eapply Hu. }
  split; [done|]. split; [done|]. by eapply amount_unique.
Qed.

(** A stronger order has fewer schedules. *)
Lemma amount_stronger :
  ∀ n n' g g' k k', wf_order n g → wf_order n' g' → stronger g g' → amount g k → amount g' k' →
  k' ≤ k ∧ (k' = k ↔ same_order g g').
Proof.
  intros n n' g g' k k' Hw Hw' Hs (L & <- & HL) (L' & <- & HL').
  assert (∀ σ, valid_schedule g' σ → valid_schedule g σ) as Hsub by (intros σ; by apply stronger_valid).
  split; [by eapply lists_le|]. rewrite <- (schedules_same n n' g g' Hw Hw'). split.
  - intros He σ. split; [by apply (lists_eq g g' L L' HL HL' Hsub He)|apply Hsub].
  - intros H. pose proof (lists_le g g' L L' HL HL' Hsub).
    pose proof (lists_le g' g L' L HL' HL (λ σ, proj1 (H σ))). lia.
Qed.

(** Two schedules one after the other. *)
Lemma same_app (P : nat → Prop) σ σ' τ τ' :
  (∀ b, b ∈ concat σ → P b) → (∀ b, b ∈ concat σ' → P b) →
  (∀ b, b ∈ concat τ → ¬ P b) → (∀ b, b ∈ concat τ' → ¬ P b) →
  [] ∉ σ → [] ∉ σ' → [] ∉ τ → [] ∉ τ' →
  same_schedule (σ ++ τ) (σ' ++ τ') → same_schedule σ σ' ∧ same_schedule τ τ'.
Proof.
  revert σ'. induction σ as [|M σ IH]; intros σ' H1 H2 H3 H4 E1 E2 E3 E4 Hs.
  - destruct σ' as [|M' σ']; [split; [constructor|exact Hs]|]. exfalso. simpl in Hs. inversion Hs as [|M τ0 ? ? Hp]; subst.
    destruct M' as [|b M']; [apply E2; left|]. apply (H3 b).
    + simpl. apply elem_of_app. left. rewrite Hp. left.
    + apply H2. simpl. left.
  - destruct σ' as [|M' σ'].
    + exfalso. simpl in Hs. inversion Hs as [|? ? ? τ0 Hp Hr E E']; subst. destruct M as [|b M]; [apply E1; left|].
      apply (H4 b); [simpl; apply elem_of_app; left; rewrite <- Hp; left|]. apply H1. simpl. left.
    + simpl in Hs. inversion Hs as [|? ? ? ? Hp Hr]; subst.
      apply not_elem_of_cons in E1 as [_ E1], E2 as [_ E2].
      destruct (IH σ') as [Ha Hb]; try done.
      * intros b Hb. apply H1. simpl. apply elem_of_app. by right.
      * intros b Hb. apply H2. simpl. apply elem_of_app. by right.
      * split; [by constructor|done].
Qed.

Lemma valid_nonempty g σ : valid_schedule g σ → [] ∉ σ.
Proof. intros [Hl _] H. by apply (lp_nonempty _ _ Hl) in H. Qed.

Lemma product_le g1 g2 g L1 L2 L : (∀ b, listed g1 b → ¬ listed g2 b) →
  (∀ σ1 σ2, valid_schedule g1 σ1 → valid_schedule g2 σ2 → valid_schedule g (σ1 ++ σ2)) →
  lists g1 L1 → lists g2 L2 → lists g L → length L1 * length L2 ≤ length L.
Proof.
  intros Hap Happ HL1 HL2 HL. set (m := length L2).
  rewrite <- (seq_length (length L1 * m) 0).
  apply (partners (λ x τ, ∃ σ1 σ2, L1 !! (x / m) = Some σ1 ∧ L2 !! (x mod m) = Some σ2 ∧ same_schedule τ (σ1 ++ σ2))).
  - intros i x Hx. apply lookup_seq in Hx as [-> Hx]. simpl.
    assert (m ≠ 0) as Hm by lia.
    destruct (lookup_lt_is_Some_2 L1 (i / m)) as [σ1 H1]; [apply Nat.div_lt_upper_bound; [done|lia]|].
    destruct (lookup_lt_is_Some_2 L2 (i mod m)) as [σ2 H2]; [by apply Nat.mod_upper_bound|].
    destruct (lists_find g L (σ1 ++ σ2) HL) as (j & τ & Hj & Hs); [apply Happ; by eapply lists_valid|].
    exists j, τ. split; [done|]. by exists σ1, σ2.
  - intros i i' j x x' τ Hx Hx' _ (σ1 & σ2 & H1 & H2 & Hs) (σ1' & σ2' & H1' & H2' & Hs').
    apply lookup_seq in Hx as [-> Hx], Hx' as [-> Hx']. simpl in *. assert (m ≠ 0) as Hm by lia.
    pose proof (lists_valid _ _ _ _ HL1 H1) as V1. pose proof (lists_valid _ _ _ _ HL1 H1') as V1'.
    pose proof (lists_valid _ _ _ _ HL2 H2) as V2. pose proof (lists_valid _ _ _ _ HL2 H2') as V2'.
    assert (∀ σ, valid_schedule g1 σ → ∀ b, b ∈ concat σ → listed g1 b) as Hl1.
    { intros σ V b Hb. by apply (lp_listed _ _ (vs_legal _ _ V)). }
    assert (∀ σ, valid_schedule g2 σ → ∀ b, b ∈ concat σ → ¬ listed g1 b) as Hl2.
    { intros σ V b Hb H. apply (Hap b H). by apply (lp_listed _ _ (vs_legal _ _ V)). }
    destruct (same_app (listed g1) σ1 σ1' σ2 σ2') as [Ha Hb]; eauto using valid_nonempty.
    { eapply same_schedule_trans; [by apply same_schedule_sym|done]. }
    pose proof (lists_same _ _ _ _ _ _ HL1 H1 H1' Ha) as Eq1. pose proof (lists_same _ _ _ _ _ _ HL2 H2 H2' Hb) as Eq2.
    rewrite (Nat.div_mod i m), (Nat.div_mod i' m) by done. congruence.
Qed.

(** One part after the other: all combinations. *)
Lemma amount_series :
  ∀ n g g1 g2 k k1 k2, wf_order n g → wf_order n g1 → wf_order n g2 → series g1 g2 g →
  amount g k → amount g1 k1 → amount g2 k2 → k = k1 * k2.
Proof.
  intros n g g1 g2 k k1 k2 Hw Hw1 Hw2 Hse (L & <- & HL) (L1 & <- & HL1) (L2 & <- & HL2).
  assert (length L1 * length L2 ≤ length L) as H1.
  { apply (product_le g1 g2 g); [apply (se_apart _ _ _ Hse)| |done..]. intros σ1 σ2. by apply (series_app n g1 g2 g). }
  assert (length L ≤ length L1 * length L2) as H2; [|lia].
  rewrite <- (seq_length (length L1 * length L2) 0).
  set (m := length L2).
  apply (partners (λ τ x, ∃ σ1 σ2, L1 !! (x / m) = Some σ1 ∧ L2 !! (x mod m) = Some σ2 ∧ same_schedule τ (σ1 ++ σ2))).
  - intros i τ Hi. destruct (series_split n g1 g2 g Hse Hw1 Hw2 τ) as (σ1 & σ2 & -> & V1 & V2); [by eapply lists_valid|].
    destruct (lists_find _ _ _ HL1 V1) as (i1 & τ1 & Hi1 & Hs1).
    destruct (lists_find _ _ _ HL2 V2) as (i2 & τ2 & Hi2 & Hs2).
    pose proof (lookup_lt_Some _ _ _ Hi1) as Hlt1. pose proof (lookup_lt_Some _ _ _ Hi2) as Hlt2. fold m in Hlt2.
    exists (i1 * m + i2), (i1 * m + i2). split; [apply lookup_seq; split; [done|nia]|]. exists τ1, τ2.
    assert ((i1 * m + i2) / m = i1) as -> by (rewrite Nat.div_add_l, Nat.div_small; lia).
    assert ((i1 * m + i2) mod m = i2) as -> by (rewrite Nat.add_comm, Nat.mod_add, Nat.mod_small; lia).
    split; [done|]. split; [done|]. apply same_schedule_app; by apply same_schedule_sym.
  - intros i i' j τ τ' x Hi Hi' _ (σ1 & σ2 & E1 & E2 & Hs) (σ1' & σ2' & E1' & E2' & Hs').
    rewrite E1 in E1'. rewrite E2 in E2'. injection E1' as <-. injection E2' as <-.
    eapply (lists_same g L); [done..|]. eapply same_schedule_trans; [exact Hs|by apply same_schedule_sym].
Qed.

(** ** Independent parts *)

Lemma restrict_same c x σ τ : same_schedule σ τ → same_schedule (restrict c x σ) (restrict c x τ).
Proof.
  intros H. induction H as [|M M' σ τ Hp Hs IH]; [constructor|]. unfold restrict. simpl. rewrite !filter_cons.
  assert (mine c x M ≡ₚ mine c x M') as Hm by (unfold mine; by rewrite Hp).
  destruct (decide (mine c x M ≠ [])) as [E|E], (decide (mine c x M' ≠ [])) as [E'|E'].
  - by constructor.
  - exfalso. apply E. apply dec_stable in E'. rewrite E' in Hm. by apply Permutation_nil_r in Hm.
  - exfalso. apply E'. apply dec_stable in E. rewrite E in Hm. by apply Permutation_nil_l in Hm.
  - exact IH.
Qed.

Lemma mine_all c x M : (∀ b, b ∈ M → c b = x) → mine c x M = M.
Proof.
  intros H. unfold mine. induction M as [|b M IH]; [done|]. rewrite filter_cons_True by (apply H; left).
  f_equal. apply IH. intros b' Hb'. apply H. by right.
Qed.
Lemma mine_none c x M : (∀ b, b ∈ M → c b ≠ x) → mine c x M = [].
Proof.
  intros H. unfold mine. induction M as [|b M IH]; [done|]. rewrite filter_cons_False by (apply H; left).
  apply IH. intros b' Hb'. apply H. by right.
Qed.

Lemma restrict_all c x σ : (∀ b, b ∈ concat σ → c b = x) → [] ∉ σ → restrict c x σ = σ.
Proof.
  induction σ as [|M σ IH]; intros H E; [done|]. apply not_elem_of_cons in E as [E1 E2].
  unfold restrict. simpl. rewrite mine_all by (intros b Hb; apply H; simpl; apply elem_of_app; by left).
  rewrite filter_cons_True by done. f_equal. apply IH; [|done]. intros b Hb. apply H. simpl. apply elem_of_app. by right.
Qed.
Lemma restrict_none c x σ : (∀ b, b ∈ concat σ → c b ≠ x) → restrict c x σ = [].
Proof.
  induction σ as [|M σ IH]; intros H; [done|].
  unfold restrict. simpl. rewrite mine_none by (intros b Hb; apply H; simpl; apply elem_of_app; by left).
  rewrite filter_cons_False by (intros E; by apply E). apply IH. intros b Hb. apply H. simpl. apply elem_of_app. by right.
Qed.
Lemma restrict_app c x σ τ : restrict c x (σ ++ τ) = restrict c x σ ++ restrict c x τ.
Proof. unfold restrict. by rewrite map_app, filter_app. Qed.

Lemma restrict_parallel c x σ τ : (∀ b, b ∈ concat σ → c b = x) → (∀ b, b ∈ concat τ → c b ≠ x) → [] ∉ σ →
  restrict c x (parallel σ τ) = σ.
Proof.
  revert τ. induction σ as [|A σ IH]; intros τ H1 H2 E; [by apply restrict_none|].
  destruct τ as [|B τ]; [by apply restrict_all|]. apply not_elem_of_cons in E as [E1 E2].
  simpl. unfold restrict. simpl. unfold mine at 1. rewrite filter_app.
  fold (mine c x A) (mine c x B).
  rewrite mine_all by (intros b Hb; apply H1; simpl; apply elem_of_app; by left).
  rewrite mine_none by (intros b Hb; apply H2; simpl; apply elem_of_app; by left).
  rewrite app_nil_r, filter_cons_True by done. f_equal. apply IH; [| |done].
  - intros b Hb. apply H1. simpl. apply elem_of_app. by right.
  - intros b Hb. apply H2. simpl. apply elem_of_app. by right.
Qed.

Lemma restrict_parallel_r c x σ τ : (∀ b, b ∈ concat τ → c b = x) → (∀ b, b ∈ concat σ → c b ≠ x) → [] ∉ τ →
  restrict c x (parallel σ τ) = τ.
Proof.
  revert τ. induction σ as [|A σ IH]; intros τ H1 H2 E; [by apply restrict_all|].
  destruct τ as [|B τ]; [by apply restrict_none|]. apply not_elem_of_cons in E as [E1 E2].
  simpl. unfold restrict. simpl. unfold mine at 1. rewrite filter_app.
  fold (mine c x A) (mine c x B).
  rewrite mine_none by (intros b Hb; apply H2; simpl; apply elem_of_app; by left).
  rewrite mine_all by (intros b Hb; apply H1; simpl; apply elem_of_app; by left).
  rewrite app_nil_l, filter_cons_True by done. f_equal. apply IH; [| |done].
  - intros b Hb. apply H1. simpl. apply elem_of_app. by right.
  - intros b Hb. apply H2. simpl. apply elem_of_app. by right.
Qed.

(** The combinations of a certain kind are as many as there are pairs. *)
Lemma combinations_le c g g1 g2 L1 L2 L (Q : schedule → Prop) `{!∀ σ, Decision (Q σ)} (f : schedule → schedule → schedule) :
  lists g1 L1 → lists g2 L2 → lists g L →
  (∀ σ τ, valid_schedule g1 σ → valid_schedule g2 τ →
     valid_schedule g (f σ τ) ∧ restrict c true (f σ τ) = σ ∧ restrict c false (f σ τ) = τ ∧
     ∀ υ, same_schedule υ (f σ τ) → Q υ) →
  length L1 * length L2 ≤ length (filter Q L).
Proof.
  intros HL1 HL2 HL Hf. set (m := length L2). rewrite <- (seq_length (length L1 * m) 0).
  apply (partners (λ x τ, ∃ σ1 σ2, L1 !! (x / m) = Some σ1 ∧ L2 !! (x mod m) = Some σ2 ∧ same_schedule τ (f σ1 σ2))).
  - intros i x Hx. apply lookup_seq in Hx as [-> Hx]. simpl. assert (m ≠ 0) as Hm by lia.
    destruct (lookup_lt_is_Some_2 L1 (i / m)) as [σ1 H1]; [apply Nat.div_lt_upper_bound; [done|lia]|].
    destruct (lookup_lt_is_Some_2 L2 (i mod m)) as [σ2 H2]; [by apply Nat.mod_upper_bound|].
    destruct (Hf σ1 σ2) as (Hv & _ & _ & HQ); [by eapply lists_valid..|].
    destruct (lists_find g L (f σ1 σ2) HL Hv) as (j & τ & Hj & Hs).
    assert (τ ∈ filter Q L) as Hin by (apply elem_of_list_filter; split; [by apply HQ|by eapply elem_of_list_lookup_2]).
    apply elem_of_list_lookup in Hin as (j' & Hj'). exists j', τ. split; [done|]. by exists σ1, σ2.
  - intros i i' j x x' τ Hx Hx' _ (σ1 & σ2 & H1 & H2 & Hs) (σ1' & σ2' & H1' & H2' & Hs').
    apply lookup_seq in Hx as [-> Hx], Hx' as [-> Hx']. simpl in *. assert (m ≠ 0) as Hm by lia.
    destruct (Hf σ1 σ2) as (_ & E1 & E2 & _); [by eapply lists_valid..|].
    destruct (Hf σ1' σ2') as (_ & E1' & E2' & _); [by eapply lists_valid..|].
    assert (same_schedule (f σ1 σ2) (f σ1' σ2')) as Hff.
    { eapply same_schedule_trans; [by apply same_schedule_sym|done]. }
    pose proof (restrict_same c true _ _ Hff) as Ha. rewrite E1, E1' in Ha.
    pose proof (restrict_same c false _ _ Hff) as Hb. rewrite E2, E2' in Hb.
    pose proof (lists_same _ _ _ _ _ _ HL1 H1 H1' Ha) as Eq1. pose proof (lists_same _ _ _ _ _ _ HL2 H2 H2' Hb) as Eq2.
    rewrite (Nat.div_mod i m), (Nat.div_mod i' m) by done. congruence.
Qed.

Lemma three_kinds {A} (P Q R : A → Prop) `{!∀ x, Decision (P x)} `{!∀ x, Decision (Q x)} `{!∀ x, Decision (R x)} L :
  (∀ x, P x → ¬ Q x) → (∀ x, P x → ¬ R x) → (∀ x, Q x → ¬ R x) →
  length (filter P L) + length (filter Q L) + length (filter R L) ≤ length L.
Proof.
  intros Hpq Hpr Hqr. induction L as [|x L IH]; [done|]. rewrite !filter_cons.
  destruct (decide (P x)) as [Hp|Hp], (decide (Q x)) as [Hq|Hq], (decide (R x)) as [Hr|Hr]; simpl; try lia; exfalso; naive_solver.
Qed.

(** Does the first step measure a qubit of this colour? *)
Definition begins (c : nat → bool) (x : bool) (σ : schedule) : bool :=
  match σ with [] => false | M :: _ => existsb (λ b, Bool.eqb (c b) x) M end.

Lemma begins_spec c x M σ : begins c x (M :: σ) = true ↔ ∃ b, b ∈ M ∧ c b = x.
Proof.
  simpl. rewrite existsb_exists. split; intros (b & Hb & E); exists b.
  - split; [by apply elem_of_list_In|by apply Bool.eqb_prop].
  - split; [by apply elem_of_list_In|]. rewrite E. apply Bool.eqb_reflx.
Qed.

Lemma begins_same c x σ τ : same_schedule σ τ → begins c x σ = begins c x τ.
Proof.
  intros [|M M' σ' τ' Hp _]; [done|]. apply Bool.eq_iff_eq_true. rewrite !begins_spec.
  split; intros (b & Hb & E); exists b; (split; [|done]); [by rewrite <- Hp|by rewrite Hp].
Qed.

Lemma begins_own c x σ τ : σ ≠ [] → [] ∉ σ → (∀ b, b ∈ concat σ → c b = x) →
  begins c x (σ ++ τ) = true ∧ begins c (negb x) (σ ++ τ) = false.
Proof.
  intros Hn E H. destruct σ as [|M σ]; [done|]. apply not_elem_of_cons in E as [E _]. split.
  - simpl app. apply begins_spec. destruct M as [|b M]; [done|]. exists b. split; [left|]. apply H. simpl. left.
  - apply not_true_is_false. simpl app. rewrite begins_spec. intros (b & Hb & E').
    rewrite H in E' by (simpl; apply elem_of_app; by left). by destruct x.
Qed.

Lemma part_negb c x g : part (λ b, negb (c b)) x g = part c (negb x) g.
Proof.
  unfold part. apply map_ext. intros l. apply list_filter_iff. intros e. destruct (c e.1), x; done.
Qed.

(** Two independent parts: at least three times as many as there are pairs. *)
Lemma amount_parts :
  ∀ c g k k1 k2,
  (∃ b, listed g b ∧ c b = true) → (∃ b, listed g b ∧ c b = false) →
  amount g k → amount (part c true g) k1 → amount (part c false g) k2 → 3 * (k1 * k2) ≤ k.
Proof.
  intros c g k k1 k2 (b1 & Hb1 & Hc1) (b2 & Hb2 & Hc2) (L & <- & HL) (L1 & <- & HL1) (L2 & <- & HL2).
  assert (∀ x σ, valid_schedule (part c x g) σ → ∀ b, b ∈ concat σ → c b = x) as Hcol.
  { intros x σ Hv b Hb. apply (lp_listed _ _ (vs_legal _ _ Hv)) in Hb. by apply part_listed in Hb as [_ ?]. }
  assert (∀ x σ, valid_schedule (part c x g) σ → ∀ b, b ∈ concat σ → c b ≠ negb x) as Hcol'.
  { intros x σ Hv b Hb. rewrite (Hcol x σ Hv b Hb). by destruct x. }
  assert (∀ x b σ, listed g b → c b = x → valid_schedule (part c x g) σ → σ ≠ []) as Hne.
  { intros x b σ Hb Hx [_ Hall] ->. apply (not_elem_of_nil b). apply (Hall b). by apply part_listed. }
  transitivity (length (filter (λ σ, (begins c true σ && negb (begins c false σ)) = true) L) +
    length (filter (λ σ, (begins c false σ && negb (begins c true σ)) = true) L) +
    length (filter (λ σ, (begins c true σ && begins c false σ) = true) L)).
  2:{ apply three_kinds; intros σ; destruct (begins c true σ), (begins c false σ); done. }
  enough (length L1 * length L2 ≤ length (filter (λ σ, (begins c true σ && negb (begins c false σ)) = true) L) ∧
    length L1 * length L2 ≤ length (filter (λ σ, (begins c false σ && negb (begins c true σ)) = true) L) ∧
    length L1 * length L2 ≤ length (filter (λ σ, (begins c true σ && begins c false σ) = true) L)) by lia.
  split; [|split].
  - apply (combinations_le c g (part c true g) (part c false g) L1 L2 L _ (λ σ τ, σ ++ τ) HL1 HL2 HL).
    intros σ τ Hσ Hτ. split; [by apply (sequence_valid c g)|]. rewrite !restrict_app. split; [|split].
    + rewrite restrict_all, restrict_none, app_nil_r; eauto using valid_nonempty. by apply (Hcol' false).
    + rewrite restrict_none, restrict_all; eauto using valid_nonempty. by apply (Hcol' true).
    + intros υ Hυ. rewrite !(begins_same _ _ _ _ Hυ).
      destruct (begins_own c true σ τ) as [-> E]; [by apply (Hne true b1)|by eapply valid_nonempty|by apply Hcol|].
      simpl in E. by rewrite E.
  - apply (combinations_le c g (part c true g) (part c false g) L1 L2 L _ (λ σ τ, τ ++ σ) HL1 HL2 HL).
    intros σ τ Hσ Hτ. split; [apply (sequence_valid (λ b, negb (c b)) g); by rewrite part_negb|]. rewrite !restrict_app. split; [|split].
    + rewrite restrict_none, restrict_all; eauto using valid_nonempty. by apply (Hcol' false).
    + rewrite restrict_all, restrict_none, app_nil_r; eauto using valid_nonempty. by apply (Hcol' true).
    + intros υ Hυ. rewrite !(begins_same _ _ _ _ Hυ).
      destruct (begins_own c false τ σ) as [-> E]; [by apply (Hne false b2)|by eapply valid_nonempty|by apply Hcol|].
      simpl in E. by rewrite E.
  - apply (combinations_le c g (part c true g) (part c false g) L1 L2 L _ parallel HL1 HL2 HL).
    intros σ τ Hσ Hτ. split; [by apply (parallel_valid c g)|]. split; [|split].
    + apply restrict_parallel; [by apply Hcol|by apply (Hcol' false)|by eapply valid_nonempty].
    + apply restrict_parallel_r; [by apply Hcol|by apply (Hcol' true)|by eapply valid_nonempty].
    + intros υ Hυ. rewrite !(begins_same _ _ _ _ Hυ).
      pose proof (Hne true b1 σ Hb1 Hc1 Hσ). pose proof (Hne false b2 τ Hb2 Hc2 Hτ).
      pose proof (valid_nonempty _ _ Hσ) as N1. pose proof (valid_nonempty _ _ Hτ) as N2.
      pose proof (Hcol _ _ Hσ) as C1. pose proof (Hcol _ _ Hτ) as C2.
      destruct σ as [|A σ]; [done|]. destruct τ as [|B τ]; [done|].
      apply not_elem_of_cons in N1 as [N1 _], N2 as [N2 _].
      destruct A as [|a A]; [done|]. destruct B as [|b B]; [done|].
      apply andb_true_iff. split; apply begins_spec.
      * exists a. split; [left|]. apply C1. simpl. left.
      * exists b. split; [apply elem_of_app; right; left|]. apply C2. simpl. left.
Qed.

(** Two steps without dependencies between them can be made at once. *)
Lemma at_once g σ M M' τ :
  valid_schedule g (σ ++ M :: M' :: τ) → (∀ b d, b ∈ M' → d ∈ M → ¬ depends g b d) →
  valid_schedule g (σ ++ (M ++ M') :: τ).
Proof.
  intros [[H1 H2 H3 H4] H5] Hd.
  assert (concat (σ ++ (M ++ M') :: τ) = concat (σ ++ M :: M' :: τ)) as E.
  { rewrite !concat_app. simpl. by rewrite <- app_assoc. }
  split; [split|].
  - intros X HX. apply elem_of_app in HX as [HX|HX]; [apply H1, elem_of_app; by left|].
    apply elem_of_cons in HX as [->|HX]; [|apply H1, elem_of_app; right; by do 2 right].
    intros [-> _]%app_eq_nil. apply (H1 []); [|done]. apply elem_of_app. right. left.
  - by rewrite E.
  - intros b. rewrite E. apply H3.
  - intros k X b d Hk Hb Hdep. destruct (decide (k < length σ)) as [Hlt|Hge].
    { rewrite lookup_app_l in Hk by done. rewrite take_app_le by lia.
      pose proof (H4 k X b d) as H. rewrite lookup_app_l, take_app_le in H by lia. by apply H. }
    rewrite lookup_app_r in Hk by lia. destruct (k - length σ) as [|m] eqn:Em; simpl in Hk.
    + assert (k = length σ) as -> by lia. injection Hk as <-. rewrite take_app.
      apply elem_of_app in Hb as [Hb|Hb].
      * pose proof (H4 (length σ) M b d) as H. rewrite list_lookup_middle, take_app in H by done. by apply H.
      * pose proof (H4 (length σ + 1) M' b d) as H.
        rewrite lookup_app_r, take_add_app in H by lia. replace (length σ + 1 - length σ) with 1 in H by lia.
        specialize (H eq_refl Hb Hdep). rewrite concat_app in H. simpl in H. rewrite app_nil_r in H.
        apply elem_of_app in H as [H|H]; [done|]. by destruct (Hd b d Hb H).
    + pose proof (H4 (length σ + S (S m)) X b d) as H.
      rewrite lookup_app_r, take_add_app in H by lia.
      replace (length σ + S (S m) - length σ) with (S (S m)) in H by lia. specialize (H Hk Hb Hdep).
      replace k with (length σ + S m) by lia. rewrite take_add_app by done.
      rewrite concat_app in *. simpl in *. by rewrite <- app_assoc.
  - intros b. rewrite E. apply H5.
Qed.

(** There is one if and only if the dependencies order all qubits. *)
Lemma amount_total :
  ∀ adj g k, wf_input adj g → amount g k → (k = 1 ↔ ∃ l, total_order g l).
Proof.
  intros adj g k Hin (L & <- & HL).
  destruct (time_optimal_valid adj g Hin) as (p & _ & [Hv _] & _). split.
  - intros H1. set (l := concat (steps p)). exists l.
    assert (∀ b d, Decision (depends g b d)) as Hdec.
    { intros b d. destruct (decide (Exists (λ e : nat * list nat, e.1 = b ∧ d ∈ e.2) (concat g))) as [H|H].
      - left. apply Exists_exists in H as ([x ds] & He & Hx & Hd). simpl in *. subst x.
        apply elem_of_concat in He as (y & Hy & He). by exists y, ds.
      - right. intros (y & ds & Hy & He & Hd). apply H, Exists_exists. exists (b, ds). split; [|done].
        apply elem_of_concat. by exists y. }
    assert (∀ σ τ, valid_schedule g σ → valid_schedule g τ → length σ = length τ) as Hlen.
    { intros σ τ Hσ Hτ. destruct (lists_find _ _ _ HL Hσ) as (i & σ' & Hi & Hσ').
      destruct (lists_find _ _ _ HL Hτ) as (j & τ' & Hj & Hτ').
      pose proof (lookup_lt_Some _ _ _ Hi). pose proof (lookup_lt_Some _ _ _ Hj).
      assert (i = j) as -> by lia. assert (σ' = τ') as -> by congruence.
      by rewrite <- (same_schedule_length _ _ Hσ'), <- (same_schedule_length _ _ Hτ'). }
    pose proof (Metamorphic.singles_valid g _ Hv) as Hs. fold l in Hs. split; [|split].
    + apply Hv.
    + intros b. split; [apply Hv|]. apply Hv.
    + intros i b d Hi Hi'. destruct (Hdec b d) as [Hd|Hd]; [by apply tc_once|]. exfalso.
      assert (l = take i l ++ d :: b :: drop (S (S i)) l) as El.
      { rewrite <- (take_drop i l) at 1. f_equal. rewrite (drop_S _ _ _ Hi). f_equal. by apply drop_S. }
      unfold Metamorphic.singles in Hs. rewrite El, map_app in Hs. simpl in Hs.
      pose proof Hs as Hs'. apply at_once in Hs'.
      * pose proof (Hlen _ _ Hs Hs') as E. rewrite !app_length in E. simpl in E. lia.
      * by intros ? ? ->%elem_of_list_singleton ->%elem_of_list_singleton.
  - intros (l & Ht). destruct (lists_find _ _ _ HL Hv) as (i & τ & Hi & _).
    assert (∀ j υ, L !! j = Some υ → j = i) as Hall.
    { intros j υ Hj. eapply (lists_same g L); [done..|].
      rewrite (total_unique g l υ Ht), (total_unique g l τ Ht); [apply same_schedule_refl|by eapply lists_valid..]. }
    destruct L as [|a [|b L]]; [done|done|]. pose proof (Hall 0 a eq_refl). pose proof (Hall 1 b eq_refl). lia.
Qed.

(** Without dependencies it is the ordered Bell number, which is never exceeded. *)
Lemma amount_bell :
  ∀ adj g, wf_input adj g → (∃ b, listed g b) →
  (∀ k, amount g k → k ≤ ordered_bell (length (qubits g))) ∧
  ((∀ b d, ¬ depends g b d) → amount g (ordered_bell (length (qubits g)))).
Proof.
  intros adj g Hin Hl. assert (length adj ≤ length (dependency_buffer_new (length adj))) as Hb.
  { unfold dependency_buffer_new. by rewrite replicate_length. }
  destruct (amount_swept adj g (dependency_buffer_new (length adj)) Hin Hb Hl) as (t & ps & qs & Ht & Hr & _ & Ha & _).
  destruct (number_of_paths (length adj) g _ (proj2 Hin) Hb (proj2 (proj1 Hin))) as (t' & ps' & Ht' & Hr' & Hle & Heq).
  assert (t' = t) as -> by congruence. pose proof (finishes_det _ _ _ (Hr Debug) (Hr' Debug)) as E. injection E as <-.
  split.
  - intros k Hk. by rewrite (amount_unique _ _ _ Hk Ha).
  - intros Hd. by rewrite <- (Heq Hl Hd).
Qed.
