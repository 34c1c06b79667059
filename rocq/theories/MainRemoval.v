(** * Inputs without some of the qubits: results *)
From Verif Require Export RemovalSpec MainOrder.

Section removal.
  Context (S : list nat) (adj : spacial) (g : order).
  Context (Hin : wf_input adj g) (Hall : all_measured adj g).

  (** First what is not in [S], then the qubits of [S] one by one. *)
  Definition at_the_end (σ : schedule) : schedule :=
    σ ++ map (λ b, [b]) (filter (λ b, b ∈ S) (qubits g)).

  Lemma end_length σ : length (at_the_end σ) ≤ length σ + length S.
  Proof.
    unfold at_the_end. rewrite app_length, map_length. apply Nat.add_le_mono_l, submseteq_length, NoDup_submseteq.
    - apply NoDup_filter, (wf_nodup _ _ (proj2 Hin)).
    - by intros b [? _]%elem_of_list_filter.
  Qed.

  Context (σ : schedule) (Hl : legal_prefix g σ) (Hσ : ∀ b, b ∈ concat σ ↔ listed g b ∧ b ∉ S).

  Lemma end_valid : valid_schedule g (at_the_end σ).
  Proof.
    assert (∀ l1 b l2, filter (λ b, b ∈ S) (qubits g) = l1 ++ b :: l2 → ∀ d, depends g b d → d ∈ concat σ ++ l1) as Hs.
    { intros l1 b l2 E d Hd. apply elem_of_app. destruct (decide (d ∈ S)) as [HdS|HdS].
      - right. apply split_filter in E as (m1 & m2 & E & ->). apply elem_of_list_filter. split; [done|].
        by apply (qubits_sorted _ _ (proj2 Hin) m1 b m2 d).
      - left. apply Hσ. split; [|done]. apply (wf_depends_listed _ _ _ _ (proj2 Hin) Hd). }
    split; [split|].
    - intros M [HM|HM]%elem_of_app; [by apply (lp_nonempty _ _ Hl)|]. by apply elem_of_list_fmap in HM as (b & -> & _).
    - unfold at_the_end. rewrite concat_app, concat_singles. apply NoDup_app. split; [apply (lp_once _ _ Hl)|].
      split; [|apply NoDup_filter, (wf_nodup _ _ (proj2 Hin))].
      intros b [_ Hb]%Hσ [? _]%elem_of_list_filter. done.
    - unfold at_the_end. intros b. rewrite concat_app, concat_singles, elem_of_app, elem_of_list_filter, Hσ, <- listed_qubits.
      naive_solver.
    - intros k M b d HM Hb Hd. unfold at_the_end in *. apply lookup_app_Some in HM as [HM|[Hk HM]].
      + rewrite take_app_le by (apply lookup_lt_Some in HM; lia). by apply (lp_order _ _ Hl k M b d).
      + rewrite take_app_ge by done. rewrite concat_app. rewrite list_lookup_fmap in HM. apply fmap_Some in HM as (b' & Hb' & ->).
        apply elem_of_list_singleton in Hb as <-. rewrite firstn_map, concat_singles.
        apply (Hs _ b (drop (Datatypes.S (k - length σ)) (filter (λ b, b ∈ S) (qubits g)))); [|done]. by rewrite take_drop_middle.
    - unfold at_the_end. intros b Hb. rewrite concat_app, concat_singles, elem_of_app, elem_of_list_filter, Hσ, <- listed_qubits.
      destruct (decide (b ∈ S)); naive_solver.
  Qed.

  (** At every moment at most [length S] qubits of [S] are in memory. *)
  Lemma end_space m :
    (∀ k, k < length σ → length (filter (λ v, v ∉ S ∧ occupies adj σ k v) (seq 0 (length adj))) ≤ m) →
    space_cost adj (at_the_end σ) ≤ length S + m.
  Proof.
    intros Hm. apply space_cost_lub. intros k Hk.
    set (L := if decide (k < length σ) then filter (λ v, v ∉ S ∧ occupies adj σ k v) (seq 0 (length adj)) else []).
    assert (length L ≤ m) as HL by (unfold L; case_decide; [by apply Hm|cbn; lia]).
    etrans; [|apply Nat.add_le_mono_l, HL]. rewrite <- app_length. unfold memory_at.
    apply submseteq_length, NoDup_submseteq; [apply NoDup_filter, NoDup_seq|].
    intros v [[Hv1 Hv2] Hv]%elem_of_list_filter. apply elem_of_app. destruct (decide (v ∈ S)) as [HvS|HvS]; [by left|right].
    unfold L, at_the_end in *. case_decide as Hkσ.
    - apply elem_of_list_filter. split; [|done]. split; [done|].
      rewrite take_app_le in Hv1 by lia. rewrite take_app_le in Hv2 by lia. by split.
    - exfalso. rewrite take_app_ge, concat_app, elem_of_app in Hv1 by lia. apply Hv1. left. apply Hσ. split; [|done].
      assert (∀ b, b ∈ concat (take (Datatypes.S k) (σ ++ map (λ b, [b]) (filter (λ b, b ∈ S) (qubits g)))) → listed g b) as Hb.
      { intros b Hb. apply (lp_listed _ _ (vs_legal _ _ end_valid)). apply elem_of_concat in Hb as (M & HM & Hb).
        apply elem_of_concat. exists M. split; [|done]. apply elem_of_list_lookup in HM as (q & Hq).
        apply lookup_take_Some in Hq as [Hq _]. by eapply elem_of_list_lookup_2. }
      destruct Hv2 as [Hv2|(u & Hu & Huv)]; [by apply Hb|]. by apply (Hall u v); [apply Hb|].
  Qed.
End removal.

(** ** Whole runs *)

Lemma run_removal :
  ∀ S adj g adj' g' qs ps,
  wf_input adj g → wf_input adj' g' → closed_upwards g S → all_measured adj g → keeps_rest S adj g adj' g' →
  (∃ b, listed g' b) → searched adj' g' qs → searched adj g ps →
  ∀ q, q ∈ qs → ∃ p, p ∈ ps ∧ time p ≤ time q + length S ∧ (space p <= space q + N.of_nat (length S))%N.
Proof.
  intros S adj g adj' g' qs ps Hin Hin' Hup Hall K Hne Hqs Hps q Hq.
  apply searched_front in Hqs as (Hok & _ & _); [|done|done].
  assert (∃ b, listed g b) as Hne' by (destruct Hne as [b Hb]; exists b; by apply (kr_listed _ _ _ _ _ K)).
  apply searched_front in Hps as (_ & _ & Hc); [|done|done].
  rewrite Forall_forall in Hok. destruct (Hok q Hq) as (Hv & Ht & Hs). set (σ := steps q) in *.
  assert (∀ b, b ∈ concat σ ↔ listed g b ∧ b ∉ S) as Hσ.
  { intros b. rewrite <- (kr_listed _ _ _ _ _ K). split; [apply (lp_listed _ _ (vs_legal _ _ Hv))|apply (vs_complete _ _ Hv)]. }
  assert (legal_prefix g σ) as Hl.
  { split; [apply (lp_nonempty _ _ (vs_legal _ _ Hv))|apply (lp_once _ _ (vs_legal _ _ Hv))|intros b Hb; by apply Hσ|].
    intros k M b d HM Hb Hd. assert (b ∉ S) as HbS by (apply Hσ, elem_of_concat; exists M; split; [by eapply elem_of_list_lookup_2|done]).
    apply (lp_order _ _ (vs_legal _ _ Hv) k M b d HM Hb), (kr_depends _ _ _ _ _ K); [done| |done].
    intros HdS. by apply HbS, (Hup b d). }
  destruct (Hc (at_the_end S g σ)) as (p & Hp & H1 & H2); [by apply (end_valid S adj)|].
  exists p. split; [done|]. unfold time_cost in H1. pose proof (end_length S adj g Hin σ) as Hlen. split; [unfold time_cost in *; lia|].
  rewrite Hs. pose proof (end_space S adj g Hin Hall σ Hl Hσ (space_cost adj' σ)) as Hsp.
  assert (space_cost adj (at_the_end S g σ) ≤ length S + space_cost adj' σ); [|lia].
  apply Hsp. intros k Hk. etrans; [|by apply (memory_space adj' σ k)]. unfold memory_at.
  rewrite (kr_length _ _ _ _ _ K). apply submseteq_length, NoDup_submseteq; [apply NoDup_filter, NoDup_seq|].
  intros v [[HvS [H3 H4]] Hv']%elem_of_list_filter. apply elem_of_list_filter. split; [|done]. split; [done|].
  destruct H4 as [H4|(u & Hu & Huv)]; [by left|]. destruct (decide (v = u)) as [->|Hvu]; [by left|].
  right. exists u. split; [done|]. apply (kr_edges _ _ _ _ _ K); [|done|done|done].
  apply Hσ. apply elem_of_concat in Hu as (M & HM & Hu). apply elem_of_concat. exists M. split; [|done].
  apply elem_of_list_lookup in HM as (j & Hj). apply lookup_take_Some in Hj as [Hj _]. by eapply elem_of_list_lookup_2.
Qed.

(** ** Covers *)

Definition slices (c : nat) (l : list nat) : schedule :=
  map (λ j, take c (drop (j * c) l)) (seq 0 ((length l + (c - 1)) / c)).

Lemma slices_take c (l : list nat) m : concat (map (λ j, take c (drop (j * c) l)) (seq 0 m)) = take (m * c) l.
Proof.
  induction m as [|m IH]; [done|]. rewrite seq_S, map_app, concat_app, IH. cbn [map concat]. rewrite app_nil_r, Nat.add_0_l.
  rewrite take_take_drop. f_equal. lia.
Qed.

Lemma slices_count c n : 1 ≤ c → n ≤ (n + (c - 1)) / c * c ∧ ∀ j, j < (n + (c - 1)) / c → j * c < n.
Proof.
  intros Hc. pose proof (Nat.div_mod (n + (c - 1)) c ltac:(lia)) as E.
  pose proof (Nat.mod_upper_bound (n + (c - 1)) c ltac:(lia)). split; [lia|]. intros j Hj.
  assert ((j + 1) * c ≤ (n + (c - 1)) / c * c) by (apply Nat.mul_le_mono_r; lia). lia.
Qed.

Lemma slices_concat c l : 1 ≤ c → concat (slices c l) = l.
Proof. intros Hc. unfold slices. rewrite slices_take. apply take_ge. by apply slices_count. Qed.

Lemma slices_lookup c l k M : slices c l !! k = Some M → M = take c (drop (k * c) l) ∧ k < (length l + (c - 1)) / c.
Proof.
  intros H. unfold slices in H. rewrite list_lookup_fmap in H. apply fmap_Some in H as (j & Hj & ->).
  apply lookup_seq in Hj as [-> ?]. done.
Qed.

(** If the qubits of [S] touch all edges and are the only ones with dependencies, then the others can be measured in groups of any size. *)
Lemma run_cover :
  ∀ S adj g c ps,
  wf_input adj g → all_measured adj g → covers_edges adj g S →
  (∀ b d, depends g b d → b ∈ S) → (∃ b, listed g b) → searched adj g ps → 1 ≤ c →
  ∃ p, p ∈ ps ∧ time p ≤ (length (filter (λ b, b ∉ S) (qubits g)) + (c - 1)) / c + length S ∧
    (space p <= N.of_nat (c + length S))%N.
Proof.
  intros S adj g c ps Hin Hall Hcov Hdep Hne Hps Hc.
  apply searched_front in Hps as (_ & _ & Hcv); [|done|done].
  set (l := filter (λ b, b ∉ S) (qubits g)). set (σ := slices c l).
  assert (concat σ = l) as El by by apply slices_concat.
  assert (∀ b, b ∈ concat σ ↔ listed g b ∧ b ∉ S) as Hσ.
  { intros b. rewrite El. unfold l. rewrite elem_of_list_filter, listed_qubits. naive_solver. }
  assert (legal_prefix g σ) as Hl.
  { split.
    - intros M HM. apply elem_of_list_lookup in HM as (k & Hk). apply slices_lookup in Hk as [-> Hk].
      apply slices_count in Hk; [|done]. intros E. apply (f_equal length) in E. rewrite take_length, drop_length in E. cbn in E. lia.
    - rewrite El. apply NoDup_filter, (wf_nodup _ _ (proj2 Hin)).
    - intros b Hb. by apply Hσ.
    - intros k M b d HM Hb Hd. exfalso. assert (b ∈ concat σ) as [_ HbS]%Hσ; [|by apply HbS, (Hdep b d)].
      apply elem_of_concat. exists M. split; [by eapply elem_of_list_lookup_2|done]. }
  destruct (Hcv (at_the_end S g σ)) as (p & Hp & H1 & H2); [by apply (end_valid S adj)|].
  exists p. split; [done|]. unfold time_cost in H1. pose proof (end_length S adj g Hin σ) as Hlen.
  assert (length σ = (length l + (c - 1)) / c) as Els by (unfold σ, slices; by rewrite map_length, seq_length).
  split; [lia|]. etrans; [exact H2|]. apply N2Z.inj_le. rewrite !nat_N_Z. apply Nat2Z.inj_le. rewrite Nat.add_comm.
  apply (end_space S adj g Hin Hall σ Hl Hσ c). intros k Hk.
  destruct (lookup_lt_is_Some_2 _ _ Hk) as [M HM]. destruct (slices_lookup _ _ _ _ HM) as [EM _].
  assert (length M ≤ c) as HMc by (rewrite EM, take_length; lia). etrans; [|exact HMc].
  apply submseteq_length, NoDup_submseteq; [apply NoDup_filter, NoDup_seq|].
  intros v [[HvS [H3 H4]] _]%elem_of_list_filter. rewrite (take_S_r _ _ _ HM), concat_app in H4. cbn [concat] in H4. rewrite app_nil_r in H4.
  assert (∀ u, u ∈ concat (take k σ) ++ M → listed g u ∧ u ∉ S) as Hu.
  { intros u Hu. apply Hσ. rewrite <- (take_drop k σ), concat_app, (drop_S _ _ _ HM). cbn [concat].
    rewrite !elem_of_app in *. naive_solver. }
  destruct H4 as [H4|(u & Huk & Huv)]; [by apply elem_of_app in H4 as [?|?]|].
  destruct (Hu u Huk) as [Hul HuS]. destruct (Hcov u v Hul Huv) as [->|[?|?]]; [|done|done].
  by apply elem_of_app in Huk as [?|?].
Qed.
