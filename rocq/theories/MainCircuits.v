(** * The circuits of the property test: results *)
From Verif Require Export CircuitLive CircuitSpec MainRoundtrip.

(** ** The operations of the test *)

(** No number overflows. *)
Definition op_fits (op : Operation) : Prop :=
  match op with OpRz a => (a + 73 < 2 ^ 64 - 1)%N | _ => second_fits op end.

Lemma prepare_one bd op :
  op_fits op → ∃ o, prepare_operation bd op = Val o ∧ ∀ op', o = Some op' → second_fits op' ∧ plain op'.
Proof.
  intros H.
  assert (∀ a, (a + 73 < 2 ^ 64 - 1)%N → add_usize bd a 73 = Val (a + 73)%N) as Ha.
  { intros a Hl. rewrite <- usize_max_value in Hl. unfold add_usize. destruct (N.leb_spec (a + 73) usize_max); [done|lia]. }
  destruct op; cbn [op_fits second_fits] in H;
    try (eexists; split; [reflexivity|]; intros op' [= <-]; by split);
    try (exists None; split; [reflexivity|]; done).
  unfold prepare_operation. destruct (b mod 4)%N as [|[[|p|]|[p|p|]|]]; rewrite ?(Ha b H); cbn [obind];
    (eexists; split; [reflexivity|]); try done; intros op' [= <-]; by split.
Qed.

Lemma prepare_all bd ops :
  Forall op_fits ops → ∃ ops', prepare_operations bd ops = Val ops' ∧ Forall second_fits ops' ∧ Forall plain ops'.
Proof.
  intros H. unfold prepare_operations.
  assert (∀ acc, Forall second_fits acc → Forall plain acc →
    ∃ ops', ofold (λ l op, let* o := prepare_operation bd op in Val (l ++ option_list o)) ops acc = Val ops' ∧
      Forall second_fits ops' ∧ Forall plain ops') as G; [|by apply G].
  induction H as [|op ops Hop Hops IH]; intros acc H1 H2; [by exists acc|].
  cbn [ofold]. destruct (prepare_one bd op Hop) as (o & -> & Ho). cbn [obind].
  destruct o as [op'|]; cbn [option_list].
  - destruct (Ho op' eq_refl) as [? ?]. apply IH; apply Forall_app; (split; [done|]); by constructor.
  - rewrite app_nil_r. by apply IH.
Qed.

(** ** The stacks at the end *)

Lemma stacks_end s b :
  finv s → is_Some (frames_measure_and_store_all (i_circuit s) !! b) ↔ b ∈ i_memory s ++ where_ s.
Proof.
  intros F. unfold frames_measure_and_store_all. rewrite elem_of_app, <- (fi_tracked _ F), <- (fi_stored _ F).
  rewrite lookup_union_is_Some. done.
Qed.

Lemma stack_end s b stk :
  finv s → frames_measure_and_store_all (i_circuit s) !! b = Some stk →
  fc_tracker (i_circuit s) !! b = Some stk ∨ fc_storage (i_circuit s) !! b = Some stk.
Proof. intros F H. apply lookup_union_Some_raw in H. naive_solver. Qed.

Lemma corrects_frames s i b :
  finv s → corrects (frames_measure_and_store_all (i_circuit s)) i b → i < length (where_ s).
Proof.
  intros F (stk & p & Hs & Hi & _). apply lookup_lt_Some in Hi.
  destruct (stack_end s b stk F Hs) as [H|H]; [apply (fi_length _ F) in H|apply (fi_short _ F) in H]; lia.
Qed.

Lemma corrects_before s i j b :
  finv s → corrects (frames_measure_and_store_all (i_circuit s)) i b → where_ s !! j = Some b → i < j.
Proof.
  intros F (stk & p & Hs & Hi & Hp) Hj. destruct (stack_end s b stk F Hs) as [H|H]; [|by eapply (fi_before _ F)].
  exfalso. pose proof (fi_nodup _ F) as Hnd. apply NoDup_app in Hnd as (_ & Hnd & _). apply (Hnd b).
  - apply (fi_tracked _ F). by exists stk.
  - by eapply elem_of_list_lookup_2.
Qed.

(** Every circuit: nothing panics, no qubit is measured twice, and a qubit is corrected
    only for measurements before its own. *)
Lemma circuit_runs :
  ∀ bd ops n, Forall second_fits ops →
  ∃ s, instructor_apply frames_circuit bd ops (instructor_new n (frames_init n)) = Val s ∧
    let st := frames_measure_and_store_all (i_circuit s) in
    let measured := map fst (i_measurements s) in
    NoDup measured ∧
    (∀ i b, corrects st i b → i < length measured) ∧
    (∀ i j b, corrects st i b → measured !! j = Some b → i < j).
Proof.
  intros bd ops n Hops. destruct (apply_all bd ops _ (finv_new n) Hops) as (s & E & F & _).
  exists s. split; [done|]. split; [|split].
  - pose proof (fi_nodup _ F) as Hnd. by apply NoDup_app in Hnd as (_ & _ & Hnd).
  - intros i b. by apply corrects_frames.
  - intros i j b. by apply corrects_before.
Qed.

Lemma test_circuit_causal :
  ∀ bd ops n, 0 < n → Forall op_fits ops →
  ∃ st measured, test_circuit bd ops n = Val (st, measured) ∧ causal n st measured.
Proof.
  intros bd ops n Hn Hops. destruct (prepare_all bd ops Hops) as (ops' & E & H1 & H2).
  destruct (apply_all bd ops' _ (finv_new n) H1) as (s & Es & F & Hp).
  unfold test_circuit. rewrite E. cbn [obind]. rewrite Es. cbn [obind]. eexists _, _. split; [done|].
  assert (i_memory s ++ where_ s ≡ₚ seq 0 n) as Hperm.
  { etrans; [apply Hp; [done|]|]; cbn; [|by rewrite app_nil_r]. destruct n; [lia|done]. }
  split.
  - intros b. rewrite (stacks_end s b F), Hperm, elem_of_seq. lia.
  - pose proof (fi_nodup _ F) as Hnd. by apply NoDup_app in Hnd as (_ & _ & Hnd).
  - intros d Hd. assert (d ∈ seq 0 n) as Hs by (rewrite <- Hperm; apply elem_of_app; by right).
    apply elem_of_seq in Hs. lia.
  - intros i b. by apply corrects_frames.
  - intros i j b. by apply corrects_before.
Qed.

(** The whole test passes. *)
Lemma whole_test_passes :
  ∀ get_order ops edges n,
  orders_corrections get_order → 0 < n → (N.of_nat n < 2 ^ 64 - 1)%N → Forall op_fits ops →
  (∀ u v, (u, v) ∈ edges → u < n ∧ v < n) →
  ∀ bd, returns (λ fuel, whole_test bd fuel get_order ops edges n) tt.
Proof.
  intros get_order ops edges n Hg Hn Hn' Hops He bd.
  destruct (test_circuit_causal bd ops n Hn Hops) as (st & measured & E & C). unfold whole_test. rewrite E.
  destruct measured as [|m measured].
  - exists 0. intros fuel _. done.
  - apply roundtrip_passes; try done. by apply (Hg n).
Qed.

(** ** The order of the circuit itself *)

Lemma relies_measured st measured b d : tc (relies st measured) b d → d ∈ measured.
Proof. induction 1 as [b d (i & Hi & _)|]; [by eapply elem_of_list_lookup_2|done]. Qed.

Lemma relies_before n st measured b d :
  causal n st measured → tc (relies st measured) b d →
  ∀ j, measured !! j = Some b → ∃ i, measured !! i = Some d ∧ i < j.
Proof.
  intros C. induction 1 as [b d (i & Hi & Hc)|b c d (i & Hi & Hc) _ IH]; intros j Hj.
  - exists i. split; [done|]. by eapply (ca_before _ _ _ C).
  - destruct (IH i Hi) as (i' & H1 & H2). exists i'. split; [done|].
    enough (i < j) by lia. by eapply (ca_before _ _ _ C).
Qed.

Lemma concat_singles (l : list nat) : concat (map (λ b, [b]) l) = l.
Proof. induction l as [|a l IH]; [done|]. cbn. by rewrite IH. Qed.

(** The qubits can be measured one after the other in the order of the circuit. *)
Lemma circuit_order_valid :
  ∀ get_order n st measured, orders_corrections get_order → causal n st measured →
  valid_schedule (get_order st measured)
    (map (λ b, [b]) (measured ++ filter (λ b, b ∉ measured) (seq 0 n))).
Proof.
  intros get_order n st measured Hg C. destruct (Hg n st measured C) as (Hwf & Hl & Hd).
  set (rest := filter (λ b, b ∉ measured) (seq 0 n)).
  assert (∀ b, b ∈ measured ++ rest ↔ b < n) as Hall.
  { intros b. unfold rest. rewrite elem_of_app, elem_of_list_filter, elem_of_seq. split.
    - intros [H|[_ H]]; [by apply (ca_measured _ _ _ C)|lia].
    - intros H. destruct (decide (b ∈ measured)); [by left|right]. split; [done|lia]. }
  split; [split|].
  - intros S HS. apply elem_of_list_fmap in HS as (b & -> & _). done.
  - rewrite concat_singles. apply NoDup_app. split; [apply (ca_once _ _ _ C)|]. split.
    + intros b Hb Hb'. unfold rest in Hb'. by apply elem_of_list_filter in Hb' as [? _].
    + unfold rest. apply NoDup_filter, NoDup_seq.
  - intros b. rewrite concat_singles, Hl. apply Hall.
  - intros k S b d Hk Hb Hdep.
    change (map (λ b, [b]) (measured ++ rest)) with ((λ b, [b]) <$> (measured ++ rest)) in Hk.
    rewrite list_lookup_fmap in Hk. apply fmap_Some in Hk as (b' & Hk & ->).
    apply elem_of_list_singleton in Hb as <-.
    assert (tc (relies st measured) b d) as Ht by (apply Hd; by apply tc_once).
    change (map (λ b, [b]) (measured ++ rest)) with ((λ b, [b]) <$> (measured ++ rest)).
    rewrite <- fmap_take. change ((λ b, [b]) <$> take k (measured ++ rest)) with (map (λ b, [b]) (take k (measured ++ rest))).
    rewrite concat_singles.
    assert (∃ i, measured !! i = Some d ∧ i < k) as (i & Hi & Hik).
    { apply lookup_app_Some in Hk as [Hk|[Hk _]]; [by apply (relies_before n st measured b d C Ht)|].
      apply relies_measured, elem_of_list_lookup in Ht as (i & Hi). exists i. split; [done|].
      apply lookup_lt_Some in Hi. lia. }
    apply elem_of_list_lookup. exists i. rewrite lookup_take by done. by apply lookup_app_l_Some.
  - intros b Hb. rewrite concat_singles. apply Hall. by apply Hl.
Qed.

(** ** Known results *)

Lemma live_agrees :
  ∀ bd ops n results, Forall second_fits ops →
  ∃ s l, instructor_apply frames_circuit bd ops (instructor_new n (frames_init n)) = Val s ∧
    instructor_apply live_circuit bd ops (instructor_new n (live_init n results)) = Val l ∧
    map fst (i_measurements l) = map fst (i_measurements s) ∧
    ∀ q stk, frames_measure_and_store_all (i_circuit s) !! q = Some stk →
      lc_tracker (i_circuit l) !! q = Some (total_correction stk (map snd (i_measurements l))).
Proof.
  intros bd ops n results Hops. destruct (apply_all bd ops _ (finv_new n) Hops) as (s & E & F & _).
  destruct (agrees_all bd ops _ _ s (finv_new n) (agrees_new n results) Hops E) as (l & El & A).
  exists s, l. split; [done|]. split; [done|]. split; [apply (ag_where _ _ A)|].
  intros q stk H. destruct (stack_end s q stk F H) as [H'|H'];
    [by apply (ag_tracked _ _ A)|by apply (ag_stored _ _ A)].
Qed.

(** ** Large numbers *)

(** The numbers of the operations are arbitrary machine words. *)
Lemma large_numbers_panic :
  (∀ bd, test_circuit bd [OpCz 0 (2 ^ 64 - 1)] 3 = Panic) ∧
  test_circuit Debug [OpRz (2 ^ 64 - 72)] 1 = Panic.
Proof. split; [by intros []|done]. Qed.

(** ** An order with the required properties *)

Definition reliances (st : stacks) (measured : list nat) (b : nat) : list nat :=
  match st !! b with
  | None => []
  | Some s => map snd (filter (λ x : (bool * bool) * nat, x.1 ≠ (false, false)) (zip s measured))
  end.

Definition one_by_one (st : stacks) (measured : list nat) : order :=
  let qs := map fst (map_to_list st) in
  map (λ b, (b, [])) (filter (λ b, reliances st measured b = []) qs)
  :: map (λ m, map (λ b, (b, reliances st measured b)) (filter (λ b, reliances st measured b ≠ []) [m])) measured
  ++ [map (λ b, (b, reliances st measured b)) (filter (λ b, b ∉ measured ∧ reliances st measured b ≠ []) qs)].

Lemma reliances_spec st measured b d : d ∈ reliances st measured b ↔ relies st measured b d.
Proof.
  unfold reliances, relies, corrects. destruct (st !! b) as [s|].
  - rewrite elem_of_list_fmap. split.
    + intros ([p d'] & -> & [Hp Hx]%elem_of_list_filter). apply elem_of_list_lookup in Hx as (i & Hi).
      apply lookup_zip_with_Some in Hi as (p' & d'' & [= <- <-] & Hs & Hm). exists i. split; [done|]. by exists s, p.
    + intros (i & Hm & s' & p & [= <-] & Hs & Hp). exists (p, d). split; [done|]. apply elem_of_list_filter.
      split; [done|]. apply elem_of_list_lookup. exists i. apply lookup_zip_with_Some. by exists p, d.
  - rewrite elem_of_nil. naive_solver.
Qed.

Lemma reliances_nodup st measured b : NoDup measured → NoDup (reliances st measured b).
Proof.
  intros H. unfold reliances. destruct (st !! b) as [s|]; [|apply NoDup_nil_2].
  revert s. induction H as [|m measured Hm H IH]; intros [|p s]; try apply NoDup_nil_2.
  change (zip (p :: s) (m :: measured)) with ((p, m) :: zip s measured). rewrite filter_cons.
  destruct (decide _); [|apply IH]. cbn [map snd]. apply NoDup_cons. split; [|apply IH].
  intros Hi. apply Hm. apply elem_of_list_fmap in Hi as ([p' d] & -> & [_ Hx]%elem_of_list_filter).
  by apply elem_of_zip_r in Hx.
Qed.

Lemma qubits_take (g : order) k j l d ds :
  j < k → g !! j = Some l → (d, ds) ∈ l → d ∈ qubits (take k g).
Proof.
  intros Hj Hl Hd. unfold qubits. apply elem_of_list_fmap. exists (d, ds). split; [done|].
  apply elem_of_concat. exists l. split; [|done]. apply elem_of_list_lookup. exists j. by rewrite lookup_take.
Qed.

Section one_by_one.
  Context (n : nat) (st : stacks) (measured : list nat) (C : causal n st measured).
  Let rel := reliances st measured.
  Let qs := map fst (map_to_list st).

  Lemma qs_spec b : b ∈ qs ↔ b < n.
  Proof.
    rewrite <- (ca_qubits _ _ _ C). unfold qs. rewrite elem_of_list_fmap. split.
    - intros ([b' s] & -> & H). apply elem_of_map_to_list in H. by exists s.
    - intros [s H]. exists (b, s). split; [done|]. by apply elem_of_map_to_list.
  Qed.

  Lemma qs_nodup : NoDup qs.
  Proof. apply NoDup_fst_map_to_list. Qed.

  (** Who is in which layer. *)
  Lemma layer_spec k l b ds :
    one_by_one st measured !! k = Some l → (b, ds) ∈ l →
    ds = rel b ∧ b < n ∧
    match k with
    | 0 => rel b = []
    | S k => rel b ≠ [] ∧ (measured !! k = Some b ∨ k = length measured ∧ b ∉ measured)
    end.
  Proof.
    intros Hl Hb. unfold one_by_one in Hl. destruct k as [|k]; cbn [lookup list_lookup] in Hl.
    - injection Hl as <-. apply elem_of_list_fmap in Hb as (b' & [= -> ->] & [Hr Hq]%elem_of_list_filter).
      apply qs_spec in Hq. by rewrite <- Hr.
    - apply lookup_app_Some in Hl as [Hl|[Hk Hl]].
      + change (map ?f measured) with (f <$> measured) in Hl. rewrite list_lookup_fmap in Hl.
        apply fmap_Some in Hl as (m & Hm & ->).
        apply elem_of_list_fmap in Hb as (b' & [= -> ->] & [Hr Hq]%elem_of_list_filter).
        apply elem_of_list_singleton in Hq as ->. split; [done|]. split; [|by auto].
        apply (ca_measured _ _ _ C). by eapply elem_of_list_lookup_2.
      + rewrite map_length in *. apply list_lookup_singleton_Some in Hl as [Hk' <-].
        apply elem_of_list_fmap in Hb as (b' & [= -> ->] & [[Hn Hr] Hq]%elem_of_list_filter).
        apply qs_spec in Hq. split; [done|]. split; [done|]. split; [done|]. right. split; [lia|done].
  Qed.

  Lemma in_first b : b < n → rel b = [] → ∃ l, one_by_one st measured !! 0 = Some l ∧ (b, rel b) ∈ l.
  Proof.
    intros Hb Hr. eexists. split; [done|]. rewrite Hr. apply elem_of_list_fmap. exists b. split; [done|].
    apply elem_of_list_filter. split; [done|]. by apply qs_spec.
  Qed.

  Lemma in_middle i b :
    measured !! i = Some b → rel b ≠ [] → ∃ l, one_by_one st measured !! S i = Some l ∧ (b, rel b) ∈ l.
  Proof.
    intros Hi Hr. eexists. split.
    - unfold one_by_one. cbn [lookup list_lookup]. apply lookup_app_l_Some. change (map ?f measured) with (f <$> measured).
      rewrite list_lookup_fmap, Hi. done.
    - apply elem_of_list_fmap. exists b. split; [done|]. apply elem_of_list_filter. split; [done|].
      by apply elem_of_list_singleton.
  Qed.

  Lemma in_last b :
    b < n → b ∉ measured → rel b ≠ [] →
    ∃ l, one_by_one st measured !! S (length measured) = Some l ∧ (b, rel b) ∈ l.
  Proof.
    intros Hb Hm Hr. eexists. split.
    - unfold one_by_one. cbn zeta.
      match goal with |- (?a :: ?l) !! S ?k = _ => change ((a :: l) !! S k) with (l !! k) end.
      rewrite lookup_app_r by (by rewrite map_length). by rewrite map_length, Nat.sub_diag.
    - apply elem_of_list_fmap. exists b. split; [done|]. apply elem_of_list_filter. split; [done|]. by apply qs_spec.
  Qed.

  Lemma in_some b : b < n → ∃ k l, one_by_one st measured !! k = Some l ∧ (b, rel b) ∈ l.
  Proof.
    intros Hb. destruct (decide (rel b = [])) as [Hr|Hr]; [exists 0; by apply in_first|].
    destruct (decide (b ∈ measured)) as [Hm|Hm].
    - apply elem_of_list_lookup in Hm as (i & Hi). exists (S i). by apply in_middle.
    - exists (S (length measured)). by apply in_last.
  Qed.

  Lemma concat_filter (f : nat → list nat) ms :
    map fst (concat (map (λ m, map (λ b, (b, f b)) (filter (λ b, f b ≠ []) [m])) ms)) = filter (λ b, f b ≠ []) ms.
  Proof.
    induction ms as [|m ms IH]; [done|]. cbn [map concat]. rewrite map_app, IH, map_map, map_id.
    by rewrite <- (filter_app _ [m]).
  Qed.

  Lemma one_by_one_qubits :
    qubits (one_by_one st measured) =
    filter (λ b, rel b = []) qs ++ filter (λ b, rel b ≠ []) measured ++ filter (λ b, b ∉ measured ∧ rel b ≠ []) qs.
  Proof.
    unfold qubits, one_by_one. cbn [concat]. rewrite concat_app, !map_app. cbn [concat]. rewrite app_nil_r.
    rewrite !map_map, !map_id. f_equal. f_equal. apply concat_filter.
  Qed.

  Lemma one_by_one_ordered :
    wf_order n (one_by_one st measured) ∧
    (∀ b, listed (one_by_one st measured) b ↔ b < n) ∧
    (∀ b d, depends (one_by_one st measured) b d ↔ relies st measured b d).
  Proof.
    assert (∀ b d, d ∈ rel b ↔ relies st measured b d) as Hrel by (intros; apply reliances_spec).
    assert (∀ b d, d ∈ rel b → d ∈ measured) as Hrm.
    { intros b d H. apply Hrel in H as (i & Hi & _). by eapply elem_of_list_lookup_2. }
    split; [split|split].
    - intros b Hb. unfold qubits in Hb. apply elem_of_list_fmap in Hb as ([b' ds] & -> & Hb).
      apply elem_of_concat in Hb as (l & Hl & Hb). apply elem_of_list_lookup in Hl as (k & Hk).
      by apply (layer_spec _ _ _ _ Hk Hb).
    - rewrite one_by_one_qubits. apply NoDup_app. split; [apply NoDup_filter, qs_nodup|]. split.
      + intros b [H1 _]%elem_of_list_filter [[H2 _]%elem_of_list_filter|[[_ H2] _]%elem_of_list_filter]%elem_of_app; done.
      + apply NoDup_app. split; [apply NoDup_filter, (ca_once _ _ _ C)|]. split; [|apply NoDup_filter, qs_nodup].
        intros b [_ H1]%elem_of_list_filter [[H2 _] _]%elem_of_list_filter. done.
    - intros b ds Hb. cbn in Hb. by apply elem_of_list_fmap in Hb as (b' & [= -> ->] & _).
    - intros k l b ds Hl Hb. destruct (layer_spec _ _ _ _ Hl Hb) as (-> & Hbn & Hr & Hk). split; [done|]. split.
      { apply reliances_nodup, (ca_once _ _ _ C). }
      intros d Hd. destruct (decide (rel d = [])) as [Hrd|Hrd].
      { destruct (in_first d) as (l' & H1 & H2); [by apply (ca_measured _ _ _ C), (Hrm b)|done|].
        eapply qubits_take; [|exact H1|exact H2]. lia. }
      assert (∃ i, measured !! i = Some d ∧ i < k) as (i & Hi & Hik).
      { apply Hrel in Hd as (i & Hi & Hc). exists i. split; [done|]. destruct Hk as [Hk|[-> _]].
        - by eapply (ca_before _ _ _ C).
        - by eapply lookup_lt_Some. }
      destruct (in_middle i d Hi Hrd) as (l' & H1 & H2). eapply qubits_take; [|exact H1|exact H2]. lia.
    - intros b. split.
      + intros (l & ds & Hl & Hb). apply elem_of_list_lookup in Hl as (k & Hk). by apply (layer_spec _ _ _ _ Hk Hb).
      + intros Hb. destruct (in_some b Hb) as (k & l & Hk & Hl). exists l, (rel b). split; [|done].
        by eapply elem_of_list_lookup_2.
    - intros b d. rewrite <- Hrel. split.
      + intros (l & ds & Hl & Hb & Hd). apply elem_of_list_lookup in Hl as (k & Hk).
        by destruct (layer_spec _ _ _ _ Hk Hb) as (-> & _).
      + intros Hd. destruct (in_some b) as (k & l & Hk & Hl).
        { apply Hrel in Hd as (i & _ & s & p & Hs & _). apply (ca_qubits _ _ _ C). by exists s. }
        exists l, (rel b). split; [by eapply elem_of_list_lookup_2|done].
  Qed.
End one_by_one.

(** The contract can be met. *)
Lemma contract_satisfiable : orders_corrections one_by_one.
Proof.
  intros n st measured C. destruct (one_by_one_ordered n st measured C) as (H1 & H2 & H3).
  split; [done|]. split; [done|]. intros b d. split.
  - induction 1 as [b d H|b c d H _ IH]; [by apply tc_once, H3|]. eapply tc_l; [by apply H3|done].
  - induction 1 as [b d H|b c d H _ IH]; [by apply tc_once, H3|]. eapply tc_l; [by apply H3|done].
Qed.
