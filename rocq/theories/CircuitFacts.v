(** * Facts about the circuits of the property test *)
From Verif Require Export CircuitSpec Circuits TimeFacts.

(** ** Positions *)

Lemma mem_pos_spec memory b :
  memory ≠ [] → ∃ p x, mem_pos memory b = Val p ∧ p < length memory ∧ memory !! p = Some x.
Proof.
  intros H. destruct memory as [|m memory]; [done|]. unfold mem_pos.
  set (l := m :: memory). assert (N.of_nat (length l) ≠ 0%N) as Hl by (simpl; lia).
  pose proof (N.mod_lt b _ Hl) as Hlt.
  assert (N.to_nat (b mod N.of_nat (length l)) < length l) as Hp by lia.
  destruct (lookup_lt_is_Some_2 _ _ Hp) as [x Hx]. eauto.
Qed.

Lemma mem_pos_pos memory p : p < length memory → mem_pos memory (N.of_nat p) = Val p.
Proof.
  intros H. destruct memory as [|m memory]; [simpl in H; lia|]. unfold mem_pos.
  rewrite N.mod_small by lia. by rewrite Nat2N.id.
Qed.

Lemma mem_idx_spec memory b :
  memory ≠ [] → ∃ p x, mem_pos memory b = Val p ∧ memory !! p = Some x ∧ mem_idx memory b = Val x.
Proof.
  intros H. destruct (mem_pos_spec memory b H) as (p & x & Ep & _ & Hx).
  exists p, x. split; [done|]. split; [done|]. unfold mem_idx, index. by rewrite Ep; cbn; rewrite Hx.
Qed.

Lemma mod_succ_ne (b l : N) : (2 <= l)%N → ((b + 1) mod l ≠ b mod l)%N.
Proof.
  intros Hl E. pose proof (N.div_mod b l ltac:(lia)) as H1. pose proof (N.div_mod (b + 1) l ltac:(lia)) as H2.
  rewrite E in H2. revert H1 H2. generalize (b / l)%N ((b + 1) / l)%N (b mod l)%N. intros q q' r H1 H2.
  assert (l * q' = l * q + 1)%N as H by lia. assert (q < q')%N as Hq by nia.
  assert (l * (q + 1) <= l * q')%N by (apply N.mul_le_mono_l; lia). lia.
Qed.

Lemma double_mem_idx_spec bd memory a b :
  memory ≠ [] → (b < usize_max)%N →
  double_mem_idx bd memory a b = Val None ∨
  ∃ pa pb x y, mem_pos memory a = Val pa ∧ memory !! pa = Some x ∧ memory !! pb = Some y ∧ pa ≠ pb ∧
    2 ≤ length memory ∧ double_mem_idx bd memory a b = Val (Some (x, y)).
Proof.
  intros Hm Hb. unfold double_mem_idx. destruct (Nat.eqb_spec (length memory) 1) as [|Hl]; [by left|right].
  destruct (mem_pos_spec memory a Hm) as (pa & x & Ea & _ & Hx).
  destruct (mem_pos_spec memory b Hm) as (pb & y & Eb & _ & Hy).
  destruct (mem_pos_spec memory (b + 1) Hm) as (pc & z & Ec & _ & Hz).
  assert (2 ≤ length memory) as Hl2 by (destruct memory; simpl in *; [done|lia]).
  assert (pb ≠ pc) as Hne.
  { destruct memory as [|m memory]; [done|]. unfold mem_pos in Eb, Ec.
    pose proof (mod_succ_ne b (N.of_nat (length (m :: memory))) ltac:(lia)) as H.
    intros ->. apply H. rewrite <- Eb in Ec. apply N2Nat.inj. congruence. }
  assert (add_usize bd b 1 = Val (b + 1)%N) as Eadd.
  { unfold add_usize. destruct (N.leb_spec (b + 1) usize_max); [done|lia]. }
  rewrite Ea, Eb. cbn [obind]. destruct (Nat.eqb_spec pa pb) as [->|Hab].
  - rewrite Eadd. cbn [obind]. rewrite Ec. cbn [obind]. unfold index. rewrite Hx, Hz. cbn [obind].
    exists pb, pc, x, z. done.
  - cbn [obind]. unfold index. rewrite Hx, Hy. cbn [obind]. exists pa, pb, x, y. done.
Qed.

(** ** The circuit with frames *)

Notation fstate := (Instructor FramesCircuit unit).
Definition where_ {C O} (s : Instructor C O) : list nat := map fst (i_measurements s).

Record finv (s : fstate) : Prop := {
  fi_tracked : ∀ q, is_Some (fc_tracker (i_circuit s) !! q) ↔ q ∈ i_memory s;
  fi_length : ∀ q stk, fc_tracker (i_circuit s) !! q = Some stk → length stk = length (where_ s);
  fi_frames : fc_frames (i_circuit s) = length (where_ s);
  fi_nodup : NoDup (i_memory s ++ where_ s);
  fi_used : ∀ q, q ∈ i_memory s ++ where_ s → q < i_used s;
  fi_stored : ∀ q, is_Some (fc_storage (i_circuit s) !! q) ↔ q ∈ where_ s;
  fi_short : ∀ q stk, fc_storage (i_circuit s) !! q = Some stk → length stk ≤ length (where_ s);
  fi_before : ∀ j q stk i p, where_ s !! j = Some q → fc_storage (i_circuit s) !! q = Some stk →
    stk !! i = Some p → p ≠ (false, false) → i < j
}.

Lemma finv_new n : finv (instructor_new n (frames_init n)).
Proof.
  assert (∀ q v, (list_to_map (map (λ q : nat, (q, [])) (seq 0 n)) : stacks) !! q = Some v → q < n ∧ v = []) as H1.
  { intros q v H. apply elem_of_list_to_map_2, elem_of_list_fmap in H as (x & [= <- <-] & Hx).
    apply elem_of_seq in Hx. split; [lia|done]. }
  assert (∀ q, q < n → (list_to_map (map (λ q : nat, (q, [])) (seq 0 n)) : stacks) !! q = Some []) as H2.
  { intros q Hq. apply elem_of_list_to_map_1.
    - rewrite <- list_fmap_compose. change (NoDup (map (λ x : nat, x) (seq 0 n))). rewrite map_id. apply NoDup_seq.
    - apply elem_of_list_fmap. exists q. split; [done|]. apply elem_of_seq. lia. }
  split; cbn.
  - intros q. split.
    + intros [v Hv]. apply H1 in Hv as [? _]. apply elem_of_seq. lia.
    + intros Hq. apply elem_of_seq in Hq. exists []. apply H2. lia.
  - intros q v Hv. by apply H1 in Hv as [_ ->].
  - done.
  - rewrite app_nil_r. apply NoDup_seq.
  - intros q Hq. rewrite app_nil_r in Hq. apply elem_of_seq in Hq. lia.
  - intros q. rewrite lookup_empty. split; [by intros []|by intros ?%elem_of_nil].
  - intros q v Hv. by rewrite lookup_empty in Hv.
  - intros j q v i p Hj. done.
Qed.

(** Operations that leave everything but the stacks of tracked qubits unchanged. *)
Lemma finv_gate (s : fstate) t :
  finv s →
  (∀ q, is_Some (t !! q) ↔ is_Some (fc_tracker (i_circuit s) !! q)) →
  (∀ q stk, t !! q = Some stk → length stk = length (where_ s)) →
  finv (mkInstructor (i_used s) (i_memory s)
    (mkFramesCircuit t (fc_frames (i_circuit s)) (fc_storage (i_circuit s))) (i_measurements s)).
Proof.
  intros [F1 F2 F3 F4 F5 F6 F7 F8] H1 H2. split; cbn; try done.
  intros q. by rewrite H1.
Qed.

Lemma insert_is_Some {A} (m : gmap nat A) k v q :
  is_Some (m !! k) → is_Some (<[k := v]> m !! q) ↔ is_Some (m !! q).
Proof.
  intros Hk. destruct (decide (q = k)) as [->|?].
  - rewrite lookup_insert. split; [done|]. intros _. eauto.
  - by rewrite lookup_insert_ne.
Qed.

Lemma gate1_step (s : fstate) f b :
  finv s → i_memory s ≠ [] →
  ∃ c, instruct_gate1 frames_circuit f b s = Val (mkInstructor (i_used s) (i_memory s) c (i_measurements s)) ∧
    finv (mkInstructor (i_used s) (i_memory s) c (i_measurements s)).
Proof.
  intros F Hm. destruct (mem_idx_spec _ b Hm) as (p & x & _ & Hx & E). unfold instruct_gate1. rewrite E. cbn.
  destruct (proj2 (fi_tracked _ F x) (elem_of_list_lookup_2 _ _ _ Hx)) as [stk Hs].
  unfold frames_gate1. rewrite Hs. cbn. eexists. split; [done|]. apply finv_gate; [done|..].
  - intros q. apply insert_is_Some. by rewrite Hs.
  - intros q v. rewrite lookup_insert_Some. intros [[<- <-]|[_ Hv]].
    + rewrite map_length. by eapply fi_length.
    + by eapply fi_length.
Qed.

Lemma frames_gate2_step (c : FramesCircuit) f p q s t :
  p ≠ q → fc_tracker c !! p = Some s → fc_tracker c !! q = Some t →
  frames_gate2 f p q c =
    Val (mkFramesCircuit (<[q := map snd (zip_with f s t)]> (<[p := map fst (zip_with f s t)]> (fc_tracker c)))
           (fc_frames c) (fc_storage c)).
Proof.
  intros H Hs Ht. unfold frames_gate2. destruct (Nat.eqb_spec p q); [done|]. by rewrite Hs, Ht.
Qed.

Lemma NoDup_positions {A} (l : list A) i j x y :
  NoDup l → l !! i = Some x → l !! j = Some y → i ≠ j → x ≠ y.
Proof. intros H Hi Hj Hne ->. apply Hne. by eapply NoDup_lookup. Qed.

Lemma gate2_step bd (s : fstate) f a b :
  finv s → i_memory s ≠ [] → (b < usize_max)%N →
  ∃ c, instruct_gate2 frames_circuit bd f a b s = Val (mkInstructor (i_used s) (i_memory s) c (i_measurements s)) ∧
    finv (mkInstructor (i_used s) (i_memory s) c (i_measurements s)).
Proof.
  intros F Hm Hb. unfold instruct_gate2.
  destruct (double_mem_idx_spec bd (i_memory s) a b Hm Hb) as [->|(pa & pb & x & y & _ & Hx & Hy & Hne & _ & ->)].
  { cbn. exists (i_circuit s). by destruct s. }
  pose proof (fi_nodup _ F) as Hnd. apply NoDup_app in Hnd as (Hnd & _ & _).
  pose proof (NoDup_positions _ _ _ _ _ Hnd Hx Hy Hne) as Hxy.
  destruct (proj2 (fi_tracked _ F x) (elem_of_list_lookup_2 _ _ _ Hx)) as [sx Hsx].
  destruct (proj2 (fi_tracked _ F y) (elem_of_list_lookup_2 _ _ _ Hy)) as [sy Hsy].
  cbn [obind x_gate2 frames_circuit]. erewrite frames_gate2_step by done. cbn [obind]. eexists. split; [done|].
  pose proof (fi_length _ F _ _ Hsx) as Lx. pose proof (fi_length _ F _ _ Hsy) as Ly.
  apply finv_gate; [done|..].
  - intros q. rewrite insert_is_Some; [apply insert_is_Some; by rewrite Hsx|].
    apply insert_is_Some; [by rewrite Hsx|by rewrite Hsy].
  - intros q v. rewrite lookup_insert_Some. intros [[<- <-]|[_ Hv]].
    + rewrite map_length, zip_with_length. lia.
    + apply lookup_insert_Some in Hv as [[<- <-]|[_ Hv]]; [rewrite map_length, zip_with_length; lia|].
      by eapply fi_length.
Qed.

Lemma new_qubit_step (s : fstate) :
  finv s → ∃ c, instruct_new_qubit frames_circuit s =
      Val (mkInstructor (i_used s + 1) (i_memory s ++ [i_used s]) c (i_measurements s)) ∧
    finv (mkInstructor (i_used s + 1) (i_memory s ++ [i_used s]) c (i_measurements s)).
Proof.
  intros [F1 F2 F3 F4 F5 F6 F7 F8]. eexists. split; [done|].
  assert (i_used s ∉ i_memory s ++ where_ s) as Hnew by (intros H; apply F5 in H; lia).
  split; cbn.
  - intros q. rewrite elem_of_app, elem_of_list_singleton, lookup_insert_is_Some, F1.
    destruct (decide (q = i_used s)); naive_solver.
  - intros q v. rewrite lookup_insert_Some. intros [[<- <-]|[_ Hv]]; [by rewrite replicate_length, F3|by eapply F2].
  - done.
  - change (where_ {| i_used := i_used s + 1; i_memory := i_memory s ++ [i_used s]; i_circuit := _; i_measurements := i_measurements s |})
      with (where_ s). rewrite <- app_assoc. cbn. rewrite <- Permutation_middle. by constructor.
  - intros q Hq. rewrite <- app_assoc in Hq. cbn in Hq. rewrite <- Permutation_middle in Hq.
    apply elem_of_cons in Hq as [->|Hq]; [lia|]. apply F5 in Hq. lia.
  - done.
  - done.
  - done.
Qed.

(** A measurement whose stack is stored. *)
Lemma finv_store (s : fstate) x stk t memory' :
  finv s → i_memory s ≡ₚ x :: memory' →
  (∀ q, is_Some (t !! q) ↔ q ∈ i_memory s ∧ q ≠ x) →
  (∀ q v, t !! q = Some v → length v = S (length (where_ s))) →
  length stk ≤ S (length (where_ s)) →
  (∀ i p, stk !! i = Some p → p ≠ (false, false) → i < length (where_ s)) →
  finv (mkInstructor (i_used s) memory'
    (mkFramesCircuit t (S (fc_frames (i_circuit s))) (<[x := stk]> (fc_storage (i_circuit s))))
    (i_measurements s ++ [(x, tt)])).
Proof.
  intros [F1 F2 F3 F4 F5 F6 F7 F8] Hm Ht Htl Hsl Hsb.
  assert (∀ c : FramesCircuit, where_ (mkInstructor (i_used s) memory' c (i_measurements s ++ [(x, tt)])) = where_ s ++ [x]) as Ew.
  { intros c. unfold where_. cbn. by rewrite map_app. }
  assert (memory' ++ where_ s ++ [x] ≡ₚ i_memory s ++ where_ s) as Hperm.
  { rewrite Hm. cbn. rewrite app_assoc. by rewrite <- Permutation_cons_append. }
  assert (x ∉ where_ s) as Hx.
  { apply NoDup_app in F4 as (_ & H & _). apply H. rewrite Hm. left. }
  assert (x ∉ memory') as Hx'.
  { apply NoDup_app in F4 as (H & _). rewrite Hm in H. by apply NoDup_cons in H as [? _]. }
  split; rewrite ?Ew; cbn [i_used i_memory i_circuit fc_tracker fc_frames fc_storage].
  - intros q. rewrite Ht, Hm, elem_of_cons. split; [naive_solver|]. intros Hq. split; [by right|]. by intros ->.
  - intros q v Hv. rewrite app_length. cbn. apply Htl in Hv. lia.
  - rewrite app_length. cbn. lia.
  - by rewrite Hperm.
  - intros q. rewrite Hperm. apply F5.
  - intros q. rewrite elem_of_app, elem_of_list_singleton, lookup_insert_is_Some, F6.
    destruct (decide (q = x)); naive_solver.
  - intros q v. rewrite lookup_insert_Some, app_length. cbn. intros [[<- <-]|[_ Hv]]; [lia|]. apply F7 in Hv. lia.
  - intros j q v i p Hj Hv Hi Hp. apply lookup_insert_Some in Hv as [[<- <-]|[Hne Hv]].
    + rewrite lookup_app in Hj. destruct (where_ s !! j) as [y|] eqn:Ej.
      * injection Hj as ->. exfalso. apply Hx. by eapply elem_of_list_lookup_2.
      * apply lookup_ge_None in Ej. specialize (Hsb i p Hi Hp). lia.
    + apply lookup_app_Some in Hj as [Hj|[_ Hj]]; [by eapply F8|].
      apply list_lookup_singleton_Some in Hj as [_ ->]. done.
Qed.

Lemma teleportation_step bd (s : fstate) p a b :
  finv s → i_memory s ≠ [] → (b < usize_max)%N →
  instruct_teleportation frames_circuit bd p a b s = Val s ∨
  ∃ pa x y sx sy t, i_memory s !! pa = Some x ∧ y ∈ i_memory s ∧ x ≠ y ∧ 2 ≤ length (i_memory s) ∧
    mem_pos (i_memory s) a = Val pa ∧ double_mem_idx bd (i_memory s) a b = Val (Some (x, y)) ∧
    fc_tracker (i_circuit s) !! x = Some sx ∧ fc_tracker (i_circuit s) !! y = Some sy ∧
    t = delete x (<[y := sy ++ [p]]> ((λ t, t ++ [(false, false)]) <$> fc_tracker (i_circuit s))) ∧
    let s' := mkInstructor (i_used s) (swap_remove (i_memory s) pa)
      (mkFramesCircuit t (S (fc_frames (i_circuit s))) (<[x := sx ++ [(false, false)]]> (fc_storage (i_circuit s))))
      (i_measurements s ++ [(x, tt)]) in
    instruct_teleportation frames_circuit bd p a b s = Val s' ∧ finv s'.
Proof.
  intros F Hm Hb. unfold instruct_teleportation.
  destruct (double_mem_idx_spec bd (i_memory s) a b Hm Hb) as [->|(pa & pb & x & y & Ea & Hx & Hy & Hne & Hlen & E)].
  { by left. }
  right. rewrite E. cbn [obind].
  pose proof (fi_nodup _ F) as Hnd. apply NoDup_app in Hnd as (Hnd & _ & _).
  pose proof (NoDup_positions _ _ _ _ _ Hnd Hx Hy Hne) as Hxy.
  destruct (proj2 (fi_tracked _ F x) (elem_of_list_lookup_2 _ _ _ Hx)) as [sx Hsx].
  destruct (proj2 (fi_tracked _ F y) (elem_of_list_lookup_2 _ _ _ Hy)) as [sy Hsy].
  exists pa, x, y, sx, sy. eexists. split; [done|]. split; [by eapply elem_of_list_lookup_2|].
  split; [done|]. split; [done|]. split; [done|]. split; [done|]. split; [done|]. split; [done|]. split; [done|].
  cbn [x_pauli_teleportation frames_circuit]. unfold frames_track. rewrite Hsy. cbn [obind].
  unfold frames_measure_and_store. cbn [fc_tracker fc_frames fc_storage].
  rewrite lookup_insert_ne, lookup_fmap, Hsx by done. cbn [fmap option_fmap option_map obind]. rewrite Ea. cbn [obind].
  rewrite mem_pos_pos by (by eapply lookup_lt_Some). cbn [obind]. split; [done|].
  pose proof (fi_length _ F _ _ Hsx) as Lx. pose proof (fi_length _ F _ _ Hsy) as Ly.
  apply finv_store; [done|by apply swap_remove_perm|..].
  - intros q. rewrite <- (fi_tracked _ F q). destruct (decide (q = x)) as [->|Hq].
    { rewrite lookup_delete. split; [by intros []|by intros [_ ?]]. }
    rewrite lookup_delete_ne by done. destruct (decide (q = y)) as [->|Hqy].
    { rewrite lookup_insert, Hsy. naive_solver. }
    rewrite lookup_insert_ne, lookup_fmap, fmap_is_Some by done. naive_solver.
  - intros q v. rewrite lookup_delete_Some. intros [_ Hv]. apply lookup_insert_Some in Hv as [[_ <-]|[_ Hv]].
    + rewrite app_length. cbn. lia.
    + rewrite lookup_fmap in Hv. apply fmap_Some in Hv as (w & Hw & ->). apply (fi_length _ F) in Hw.
      rewrite app_length. cbn. lia.
  - rewrite app_length. cbn. lia.
  - intros i q Hi Hq. apply lookup_app_Some in Hi as [Hi|[_ Hi]].
    + apply lookup_lt_Some in Hi. lia.
    + by apply list_lookup_singleton_Some in Hi as [_ <-].
Qed.

(** Arbitrary circuits also contain rotations and measurements. *)
Lemma measure_step (s : fstate) b :
  finv s → i_memory s ≠ [] →
  ∃ pos x, mem_pos (i_memory s) b = Val pos ∧ mem_idx (i_memory s) b = Val x ∧ i_memory s !! pos = Some x ∧
    let s' := mkInstructor (i_used s) (swap_remove (i_memory s) pos)
      (mkFramesCircuit (delete x (fc_tracker (i_circuit s))) (fc_frames (i_circuit s)) (fc_storage (i_circuit s)))
      (i_measurements s) in
    instruct_measure frames_circuit b s = Val s' ∧ finv s'.
Proof.
  intros F Hm. destruct (mem_idx_spec _ b Hm) as (pos & x & Ep & Hx & E).
  exists pos, x. split; [done|]. split; [done|]. split; [done|]. unfold instruct_measure. rewrite E. cbn [obind].
  cbn. rewrite Ep. cbn [obind]. split; [done|].
  pose proof (swap_remove_perm _ _ _ Hx) as Hperm. revert Hperm.
  generalize (swap_remove (i_memory s) pos). intros m' Hperm.
  destruct F as [F1 F2 F3 F4 F5 F6 F7 F8].
  assert (x ∉ m') as Hx'.
  { apply NoDup_app in F4 as (H & _). rewrite Hperm in H. by apply NoDup_cons in H as [? _]. }
  split; cbn; try done.
  - intros q. rewrite lookup_delete_is_Some, F1, Hperm, elem_of_cons. split; [naive_solver|].
    intros Hq. split; [|by right]. by intros ->.
  - intros q v Hv. apply lookup_delete_Some in Hv as [_ Hv]. by eapply F2.
  - change (NoDup (m' ++ where_ s)). rewrite Hperm in F4. by apply NoDup_cons in F4 as [_ ?].
  - intros q Hq. change (q ∈ m' ++ where_ s) in Hq. apply F5. rewrite Hperm. by right.
Qed.

Lemma insert_perm {A} (l : list A) p x y :
  l !! p = Some x → l ++ [y] ≡ₚ x :: <[p := y]> l.
Proof.
  intros H. rewrite <- Permutation_cons_append. rewrite insert_take_drop by (by eapply lookup_lt_Some).
  rewrite <- (take_drop_middle l p x H) at 1. rewrite <- !Permutation_middle. apply perm_swap.
Qed.

Lemma rotation_step (s : fstate) b :
  finv s → i_memory s ≠ [] →
  ∃ pos x t stk sn, mem_pos (i_memory s) b = Val pos ∧ mem_idx (i_memory s) b = Val x ∧ i_memory s !! pos = Some x ∧
    let s' := mkInstructor (i_used s + 1) (<[pos := i_used s]> (i_memory s))
      (mkFramesCircuit t (S (fc_frames (i_circuit s))) (<[x := stk]> (fc_storage (i_circuit s))))
      (i_measurements s ++ [(x, tt)]) in
    instruct_rotation frames_circuit b s = Val s' ∧ finv s' ∧
    (∃ sx, fc_tracker (i_circuit s) !! x = Some sx ∧
      let r := zip_with g_cx sx (replicate (fc_frames (i_circuit s)) (false, false)) in
      let r' := zip_with g_move_z_to_z (map fst r) (map snd r) in
      stk = map fst r' ∧ sn = map snd r') ∧
    t = <[i_used s := sn ++ [(true, false)]]> ((λ t, t ++ [(false, false)]) <$>
          delete x (<[i_used s := sn]> (fc_tracker (i_circuit s)))).
Proof.
  intros F Hm. destruct (mem_idx_spec _ b Hm) as (pos & x & Ep & Hx & E).
  destruct (proj2 (fi_tracked _ F x) (elem_of_list_lookup_2 _ _ _ Hx)) as [sx Hsx].
  pose proof (fi_length _ F _ _ Hsx) as Lx.
  assert (x ≠ i_used s) as Hxu.
  { assert (x < i_used s); [|lia]. apply (fi_used _ F), elem_of_app. left. by eapply elem_of_list_lookup_2. }
  destruct (new_qubit_step s F) as (c1 & E1 & F1). unfold instruct_new_qubit in E1. cbn in E1. injection E1 as E1.
  subst c1.
  set (r := zip_with g_cx sx (replicate (fc_frames (i_circuit s)) (false, false))).
  set (r' := zip_with g_move_z_to_z (map fst r) (map snd r)).
  assert (length r = length sx) as Lr.
  { unfold r. rewrite zip_with_length, replicate_length, (fi_frames _ F). lia. }
  assert (length r' = length sx) as Lr'.
  { unfold r'. rewrite zip_with_length, !map_length. lia. }
  eexists pos, x, _, (map fst r'), (map snd r'). split; [done|]. split; [done|]. split; [done|].
  assert (instruct_rotation frames_circuit b s = Val (mkInstructor (i_used s + 1) (<[pos := i_used s]> (i_memory s))
      (mkFramesCircuit (<[i_used s := map snd r' ++ [(true, false)]]> ((λ t, t ++ [(false, false)]) <$>
          delete x (<[i_used s := map snd r']> (fc_tracker (i_circuit s)))))
         (S (fc_frames (i_circuit s))) (<[x := map fst r']> (fc_storage (i_circuit s))))
      (i_measurements s ++ [(x, tt)]))) as Er.
  { unfold instruct_rotation. rewrite E. cbn [obind x_z_rotation_teleportation frames_circuit].
    unfold frames_new_qubit at 1. cbn [obind].
    erewrite frames_gate2_step; [|done|cbn [fc_tracker]; by rewrite lookup_insert_ne|cbn [fc_tracker]; apply lookup_insert].
    cbn [obind fc_tracker fc_frames fc_storage]. fold r.
    erewrite frames_gate2_step; [|done|cbn [fc_tracker]; rewrite lookup_insert_ne by done; apply lookup_insert
      |cbn [fc_tracker]; apply lookup_insert].
    cbn [obind fc_tracker fc_frames fc_storage]. fold r'. unfold frames_measure_and_store.
    cbn [obind fc_tracker fc_frames fc_storage]. rewrite lookup_insert_ne by done. rewrite lookup_insert. cbn [obind].
    unfold frames_track. cbn [fc_tracker fc_frames fc_storage].
    rewrite lookup_delete_ne by done. rewrite lookup_insert. cbn [obind]. rewrite Ep. cbn [obind].
    unfold index_set. rewrite Hx. cbn [obind]. do 3 f_equal.
    f_equal. f_equal. apply map_eq. intros q. destruct (decide (q = x)) as [->|Hqx].
    { by rewrite !lookup_delete. }
    rewrite !lookup_delete_ne by done. destruct (decide (q = i_used s)) as [->|Hqu].
    { by rewrite !lookup_insert. }
    by rewrite !lookup_insert_ne. }
  split; [exact Er|]. split; [|split; [by exists sx|done]].
  apply (finv_store (mkInstructor (i_used s + 1) (i_memory s ++ [i_used s])
    (mkFramesCircuit (<[i_used s:=replicate (fc_frames (i_circuit s)) (false, false)]> (fc_tracker (i_circuit s)))
       (fc_frames (i_circuit s)) (fc_storage (i_circuit s))) (i_measurements s))); [done|by apply insert_perm|..].
  - intros q. rewrite <- (fi_tracked _ F1 q). cbn [i_circuit fc_tracker].
    destruct (decide (q = i_used s)) as [->|Hqu].
    { rewrite !lookup_insert. naive_solver. }
    rewrite !lookup_insert_ne, lookup_fmap, fmap_is_Some by done. destruct (decide (q = x)) as [->|Hqx].
    { rewrite lookup_delete. split; [by intros []|by intros [_ ?]]. }
    rewrite lookup_delete_ne, lookup_insert_ne by done. naive_solver.
  - intros q v. change (where_ _) with (where_ s). rewrite lookup_insert_Some. intros [[_ <-]|[Hq Hv]].
    + rewrite app_length, map_length. cbn. lia.
    + rewrite lookup_fmap in Hv. apply fmap_Some in Hv as (w & Hw & ->). apply lookup_delete_Some in Hw as [_ Hw].
      rewrite lookup_insert_ne in Hw by done. apply (fi_length _ F) in Hw. rewrite app_length. cbn. lia.
  - change (where_ _) with (where_ s). rewrite map_length. lia.
  - intros i p Hi _. change (where_ _) with (where_ s). apply lookup_lt_Some in Hi. rewrite map_length in Hi. lia.
Qed.
