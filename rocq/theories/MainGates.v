(** * Gates: the model conjugates by the matrices *)
From Verif Require Export GateSpec CircuitLive ExecutionFacts.

(** The matrices of the operations on one qubit and on two qubits. *)
Definition matrix1 (op : Operation) : option (N * matrix) :=
  match op with
  | OpI b => Some (b, mone 2) | OpX b => Some (b, mat_x) | OpY b => Some (b, mat_y) | OpZ b => Some (b, mat_z)
  | OpS b | OpSz b => Some (b, mat_s) | OpSdg b | OpSzdg b => Some (b, mat_sdg) | OpHxy b => Some (b, mat_hxy)
  | OpH b => Some (b, mat_h) | OpSy b => Some (b, mat_sy) | OpSydg b => Some (b, mat_sydg)
  | OpSH b => Some (b, mmul mat_s mat_h) | OpHS b => Some (b, mmul mat_h mat_s)
  | OpSHS b => Some (b, mmul mat_s (mmul mat_h mat_s))
  | OpSx b => Some (b, mat_sx) | OpSxdg b => Some (b, mat_sxdg) | OpHyz b => Some (b, mat_hyz)
  | _ => None
  end.
Definition matrix2 (op : Operation) : option (N * N * matrix) :=
  match op with
  | OpCz a b => Some (a, b, controlled mat_z) | OpCx a b => Some (a, b, controlled mat_x)
  | OpCy a b => Some (a, b, controlled mat_y) | OpSwap a b => Some (a, b, mat_swap)
  | OpISwap a b => Some (a, b, mat_iswap) | OpISwapdg a b => Some (a, b, mat_iswapdg)
  | _ => None
  end.

Lemma up_to_phase_check a b :
  existsb (λ c, bool_decide (a = scaled c b)) phases = true → up_to_phase a b.
Proof.
  intros H. apply existsb_exists in H as (c & Hc & He). exists c. split; [by apply elem_of_list_In|].
  by apply bool_decide_eq_true in He.
Qed.

Lemma gate1_matrix op b u :
  matrix1 op = Some (b, u) →
  unitary 2 u ∧ ∃ f, (∀ p, conjugates1 u p (f p)) ∧
    ∀ C O (X : ExtendCircuit C O) bd s, i_memory s ≠ [] → apply_operation X bd s op = instruct_gate1 X f b s.
Proof.
  intros H.
  assert (unitary 2 u) as Hu.
  { destruct op; try done; cbn in H; injection H as <- <-;
      first [by exists 1%Z | by exists 2%Z | by exists 4%Z]. }
  split; [done|]. clear Hu.
  destruct op; try done; cbn [matrix1] in H; injection H as <- <-;
    (eexists; split; [|intros C O X bd s Hm; unfold apply_operation; destruct (i_memory s) eqn:E; [done|]; cbn [obind]; reflexivity]);
    intros [[] []]; apply up_to_phase_check; by vm_compute.
Qed.

Lemma gate2_matrix op a b u :
  matrix2 op = Some (a, b, u) →
  unitary 4 u ∧ ∃ f, (∀ p q, conjugates2 u p q (f p q).1 (f p q).2) ∧
    ∀ C O (X : ExtendCircuit C O) bd s, i_memory s ≠ [] → apply_operation X bd s op = instruct_gate2 X bd f a b s.
Proof.
  intros H.
  assert (unitary 4 u) as Hu.
  { destruct op; try done; cbn in H; injection H as <- <- <-; by exists 1%Z. }
  split; [done|]. clear Hu.
  destruct op; try done; cbn [matrix2] in H; injection H as <- <- <-;
    (eexists; split; [|intros C O X bd s Hm; unfold apply_operation; destruct (i_memory s) eqn:E; [done|]; cbn [obind]; reflexivity]);
    intros [[] []] [[] []]; apply up_to_phase_check; by vm_compute.
Qed.

(** An operation on one qubit conjugates every operator of its stack and leaves the
    others alone. *)
Lemma operation_conjugates1 :
  ∀ bd (s : Instructor FramesCircuit unit) op b u q stk, matrix1 op = Some (b, u) →
  i_memory s !! N.to_nat (b mod N.of_nat (length (i_memory s))) = Some q →
  fc_tracker (i_circuit s) !! q = Some stk →
  unitary 2 u ∧
  ∃ s' stk', apply_operation frames_circuit bd s op = Val s' ∧
    fc_tracker (i_circuit s') = <[q := stk']> (fc_tracker (i_circuit s)) ∧
    Forall2 (conjugates1 u) stk stk'.
Proof.
  intros bd s op b u q stk H Hq Hs. destruct (gate1_matrix op b u H) as (Hu & f & Hf & E). split; [done|].
  assert (i_memory s ≠ []) as Hm by (by intros Hn; rewrite Hn in Hq).
  rewrite E by done. destruct (mem_idx_spec _ b Hm) as (p & x & Ep & Hx & Ei).
  assert (x = q) as ->.
  { assert (p = N.to_nat (b mod N.of_nat (length (i_memory s)))) as Hp.
    { unfold mem_pos in Ep. destruct (i_memory s); [done|]. by injection Ep. }
    rewrite Hp, Hq in Hx. by injection Hx. }
  unfold instruct_gate1. rewrite Ei. cbn [obind]. cbn [x_gate1 frames_circuit]. unfold frames_gate1. rewrite Hs.
  cbn [obind]. eexists _, _. split; [done|]. split; [done|]. clear -Hf. induction stk; constructor; auto.
Qed.

(** An operation on two qubits conjugates the operators of their stacks together. *)
Lemma operation_conjugates2 :
  ∀ bd (s : Instructor FramesCircuit unit) op a b u x y sx sy, matrix2 op = Some (a, b, u) →
  double_mem_idx bd (i_memory s) a b = Val (Some (x, y)) → i_memory s ≠ [] → x ≠ y →
  fc_tracker (i_circuit s) !! x = Some sx → fc_tracker (i_circuit s) !! y = Some sy →
  length sx = length sy →
  unitary 4 u ∧
  ∃ s' sx' sy', apply_operation frames_circuit bd s op = Val s' ∧
    fc_tracker (i_circuit s') = <[y := sy']> (<[x := sx']> (fc_tracker (i_circuit s))) ∧
    length sx' = length sx ∧ length sy' = length sy ∧
    ∀ i p q p' q', sx !! i = Some p → sy !! i = Some q → sx' !! i = Some p' → sy' !! i = Some q' →
      conjugates2 u p q p' q'.
Proof.
  intros bd s op a b u x y sx sy H Ed Hm Hxy Hx Hy Hl. destruct (gate2_matrix op a b u H) as (Hu & f & Hf & E).
  split; [done|]. rewrite E by done. unfold instruct_gate2. rewrite Ed. cbn [obind x_gate2 frames_circuit].
  unfold frames_gate2. destruct (Nat.eqb_spec x y); [done|]. rewrite Hx, Hy. cbn [obind].
  eexists _, _, _. split; [done|]. split; [done|]. rewrite !map_length, zip_with_length.
  split; [lia|]. split; [lia|]. intros i p q p' q' Hp Hq Hp' Hq'.
  change (map fst (zip_with f sx sy)) with (fst <$> zip_with f sx sy) in Hp'.
  change (map snd (zip_with f sx sy)) with (snd <$> zip_with f sx sy) in Hq'.
  rewrite list_lookup_fmap in Hp', Hq'.
  assert (zip_with f sx sy !! i = Some (f p q)) as Ez by (apply lookup_zip_with_Some; by exists p, q).
  rewrite Ez in Hp', Hq'. cbn in Hp', Hq'. injection Hp' as <-. injection Hq' as <-. apply Hf.
Qed.

(** The corrections of the teleportations. *)
Definition teleported (op : Operation) : option (N * N * matrix) :=
  match op with
  | OpTeleportedX a b => Some (a, b, mat_x) | OpTeleportedY a b => Some (a, b, mat_y)
  | OpTeleportedZ a b => Some (a, b, mat_z) | _ => None
  end.

Lemma operation_teleports :
  ∀ bd (s : Instructor FramesCircuit unit) op a b u x y sx sy, teleported op = Some (a, b, u) →
  double_mem_idx bd (i_memory s) a b = Val (Some (x, y)) → i_memory s ≠ [] → x ≠ y →
  fc_tracker (i_circuit s) !! x = Some sx → fc_tracker (i_circuit s) !! y = Some sy →
  ∃ s' p, apply_operation frames_circuit bd s op = Val s' ∧
    i_measurements s' = i_measurements s ++ [(x, tt)] ∧
    fc_tracker (i_circuit s') !! y = Some (sy ++ [p]) ∧ up_to_phase (pauli_matrix p) u ∧
    fc_tracker (i_circuit s') !! x = None ∧
    ∀ z stk, z ≠ x → z ≠ y → fc_tracker (i_circuit s) !! z = Some stk →
      fc_tracker (i_circuit s') !! z = Some (stk ++ [(false, false)]).
Proof.
  intros bd s op a b u x y sx sy H Ed Hm Hxy Hx Hy.
  assert (∃ p, up_to_phase (pauli_matrix p) u ∧
    apply_operation frames_circuit bd s op = instruct_teleportation frames_circuit bd p a b s) as (p & Hp & ->).
  { destruct op; try done; cbn [teleported] in H; injection H as <- <- <-;
      (eexists; split; [|unfold apply_operation; destruct (i_memory s) eqn:E; [done|]; cbn [obind]; reflexivity]);
      apply up_to_phase_check; by vm_compute. }
  unfold instruct_teleportation. rewrite Ed. cbn [obind x_pauli_teleportation frames_circuit].
  unfold frames_track. rewrite Hy. cbn [obind]. unfold frames_measure_and_store. cbn [fc_tracker].
  rewrite lookup_insert_ne, lookup_fmap, Hx by done. cbn [obind fmap option_fmap option_map].
  destruct (mem_idx_spec _ a Hm) as (pa & x' & Ep & Hx' & _). rewrite Ep. cbn [obind].
  rewrite mem_pos_pos by (by eapply lookup_lt_Some). cbn [obind].
  eexists _, p. split; [done|]. cbn. split; [done|]. split; [by rewrite lookup_delete_ne, lookup_insert|].
  split; [done|]. split; [by rewrite lookup_delete|]. intros z stk Hzx Hzy Hz.
  rewrite lookup_delete_ne, lookup_insert_ne, lookup_fmap, Hz by done. done.
Qed.

(** ** The gates of the example program *)

Lemma example_conjugates :
  ∀ f a b, a ≠ b → a < length f → b < length f →
  conjugates1 mat_h (at_qubit f a) (at_qubit (conjugate (GH a) f) a) ∧
  conjugates2 (controlled mat_z) (at_qubit f a) (at_qubit f b)
    (at_qubit (conjugate (GCz a b) f) a) (at_qubit (conjugate (GCz a b) f) b) ∧
  conjugates2 (controlled mat_y) (at_qubit f a) (at_qubit f b)
    (at_qubit (conjugate (GCy a b) f) a) (at_qubit (conjugate (GCy a b) f) b) ∧
  conjugates2 mat_iswap (at_qubit f a) (at_qubit f b)
    (at_qubit (conjugate (GISwap a b) f) a) (at_qubit (conjugate (GISwap a b) f) b) ∧
  (∀ c, c ≠ a → c ≠ b → at_qubit (conjugate (GH a) f) c = at_qubit f c ∧
    at_qubit (conjugate (GCz a b) f) c = at_qubit f c ∧
    at_qubit (conjugate (GCy a b) f) c = at_qubit f c ∧
    at_qubit (conjugate (GISwap a b) f) c = at_qubit f c).
Proof.
  intros f a b Hab Ha Hb.
  assert (∀ p q, at_qubit (<[b := q]> (<[a := p]> f)) a = p ∧ at_qubit (<[b := q]> (<[a := p]> f)) b = q ∧
    ∀ c, c ≠ a → c ≠ b → at_qubit (<[b := q]> (<[a := p]> f)) c = at_qubit f c) as H2.
  { intros p q. unfold at_qubit. split; [|split].
    - rewrite list_lookup_insert_ne, list_lookup_insert by done. done.
    - rewrite list_lookup_insert by (by rewrite insert_length). done.
    - intros c Hca Hcb. by rewrite !list_lookup_insert_ne. }
  assert (∀ p, at_qubit (<[a := p]> f) a = p ∧ ∀ c, c ≠ a → at_qubit (<[a := p]> f) c = at_qubit f c) as H1.
  { intros p. unfold at_qubit. split; [by rewrite list_lookup_insert|]. intros c Hc. by rewrite list_lookup_insert_ne. }
  unfold conjugate. destruct (at_qubit f a) as [za xa] eqn:Ea, (at_qubit f b) as [zb xb] eqn:Eb.
  split; [|split; [|split; [|split]]].
  - rewrite (proj1 (H1 _)). destruct za, xa; apply up_to_phase_check; by vm_compute.
  - edestruct H2 as (-> & -> & _). destruct za, xa, zb, xb; apply up_to_phase_check; by vm_compute.
  - edestruct H2 as (-> & -> & _). destruct za, xa, zb, xb; apply up_to_phase_check; by vm_compute.
  - edestruct H2 as (-> & -> & _). destruct za, xa, zb, xb; apply up_to_phase_check; by vm_compute.
  - intros c Hca Hcb. split; [by apply H1|]. split; [by apply H2|]. split; by apply H2.
Qed.

(** Different operators are different matrices, also up to a phase: the conjugated
    operator is determined. *)
Lemma pauli_matrices_differ :
  ∀ p q, up_to_phase (pauli_matrix p) (pauli_matrix q) → p = q.
Proof.
  intros p q (c & Hc & He). unfold phases in Hc.
  repeat (apply elem_of_cons in Hc as [->|Hc]; [by destruct p as [[] []], q as [[] []]; vm_compute in He|]).
  by apply elem_of_nil in Hc.
Qed.

(** A rotation: the new qubit takes over the operators of the measured one and is
    corrected by Z; the measured qubit keeps the X parts, which change the sign of the
    angle. *)
Lemma operation_rotates :
  ∀ bd (s : Instructor FramesCircuit unit) b q stk,
  i_memory s !! N.to_nat (b mod N.of_nat (length (i_memory s))) = Some q →
  fc_tracker (i_circuit s) !! q = Some stk → length stk = fc_frames (i_circuit s) → q ≠ i_used s →
  ∃ s' p, apply_operation frames_circuit bd s (OpRz b) = Val s' ∧
    i_measurements s' = i_measurements s ++ [(q, tt)] ∧
    i_memory s' !! N.to_nat (b mod N.of_nat (length (i_memory s))) = Some (i_used s) ∧
    fc_tracker (i_circuit s') !! i_used s = Some (stk ++ [p]) ∧ up_to_phase (pauli_matrix p) mat_z ∧
    fc_tracker (i_circuit s') !! q = None ∧
    fc_storage (i_circuit s') !! q = Some (map (λ p, (false, p.2)) stk) ∧
    ∀ z stk', z ≠ q → z ≠ i_used s → fc_tracker (i_circuit s) !! z = Some stk' →
      fc_tracker (i_circuit s') !! z = Some (stk' ++ [(false, false)]).
Proof.
  intros bd s b q stk Hq Hs Hl Hu.
  assert (i_memory s ≠ []) as Hm by (by intros Hn; rewrite Hn in Hq).
  destruct (mem_idx_spec _ b Hm) as (p & x & Ep & Hx & Ei).
  assert (p = N.to_nat (b mod N.of_nat (length (i_memory s)))) as Hp.
  { unfold mem_pos in Ep. destruct (i_memory s); [done|]. by injection Ep. }
  rewrite <- Hp in *. assert (x = q) as -> by (rewrite Hq in Hx; by injection Hx).
  assert (apply_operation frames_circuit bd s (OpRz b) = instruct_rotation frames_circuit b s) as ->.
  { unfold apply_operation. by destruct (i_memory s). }
  unfold instruct_rotation. rewrite Ei. cbn [obind x_z_rotation_teleportation frames_circuit].
  unfold frames_new_qubit at 1. cbn [obind]. unfold frames_gate2 at 1. destruct (Nat.eqb_spec q (i_used s)); [done|].
  cbn [fc_tracker fc_frames fc_storage]. rewrite lookup_insert, lookup_insert_ne, Hs by done. cbn [obind].
  unfold frames_gate2 at 1. destruct (Nat.eqb_spec q (i_used s)); [done|].
  cbn [fc_tracker fc_frames fc_storage]. rewrite lookup_insert, lookup_insert_ne, lookup_insert by done. cbn [obind].
  unfold frames_measure_and_store. cbn [fc_tracker fc_frames fc_storage].
  rewrite lookup_insert_ne, lookup_insert by done. cbn [obind]. unfold frames_track. cbn [fc_tracker fc_frames fc_storage].
  rewrite lookup_delete_ne, lookup_insert by done. cbn [obind]. rewrite Ep. cbn [obind].
  unfold index_set. rewrite Hq. cbn [obind].
  set (r := zip_with g_cx stk (replicate (fc_frames (i_circuit s)) (false, false))).
  assert (map snd (zip_with g_move_z_to_z (map fst r) (map snd r)) = stk ∧
    map fst (zip_with g_move_z_to_z (map fst r) (map snd r)) = map (λ p, (false, p.2)) stk) as [E1 E2].
  { unfold r. rewrite <- Hl. clear. induction stk as [|[[] []] stk [IH1 IH2]]; [done|..]; cbn; by rewrite IH1, IH2. }
  rewrite E1, E2. eexists _, (true, false). split; [done|]. cbn [i_measurements i_memory i_circuit fc_tracker fc_storage].
  split; [done|]. split; [apply list_lookup_insert; by eapply lookup_lt_Some|]. split; [by rewrite lookup_insert|].
  split; [apply up_to_phase_check; by vm_compute|].
  split; [by rewrite lookup_insert_ne, lookup_fmap, lookup_delete by done|]. split; [by rewrite lookup_insert|].
  intros z stk' Hz1 Hz2 Hz. rewrite lookup_insert_ne, lookup_fmap, lookup_delete_ne by done.
  rewrite !lookup_insert_ne by done. by rewrite Hz.
Qed.
