(** * Circuits of the property test: whole circuits, and tracking with known results *)
From Verif Require Export CircuitFacts.

(** ** Whole circuits *)

(** The second number of an operation on two qubits is not the greatest one. *)
Definition second_fits (op : Operation) : Prop :=
  match op with
  | OpCz _ b | OpCx _ b | OpCy _ b | OpSwap _ b | OpISwap _ b | OpISwapdg _ b
  | OpTeleportedX _ b | OpTeleportedY _ b | OpTeleportedZ _ b => (b < 2 ^ 64 - 1)%N
  | _ => True
  end.

(** The operations that are left in the test. *)
Definition plain (op : Operation) : Prop :=
  match op with OpRz _ | OpMeasure _ | OpNewQubit _ => False | _ => True end.

Definition begun (s : fstate) : out fstate :=
  match i_memory s with [] => instruct_new_qubit frames_circuit s | _ => Val s end.

Lemma begun_spec s :
  finv s → ∃ s', begun s = Val s' ∧ finv s' ∧ i_memory s' ≠ [] ∧ (i_memory s ≠ [] → s' = s).
Proof.
  intros F. unfold begun. destruct (i_memory s) as [|m memory] eqn:E.
  - destruct (new_qubit_step s F) as (c & -> & F'). eexists. split; [done|]. split; [exact F'|].
    split; [by rewrite E|done].
  - exists s. split; [done|]. split; [done|]. split; [by rewrite E|done].
Qed.

Lemma usize_max_value : usize_max = (2 ^ 64 - 1)%N.
Proof. done. Qed.

Lemma apply_step bd s op :
  finv s → second_fits op →
  ∃ s', apply_operation frames_circuit bd s op = Val s' ∧ finv s' ∧
    (plain op → i_memory s ≠ [] → i_memory s' ≠ [] ∧ i_memory s' ++ where_ s' ≡ₚ i_memory s ++ where_ s).
Proof.
  intros F0 Hop. destruct (begun_spec s F0) as (s1 & E1 & F & Hm & Hsame).
  unfold apply_operation. fold (begun s). rewrite E1. cbn [obind].
  assert (∀ f b, ∃ s', instruct_gate1 frames_circuit f b s1 = Val s' ∧ finv s' ∧
    (i_memory s ≠ [] → i_memory s' ≠ [] ∧ i_memory s' ++ where_ s' ≡ₚ i_memory s ++ where_ s)) as G1.
  { intros f b. destruct (gate1_step s1 f b F Hm) as (c & E & F'). eexists. split; [exact E|]. split; [done|].
    intros H. by rewrite (Hsame H) in *. }
  assert (∀ f a b, (b < 2 ^ 64 - 1)%N → ∃ s', instruct_gate2 frames_circuit bd f a b s1 = Val s' ∧ finv s' ∧
    (i_memory s ≠ [] → i_memory s' ≠ [] ∧ i_memory s' ++ where_ s' ≡ₚ i_memory s ++ where_ s)) as G2.
  { intros f a b Hb. rewrite <- usize_max_value in Hb. destruct (gate2_step bd s1 f a b F Hm Hb) as (c & E & F').
    eexists. split; [exact E|]. split; [done|]. intros H. by rewrite (Hsame H) in *. }
  assert (∀ p a b, (b < 2 ^ 64 - 1)%N → ∃ s', instruct_teleportation frames_circuit bd p a b s1 = Val s' ∧ finv s' ∧
    (i_memory s ≠ [] → i_memory s' ≠ [] ∧ i_memory s' ++ where_ s' ≡ₚ i_memory s ++ where_ s)) as G3.
  { intros p a b Hb. rewrite <- usize_max_value in Hb.
    destruct (teleportation_step bd s1 p a b F Hm Hb) as [E|(pa & x & y & sx & sy & t & Hx & Hy & Hxy & Hl & _ & _ & _ & _ & _ & E & F')].
    - exists s1. split; [done|]. split; [done|]. intros H. by rewrite (Hsame H) in *.
    - eexists. split; [exact E|]. split; [exact F'|]. intros H. rewrite (Hsame H) in *.
      pose proof (swap_remove_perm _ _ _ Hx) as Hperm. cbn [i_memory]. split.
      + intros Hn. rewrite Hn in Hperm. apply Permutation_length in Hperm. cbn in Hperm. lia.
      + unfold where_. cbn [i_measurements]. rewrite map_app. cbn [map fst].
        etrans; [|apply Permutation_app_tail; symmetry; exact Hperm]. cbn.
        rewrite app_assoc. by rewrite <- Permutation_cons_append. }
  destruct op; cbn [second_fits] in Hop; cbn [plain];
    try (destruct (G1 g_id b) as (? & ? & ? & ?); by eauto);
    try (destruct (G1 g_s b) as (? & ? & ? & ?); by eauto);
    try (destruct (G1 g_h b) as (? & ? & ? & ?); by eauto);
    try (destruct (G1 g_sh b) as (? & ? & ? & ?); by eauto);
    try (destruct (G1 g_hs b) as (? & ? & ? & ?); by eauto);
    try (destruct (G1 g_shs b) as (? & ? & ? & ?); by eauto).
  - destruct (G2 g_cz a b Hop) as (? & ? & ? & ?); eauto.
  - destruct (G2 g_cx a b Hop) as (? & ? & ? & ?); eauto.
  - destruct (G2 g_cy a b Hop) as (? & ? & ? & ?); eauto.
  - destruct (G2 g_swap a b Hop) as (? & ? & ? & ?); eauto.
  - destruct (G2 g_iswap a b Hop) as (? & ? & ? & ?); eauto.
  - destruct (G2 g_iswap a b Hop) as (? & ? & ? & ?); eauto.
  - destruct (G3 (false, true) a b Hop) as (? & ? & ? & ?); eauto.
  - destruct (G3 (true, true) a b Hop) as (? & ? & ? & ?); eauto.
  - destruct (G3 (true, false) a b Hop) as (? & ? & ? & ?); eauto.
  - destruct (rotation_step s1 b F Hm) as (pos & x & t & stk & sn & _ & _ & _ & E & F' & _). eexists.
    split; [exact E|]. split; [exact F'|done].
  - destruct (measure_step s1 b F Hm) as (pos & x & _ & _ & _ & E & F'). eexists.
    split; [exact E|]. split; [exact F'|done].
  - destruct (new_qubit_step s1 F) as (c & E & F'). eexists. split; [exact E|]. split; [exact F'|done].
Qed.

Lemma apply_all bd ops s :
  finv s → Forall second_fits ops →
  ∃ s', instructor_apply frames_circuit bd ops s = Val s' ∧ finv s' ∧
    (Forall plain ops → i_memory s ≠ [] → i_memory s' ++ where_ s' ≡ₚ i_memory s ++ where_ s).
Proof.
  intros F Hops. revert s F. induction Hops as [|op ops Hop Hops IH]; intros s F.
  { exists s. split; [done|]. by split. }
  destruct (apply_step bd s op F Hop) as (s1 & E1 & F1 & H1). destruct (IH s1 F1) as (s2 & E2 & F2 & H2).
  exists s2. unfold instructor_apply in *. cbn [ofold]. rewrite E1. cbn [obind]. split; [done|]. split; [done|].
  intros [Hp Hps]%Forall_cons Hm. destruct (H1 Hp Hm) as [Hm1 Hperm]. etrans; [by apply H2|done].
Qed.

(** ** Sums of stacks *)

Definition pxor (p q : Pauli) : Pauli := (xorb p.1 q.1, xorb p.2 q.2).

Record linear (f : Pauli → Pauli) : Prop := {
  li_one : f (false, false) = (false, false);
  li_mul : ∀ p q, f (pxor p q) = pxor (f p) (f q)
}.
Record linear2 (f : Pauli → Pauli → Pauli * Pauli) : Prop := {
  l2_one : f (false, false) (false, false) = ((false, false), (false, false));
  l2_mul : ∀ p p' q q', f (pxor p p') (pxor q q') = (pxor (f p q).1 (f p' q').1, pxor (f p q).2 (f p' q').2)
}.

Lemma total_cons p s r rs :
  total_correction (p :: s) (r :: rs) = if r then pxor p (total_correction s rs) else total_correction s rs.
Proof. done. Qed.

Lemma total_map f s rs : linear f → total_correction (map f s) rs = f (total_correction s rs).
Proof.
  intros [H1 H2]. revert rs. induction s as [|p s IH]; intros rs; [by destruct rs|].
  destruct rs as [|r rs]; [done|]. cbn [map]. rewrite !total_cons, IH. destruct r; [|done]. by rewrite H2.
Qed.

Lemma total_zip f s t rs :
  linear2 f → length s = length t →
  total_correction (map fst (zip_with f s t)) rs = (f (total_correction s rs) (total_correction t rs)).1 ∧
  total_correction (map snd (zip_with f s t)) rs = (f (total_correction s rs) (total_correction t rs)).2.
Proof.
  intros [H1 H2]. revert t rs. induction s as [|p s IH]; intros [|q t] rs Hl; try done.
  - cbn. by rewrite H1.
  - destruct rs as [|r rs]; [cbn; by rewrite H1|]. cbn [zip_with map]. rewrite !total_cons.
    injection Hl as Hl. destruct (IH t rs Hl) as [-> ->]. destruct r; [|done]. by rewrite H2.
Qed.

Lemma pxor_0_r p : pxor p (false, false) = p.
Proof. by destruct p as [[] []]. Qed.

Lemma total_app s p rs r :
  length s = length rs →
  total_correction (s ++ [p]) (rs ++ [r]) = pxor (total_correction s rs) (if r then p else (false, false)).
Proof.
  revert rs. induction s as [|q s IH]; intros [|r' rs] Hl; try done.
  - cbn. destruct r; [|done]. by destruct p as [[] []].
  - cbn [app]. rewrite !total_cons. injection Hl as Hl. rewrite (IH rs Hl). destruct r'; [|done].
    destruct q as [[] []], (total_correction s rs) as [[] []], r, p as [[] []]; done.
Qed.

Lemma total_more s rs rs' : length s ≤ length rs → total_correction s (rs ++ rs') = total_correction s rs.
Proof.
  revert rs. induction s as [|q s IH]; intros rs Hl; [by destruct rs, rs'|].
  destruct rs as [|r rs]; [cbn in Hl; lia|].
  - cbn [app]. rewrite !total_cons. rewrite IH; [done|]. cbn in Hl. lia.
Qed.

Lemma total_identities n rs : total_correction (replicate n (false, false)) rs = (false, false).
Proof.
  revert rs. induction n as [|n IH]; intros [|r rs]; [done..|]. cbn [replicate]. rewrite total_cons, IH. by destruct r.
Qed.

(** ** Both circuits side by side *)

Notation lstate := (Instructor LiveCircuit bool).

Record agrees (s : fstate) (l : lstate) : Prop := {
  ag_used : i_used l = i_used s;
  ag_memory : i_memory l = i_memory s;
  ag_where : where_ l = where_ s;
  ag_tracked : ∀ q stk, fc_tracker (i_circuit s) !! q = Some stk →
    lc_tracker (i_circuit l) !! q = Some (total_correction stk (map snd (i_measurements l)));
  ag_stored : ∀ q stk, fc_storage (i_circuit s) !! q = Some stk →
    lc_tracker (i_circuit l) !! q = Some (total_correction stk (map snd (i_measurements l)))
}.

Lemma agrees_results s l : agrees s l → length (map snd (i_measurements l)) = length (where_ s).
Proof. intros A. rewrite <- (ag_where _ _ A). unfold where_. by rewrite !map_length. Qed.

Lemma stored_not_tracked s q stk : finv s → fc_storage (i_circuit s) !! q = Some stk → q ∉ i_memory s ∧ q < i_used s.
Proof.
  intros F H. assert (q ∈ where_ s) as Hq by (apply (fi_stored _ F); by rewrite H). split.
  - intros Hm. pose proof (fi_nodup _ F) as Hnd. apply NoDup_app in Hnd as (_ & Hnd & _). by apply (Hnd q).
  - apply (fi_used _ F), elem_of_app. by right.
Qed.

Lemma agrees_new n results : agrees (instructor_new n (frames_init n)) (instructor_new n (live_init n results)).
Proof.
  split; try done. (* the stored ones: none *)
  - intros q stk H. cbn in *. apply elem_of_list_to_map_2, elem_of_list_fmap in H as (x & Hp & Hx).
    injection Hp as -> ->. apply elem_of_list_to_map_1.
    + rewrite <- list_fmap_compose. change (NoDup (map (λ x : nat, x) (seq 0 n))). rewrite map_id. apply NoDup_seq.
    + apply elem_of_list_fmap. by exists x.
Qed.

Lemma agrees_gate1 s l f b s' :
  finv s → agrees s l → i_memory s ≠ [] → linear f → instruct_gate1 frames_circuit f b s = Val s' →
  ∃ l', instruct_gate1 live_circuit f b l = Val l' ∧ agrees s' l'.
Proof.
  intros F A Hm Hf H. destruct (mem_idx_spec _ b Hm) as (p & x & _ & Hx & E).
  unfold instruct_gate1 in *. rewrite (ag_memory _ _ A), E. rewrite E in H. cbn in *.
  assert (x ∈ i_memory s) as Hxm by (by eapply elem_of_list_lookup_2).
  destruct (proj2 (fi_tracked _ F x) Hxm) as [stk Hs]. unfold frames_gate1 in H. rewrite Hs in H. cbn in H.
  injection H as <-. unfold live_gate1. rewrite (ag_tracked _ _ A _ _ Hs). cbn. eexists. split; [done|].
  split; cbn; [apply A|done|apply (ag_where _ _ A)| |].
  - intros q v. rewrite lookup_insert_Some. intros [[<- <-]|[Hne Hv]].
    + by rewrite lookup_insert, total_map.
    + rewrite lookup_insert_ne by done. by apply (ag_tracked _ _ A).
  - intros q v Hv. rewrite lookup_insert_ne; [by apply (ag_stored _ _ A)|]. intros ->.
    by apply (stored_not_tracked _ _ _ F) in Hv as [? _].
Qed.

(** Two gates on tracked qubits. *)
Lemma agrees_pair (s : fstate) (c : FramesCircuit) (lc : LiveCircuit) f x y sx sy rs :
  linear2 f → x ≠ y → length sx = length sy →
  fc_tracker c !! x = Some sx → fc_tracker c !! y = Some sy →
  (∀ q stk, fc_tracker c !! q = Some stk → lc_tracker lc !! q = Some (total_correction stk rs)) →
  ∃ c' lc', frames_gate2 f x y c = Val c' ∧ live_gate2 f x y lc = Val lc' ∧
    fc_tracker c' = <[y := map snd (zip_with f sx sy)]> (<[x := map fst (zip_with f sx sy)]> (fc_tracker c)) ∧
    fc_storage c' = fc_storage c ∧ fc_frames c' = fc_frames c ∧ lc_results lc' = lc_results lc ∧
    (∀ q stk, fc_tracker c' !! q = Some stk → lc_tracker lc' !! q = Some (total_correction stk rs)) ∧
    (∀ q, q ≠ x → q ≠ y → lc_tracker lc' !! q = lc_tracker lc !! q).
Proof.
  intros Hf Hxy Hl Hsx Hsy Ht. erewrite frames_gate2_step by done. unfold live_gate2.
  destruct (Nat.eqb_spec x y); [done|]. rewrite (Ht _ _ Hsx), (Ht _ _ Hsy). eexists _, _. split; [done|]. split; [done|].
  cbn. destruct (total_zip f sx sy rs Hf Hl) as [T1 T2].
  split; [done|]. split; [done|]. split; [done|]. split; [done|]. split.
  - intros q v. rewrite lookup_insert_Some. intros [[<- <-]|[Hne Hv]].
    + rewrite lookup_insert. by rewrite T2.
    + apply lookup_insert_Some in Hv as [[<- <-]|[Hne' Hv]].
      * rewrite lookup_insert_ne, lookup_insert by done. by rewrite T1.
      * rewrite !lookup_insert_ne by done. by apply Ht.
  - intros q H1 H2. by rewrite !lookup_insert_ne.
Qed.

Lemma agrees_gate2 bd s l f a b s' :
  finv s → agrees s l → i_memory s ≠ [] → (b < usize_max)%N → linear2 f →
  instruct_gate2 frames_circuit bd f a b s = Val s' →
  ∃ l', instruct_gate2 live_circuit bd f a b l = Val l' ∧ agrees s' l'.
Proof.
  intros F A Hm Hb Hf H. unfold instruct_gate2 in *. rewrite (ag_memory _ _ A).
  destruct (double_mem_idx_spec bd (i_memory s) a b Hm Hb) as [E|(pa & pb & x & y & _ & Hx & Hy & Hne & _ & E)];
    rewrite E in *; cbn [obind] in *.
  { injection H as <-. by exists l. }
  pose proof (fi_nodup _ F) as Hnd. apply NoDup_app in Hnd as (Hnd & _ & _).
  pose proof (NoDup_positions _ _ _ _ _ Hnd Hx Hy Hne) as Hxy.
  assert (x ∈ i_memory s) as Hxm by (by eapply elem_of_list_lookup_2).
  assert (y ∈ i_memory s) as Hym by (by eapply elem_of_list_lookup_2).
  destruct (proj2 (fi_tracked _ F x) Hxm) as [sx Hsx]. destruct (proj2 (fi_tracked _ F y) Hym) as [sy Hsy].
  pose proof (fi_length _ F _ _ Hsx) as Lx. pose proof (fi_length _ F _ _ Hsy) as Ly.
  destruct (agrees_pair s (i_circuit s) (i_circuit l) f x y sx sy (map snd (i_measurements l)))
    as (c' & lc' & Ec & El & Et & Es & Ef & Er & Ht & Ho); [done|done|congruence|done|done|apply (ag_tracked _ _ A)|].
  cbn [x_gate2 frames_circuit live_circuit] in *. rewrite Ec in H. cbn [obind] in H. injection H as <-.
  rewrite El. cbn [obind]. eexists. split; [done|]. split; cbn; [apply A|done|apply (ag_where _ _ A)|done|].
  intros q v. rewrite Es. intros Hv. pose proof (stored_not_tracked _ _ _ F Hv) as [Hq _].
  rewrite Ho by (by intros ->). by apply (ag_stored _ _ A).
Qed.

Lemma agrees_new_qubit s l s' :
  finv s → agrees s l → instruct_new_qubit frames_circuit s = Val s' →
  ∃ l', instruct_new_qubit live_circuit l = Val l' ∧ agrees s' l'.
Proof.
  intros F A [= <-]. eexists. split; [done|]. split; cbn; rewrite ?(ag_used _ _ A);
    [done|by rewrite (ag_memory _ _ A)|apply (ag_where _ _ A)| |].
  - intros q v. rewrite lookup_insert_Some. intros [[<- <-]|[Hne Hv]].
    + by rewrite lookup_insert, total_identities.
    + rewrite lookup_insert_ne by done. by apply (ag_tracked _ _ A).
  - intros q v Hv. pose proof (stored_not_tracked _ _ _ F Hv) as [_ Hq].
    rewrite lookup_insert_ne by lia. by apply (ag_stored _ _ A).
Qed.

Lemma agrees_measure s l b s' :
  finv s → agrees s l → i_memory s ≠ [] → instruct_measure frames_circuit b s = Val s' →
  ∃ l', instruct_measure live_circuit b l = Val l' ∧ agrees s' l'.
Proof.
  intros F A Hm H. destruct (measure_step s b F Hm) as (pos & x & Ep & Ei & Hx & E & _).
  rewrite E in H. injection H as <-. unfold instruct_measure. rewrite (ag_memory _ _ A), Ei. cbn [obind].
  cbn. rewrite Ep. cbn [obind]. eexists. split; [done|]. split; cbn; [apply A|done|apply (ag_where _ _ A)| |].
  - intros q v Hv. apply lookup_delete_Some in Hv as [Hne Hv]. rewrite lookup_delete_ne by done. by apply (ag_tracked _ _ A).
  - intros q v Hv. rewrite lookup_delete_ne; [by apply (ag_stored _ _ A)|]. intros ->.
    apply (stored_not_tracked _ _ _ F) in Hv as [Hq _]. apply Hq. by eapply elem_of_list_lookup_2.
Qed.

(** The result is recorded. *)
Lemma agrees_teleportation bd s l p a b s' :
  finv s → agrees s l → i_memory s ≠ [] → (b < usize_max)%N →
  instruct_teleportation frames_circuit bd p a b s = Val s' →
  ∃ l', instruct_teleportation live_circuit bd p a b l = Val l' ∧ agrees s' l'.
Proof.
  intros F A Hm Hb H. pose proof (agrees_results _ _ A) as Lr.
  destruct (teleportation_step bd s p a b F Hm Hb)
    as [E|(pa & x & y & sx & sy & t & Hx & Hy & Hxy & Hl & Ea & Ed & Hsx & Hsy & -> & E & F')].
  { rewrite E in H. injection H as <-. exists l. split; [|done]. unfold instruct_teleportation in *.
    rewrite (ag_memory _ _ A).
    destruct (double_mem_idx_spec bd (i_memory s) a b Hm Hb) as [->|(pa & pb & x & y & Ep & Hx & Hy & Hne & Hlen & Ed)]; [done|].
    exfalso. rewrite Ed in E. cbn [obind] in E.
    destruct (x_pauli_teleportation frames_circuit x y p (i_circuit s)) as [[c u]|]; [|done]. cbn [obind] in E.
    rewrite Ep in E. cbn [obind] in E. rewrite mem_pos_pos in E by (by eapply lookup_lt_Some). cbn [obind] in E.
    injection E as E. apply (f_equal i_measurements) in E. cbn in E. apply (f_equal length) in E.
    rewrite app_length in E. cbn in E. lia. }
  rewrite E in H. injection H as <-. unfold instruct_teleportation. rewrite (ag_memory _ _ A), Ed. cbn [obind].
  cbn [x_pauli_teleportation live_circuit live_result]. set (r := lc_results (i_circuit l) 0).
  set (lc := mkLiveCircuit (lc_tracker (i_circuit l)) (λ k, lc_results (i_circuit l) (S k))).
  assert (∃ lc', (if r then live_track y p lc else Val lc) = Val lc' ∧
    (∀ q, q ≠ y → lc_tracker lc' !! q = lc_tracker (i_circuit l) !! q) ∧
    lc_tracker lc' !! y = Some (pxor (total_correction sy (map snd (i_measurements l))) (if r then p else (false, false))))
    as (lc' & -> & Ho & Hy').
  { pose proof (ag_tracked _ _ A _ _ Hsy) as Hly. destruct r.
    - unfold live_track, lc. cbn [lc_tracker]. rewrite Hly. eexists. split; [done|]. cbn. split.
      + intros q Hq. by rewrite lookup_insert_ne.
      + by rewrite lookup_insert.
    - exists lc. split; [done|]. split; [done|]. by rewrite pxor_0_r. }
  cbn [obind]. rewrite Ea. cbn [obind]. rewrite mem_pos_pos by (by eapply lookup_lt_Some). cbn [obind].
  eexists. split; [done|].
  split; cbn [i_used i_memory i_circuit i_measurements fc_tracker fc_storage]; rewrite ?map_app; cbn [map fst snd].
  - apply A.
  - done.
  - unfold where_. cbn [i_measurements]. rewrite !map_app. cbn. f_equal. apply (ag_where _ _ A).
  - intros q v Hv. apply lookup_delete_Some in Hv as [_ Hv]. apply lookup_insert_Some in Hv as [[<- <-]|[Hne Hv]].
    + rewrite Hy'. rewrite total_app; [done|]. rewrite Lr. by eapply (fi_length _ F).
    + rewrite lookup_fmap in Hv. apply fmap_Some in Hv as (w & Hw & ->). rewrite Ho by done.
      rewrite (ag_tracked _ _ A _ _ Hw). rewrite total_app by (rewrite Lr; by eapply (fi_length _ F)).
      assert ((if r then (false, false) else (false, false)) = (false, false)) as -> by (by destruct r).
      by rewrite pxor_0_r.
  - intros q v. rewrite lookup_insert_Some. intros [[<- <-]|[Hne Hv]].
    + rewrite Ho by done. rewrite (ag_tracked _ _ A _ _ Hsx).
      rewrite total_app by (rewrite Lr; by eapply (fi_length _ F)).
      assert ((if r then (false, false) else (false, false)) = (false, false)) as -> by (by destruct r).
      by rewrite pxor_0_r.
    + pose proof (stored_not_tracked _ _ _ F Hv) as [Hq _]. rewrite Ho by (by intros ->).
      rewrite (ag_stored _ _ A _ _ Hv). rewrite total_more; [done|]. rewrite Lr. by eapply (fi_short _ F).
Qed.

Lemma agrees_rotation s l b s' :
  finv s → agrees s l → i_memory s ≠ [] → linear2 g_cx → linear2 g_move_z_to_z →
  instruct_rotation frames_circuit b s = Val s' →
  ∃ l', instruct_rotation live_circuit b l = Val l' ∧ agrees s' l'.
Proof.
  intros F A Hm Hcx Hmv H. pose proof (agrees_results _ _ A) as Lr.
  destruct (rotation_step s b F Hm) as (pos & x & t & stk & sn & Ep & Ei & Hx & E & _ & (sx & Hsx & Estk & Esn) & Et).
  rewrite E in H. injection H as <-.
  pose proof (fi_length _ F _ _ Hsx) as Lx.
  assert (x ∈ i_memory s) as Hxm by (by eapply elem_of_list_lookup_2).
  assert (x < i_used s) as Hxu by (apply (fi_used _ F), elem_of_app; by left).
  set (rs := map snd (i_measurements l)) in *.
  set (n := i_used s) in *.
  (* the new qubit *)
  set (c0 := mkFramesCircuit (<[n := replicate (fc_frames (i_circuit s)) (false, false)]> (fc_tracker (i_circuit s)))
               (fc_frames (i_circuit s)) (fc_storage (i_circuit s))).
  set (l0 := mkLiveCircuit (<[n := (false, false)]> (lc_tracker (i_circuit l))) (lc_results (i_circuit l))).
  assert (∀ q v, fc_tracker c0 !! q = Some v → lc_tracker l0 !! q = Some (total_correction v rs)) as H0.
  { intros q v. cbn. rewrite lookup_insert_Some. intros [[<- <-]|[Hne Hv]].
    - by rewrite lookup_insert, total_identities.
    - rewrite lookup_insert_ne by done. by apply (ag_tracked _ _ A). }
  destruct (agrees_pair s c0 l0 g_cx x n sx (replicate (fc_frames (i_circuit s)) (false, false)) rs)
    as (c1 & l1 & _ & El1 & Et1 & _ & _ & Er1 & H1 & Ho1); [done|lia|rewrite replicate_length, (fi_frames _ F); lia
    |cbn; rewrite lookup_insert_ne by lia; done|cbn; apply lookup_insert|done|].
  set (r := zip_with g_cx sx (replicate (fc_frames (i_circuit s)) (false, false))) in *.
  destruct (agrees_pair s c1 l1 g_move_z_to_z x n (map fst r) (map snd r) rs)
    as (c2 & l2 & _ & El2 & Et2 & _ & _ & Er2 & H2 & Ho2); [done|lia|by rewrite !map_length
    |rewrite Et1, lookup_insert_ne by lia; apply lookup_insert|rewrite Et1; apply lookup_insert|done|].
  rewrite <- Estk, <- Esn in Et2.
  assert (lc_tracker l2 !! n = Some (total_correction sn rs)) as Hn.
  { apply H2. rewrite Et2. apply lookup_insert. }
  assert (lc_tracker l2 !! x = Some (total_correction stk rs)) as Hxs.
  { apply H2. rewrite Et2, lookup_insert_ne by lia. apply lookup_insert. }
  assert (∀ q, q ≠ x → q ≠ n → lc_tracker l2 !! q = lc_tracker (i_circuit l) !! q) as Hoq.
  { intros q Hq1 Hq2. rewrite Ho2, Ho1 by done. cbn. by rewrite lookup_insert_ne. }
  unfold instruct_rotation. rewrite (ag_memory _ _ A), Ei. cbn [obind].
  cbn [x_z_rotation_teleportation live_circuit]. unfold live_new_qubit at 1. cbn [obind].
  rewrite (ag_used _ _ A). fold n. fold l0. rewrite El1. cbn [obind]. rewrite El2. cbn [obind live_result].
  set (res := lc_results l2 0). set (lc := mkLiveCircuit (lc_tracker l2) (λ k, lc_results l2 (S k))).
  assert (∃ lc', (if res then live_track n (true, false) lc else Val lc) = Val lc' ∧
    (∀ q, q ≠ n → lc_tracker lc' !! q = lc_tracker l2 !! q) ∧
    lc_tracker lc' !! n = Some (pxor (total_correction sn rs) (if res then (true, false) else (false, false))))
    as (lc' & -> & Ho & Hn').
  { destruct res.
    - unfold live_track, lc. cbn [lc_tracker]. rewrite Hn. eexists. split; [done|]. cbn. split.
      + intros q Hq. by rewrite lookup_insert_ne.
      + by rewrite lookup_insert.
    - exists lc. split; [done|]. split; [done|]. by rewrite pxor_0_r. }
  cbn [obind]. rewrite Ep. cbn [obind]. unfold index_set. rewrite Hx. cbn [obind].
  assert (length r = length rs) as Lrr.
  { unfold r. rewrite zip_with_length, replicate_length, (fi_frames _ F). lia. }
  assert (length stk = length rs ∧ length sn = length rs) as [Lstk Lsn].
  { rewrite Estk, Esn, !map_length, zip_with_length, !map_length. lia. }
  eexists. split; [done|].
  split; cbn [i_used i_memory i_circuit i_measurements fc_tracker fc_storage]; rewrite ?map_app; cbn [map fst snd]; fold rs.
  - done.
  - done.
  - unfold where_. cbn [i_measurements]. rewrite !map_app. cbn. f_equal. apply (ag_where _ _ A).
  - intros q v Hv. rewrite Et in Hv. apply lookup_insert_Some in Hv as [[<- <-]|[Hne Hv]].
    + rewrite Hn'. by rewrite total_app.
    + rewrite lookup_fmap in Hv. apply fmap_Some in Hv as (w & Hw & ->). apply lookup_delete_Some in Hw as [Hqx Hw].
      rewrite lookup_insert_ne in Hw by done. rewrite Ho by done. rewrite Hoq by done.
      rewrite (ag_tracked _ _ A _ _ Hw). fold rs. rewrite total_app by (rewrite Lr; by eapply (fi_length _ F)).
      assert ((if res then (false, false) else (false, false)) = (false, false)) as -> by (by destruct res).
      by rewrite pxor_0_r.
  - intros q v. rewrite lookup_insert_Some. intros [[<- <-]|[Hne Hv]].
    + rewrite Ho by lia. rewrite Hxs. by rewrite total_more by lia.
    + pose proof (stored_not_tracked _ _ _ F Hv) as [Hq Hqn]. fold n in Hqn. rewrite Ho by lia.
      rewrite Hoq by (try lia; by intros ->). rewrite (ag_stored _ _ A _ _ Hv). fold rs.
      rewrite total_more; [done|]. rewrite Lr. by eapply (fi_short _ F).
Qed.

Lemma linear_gates :
  linear g_id ∧ linear g_s ∧ linear g_h ∧ linear g_sh ∧ linear g_hs ∧ linear g_shs.
Proof. split_and!; (split; [done|by intros [[] []] [[] []]]). Qed.
Lemma linear2_gates :
  linear2 g_cz ∧ linear2 g_cx ∧ linear2 g_cy ∧ linear2 g_swap ∧ linear2 g_iswap ∧ linear2 g_move_z_to_z.
Proof. split_and!; (split; [done|by intros [[] []] [[] []] [[] []] [[] []]]). Qed.

Lemma agrees_step bd s l op s' :
  finv s → agrees s l → second_fits op → apply_operation frames_circuit bd s op = Val s' →
  ∃ l', apply_operation live_circuit bd l op = Val l' ∧ agrees s' l'.
Proof.
  intros F0 A0 Hop H. destruct linear_gates as (L1 & L2 & L3 & L4 & L5 & L6).
  destruct linear2_gates as (M1 & M2 & M3 & M4 & M5 & M6).
  destruct (begun_spec s F0) as (s1 & E1 & F & Hm & Hsame).
  assert (∃ l1, match i_memory l with [] => instruct_new_qubit live_circuit l | _ => Val l end = Val l1 ∧ agrees s1 l1)
    as (l1 & El & A).
  { unfold begun in E1. rewrite (ag_memory _ _ A0). destruct (i_memory s).
    - by apply (agrees_new_qubit s l s1).
    - injection E1 as ->. by exists l. }
  unfold apply_operation in *. fold (begun s) in H. rewrite E1 in H. rewrite El. cbn [obind] in *.
  destruct op; cbn [second_fits] in Hop; try rewrite <- usize_max_value in Hop;
    first [by eapply (agrees_gate1 s1) | by eapply (agrees_gate2 bd s1) | by eapply (agrees_teleportation bd s1)
          | by eapply (agrees_rotation s1) | by eapply (agrees_measure s1) | by eapply (agrees_new_qubit s1)].
Qed.

Lemma agrees_all bd ops s l s' :
  finv s → agrees s l → Forall second_fits ops → instructor_apply frames_circuit bd ops s = Val s' →
  ∃ l', instructor_apply live_circuit bd ops l = Val l' ∧ agrees s' l'.
Proof.
  intros F A Hops. revert s l F A. unfold instructor_apply.
  induction Hops as [|op ops Hop Hops IH]; intros s l F A H.
  { cbn in *. injection H as <-. by exists l. }
  cbn [ofold] in *. destruct (apply_step bd s op F Hop) as (s1 & E1 & F1 & _). rewrite E1 in H. cbn [obind] in H.
  destruct (agrees_step bd s l op s1 F A Hop E1) as (l1 & El & A1). rewrite El. cbn [obind]. by eapply IH.
Qed.
