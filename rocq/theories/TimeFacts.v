(** * Facts about [PathGenerator] *)
From Verif Require Export Time Spec CombinatoricFacts SpaceFacts.

(** ** [ofold] *)

Lemma ofold_app {A S} (f : S → A → out S) l1 l2 s :
  ofold f (l1 ++ l2) s = (let* s' := ofold f l1 s in ofold f l2 s').
Proof.
  revert s. induction l1 as [|a l1 IH]; intros s; [done|]. simpl.
  destruct (f s a); simpl; [apply IH|done].
Qed.

Lemma ofold_inv {A S} (f : S → A → out S) (P : S → Prop) l s s' :
  (∀ s a s', a ∈ l → P s → f s a = Val s' → P s') →
  P s → ofold f l s = Val s' → P s'.
Proof.
  revert s. induction l as [|a l IH]; intros s Hf Hs; simpl; [by intros [= <-]|].
  destruct (f s a) as [s1|] eqn:E; simpl; [|done].
  apply IH; [intros; eapply Hf; [by right|..]; done|]. eapply Hf; [left|done..].
Qed.

(** ** [swap_remove] and [partition] *)

Lemma swap_remove_perm {A} (l : list A) p x :
  l !! p = Some x → l ≡ₚ x :: swap_remove l p.
Proof.
  intros Hp. unfold swap_remove.
  destruct l as [|y l' _] using rev_ind; [done|].
  rewrite last_snoc, app_length. simpl. rewrite Nat.add_sub.
  destruct (decide (p < length l')) as [Hlt|Hge].
  - rewrite insert_app_l by done. rewrite take_app_alt by (by rewrite insert_length).
    rewrite lookup_app_l in Hp by done.
    rewrite <- (take_drop_middle l' p x) at 1 by done.
    rewrite insert_take_drop by done.
    rewrite <- Permutation_cons_append, <- !Permutation_middle. apply perm_swap.
  - assert (p = length l') as ->.
    { apply lookup_lt_Some in Hp. rewrite app_length in Hp. simpl in Hp. lia. }
    rewrite lookup_app_r in Hp by lia. rewrite Nat.sub_diag in Hp. simpl in Hp.
    injection Hp as ->.
    rewrite insert_app_r_alt by lia. rewrite Nat.sub_diag. simpl.
    rewrite take_app. symmetry. apply Permutation_cons_append.
Qed.

Lemma position_Some e l p : position e l = Some p → l !! p = Some e.
Proof.
  unfold position. intros H. apply fmap_Some in H as ([p' x] & H & ->).
  apply list_find_Some in H as (? & -> & ?). done.
Qed.

Lemma position_None e l : position e l = None → e ∉ l.
Proof.
  unfold position. intros H. apply fmap_None in H. apply list_find_None in H.
  rewrite Forall_forall in H. intros He. by apply (H e).
Qed.

Definition part_fold (S m : list nat) : list nat * list nat :=
  foldl (λ s e,
    match position e s.1 with
    | Some p => (swap_remove s.1 p, s.2)
    | None => (s.1, s.2 ++ [e])
    end) (S, []) m.

Lemma part_fold_spec S m :
  NoDup m →
  S ≡ₚ filter (λ e, e ∈ S) m ++ (part_fold S m).1 ∧
  (part_fold S m).2 = filter (λ e, e ∉ S) m.
Proof.
  intros Hnd. unfold part_fold.
  induction m as [|e m IH] using rev_ind; [done|].
  apply NoDup_app in Hnd as (Hnd & Hdis & _).
  specialize (IH Hnd). rewrite foldl_app. simpl.
  destruct (foldl _ _ m) as [copy new]. simpl in *. destruct IH as [Hp ->].
  rewrite !filter_app.
  assert (e ∉ m) as Hem by (intros He; apply (Hdis e He); left).
  assert (e ∈ S ↔ e ∈ copy) as HS.
  { rewrite Hp at 1. rewrite elem_of_app, elem_of_list_filter. naive_solver. }
  destruct (position e copy) as [p|] eqn:Epos; simpl.
  - apply position_Some in Epos.
    assert (e ∈ S) as HeS by (apply HS; by eapply elem_of_list_lookup_2).
    rewrite (filter_cons_True (λ e, e ∈ S)) by done.
    rewrite (filter_cons_False (λ e, e ∉ S)) by naive_solver. rewrite app_nil_r.
    split; [|done]. rewrite Hp at 1. rewrite <- app_assoc. f_equiv. simpl.
    by apply swap_remove_perm.
  - apply position_None in Epos.
    assert (e ∉ S) as HeS by naive_solver.
    rewrite (filter_cons_False (λ e, e ∈ S)) by done.
    rewrite (filter_cons_True (λ e, e ∉ S)) by done. by rewrite app_nil_r.
Qed.

Lemma time_partition_unfold m S :
  time_partition m S =
  if length m <? length S then Panic
  else match (part_fold S m).1 with
       | [] => Val (Ok (part_fold S m).2)
       | _ => Val (Err (mkNotMeasurable (part_fold S m).1))
       end.
Proof.
  unfold time_partition. destruct (_ <? _); [done|]. unfold part_fold.
  destruct (foldl _ _ _) as [copy new]. destruct copy; done.
Qed.

Lemma time_partition_ok m S :
  NoDup m → NoDup S → (∀ x, x ∈ S → x ∈ m) →
  time_partition m S = Val (Ok (filter (λ e, e ∉ S) m)).
Proof.
  intros Hm HS Hsub. rewrite time_partition_unfold.
  destruct (part_fold_spec S m Hm) as [Hp ->].
  assert (S ≡ₚ filter (λ e, e ∈ S) m) as HSp.
  { apply NoDup_Permutation; [done|by apply NoDup_filter|].
    intros x. rewrite elem_of_list_filter. naive_solver. }
  assert (length S ≤ length m) as Hlen.
  { rewrite HSp. apply filter_length. }
  destruct (Nat.ltb_spec (length m) (length S)); [lia|].
  destruct (part_fold S m).1 eqn:E; [done|].
  exfalso. apply Permutation_length in Hp. rewrite app_length in Hp.
  apply Permutation_length in HSp. simpl in Hp. lia.
Qed.

(** The complete answer of [partition] on a duplicate free measurable set. *)
Lemma time_partition_err m S :
  NoDup m → length S ≤ length m → ¬ (NoDup S ∧ ∀ x, x ∈ S → x ∈ m) →
  ∃ left, time_partition m S = Val (Err (mkNotMeasurable left)) ∧ left ≠ [] ∧
    S ≡ₚ filter (λ e, e ∈ S) m ++ left.
Proof.
  intros Hm Hlen Hn. rewrite time_partition_unfold.
  destruct (Nat.ltb_spec (length m) (length S)); [lia|].
  destruct (part_fold_spec S m Hm) as [Hp _].
  destruct (part_fold S m).1 as [|x l] eqn:E.
  - exfalso. apply Hn. rewrite app_nil_r in Hp. split.
    + rewrite Hp. by apply NoDup_filter.
    + intros x Hx. rewrite Hp in Hx. apply elem_of_list_filter in Hx. naive_solver.
  - exists (x :: l). done.
Qed.

(** ** Weight: a bound for the remaining number of steps, for every input *)

Definition weight (p : PathGenerator (Partition nat)) : nat :=
  length (pset (measurable p)) + size (deps_counter p).

Lemma update_dependent_weight bd s b s' :
  update_dependent bd s b = Val s' →
  length s'.2 + size s'.1 = length s.2 + size s.1.
Proof.
  unfold update_dependent. destruct (s.1 !! b) as [c|] eqn:E; [|done].
  destruct (sub_usize bd c 1) as [c'|]; [|done]. cbn [obind].
  destruct (c' =? 0)%N; intros [= <-]; simpl.
  - rewrite app_length. simpl. rewrite map_size_delete_Some by eauto.
    assert (size s.1 ≠ 0).
    { intros H%map_size_empty_iff. rewrite H in E. by rewrite lookup_empty in E. }
    lia.
  - rewrite map_size_insert_Some by eauto. done.
Qed.

Lemma update_unchecked_weight bd look dc S new dc' new' :
  update_unchecked bd look dc S new = Val (dc', new') →
  length new' + size dc' = length new + size dc.
Proof.
  unfold update_unchecked. intros H.
  eapply (ofold_inv _ (λ s, length s.2 + size s.1 = length new + size dc)) in H; [done| |done].
  intros s1 u s2 _ H1. destruct (index look u) as [ds|]; [|done]. cbn [obind].
  intros H2. eapply (ofold_inv _ (λ s, length s.2 + size s.1 = length new + size dc)) in H2; [done| |done].
  intros s3 b s4 _ H3 H4. apply update_dependent_weight in H4. lia.
Qed.

Lemma partition_map_shuffle {A} i s (l : list A) :
  shuffle l (partition_map i s l).1 (partition_map i s l).2.
Proof.
  revert i s. induction l as [|x l IH]; intros i s; [constructor|]. simpl.
  destruct s as [|p s]; [constructor; apply IH|].
  destruct (p =? i); simpl; constructor; apply IH.
Qed.

Lemma time_next_weight bd p p' new S :
  time_next_and_focus bd p = Val (p', Some (new, S)) →
  weight new + length S = weight p ∧ S ≠ [].
Proof.
  unfold time_next_and_focus, partition_next.
  destruct (piter (measurable p)) as [|sub rest]; [done|].
  pose proof (partition_map_shuffle 0 sub (pset (measurable p))) as Hsh.
  destruct (partition_map 0 sub (pset (measurable p))) as [a b]. simpl in Hsh.
  apply shuffle_length in Hsh. destruct b as [|x b]; [done|].
  unfold time_focus_unchecked. cbn [dependents deps_counter].
  destruct (update_unchecked _ _ _ _ _) as [[dc nw]|] eqn:E; [|done].
  intros [= _ <- <-]. apply update_unchecked_weight in E.
  unfold weight. simpl in *. split; [lia|done].
Qed.

(** ** Invariant on well-formed dependency graphs *)

Definition deps_of (g : order) (b : nat) : list nat :=
  match list_find (λ e, e.1 = b) (concat g) with Some (_, e) => e.2 | None => [] end.

Definition dependents_of (g : order) (b : nat) : list nat :=
  map fst (filter (λ e, b ∈ e.2) (concat g)).

(** Number of dependencies of [b] outside of [P]. *)
Definition missing (g : order) (P : list nat) (b : nat) : nat :=
  length (filter (λ d, d ∉ P) (deps_of g b)).

(** [b] can be measured next if [P] has been measured. *)
Definition enabled (g : order) (P : list nat) (b : nat) : Prop :=
  listed g b ∧ b ∉ P ∧ ∀ d, depends g b d → d ∈ P.

Record time_inv (g : order) (P m : list nat) (dc : DepsCounters) (look : Dependents) : Prop := {
  ti_nodup : NoDup m;
  ti_set : ∀ b, b ∈ m ↔ enabled g P b;
  ti_deps : ∀ b, dc !! b = match missing g P b with 0 => None | S k => Some (N.of_nat (S k)) end;
  ti_look : ∀ b, listed g b → look !! b = Some (dependents_of g b)
}.

(** ** Well-formed dependency graphs *)

Lemma elem_of_concat {A} (l : list (list A)) x : x ∈ concat l ↔ ∃ s, s ∈ l ∧ x ∈ s.
Proof.
  rewrite elem_of_list_In, in_concat. setoid_rewrite elem_of_list_In. done.
Qed.

Lemma listed_entry g b : listed g b ↔ ∃ ds, (b, ds) ∈ concat g.
Proof. unfold listed. setoid_rewrite elem_of_concat. naive_solver. Qed.

Lemma depends_entry g b d : depends g b d ↔ ∃ ds, (b, ds) ∈ concat g ∧ d ∈ ds.
Proof. unfold depends. setoid_rewrite elem_of_concat. naive_solver. Qed.

Lemma listed_qubits g b : listed g b ↔ b ∈ qubits g.
Proof.
  rewrite listed_entry. unfold qubits. rewrite elem_of_list_fmap. split.
  - intros [ds ?]. by exists (b, ds).
  - intros ([b' ds] & -> & ?). by exists ds.
Qed.

Global Instance listed_dec g b : Decision (listed g b).
Proof.
  destruct (decide (b ∈ qubits g)); [left|right]; rewrite listed_qubits; done.
Defined.

Lemma qubits_app g1 g2 : qubits (g1 ++ g2) = qubits g1 ++ qubits g2.
Proof. unfold qubits. by rewrite concat_app, map_app. Qed.

Section wf.
  Context (n : nat) (g : order) (Hwf : wf_order n g).

  Lemma listed_range b : listed g b → b < n.
  Proof. rewrite listed_qubits. apply Hwf. Qed.

  Lemma entry_unique b ds ds' : (b, ds) ∈ concat g → (b, ds') ∈ concat g → ds = ds'.
  Proof.
    intros H1 H2. pose proof (wf_nodup _ _ Hwf) as Hnd. unfold qubits in Hnd.
    apply elem_of_list_lookup in H1 as [i Hi]. apply elem_of_list_lookup in H2 as [j Hj].
    assert (i = j) as ->; [|congruence].
    apply (NoDup_lookup (fst <$> concat g) i j b); [done| |];
      rewrite list_lookup_fmap; [by rewrite Hi|by rewrite Hj].
  Qed.

  Lemma deps_of_entry b ds : (b, ds) ∈ concat g → deps_of g b = ds.
  Proof.
    intros Hin. unfold deps_of. destruct (list_find _ _) as [[i [b' ds']]|] eqn:E.
    - apply list_find_Some in E as (Hi & Hb & _). simpl in *. subst.
      eapply entry_unique; [|done]. by eapply elem_of_list_lookup_2.
    - apply list_find_None in E. rewrite Forall_forall in E. by destruct (E _ Hin).
  Qed.

  Lemma deps_of_unlisted b : ¬ listed g b → deps_of g b = [].
  Proof.
    rewrite listed_entry. intros Hn. unfold deps_of.
    destruct (list_find _ _) as [[i [b' ds']]|] eqn:E; [|done].
    apply list_find_Some in E as (Hi & Hb & _). simpl in *. subst.
    destruct Hn. exists ds'. by eapply elem_of_list_lookup_2.
  Qed.

  Lemma listed_deps_of b : listed g b → (b, deps_of g b) ∈ concat g.
  Proof. rewrite listed_entry. intros [ds Hds]. by rewrite (deps_of_entry b ds). Qed.

  Lemma depends_deps_of b d : depends g b d ↔ d ∈ deps_of g b.
  Proof.
    rewrite depends_entry. split.
    - intros (ds & H & ?). by rewrite (deps_of_entry b ds).
    - intros Hd. destruct (decide (listed g b)) as [Hb|Hb].
      + exists (deps_of g b). split; [by apply listed_deps_of|done].
      + rewrite deps_of_unlisted in Hd by done. by apply elem_of_nil in Hd.
  Qed.

  Lemma wf_entry k layer b ds :
    g !! k = Some layer → (b, ds) ∈ layer →
    NoDup ds ∧ (∀ d, d ∈ ds → d ∈ qubits (take k g)) ∧ (k = 0 ↔ ds = []).
  Proof.
    intros Hk Hb. destruct k as [|k].
    - assert (ds = []) as ->.
      { eapply (wf_first _ _ Hwf). destruct g; simpl in *; [done|]. by injection Hk as ->. }
      split_and!; [apply NoDup_nil_2| |done]. intros d ?%elem_of_nil. done.
    - destruct (wf_later _ _ Hwf k layer b ds Hk Hb) as (?&?&?). done.
  Qed.

  Lemma deps_of_nodup b : NoDup (deps_of g b).
  Proof.
    destruct (decide (listed g b)) as [Hb|Hb]; [|rewrite deps_of_unlisted by done; apply NoDup_nil_2].
    apply listed_deps_of, elem_of_concat in Hb as (layer & Hl & Hb).
    apply elem_of_list_lookup in Hl as [k Hk]. by eapply wf_entry.
  Qed.

  Lemma depends_listed b d : depends g b d → listed g d.
  Proof.
    rewrite depends_entry. intros (ds & Hb & Hd).
    apply elem_of_concat in Hb as (layer & Hl & Hb).
    apply elem_of_list_lookup in Hl as [k Hk].
    destruct (wf_entry k layer b ds) as (_ & H & _); [done..|].
    rewrite listed_qubits. specialize (H d Hd).
    rewrite <- (take_drop k g), qubits_app, elem_of_app. by left.
  Qed.

  Lemma dependents_of_spec u b : b ∈ dependents_of g u ↔ depends g b u.
  Proof.
    unfold dependents_of. rewrite elem_of_list_fmap, depends_entry. split.
    - intros ([b' ds] & -> & H). apply elem_of_list_filter in H as [? H]. by exists ds.
    - intros (ds & H & ?). exists (b, ds). split; [done|]. by apply elem_of_list_filter.
  Qed.

  Lemma dependents_of_nodup u : NoDup (dependents_of g u).
  Proof.
    unfold dependents_of. pose proof (wf_nodup _ _ Hwf) as Hnd. unfold qubits in Hnd.
    induction (concat g) as [|e l IH]; [apply NoDup_nil_2|].
    rewrite map_cons in Hnd. apply NoDup_cons in Hnd as [Hx Hnd]. specialize (IH Hnd).
    destruct (decide (u ∈ e.2)).
    - rewrite filter_cons_True by done. rewrite map_cons. apply NoDup_cons. split; [|done].
      intros Hin. apply Hx. apply elem_of_list_fmap in Hin as (e' & -> & H).
      apply elem_of_list_filter in H as [_ H]. apply elem_of_list_fmap. by exists e'.
    - by rewrite filter_cons_False by done.
  Qed.

  Lemma dependents_rest pre layer rest b :
    g = pre ++ layer :: rest → b ∈ map fst layer →
    map fst (filter (λ e, b ∈ e.2) (concat rest)) = dependents_of g b.
  Proof.
    intros Hg Hb. unfold dependents_of. rewrite Hg.
    rewrite concat_app. simpl. rewrite app_assoc, filter_app.
    assert (filter (λ e, b ∈ e.2) (concat pre ++ layer) = []) as ->; [|done].
    destruct (filter _ _) as [|e l] eqn:E; [done|]. exfalso.
    assert (e ∈ e :: l) as He by left. rewrite <- E in He. clear E.
    apply elem_of_list_filter in He as [Hbe He].
    assert (∃ k lay, k ≤ length pre ∧ g !! k = Some lay ∧ e ∈ lay) as (k & lay & Hk & Hlay & Hin).
    { apply elem_of_app in He as [He|He].
      - apply elem_of_concat in He as (lay & Hl & He). apply elem_of_list_lookup in Hl as [k Hk].
        exists k, lay. pose proof (lookup_lt_Some _ _ _ Hk). split_and!; [lia| |done].
        rewrite Hg, lookup_app_l by done. done.
      - exists (length pre), layer. split_and!; [done| |done].
        rewrite Hg, lookup_app_r by done. by rewrite Nat.sub_diag. }
    destruct e as [c ds]. destruct (wf_entry k lay c ds) as (_ & H & _); [done..|].
    specialize (H b Hbe). rewrite Hg, take_app_le in H by done.
    pose proof (wf_nodup _ _ Hwf) as Hnd. rewrite Hg in Hnd.
    rewrite qubits_app in Hnd. apply NoDup_app in Hnd as (_ & Hdis & _).
    apply (Hdis b).
    - rewrite <- (take_drop k pre), qubits_app, elem_of_app. by left.
    - unfold qubits. simpl. rewrite map_app, elem_of_app. by left.
  Qed.
End wf.

(** ** Construction *)

Lemma resolve_spec b rest look :
  b < length look →
  resolve b rest look
  = Val (<[b := map fst (filter (λ e, b ∈ e.2) (concat rest))]> look).
Proof.
  intros Hb. unfold resolve, index_set. by destruct (lookup_lt_is_Some_2 look b Hb) as [x ->].
Qed.

Lemma first_loop_spec rest first look :
  (∀ e, e ∈ first → e.1 < length look) →
  ∃ look', first_loop rest first look = Val (look', map fst first) ∧
    length look' = length look ∧
    (∀ b, b ∈ map fst first → look' !! b = Some (map fst (filter (λ e, b ∈ e.2) (concat rest)))) ∧
    (∀ b, b ∉ map fst first → look' !! b = look !! b).
Proof.
  unfold first_loop. induction first as [|e first IH] using rev_ind; intros Hr.
  - exists look. split_and!; [done..| |done]. by intros b ?%elem_of_nil.
  - destruct IH as (look1 & E & Hlen & Hin & Hout).
    { intros e' ?. apply Hr, elem_of_app. by left. }
    rewrite ofold_app, E. cbn [obind ofold fst snd].
    assert (e.1 < length look1) as He.
    { rewrite Hlen. apply Hr, elem_of_app. right. left. }
    rewrite resolve_spec by done. cbn [obind].
    eexists. split_and!; [by rewrite map_app|by rewrite insert_length| |].
    + intros b Hb. destruct (decide (b = e.1)) as [->|Hne].
      * by apply list_lookup_insert.
      * rewrite list_lookup_insert_ne by done. apply Hin.
        rewrite map_app, elem_of_app in Hb. destruct Hb as [?|Hb]; [done|].
        simpl in Hb. by apply elem_of_list_singleton in Hb.
    + intros b Hb. rewrite map_app, not_elem_of_app in Hb. destruct Hb as [Hb1 Hb2].
      simpl in Hb2. apply not_elem_of_cons in Hb2 as [Hb2 _].
      rewrite list_lookup_insert_ne by done. by apply Hout.
Qed.

Lemma layer_loop_spec rest layer look dc :
  (∀ e, e ∈ layer → e.1 < length look) → NoDup (map fst layer) →
  ∃ look' dc', layer_loop rest layer (look, dc) = Val (look', dc') ∧
    length look' = length look ∧
    (∀ b, b ∈ map fst layer → look' !! b = Some (map fst (filter (λ e, b ∈ e.2) (concat rest)))) ∧
    (∀ b, b ∉ map fst layer → look' !! b = look !! b) ∧
    (∀ b ds, (b, ds) ∈ layer → dc' !! b = Some (N.of_nat (length ds))) ∧
    (∀ b, b ∉ map fst layer → dc' !! b = dc !! b).
Proof.
  unfold layer_loop. induction layer as [|e layer IH] using rev_ind; intros Hr Hnd.
  - exists look, dc. split_and!; try done; by intros ? ?%elem_of_nil || by intros ? ? ?%elem_of_nil.
  - rewrite map_app in Hnd. apply NoDup_app in Hnd as (Hnd & Hdis & _).
    destruct IH as (look1 & dc1 & E & Hlen & Hin & Hout & Hdin & Hdout); [|done|].
    { intros e' ?. apply Hr, elem_of_app. by left. }
    rewrite ofold_app, E. cbn [obind ofold fst snd].
    assert (e.1 < length look1) as He.
    { rewrite Hlen. apply Hr, elem_of_app. right. left. }
    rewrite resolve_spec by done. cbn [obind].
    eexists _, _. split; [done|]. split; [by rewrite insert_length|]. split_and!.
    + intros b Hb. destruct (decide (b = e.1)) as [->|Hne].
      * by apply list_lookup_insert.
      * rewrite list_lookup_insert_ne by done. apply Hin.
        rewrite map_app, elem_of_app in Hb. destruct Hb as [?|Hb]; [done|].
        simpl in Hb. by apply elem_of_list_singleton in Hb.
    + intros b Hb. rewrite map_app, not_elem_of_app in Hb. destruct Hb as [Hb1 Hb2].
      simpl in Hb2. apply not_elem_of_cons in Hb2 as [Hb2 _].
      rewrite list_lookup_insert_ne by done. by apply Hout.
    + intros b ds Hb. apply elem_of_app in Hb as [Hb|Hb].
      * rewrite lookup_insert_ne; [by apply Hdin|]. intros <-.
        eapply Hdis; [|left]. apply elem_of_list_fmap. by exists (e.1, ds).
      * apply elem_of_list_singleton in Hb as <-. by rewrite lookup_insert.
    + intros b Hb. rewrite map_app, not_elem_of_app in Hb. destruct Hb as [Hb1 Hb2].
      simpl in Hb2. apply not_elem_of_cons in Hb2 as [Hb2 _].
      rewrite lookup_insert_ne by done. by apply Hdout.
Qed.

Lemma rest_loop_spec rest look dc :
  (∀ b, b ∈ qubits rest → b < length look) → NoDup (qubits rest) →
  ∃ look' dc', rest_loop rest (look, dc) = Val (look', dc') ∧
    length look' = length look ∧
    (∀ pre layer post b, rest = pre ++ layer :: post → b ∈ map fst layer →
       look' !! b = Some (map fst (filter (λ e, b ∈ e.2) (concat post)))) ∧
    (∀ b, b ∉ qubits rest → look' !! b = look !! b) ∧
    (∀ b ds, (b, ds) ∈ concat rest → dc' !! b = Some (N.of_nat (length ds))) ∧
    (∀ b, b ∉ qubits rest → dc' !! b = dc !! b).
Proof.
  revert look dc. induction rest as [|layer rest IH]; intros look dc Hr Hnd.
  - exists look, dc. split; [done|]. split; [done|]. split_and!; try done.
    + intros [] ???; done.
    + by intros ? ? ?%elem_of_nil.
  - unfold qubits in Hr, Hnd. simpl in Hr, Hnd. rewrite map_app in Hr, Hnd.
    apply NoDup_app in Hnd as (Hnd1 & Hdis & Hnd2).
    destruct (layer_loop_spec rest layer look dc) as
      (look1 & dc1 & E1 & Hlen1 & Hin1 & Hout1 & Hdin1 & Hdout1); [|done|].
    { intros e He. apply Hr, elem_of_app. left. apply elem_of_list_fmap. by exists e. }
    destruct (IH look1 dc1) as (look2 & dc2 & E2 & Hlen2 & Hin2 & Hout2 & Hdin2 & Hdout2).
    { intros b Hb. rewrite Hlen1. apply Hr, elem_of_app. by right. }
    { done. }
    exists look2, dc2. cbn [rest_loop]. rewrite E1. cbn [obind].
    split; [done|]. split; [lia|].
    split_and!.
    + intros pre lay post b Hg Hb. destruct pre as [|lay' pre]; simpl in Hg.
      * injection Hg as -> ->. rewrite Hout2; [by apply Hin1|]. by apply Hdis.
      * injection Hg as -> ->. by eapply Hin2.
    + intros b Hb. unfold qubits in Hb. simpl in Hb.
      rewrite map_app, not_elem_of_app in Hb. destruct Hb.
      rewrite Hout2 by done. by apply Hout1.
    + intros b ds Hb. simpl in Hb. apply elem_of_app in Hb as [Hb|Hb]; [|by apply Hdin2].
      rewrite Hdout2; [by apply Hdin1|]. apply Hdis. apply elem_of_list_fmap. by exists (b, ds).
    + intros b Hb. unfold qubits in Hb. simpl in Hb.
      rewrite map_app, not_elem_of_app in Hb. destruct Hb.
      rewrite Hdout2 by done. by apply Hdout1.
Qed.

(** Both instances of [MeasurableSet] satisfy these laws. *)
Class LawfulMeasurableSet (T : Type) `{MeasurableSet T} : Prop := {
  ms_set_init : ∀ l, ms_set (T := T) (ms_init l) = l;
  ms_default_init : ms_default (T := T) = ms_init []
}.
Global Instance lawful_vec : LawfulMeasurableSet (list nat).
Proof. split; done. Qed.
Global Instance lawful_partition : LawfulMeasurableSet (Partition nat).
Proof. split; done. Qed.

Lemma missing_zero g P b : missing g P b = 0 ↔ ∀ d, d ∈ deps_of g b → d ∈ P.
Proof.
  unfold missing. split.
  - intros H%length_zero_iff_nil d Hd. destruct (decide (d ∈ P)) as [|Hn]; [done|].
    assert (d ∈ filter (λ d, d ∉ P) (deps_of g b)) as Hf by (by apply elem_of_list_filter).
    rewrite H in Hf. by apply elem_of_nil in Hf.
  - intros H. apply length_zero_iff_nil. destruct (filter _ _) as [|d l] eqn:E; [done|].
    assert (d ∈ d :: l) as Hd by left. rewrite <- E in Hd.
    apply elem_of_list_filter in Hd as [Hd1 Hd2]. by destruct Hd1; apply H.
Qed.

Lemma missing_nil g b : missing g [] b = length (deps_of g b).
Proof.
  unfold missing. f_equal. induction (deps_of g b) as [|d l IH]; [done|].
  rewrite filter_cons_True by apply not_elem_of_nil. by f_equal.
Qed.

Lemma from_dependency_graph_spec `{LawfulMeasurableSet T} n g buf :
  wf_order n g → n ≤ length buf →
  ∃ m dc look,
    from_dependency_graph (T := T) g buf None = Val (mkPathGenerator (ms_init m) dc look) ∧
    m = map fst (default [] (head g)) ∧
    length look = length buf ∧ time_inv g [] m dc look.
Proof.
  intros Hwf Hlen. destruct g as [|first rest].
  - exists [], ∅, buf. split; [simpl; by rewrite ms_default_init|]. split; [done|]. split; [done|].
    split.
    + apply NoDup_nil_2.
    + intros b. rewrite elem_of_nil. split; [done|]. intros ((? & ? & Hb & _) & _).
      by apply elem_of_nil in Hb.
    + intros b. by rewrite lookup_empty.
    + intros b (? & ? & Hb & _). by apply elem_of_nil in Hb.
  - pose proof (wf_nodup _ _ Hwf) as Hnd. unfold qubits in Hnd. simpl in Hnd.
    rewrite map_app in Hnd. apply NoDup_app in Hnd as (Hnd1 & Hdis & Hnd2).
    pose proof (wf_range _ _ Hwf) as Hr. unfold qubits in Hr. simpl in Hr. rewrite map_app in Hr.
    destruct (first_loop_spec rest first buf) as (look1 & E1 & Hlen1 & Hin1 & Hout1).
    { intros e He. eapply Nat.lt_le_trans; [|done]. apply Hr, elem_of_app. left.
      apply elem_of_list_fmap. by exists e. }
    destruct (rest_loop_spec rest look1 ∅) as (look2 & dc2 & E2 & Hlen2 & Hin2 & Hout2 & Hdin2 & Hdout2).
    { intros b Hb. rewrite Hlen1. eapply Nat.lt_le_trans; [|done].
      apply Hr, elem_of_app. by right. }
    { done. }
    exists (map fst first), dc2, look2. split.
    { unfold from_dependency_graph. rewrite E1. cbn [obind]. rewrite E2. done. }
    split; [done|]. split; [lia|].
    split.
    + done.
    + intros b. unfold enabled. rewrite listed_entry.
      setoid_rewrite (depends_deps_of n (first :: rest) Hwf). rewrite elem_of_list_fmap. split.
      * intros ([b' ds] & -> & He). simpl. split; [exists ds; apply elem_of_app; by left|].
        split; [apply not_elem_of_nil|]. intros d Hd.
        rewrite (deps_of_entry n _ Hwf b' ds) in Hd by (simpl; apply elem_of_app; by left).
        assert (ds = []) as -> by (by eapply (wf_first _ _ Hwf b')).
        by apply elem_of_nil in Hd.
      * intros ((ds & Hb) & _ & Hd). simpl in Hb. apply elem_of_app in Hb as [Hb|Hb].
        { by exists (b, ds). }
        exfalso. pose proof Hb as Hb'. apply elem_of_concat in Hb as (lay & Hl & Hb).
        apply elem_of_list_lookup in Hl as [k Hk].
        destruct (wf_later _ _ Hwf k lay b ds Hk Hb) as (Hne & _).
        rewrite (deps_of_entry n _ Hwf b ds) in Hd by (simpl; apply elem_of_app; by right).
        destruct ds as [|d ds]; [done|]. specialize (Hd d ltac:(left)). by apply elem_of_nil in Hd.
    + intros b. rewrite missing_nil.
      destruct (decide (b ∈ qubits rest)) as [Hb|Hb].
      * apply listed_qubits, listed_entry in Hb as [ds Hb].
        rewrite (Hdin2 b ds Hb), (deps_of_entry n _ Hwf b ds) by (simpl; apply elem_of_app; by right).
        apply elem_of_concat in Hb as (lay & Hl & Hb).
        apply elem_of_list_lookup in Hl as [k Hk].
        destruct (wf_later _ _ Hwf k lay b ds Hk Hb) as (Hne & _).
        destruct ds; done.
      * rewrite Hdout2, lookup_empty by done.
        assert (deps_of (first :: rest) b = []) as ->; [|done].
        destruct (decide (b ∈ map fst first)) as [Hf|Hf].
        -- apply elem_of_list_fmap in Hf as ([b' ds] & -> & Hf). simpl.
           rewrite (deps_of_entry n _ Hwf b' ds) by (simpl; apply elem_of_app; by left).
           by eapply (wf_first _ _ Hwf b').
        -- apply (deps_of_unlisted (first :: rest)).
           rewrite listed_qubits. unfold qubits. simpl. rewrite map_app, elem_of_app. tauto.
    + intros b Hb. apply listed_qubits in Hb. unfold qubits in Hb. simpl in Hb.
      rewrite map_app, elem_of_app in Hb. destruct Hb as [Hb|Hb].
      * rewrite Hout2 by (by apply Hdis). rewrite Hin1 by done. f_equal.
        by apply (dependents_rest n (first :: rest) Hwf [] first).
      * assert (∃ pre lay post, rest = pre ++ lay :: post ∧ b ∈ map fst lay) as (pre & lay & post & Hg & Hl).
        { apply elem_of_list_fmap in Hb as ([b' ds] & -> & Hb).
          apply elem_of_concat in Hb as (lay & Hl & Hb).
          apply elem_of_list_split in Hl as (pre & post & ->). exists pre, lay, post.
          split; [done|]. apply elem_of_list_fmap. by exists (b', ds). }
        rewrite (Hin2 pre lay post b) by done. f_equal.
        apply (dependents_rest n (first :: rest) Hwf (first :: pre) lay); [|done]. by rewrite Hg.
Qed.

(** ** Updating *)

Definition dc_rel (dc : DepsCounters) (f : nat → nat) : Prop :=
  ∀ b, dc !! b = match f b with 0 => None | S k => Some (N.of_nat (S k)) end.

Lemma dc_rel_ext dc f f' : (∀ b, f b = f' b) → dc_rel dc f → dc_rel dc f'.
Proof. intros Heq H b. by rewrite H, Heq. Qed.

Lemma update_dependent_spec dc new f b k :
  dc_rel dc f → f b = S k →
  ∃ dc', (∀ bd, update_dependent bd (dc, new) b
                = Val (dc', if decide (k = 0) then new ++ [b] else new)) ∧
    dc_rel dc' (λ c, if decide (c = b) then k else f c).
Proof.
  intros Hdc Hb. pose proof (Hdc b) as Hl. rewrite Hb in Hl.
  assert (∀ bd, sub_usize bd (N.of_nat (S k)) 1 = Val (N.of_nat k)) as Hsub.
  { intros bd. unfold sub_usize. rewrite (proj2 (N.leb_le _ _)) by lia. f_equal. lia. }
  destruct k as [|k].
  - exists (delete b dc). split.
    + intros bd. unfold update_dependent. simpl fst. rewrite Hl, Hsub. done.
    + intros c. destruct (decide (c = b)) as [->|].
      * by rewrite lookup_delete.
      * by rewrite lookup_delete_ne.
  - exists (<[b := N.of_nat (S k)]> dc). split.
    + intros bd. unfold update_dependent. simpl fst. rewrite Hl, Hsub. cbn [obind].
      destruct (N.eqb_spec (N.of_nat (S k)) 0); [lia|done].
    + intros c. destruct (decide (c = b)) as [->|].
      * by rewrite lookup_insert.
      * by rewrite lookup_insert_ne.
Qed.

Lemma update_dependents_spec D dc new f :
  dc_rel dc f → NoDup D → (∀ b, b ∈ D → f b ≠ 0) →
  ∃ dc', (∀ bd, ofold (update_dependent bd) D (dc, new)
                = Val (dc', new ++ filter (λ b, f b = 1) D)) ∧
    dc_rel dc' (λ c, if decide (c ∈ D) then f c - 1 else f c).
Proof.
  revert dc new f. induction D as [|b D IH]; intros dc new f Hdc Hnd Hpos.
  - exists dc. split; [intros bd; simpl; by rewrite app_nil_r|].
    eapply dc_rel_ext; [|done]. intros c. by rewrite decide_False by apply not_elem_of_nil.
  - apply NoDup_cons in Hnd as [HbD Hnd].
    destruct (f b) as [|k] eqn:Ek; [by destruct (Hpos b ltac:(left))|].
    destruct (update_dependent_spec dc new f b k Hdc Ek) as (dc1 & E1 & Hdc1).
    destruct (IH dc1 (if decide (k = 0) then new ++ [b] else new)
                (λ c, if decide (c = b) then k else f c) Hdc1 Hnd) as (dc2 & E2 & Hdc2).
    { intros c Hc. rewrite decide_False by (intros ->; done). apply Hpos. by right. }
    exists dc2. split.
    + intros bd. cbn [ofold]. rewrite E1. cbn [obind]. rewrite E2. f_equal. f_equal.
      assert (filter (λ c, (if decide (c = b) then k else f c) = 1) D = filter (λ c, f c = 1) D) as ->.
      { apply filter_length_ext_in. intros c Hc. by rewrite decide_False by (intros ->; done). }
      destruct (decide (k = 0)) as [->|].
      * rewrite (filter_cons_True _ b) by done. by rewrite <- app_assoc.
      * by rewrite (filter_cons_False _ b) by lia.
    + eapply dc_rel_ext; [|done]. intros c. simpl.
      destruct (decide (c = b)) as [->|Hne].
      * rewrite decide_False by done. rewrite decide_True by left. lia.
      * destruct (decide (c ∈ D)).
        -- by rewrite decide_True by (by right).
        -- rewrite decide_False; [done|]. by apply not_elem_of_cons.
Qed.

Lemma missing_snoc n g P u b :
  wf_order n g → u ∉ P →
  missing g P b = missing g (P ++ [u]) b + (if decide (u ∈ deps_of g b) then 1 else 0).
Proof.
  intros Hwf Hu. unfold missing. destruct (decide (u ∈ deps_of g b)) as [Hin|Hin].
  - apply (filter_length_app _ _ _ [u]).
    + by eapply deps_of_nodup.
    + apply NoDup_singleton.
    + intros x ->%elem_of_list_singleton. split; [done|]. split; [done|].
      intros Hx. apply Hx, elem_of_app. right. left.
    + intros y _ Hy. rewrite not_elem_of_app. naive_solver.
  - rewrite Nat.add_0_r. f_equal. apply filter_length_ext_in. intros d Hd.
    rewrite not_elem_of_app, not_elem_of_cons. split; [|naive_solver].
    intros. split; [done|]. split; [|apply not_elem_of_nil]. intros ->. done.
Qed.

Lemma missing_mono g P Q b : (∀ x, x ∈ P → x ∈ Q) → missing g P b = 0 → missing g Q b = 0.
Proof. rewrite !missing_zero. naive_solver. Qed.

Lemma update_unchecked_spec n g P S dc look new :
  wf_order n g → NoDup S → (∀ b, b ∈ S → b ∉ P) → (∀ b, b ∈ S → listed g b) →
  (∀ b, listed g b → look !! b = Some (dependents_of g b)) →
  dc_rel dc (missing g P) →
  ∃ dc' nw,
    (∀ bd, update_unchecked bd look dc S new = Val (dc', new ++ nw)) ∧
    dc_rel dc' (missing g (P ++ S)) ∧ NoDup nw ∧
    ∀ b, b ∈ nw ↔ missing g P b ≠ 0 ∧ missing g (P ++ S) b = 0.
Proof.
  intros Hwf. revert P dc new. induction S as [|u S IH]; intros P dc new Hnd Hdis Hlist Hlook Hdc.
  - exists dc, []. rewrite !app_nil_r. split_and!; [done..|apply NoDup_nil_2|].
    intros b. rewrite elem_of_nil. naive_solver.
  - apply NoDup_cons in Hnd as [HuS Hnd].
    assert (u ∉ P) as HuP by (apply Hdis; left).
    assert (∀ b, b ∈ dependents_of g u ↔ u ∈ deps_of g b) as Hdep.
    { intros b. rewrite (dependents_of_spec g), (depends_deps_of n g Hwf). done. }
    destruct (update_dependents_spec (dependents_of g u) dc new (missing g P) Hdc)
      as (dc1 & E1 & Hdc1).
    { by eapply dependents_of_nodup. }
    { intros b Hb%Hdep. rewrite (missing_snoc n g P u b) by done. rewrite decide_True by done. lia. }
    set (nw1 := filter (λ b, missing g P b = 1) (dependents_of g u)) in *.
    destruct (IH (P ++ [u]) dc1 (new ++ nw1)) as (dc2 & nw2 & E2 & Hdc2 & Hnd2 & Hnw2).
    + done.
    + intros b Hb. rewrite elem_of_app, elem_of_list_singleton. intros [?| ->]; [|done].
      by eapply Hdis; [right|].
    + intros. apply Hlist. by right.
    + done.
    + eapply dc_rel_ext; [|exact Hdc1]. intros b. simpl. rewrite (missing_snoc n g P u b) by done.
      destruct (decide (b ∈ dependents_of g u)) as [Hb%Hdep|Hb].
      * rewrite decide_True by done. lia.
      * rewrite Hdep in Hb. rewrite decide_False by done. lia.
    + exists dc2, (nw1 ++ nw2). rewrite <- app_assoc in Hdc2, Hnw2. simpl in Hdc2, Hnw2.
      assert (∀ b, b ∈ nw1 ↔ missing g P b ≠ 0 ∧ missing g (P ++ [u]) b = 0) as Hnw1.
      { intros b. unfold nw1. rewrite elem_of_list_filter, Hdep.
        rewrite (missing_snoc n g P u b) by done.
        destruct (decide (u ∈ deps_of g b)); split; naive_solver lia. }
      split_and!.
      * intros bd. unfold update_unchecked. cbn [ofold]. unfold index at 1.
        rewrite (Hlook u) by (apply Hlist; left). cbn [obind]. rewrite E1. cbn [obind].
        specialize (E2 bd). unfold update_unchecked in E2. rewrite E2. by rewrite app_assoc.
      * done.
      * apply NoDup_app. split_and!; [by apply NoDup_filter; eapply dependents_of_nodup| |done].
        intros b Hb1%Hnw1 Hb2%Hnw2. naive_solver.
      * intros b. rewrite elem_of_app, Hnw1, Hnw2. split.
        -- intros [[H1 H2]|[H1 H2]].
           ++ split; [done|]. eapply missing_mono; [|exact H2].
              intros x. clear. set_solver.
           ++ split; [|done]. intros H0. apply H1. eapply missing_mono; [|exact H0].
              intros x. rewrite !elem_of_app. tauto.
        -- intros [H1 H2]. destruct (decide (missing g (P ++ [u]) b = 0)); [left|right]; done.
Qed.

Definition closed (g : order) (P : list nat) : Prop :=
  ∀ b d, b ∈ P → depends g b d → d ∈ P.

Lemma time_inv_update n g P m dc look S rest :
  wf_order n g → closed g P → time_inv g P m dc look →
  NoDup S → (∀ b, b ∈ S → b ∈ m) →
  NoDup rest → (∀ b, b ∈ rest ↔ b ∈ m ∧ b ∉ S) →
  ∃ dc' nw,
    (∀ bd, update_unchecked bd look dc S rest = Val (dc', rest ++ nw)) ∧
    time_inv g (P ++ S) (rest ++ nw) dc' look.
Proof.
  intros Hwf Hcl [Hm Hset Hdc Hlook] HS Hsub Hrest Hr.
  assert (∀ b, enabled g P b → missing g P b = 0) as Hen.
  { intros b (_ & _ & H). apply missing_zero. intros d Hd.
    by apply H, (depends_deps_of n g Hwf). }
  destruct (update_unchecked_spec n g P S dc look rest) as (dc' & nw & E & Hdc' & Hnd & Hnw).
  - done.
  - done.
  - intros b Hb%Hsub%Hset. apply Hb.
  - intros b Hb%Hsub%Hset. apply Hb.
  - done.
  - done.
  - exists dc', nw. split; [done|]. split; [| |done|done].
    + apply NoDup_app. split_and!; [done| |done].
      intros b Hb1%Hr Hb2%Hnw. destruct Hb1 as [Hb1 _]. apply Hset, Hen in Hb1. naive_solver.
    + intros b. rewrite elem_of_app, Hr, Hnw, Hset. split.
      * intros [[(H1 & H2 & H3) H4]|[H1 H2]].
        -- split; [done|]. rewrite not_elem_of_app. split; [done|].
           intros d ?. rewrite elem_of_app. left. by apply H3.
        -- split; [|split].
           ++ destruct (decide (listed g b)) as [|Hn]; [done|]. destruct H1.
              unfold missing. by rewrite (deps_of_unlisted g b Hn).
           ++ rewrite not_elem_of_app. split.
              ** intros HbP. apply H1, missing_zero. intros d Hd.
                 eapply Hcl; [done|]. by apply (depends_deps_of n g Hwf).
              ** intros HbS%Hsub%Hset%Hen. done.
           ++ intros d Hd%(depends_deps_of n g Hwf). rewrite missing_zero in H2. by apply H2.
      * intros (H1 & H2 & H3). rewrite not_elem_of_app in H2. destruct H2 as [H2 H2'].
        destruct (decide (missing g P b = 0)) as [Hz|Hz].
        -- left. split; [|done]. split; [done|]. split; [done|].
           intros d Hd. rewrite missing_zero in Hz. by apply Hz, (depends_deps_of n g Hwf).
        -- right. split; [done|]. apply missing_zero. intros d Hd.
           by apply H3, (depends_deps_of n g Hwf).
Qed.

(** ** Legal prefixes *)

Lemma legal_nil g : legal_prefix g [].
Proof.
  split; try (intros ? H; by apply elem_of_nil in H); [apply NoDup_nil_2|].
  intros k S b d H. by rewrite lookup_nil in H.
Qed.

Lemma legal_closed g σ : legal_prefix g σ → closed g (concat σ).
Proof.
  intros Hσ b d Hb Hd. apply elem_of_concat in Hb as (S & HS & Hb).
  apply elem_of_list_lookup in HS as [k Hk].
  pose proof (lp_order _ _ Hσ k S b d Hk Hb Hd) as H.
  rewrite <- (take_drop k σ), concat_app, elem_of_app. by left.
Qed.

Lemma legal_snoc g σ S :
  legal_prefix g (σ ++ [S]) ↔
  legal_prefix g σ ∧ S ≠ [] ∧ NoDup S ∧ ∀ b, b ∈ S → enabled g (concat σ) b.
Proof.
  split.
  - intros [H1 H2 H3 H4]. rewrite concat_app in H2, H3. simpl in H2, H3.
    rewrite app_nil_r in H2, H3. apply NoDup_app in H2 as (H2a & H2b & H2c).
    split_and!.
    + split.
      * intros T HT. apply H1, elem_of_app. by left.
      * done.
      * intros b Hb. apply H3, elem_of_app. by left.
      * intros k T b d HT Hb Hd.
        rewrite <- (take_app_le σ [S] k) by (apply lookup_lt_Some in HT; lia).
        eapply H4; [by apply lookup_app_l_Some|done..].
    + apply H1, elem_of_app. right. left.
    + done.
    + intros b Hb. split; [apply H3, elem_of_app; by right|]. split.
      * intros Hb'. by apply (H2b b).
      * intros d Hd. rewrite <- (take_app σ [S]). eapply (H4 (length σ)); [|done..].
        rewrite lookup_app_r by done. by rewrite Nat.sub_diag.
  - intros ([H1 H2 H3 H4] & HS & Hnd & Hen). split.
    + intros T. rewrite elem_of_app, elem_of_list_singleton. intros [?| ->]; eauto.
    + rewrite concat_app. simpl. rewrite app_nil_r. apply NoDup_app. split_and!; [done| |done].
      intros b Hb1 Hb2. by apply (Hen b).
    + intros b. rewrite concat_app. simpl. rewrite app_nil_r, elem_of_app.
      intros [?|Hb]; [eauto|]. by apply Hen.
    + intros k T b d HT Hb Hd. apply lookup_app_Some in HT as [HT|[Hk HT]].
      * rewrite take_app_le by (apply lookup_lt_Some in HT; lia). eauto.
      * destruct (k - length σ) as [|j] eqn:E; simpl in HT; [|by rewrite lookup_nil in HT].
        injection HT as <-. rewrite take_app_alt by lia. by eapply Hen.
Qed.

Lemma legal_prefix_app g σ τ : legal_prefix g (σ ++ τ) → legal_prefix g σ.
Proof.
  revert σ. induction τ as [|S τ IH]; intros σ; [by rewrite app_nil_r|].
  intros H. assert (legal_prefix g (σ ++ [S])) as H'.
  { apply IH. by rewrite <- app_assoc. }
  apply legal_snoc in H' as [H' _]. done.
Qed.
