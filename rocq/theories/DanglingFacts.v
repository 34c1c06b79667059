(** * Neighbours that are not nodes *)
From Verif Require Export Dangling BufferFacts Interface.

(** ** Two computations in lockstep

    If the first one has a value, so has the second one, and the values are
    related; if the first one panics and [H] holds, the second one panics. *)
Definition lock {A B} (H : Prop) (R : A → B → Prop) (o1 : out A) (o2 : out B) : Prop :=
  match o1 with
  | Val a => ∃ b, o2 = Val b ∧ R a b
  | Panic => H → o2 = Panic
  end.

Definition locks {A B} (H : Prop) (R : A → B → Prop) (o1 : option (out A)) (o2 : option (out B)) : Prop :=
  match o1 with
  | None => o2 = None
  | Some (Val a) => ∃ b, o2 = Some (Val b) ∧ R a b
  | Some Panic => H → o2 = Some Panic
  end.

Lemma lock_val {A B} H (R : A → B → Prop) a b : R a b → lock H R (Val a) (Val b).
Proof. by exists b. Qed.

Lemma lock_eq {A} H (o : out A) : lock H eq o o.
Proof. destruct o; [by exists a|done]. Qed.

Lemma lock_bind {A B A' B'} H (R : A → B → Prop) (R' : A' → B' → Prop) o1 o2 f1 f2 :
  lock H R o1 o2 → (∀ a b, R a b → lock H R' (f1 a) (f2 b)) → lock H R' (obind o1 f1) (obind o2 f2).
Proof.
  intros H1 H2. destruct o1 as [a|]; simpl in *.
  - destruct H1 as (b & -> & Hb). by apply H2.
  - intros HH. by rewrite (H1 HH).
Qed.

Lemma lock_weaken {A B} (H H' : Prop) (R R' : A → B → Prop) o1 o2 :
  (H' → H) → (∀ a b, R a b → R' a b) → lock H R o1 o2 → lock H' R' o1 o2.
Proof. intros HH HR. destruct o1 as [a|]; simpl; [|by auto]. intros (b & -> & Hb). eauto. Qed.

Definition either {A B A' B'} (R : A → B → Prop) (R' : A' → B' → Prop) (x : A + A') (y : B + B') : Prop :=
  match x, y with
  | inl a, inl b => R a b
  | inr a, inr b => R' a b
  | _, _ => False
  end.

Lemma lock_loop {S S' A B} H (RS : S → S' → Prop) (R : A → B → Prop) f1 f2 fuel s t :
  (∀ s t, RS s t → lock H (either RS R) (f1 s) (f2 t)) → RS s t →
  locks H R (loop f1 fuel s) (loop f2 fuel t).
Proof.
  intros Hf. revert s t. induction fuel as [|fuel IH]; intros s t Hs; [done|]. cbn [loop].
  specialize (Hf s t Hs). destruct (f1 s) as [x|]; simpl in *.
  - destruct Hf as (y & -> & Hxy). destruct x as [s'|a], y as [t'|b]; try done; [by apply IH|by exists b].
  - intros HH. by rewrite (Hf HH).
Qed.

Section dangling.
  Context (adj : spacial).
  Notation n := (length adj).
  Notation fine b := (¬ dangling adj b).

  (** ** Space *)

  Definition prune (g : Graph) : Graph :=
    mkGraph (map (λ x, (x.1, filter (λ v, v < n) x.2)) (nodes g)) (current_memory g) (max_memory g).

  Record in_step (g g' : Graph) : Prop := {
    is_rows : map snd (nodes g) = adj;
    is_fine : ∀ b ns, nodes g !! b = Some (Measured, ns) → fine b;
    is_prune : g' = prune g
  }.

  Lemma row_neighbours g b x : map snd (nodes g) = adj → nodes g !! b = Some x → neighbours adj b = x.2.
  Proof. intros <- Hx. unfold neighbours. by rewrite list_lookup_fmap, Hx. Qed.

  Lemma rows_length g : map snd (nodes g) = adj → length (nodes g) = n.
  Proof. intros H. by rewrite <- H, map_length. Qed.

  Lemma rows_insert g b x st c m :
    map snd (nodes g) = adj → nodes g !! b = Some x →
    map snd (nodes (mkGraph (<[b := (st, x.2)]> (nodes g)) c m)) = adj.
  Proof.
    intros H Hx. cbn [nodes]. rewrite list_fmap_insert.
    change (snd <$> nodes g) with (map snd (nodes g)). rewrite H. cbn [snd]. apply list_insert_id.
    rewrite <- H at 1. by rewrite list_lookup_fmap, Hx.
  Qed.

  Lemma prune_index g b :
    index (nodes (prune g)) b =
    let* x := index (nodes g) b in Val (x.1, filter (λ v, v < n) x.2).
  Proof. unfold index. cbn [prune nodes]. rewrite list_lookup_fmap. by destruct (nodes g !! b). Qed.

  Lemma initialize_step bd g g' b :
    in_step g g' → lock True in_step (initialize bd g b) (initialize bd g' b).
  Proof.
    intros [Hr Hf ->]. unfold initialize. rewrite prune_index.
    destruct (index (nodes g) b) as [x|] eqn:Ex; cbn [obind]; [|done].
    unfold index in Ex. destruct (nodes g !! b) as [x'|] eqn:Eb; [|done]. injection Ex as ->.
    cbn [fst snd]. destruct x.1 eqn:E1.
    - cbn [prune current_memory]. destruct (add_usize bd (current_memory g) 1); cbn [obind]; [|done].
      apply lock_val. split.
      + by eapply rows_insert.
      + cbn [nodes]. intros c ns [(-> & [=] & _)|[_ Hc]]%list_lookup_insert_Some. by eapply Hf.
      + unfold prune. cbn [nodes current_memory max_memory]. by rewrite list_fmap_insert.
    - by apply lock_val.
    - by apply lock_val.
  Qed.

  Lemma initialize_all_step bd l g g' :
    in_step g g' → lock True in_step (ofold (initialize bd) l g) (ofold (initialize bd) l g').
  Proof.
    revert g g'. induction l as [|b l IH]; intros g g' Hs; cbn [ofold]; [by apply lock_val|].
    eapply lock_bind; [by apply initialize_step|]. intros. by apply IH.
  Qed.

  Lemma initialize_all_panic bd l g v :
    length (nodes g) = n → v ∈ l → n ≤ v → ofold (initialize bd) l g = Panic.
  Proof.
    intros Hl Hv Hn. revert g Hl. induction l as [|b l IH]; intros g Hl; [by apply elem_of_nil in Hv|].
    cbn [ofold]. destruct (initialize bd g b) as [g1|] eqn:E; [|done]. cbn [obind].
    unfold initialize in E. destruct (index (nodes g) b) as [x|] eqn:Ex; cbn [obind] in E; [|done].
    unfold index in Ex. destruct (nodes g !! b) as [x'|] eqn:Eb; [|done].
    apply lookup_lt_Some in Eb. apply elem_of_cons in Hv as [-> |Hv]; [lia|].
    apply IH; [done|]. destruct x.1; [|by injection E as <-..].
    destruct (add_usize _ _ _); cbn [obind] in E; [|done]. injection E as <-. cbn [nodes].
    by rewrite insert_length.
  Qed.

  Lemma fine_filter g b x :
    map snd (nodes g) = adj → nodes g !! b = Some x → fine b → filter (λ v, v < n) x.2 = x.2.
  Proof.
    intros Hr Hx Hf. assert (∀ v, v ∈ x.2 → v < n) as Hv.
    { intros v Hv. destruct (decide (v < n)) as [|Hn]; [done|]. exfalso. apply Hf. exists v.
      rewrite (row_neighbours _ _ _ Hr Hx). split; [done|lia]. }
    clear -Hv. induction (x.2) as [|v l IH]; [done|]. rewrite filter_cons_True by (apply Hv; left).
    f_equal. apply IH. intros w Hw. apply Hv. by right.
  Qed.

  Lemma dangling_dec b : Decision (dangling adj b).
  Proof.
    destruct (decide (Exists (λ v, n ≤ v) (neighbours adj b))) as [H|H].
    - left. apply Exists_exists in H as (v & Hv & Hn). by exists v.
    - right. intros (v & Hv & Hn). apply H, Exists_exists. eauto.
  Qed.

  Lemma measure_raw_step bd g g' b :
    in_step g g' →
    lock (fine b) (λ r r', fine b ∧ option_Forall2 in_step r r') (measure_raw bd g b) (measure_raw bd g' b).
  Proof.
    intros [Hr Hf ->]. unfold measure_raw. rewrite prune_index.
    destruct (index (nodes g) b) as [x|] eqn:Ex; cbn [obind]; [|done].
    unfold index in Ex. destruct (nodes g !! b) as [x'|] eqn:Eb; [|done]. injection Ex as ->.
    cbn [fst snd]. destruct x as [st ns]. cbn [fst snd].
    destruct (dangling_dec b) as [Hd|Hfine].
    - assert (∃ v, v ∈ ns ∧ n ≤ v) as (v & Hv & Hn).
      { destruct Hd as (v & Hv & Hn). rewrite (row_neighbours _ _ _ Hr Eb) in Hv. by exists v. }
      destruct st.
      + destruct (add_usize bd _ _) as [c|]; cbn [obind]; [|by intros HH; destruct (HH Hd)].
        rewrite (initialize_all_panic bd ns _ v); [by intros HH; destruct (HH Hd)| |done|done].
        cbn [nodes]. rewrite insert_length. by apply rows_length.
      + rewrite (initialize_all_panic bd ns _ v); [by intros HH; destruct (HH Hd)| |done|done].
        cbn [nodes]. rewrite insert_length. by apply rows_length.
      + exfalso. by eapply Hf.
    - pose proof (fine_filter g b (st, ns) Hr Eb Hfine) as Hflt. cbn [snd] in Hflt. rewrite Hflt.
      assert (∀ c m, in_step (mkGraph (<[b := (Measured, ns)]> (nodes g)) c m)
        (mkGraph (<[b := (Measured, ns)]> (nodes (prune g))) c m)) as Hstep.
      { intros c m. split.
        - apply (rows_insert g b (st, ns)); done.
        - cbn [nodes]. intros b' ns' [(-> & _ & _)|[_ Hc]]%list_lookup_insert_Some; [done|by eapply Hf].
        - unfold prune. cbn [nodes current_memory max_memory]. rewrite list_fmap_insert. cbn [fst snd].
          by rewrite Hflt. }
      destruct st.
      + cbn [prune current_memory]. destruct (add_usize bd _ _) as [c|]; cbn [obind]; [|done].
        eapply lock_bind.
        * eapply lock_weaken; [| |apply initialize_all_step, Hstep]; [done|]. intros ? ? HH. exact HH.
        * intros a a' Ha. apply lock_val. split; [done|]. by constructor.
      + eapply lock_bind.
        * eapply lock_weaken; [| |apply initialize_all_step, Hstep]; [done|]. intros ? ? HH. exact HH.
        * intros a a' Ha. apply lock_val. split; [done|]. by constructor.
      + apply lock_val. split; [done|constructor].
  Qed.

  Definition step_result {E} (M : list nat) (x y : Graph * result unit E) : Prop :=
    in_step x.1 y.1 ∧ x.2 = y.2 ∧ (x.2 = Ok tt → Forall (λ b, fine b) M).

  Lemma measure_all_step bd M g g' :
    in_step g g' →
    lock (Forall (λ b, fine b) M) (step_result M) (measure_all bd g M) (measure_all bd g' M).
  Proof.
    revert g g'. induction M as [|b M IH]; intros g g' Hs; cbn [measure_all].
    - apply lock_val. split; [done|]. split; [done|]. intros _. constructor.
    - unfold measure. pose proof (measure_raw_step bd g g' b Hs) as Hm.
      destruct (measure_raw bd g b) as [r|]; cbn [obind lock] in *.
      + destruct Hm as (r' & -> & Hfine & Hr). destruct Hr as [g1 g1' H1|]; cbn [obind].
        * eapply lock_weaken; [| |apply IH; exact H1].
          -- by intros [_ ?]%Forall_cons.
          -- intros [a ra] [b' rb] (HA & HB & HC). split; [done|]. split; [done|]. intros Ho. constructor; auto.
        * apply lock_val. split; [done|]. split; [done|]. done.
      + intros [Hfine _]%Forall_cons. by rewrite (Hm Hfine).
  Qed.

  Lemma update_memory_step bd g g' l :
    in_step g g' → lock True in_step (update_memory bd g l) (update_memory bd g' l).
  Proof.
    intros [Hr Hf ->]. unfold update_memory. cbn [prune current_memory max_memory nodes].
    destruct (sub_usize _ _ _); cbn [obind]; [|done]. apply lock_val. by split.
  Qed.

  Lemma measure_unchecked_step bd M g g' :
    in_step g g' →
    lock (Forall (λ b, fine b) M) (λ x y, in_step x y ∧ Forall (λ b, fine b) M)
      (ofold (measure_unchecked bd) M g) (ofold (measure_unchecked bd) M g').
  Proof.
    revert g g'. induction M as [|b M IH]; intros g g' Hs; cbn [ofold].
    - apply lock_val. by split.
    - unfold measure_unchecked at 1 3. pose proof (measure_raw_step bd g g' b Hs) as Hm.
      destruct (measure_raw bd g b) as [r|]; cbn [obind lock] in *.
      + destruct Hm as (r' & -> & Hfine & Hr). destruct Hr as [g1 g1' H1|]; cbn [obind].
        * eapply lock_weaken; [| |apply IH; exact H1].
          -- by intros [_ ?]%Forall_cons.
          -- intros x y [HA HB]. split; [done|]. by constructor.
        * eapply lock_weaken; [| |apply IH; exact Hs].
          -- by intros [_ ?]%Forall_cons.
          -- intros x y [HA HB]. split; [done|]. by constructor.
      + intros [Hfine _]%Forall_cons. by rewrite (Hm Hfine).
  Qed.

  Lemma space_focus_step bd M g g' :
    in_step g g' →
    lock (Forall (λ b, fine b) M) (step_result M)
      (space_focus_inplace bd g M) (space_focus_inplace bd g' M).
  Proof.
    intros Hs. unfold space_focus_inplace. destruct bd.
    - unfold graph_focus_inplace. eapply lock_bind; [by apply measure_all_step|].
      intros [x rx] [y ry] (HA & HB & HC). cbn [fst snd] in *. subst ry. destruct rx as [[]|e].
      + eapply lock_bind.
        * eapply lock_weaken; [| |by apply update_memory_step]; [done|]. intros ? ? HH; exact HH.
        * intros a a' Ha. apply lock_val. split; [done|]. split; [done|]. by intros; apply HC.
      + apply lock_val. split; [done|]. by split.
    - unfold graph_focus_inplace_unchecked.
      eapply (lock_bind _ (λ x y, in_step x y ∧ Forall (λ b, fine b) M)).
      + eapply lock_bind; [by apply measure_unchecked_step|]. intros x y [Hxy HM].
        eapply lock_weaken; [| |by apply update_memory_step]; [done|]. intros a a' Ha. by split.
      + intros x y [Hxy HM]. apply lock_val. split; [done|]. by split.
  Qed.
End dangling.
