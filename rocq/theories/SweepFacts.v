(** * Facts about [Sweep] *)
From Verif Require Export Sweeping SearchFacts CoverFacts Termination.

Section generic.
  Context {T Item Leaf : Type} `{FI : FocusIterator T Item Leaf}.
  Implicit Types (s : Sweep T) (t c : T) (tr : list (Step Item (option Leaf))).

  Lemma sweep_next_forward s s' i :
    sweep_next s = Val (s', Some (Forward i)) →
    ∃ cur c, next_and_focus (current s) = Val (cur, Some (c, i)) ∧ s' = mkSweep c (cur :: stack s).
  Proof.
    unfold sweep_next. destruct (next_and_focus (current s)) as [[cur [[c j]|]]|]; [| |done]; cbn [obind].
    - intros [= <- <-]. by exists cur, c.
    - by destruct (stack s).
  Qed.

  Lemma sweep_next_backward s s' l :
    sweep_next s = Val (s', Some (Backward l)) →
    ∃ cur t st, next_and_focus (current s) = Val (cur, None) ∧ l = at_leaf cur ∧
      stack s = t :: st ∧ s' = mkSweep t st.
  Proof.
    unfold sweep_next. destruct (next_and_focus (current s)) as [[cur [[c j]|]]|]; [| |done]; cbn [obind].
    - done.
    - destruct (stack s) as [|t st] eqn:E; [done|]. intros [= <- <-]. by exists cur, t, st.
  Qed.

  Lemma sweep_next_none s s' :
    sweep_next s = Val (s', None) →
    ∃ cur, next_and_focus (current s) = Val (cur, None) ∧ stack s = [] ∧ s' = mkSweep cur [].
  Proof.
    unfold sweep_next. destruct (next_and_focus (current s)) as [[cur [[c j]|]]|]; [| |done]; cbn [obind].
    - done.
    - destruct (stack s) as [|t st] eqn:E; [|done]. intros [= <-]. by exists cur.
  Qed.

  Lemma sweep_run_app s tr s' tr' s'' :
    sweep_run s tr s' → sweep_run s' tr' s'' → sweep_run s (tr ++ tr') s''.
  Proof. induction 1; [done|]. intros. simpl. by eapply run_next; [|auto]. Qed.

  Lemma sweep_history_depth s d s' :
    sweep_history s d s' → Z.of_nat (length (stack s')) = (Z.of_nat (length (stack s)) + d)%Z.
  Proof.
    induction 1 as [s|s d s' i s'' _ IH E|s d s' l s'' _ IH E|s d s' s'' _ IH E|s d s' s'' _ IH E].
    - lia.
    - apply sweep_next_forward in E as (cur & c & _ & ->). simpl. lia.
    - apply sweep_next_backward in E as (cur & t & st & _ & _ & Es & ->). rewrite Es in IH. simpl in *. lia.
    - apply sweep_next_none in E as (cur & _ & Es & ->). rewrite Es in IH. simpl in *. lia.
    - unfold skip_current in E. destruct (stack s') as [|t st] eqn:Es; [done|]. injection E as <-.
      simpl in *. lia.
  Qed.

  (** ** The same subtree with a longer stack *)

  Lemma sweep_next_under s st s' below :
    sweep_next s = Val (s', Some st) →
    sweep_next (mkSweep (current s) (stack s ++ below)) = Val (mkSweep (current s') (stack s' ++ below), Some st).
  Proof.
    destruct st as [i|l]; intros E.
    - apply sweep_next_forward in E as (cur & c & E & ->). unfold sweep_next. simpl. by rewrite E.
    - apply sweep_next_backward in E as (cur & t & st & E & -> & Es & ->). unfold sweep_next. simpl.
      rewrite E. cbn [obind]. by rewrite Es.
  Qed.

  Lemma sweep_run_under s tr s' below :
    sweep_run s tr s' →
    sweep_run (mkSweep (current s) (stack s ++ below)) tr (mkSweep (current s') (stack s' ++ below)).
  Proof.
    induction 1 as [s|s st s' tr s'' E _ IH]; [constructor|].
    eapply run_next; [|exact IH]. by apply sweep_next_under.
  Qed.

  (** Visiting a child completely, and skipping it. *)
  Lemma sweep_subtree s s1 i tr s2 s3 :
    sweep_next s = Val (s1, Some (Forward i)) →
    sweep_run (sweep_new (current s1)) tr s2 → sweep_next s2 = Val (s3, None) →
    ∃ s', skip_current s1 = (s', Ok tt) ∧ stack s' = stack s ∧
      sweep_run s1 (tr ++ [Backward (at_leaf (current s3))]) s'.
  Proof.
    intros E Hr E3. apply sweep_next_forward in E as (cur & c & E & ->). simpl in *.
    exists (mkSweep cur (stack s)). split; [done|]. split; [done|].
    apply (sweep_run_under _ _ _ (cur :: stack s)) in Hr. simpl in Hr.
    eapply sweep_run_app; [exact Hr|]. apply sweep_next_none in E3 as (cur' & E' & Es & ->).
    rewrite Es. simpl. eapply run_next; [|constructor]. unfold sweep_next. simpl. by rewrite E'.
  Qed.

  (** ** Fused *)

  Lemma sweep_fused (P : T → Prop) s d s' :
    (∀ t t', P t → next_and_focus t = Val (t', None) → P t' ∧ ∃ t'', next_and_focus t' = Val (t'', None)) →
    (∀ t t' c i, P t → next_and_focus t = Val (t', Some (c, i)) → P t' ∧ P c) →
    P (current s) → Forall P (stack s) → sweep_history s d s' →
    P (current s') ∧ Forall P (stack s') ∧
    ∀ s'', sweep_next s' = Val (s'', None) → ∃ s3, sweep_next s'' = Val (s3, None).
  Proof.
    intros Hn Hs Hc Hst Hh.
    assert (P (current s') ∧ Forall P (stack s')) as [Hc' Hst'].
    { induction Hh as [s|s d s' i s'' _ IH E|s d s' l s'' _ IH E|s d s' s'' _ IH E|s d s' s'' _ IH E];
        [done|destruct (IH Hc Hst) as [Hc' Hst']..].
      - apply sweep_next_forward in E as (cur & c & E & ->). simpl.
        destruct (Hs _ _ _ _ Hc' E). split; [done|]. by constructor.
      - apply sweep_next_backward in E as (cur & t & st & E & _ & Es & ->). rewrite Es in Hst'.
        inversion Hst'; subst. done.
      - apply sweep_next_none in E as (cur & E & Es & ->). simpl. split; [|done]. by apply (Hn _ _ Hc' E).
      - unfold skip_current in E. destruct (stack s') as [|t st] eqn:Es; [done|]. injection E as <-.
        inversion Hst'; subst. done. }
    split; [done|]. split; [done|]. intros s'' E. apply sweep_next_none in E as (cur & E & Es & ->).
    destruct (Hn _ _ Hc' E) as [_ (t'' & E')]. exists (mkSweep t'' []). unfold sweep_next. simpl. by rewrite E'.
  Qed.

  (** ** Big steps *)

  (** All paths recorded below a node, in order. *)
  Inductive visits (p : list Item) : T → list (list Item * Leaf) → Prop :=
  | visits_end t t' :
      next_and_focus t = Val (t', None) →
      visits p t (match at_leaf t' with Some l => [(p, l)] | None => [] end)
  | visits_child t t' c i ps qs :
      next_and_focus t = Val (t', Some (c, i)) → visits (p ++ [i]) c ps → visits p t' qs →
      visits p t (ps ++ qs).

  (** The same without the final look whether the node is a leaf. *)
  Inductive visits_root (p : list Item) : T → list (list Item * Leaf) → Prop :=
  | root_end t t' :
      next_and_focus t = Val (t', None) → visits_root p t []
  | root_child t t' c i ps qs :
      next_and_focus t = Val (t', Some (c, i)) → visits (p ++ [i]) c ps → visits_root p t' qs →
      visits_root p t (ps ++ qs).

  Lemma visits_fun p t ps qs : visits p t ps → visits p t qs → ps = qs.
  Proof.
    intros Hv. revert qs. induction Hv as [p t t' E|p t t' c i ps qs E _ IH1 _ IH2]; intros rs;
      inversion 1; subst;
      match goal with E' : next_and_focus t = _ |- _ => rewrite E in E'; simplify_eq end;
      [done|]. f_equal; auto.
  Qed.

  Lemma visits_root_fun p t ps qs : visits_root p t ps → visits_root p t qs → ps = qs.
  Proof.
    intros Hv. revert qs. induction Hv as [t t' E|t t' c i ps qs E Hps _ IH2]; intros rs;
      inversion 1; subst;
      match goal with E' : next_and_focus t = _ |- _ => rewrite E in E'; simplify_eq end;
      [done|]. f_equal; [by eapply visits_fun|auto].
  Qed.

  Lemma pop_last {A} (l : list A) x : pop (l ++ [x]) = l.
  Proof. unfold pop. rewrite app_length. simpl. rewrite Nat.add_sub. apply take_app. Qed.

  Lemma visits_collect p t ps :
    visits p t ps → ∀ par st results, ∃ k, ∀ fuel,
      loop collect_body (k + fuel) (mkSweep t (par :: st), p, results)
      = loop collect_body fuel (mkSweep par st, pop p, results ++ ps).
  Proof.
    induction 1 as [p t t' E|p t t' c i ps qs E _ IH1 _ IH2]; intros par st results.
    - exists 1. intros fuel. simpl. unfold sweep_next. simpl. rewrite E. cbn [obind].
      destruct (at_leaf t'); [done|]. by rewrite app_nil_r.
    - destruct (IH1 t' (par :: st) results) as [k1 H1].
      destruct (IH2 par st (results ++ ps)) as [k2 H2]. exists (S (k1 + k2)). intros fuel.
      simpl. unfold sweep_next. simpl. rewrite E. cbn [obind]. rewrite <- Nat.add_assoc, H1.
      rewrite pop_last, H2. by rewrite app_assoc.
  Qed.

  Lemma visits_root_collect p t ps :
    visits_root p t ps → ∀ results, ∃ k, ∀ fuel,
      loop collect_body (S k + fuel) (mkSweep t [], p, results) = Some (Val (results ++ ps)).
  Proof.
    induction 1 as [t t' E|t t' c i ps qs E Hps _ IH]; intros results.
    - exists 0. intros fuel. simpl. unfold sweep_next. simpl. rewrite E. cbn [obind]. by rewrite app_nil_r.
    - destruct (visits_collect _ _ _ Hps t' [] results) as [k1 H1].
      destruct (IH (results ++ ps)) as [k2 H2]. exists (k1 + S k2). intros fuel.
      simpl. unfold sweep_next. simpl. rewrite E. cbn [obind]. rewrite <- Nat.add_assoc, H1.
      rewrite pop_last, H2. by rewrite app_assoc.
  Qed.
End generic.

(** ** Ordered Bell numbers *)

Lemma ordered_bell_upto_stable f f' n :
  n ≤ f → n ≤ f' → ordered_bell_upto f n = ordered_bell_upto f' n.
Proof.
  revert f' n. induction f as [|f IH]; intros f' n Hf Hf'.
  - assert (n = 0) as -> by lia. by destruct f'.
  - destruct f' as [|f']; [by assert (n = 0) as -> by lia|].
    destruct n as [|n]; [done|]. cbn [ordered_bell_upto]. f_equal. apply map_ext_in. intros k Hk.
    apply in_seq in Hk. f_equal. apply IH; lia.
Qed.

Lemma ordered_bell_S n :
  n ≠ 0 → ordered_bell n = sum_list (map (λ k, choose n k * ordered_bell k) (seq 0 n)).
Proof.
  intros Hn. unfold ordered_bell. destruct n as [|n]; [done|]. cbn [ordered_bell_upto]. f_equal.
  apply map_ext_in. intros k Hk. apply in_seq in Hk. f_equal. apply ordered_bell_upto_stable; lia.
Qed.

Lemma choose_0 n : choose n 0 = 1.
Proof. by destruct n. Qed.

Lemma choose_shift m k d : choose m k ≤ choose (d + m) (d + k).
Proof. induction d as [|d IH]; [done|]. simpl. lia. Qed.

Lemma choose_full n : choose n n = 1.
Proof.
  assert (∀ n k, n < k → choose n k = 0) as Hz.
  { induction n0 as [|n0 IH]; intros [|k] Hk; simpl; try lia. rewrite !IH; lia. }
  induction n as [|n IH]; [done|]. simpl. rewrite IH, Hz; lia.
Qed.

Lemma splits_length_choose {A} k (l : list A) : length (splits k l) = choose (length l) k.
Proof.
  revert k. induction l as [|x l IH]; intros [|k]; simpl; [done..|].
  rewrite app_length, !map_length, !IH. done.
Qed.

Lemma sum_list_const {A} (f : A → nat) (l : list A) c :
  (∀ x, x ∈ l → f x = c) → sum_list (map f l) = length l * c.
Proof.
  induction l as [|x l IH]; intros H; [done|]. simpl.
  rewrite (H x) by left. rewrite IH; [done|]. intros y Hy. apply H. by right.
Qed.

Lemma sum_list_concat (l : list (list nat)) : sum_list (concat l) = sum_list (map sum_list l).
Proof. induction l as [|x l IH]; simpl; [done|]. by rewrite sum_list_with_app, IH. Qed.

(** The items of a fresh node, weighted. *)
Definition item_weight {A} (u : nat) (it : list A * list A) : nat :=
  match it.2 with [] => 0 | _ => ordered_bell (u - length it.2) end.

Lemma all_splits_weight {A} (l : list A) u :
  sum_list (map (item_weight u) (all_splits l))
  = sum_list (map (λ k, choose (length l) k * ordered_bell (u - (length l - k))) (seq 0 (length l))).
Proof.
  rewrite all_splits_last, map_app, sum_list_with_app. simpl. rewrite !Nat.add_0_r.
  rewrite concat_map, sum_list_concat, !map_map. f_equal. apply map_ext_in. intros k Hk.
  apply in_seq in Hk. rewrite (sum_list_const _ _ (ordered_bell (u - (length l - k)))).
  - by rewrite splits_length_choose.
  - intros [a b] Hab. apply splits_shuffle in Hab as [Hs Ha]. apply shuffle_length in Hs.
    unfold item_weight. simpl in *. destruct b as [|y b]; [simpl in *; lia|]. do 2 f_equal. lia.
Qed.

Lemma sum_list_le {A} (f f' : A → nat) l :
  (∀ x, x ∈ l → f x ≤ f' x) → sum_list (map f l) ≤ sum_list (map f' l).
Proof.
  induction l as [|x l IH]; intros H; [done|]. simpl.
  assert (f x ≤ f' x) by (apply H; left). assert (sum_list (map f l) ≤ sum_list (map f' l)); [|lia].
  apply IH. intros y Hy. apply H. by right.
Qed.

Lemma all_splits_bell {A} (l : list A) u :
  l ≠ [] → length l ≤ u → sum_list (map (item_weight u) (all_splits l)) ≤ ordered_bell u.
Proof.
  intros Hl Hu. assert (length l ≠ 0) by (by destruct l). rewrite all_splits_weight.
  rewrite (ordered_bell_S u) by lia.
  assert (seq 0 u = seq 0 (u - length l) ++ seq (u - length l) (length l)) as ->.
  { rewrite <- seq_app. f_equal. lia. }
  rewrite map_app.
  rewrite sum_list_with_app. simpl. set (d := u - length l).
  assert (sum_list (map (λ k, choose (length l) k * ordered_bell (u - (length l - k))) (seq 0 (length l)))
    ≤ sum_list (map (λ k, choose u k * ordered_bell k) (seq d (length l)))); [|lia].
  replace (seq d (length l)) with (map (λ k, d + k) (seq 0 (length l))).
  - rewrite map_map. apply sum_list_le. intros k Hk. apply elem_of_seq in Hk.
    replace (u - (length l - k)) with (d + k) by (unfold d; lia). apply Nat.mul_le_mono_r.
    replace u with (d + length l) by (unfold d; lia). apply choose_shift.
  - clearbody d. clear. induction (length l) as [|n IH]; [done|].
    rewrite !seq_S, map_app. simpl. by rewrite IH.
Qed.

Lemma all_splits_bell_eq {A} (l : list A) :
  l ≠ [] → sum_list (map (item_weight (length l)) (all_splits l)) = ordered_bell (length l).
Proof.
  intros Hl. assert (length l ≠ 0) by (by destruct l). rewrite all_splits_weight.
  rewrite (ordered_bell_S (length l)) by lia. f_equal. apply map_ext_in. intros k Hk. apply in_seq in Hk.
  do 2 f_equal. lia.
Qed.
