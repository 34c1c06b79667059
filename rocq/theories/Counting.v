(** * Counting: how many objects have a property *)
From stdpp Require Import prelude list.

(** Exactly [n] objects satisfy [P]. *)
Definition exactly {A} (n : nat) (P : A → Prop) : Prop :=
  ∃ l : list A, NoDup l ∧ (∀ a, a ∈ l ↔ P a) ∧ length l = n.

Lemma exactly_iff {A} n (P Q : A → Prop) : (∀ a, P a ↔ Q a) → exactly n P → exactly n Q.
Proof. intros H (l & ? & Hl & ?). exists l. split_and!; [done| |done]. intros a. by rewrite Hl. Qed.

Lemma exactly_unique {A} n n' (P : A → Prop) : exactly n P → exactly n' P → n = n'.
Proof.
  intros (l & Hn & Hl & <-) (l' & Hn' & Hl' & <-). apply Permutation_length, NoDup_Permutation; [done..|].
  intros a. by rewrite Hl, Hl'.
Qed.

(** The objects of the list [values] that satisfy [f]. *)
Definition hits {A} (f : A → bool) (values : list A) : nat := length (List.filter f values).

Lemma exactly_hits {A} (f : A → bool) values : NoDup values →
  exactly (hits f values) (λ a, a ∈ values ∧ f a = true).
Proof.
  intros Hn. exists (List.filter f values). split_and!; [|intros a; by rewrite !elem_of_list_In, filter_In|done].
  apply NoDup_ListNoDup, List.NoDup_filter. by apply NoDup_ListNoDup.
Qed.

Lemma hits_not {A} (f : A → bool) values : hits f values + hits (λ a, negb (f a)) values = length values.
Proof. unfold hits. induction values as [|a l IH]; simpl; [done|]. destruct (f a); simpl; lia. Qed.

Lemma NoDup_bind {A B} (f : A → list B) l :
  NoDup l → (∀ a, a ∈ l → NoDup (f a)) → (∀ a b y, a ∈ l → b ∈ l → y ∈ f a → y ∈ f b → a = b) → NoDup (l ≫= f).
Proof.
  induction 1 as [|a l Ha Hl IH]; intros Hf Hi; csimpl; [constructor|]. apply NoDup_app. split_and!.
  - apply Hf. by left.
  - intros y Hy Hy'. apply elem_of_list_bind in Hy' as (b & Hy' & Hb). apply Ha.
    rewrite (Hi a b y); [done|by left|by right|done|done].
  - apply IH; [intros; apply Hf; by right|]. intros; eapply Hi; try (by right); done.
Qed.

Lemma bind_length {A B} (f : A → list B) l n : (∀ a, a ∈ l → length (f a) = n) → length (l ≫= f) = length l * n.
Proof.
  induction l as [|a l IH]; intros H; csimpl; [done|]. rewrite app_length, IH by (intros; apply H; by right).
  by rewrite H by by left.
Qed.

(** Product of a list. *)
Definition product (l : list nat) : nat := foldr Nat.mul 1 l.

Lemma product_app l l' : product (l ++ l') = product l * product l'.
Proof. induction l as [|a l IH]; simpl; [lia|]. unfold product in *. simpl. rewrite IH. lia. Qed.
Lemma product_perm l l' : l ≡ₚ l' → product l = product l'.
Proof. unfold product. induction 1; simpl; lia. Qed.
Lemma product_two {A} (f : A → bool) x y l :
  product ((λ a, if f a then x else y) <$> l) = x ^ hits f l * y ^ (length l - hits f l).
Proof.
  unfold hits. induction l as [|a l IH]; [done|]. unfold product in *. csimpl. rewrite IH.
  assert (length (List.filter f l) <= length l) as H by (clear; induction l as [|a l IH]; simpl; [lia|destruct (f a); simpl; lia]).
  destruct (f a); csimpl; [lia|]. rewrite Nat.sub_succ_l by done. simpl. lia.
Qed.
Lemma product_const {A} x (l : list A) : product ((λ _, x) <$> l) = x ^ length l.
Proof. unfold product. induction l as [|a l IH]; [done|]. csimpl. by rewrite IH. Qed.

(** The lists whose [i]-th element is in the [i]-th list. *)
Fixpoint vectors {A} (ls : list (list A)) : list (list A) :=
  match ls with [] => [[]] | l :: ls => l ≫= λ a, cons a <$> vectors ls end.

Lemma vectors_elem {A} (ls : list (list A)) v : v ∈ vectors ls ↔ Forall2 (λ a l, a ∈ l) v ls.
Proof.
  revert v. induction ls as [|l ls IH]; intros v; simpl.
  - rewrite elem_of_list_singleton. split; [intros ->; constructor|]. intros H. by inversion H.
  - rewrite elem_of_list_bind. split.
    + intros (a & Hv & Ha). apply elem_of_list_fmap in Hv as (w & -> & Hw). constructor; [done|]. by apply IH.
    + intros H. inversion H as [|a ? w ? Ha Hw]; subst. exists a. split; [|done]. apply elem_of_list_fmap.
      exists w. split; [done|]. by apply IH.
Qed.

Lemma vectors_length {A} (ls : list (list A)) : length (vectors ls) = product (length <$> ls).
Proof.
  induction ls as [|l ls IH]; [done|]. cbn [vectors]. rewrite (bind_length _ _ (length (vectors ls))).
  - by rewrite IH.
  - intros a _. by rewrite fmap_length.
Qed.

Lemma vectors_nodup {A} (ls : list (list A)) : Forall NoDup ls → NoDup (vectors ls).
Proof.
  induction 1 as [|l ls Hl _ IH]; [apply NoDup_singleton|]. cbn [vectors]. apply NoDup_bind; [done|..].
  - intros a _. apply NoDup_fmap_2; [|done]. by intros ?? [= ->].
  - intros a b y _ _ Ha Hb. apply elem_of_list_fmap in Ha as (? & -> & _). by apply elem_of_list_fmap in Hb as (? & [= ->] & _).
Qed.
