(** * The number of schedules is odd *)
From stdpp Require Import sorting.
From Verif Require Import MainSweep MainOrder MainAmount.

(** ** Pairs *)

Lemma paired (R : nat → nat → Prop) (I : list nat) :
  NoDup I → (∀ i j, R i j → R j i) → (∀ i j j', R i j → R i j' → j = j') → (∀ i, ¬ R i i) →
  (∀ i, i ∈ I → ∃ j, j ∈ I ∧ R i j) → Nat.Even (length I).
Proof.
  intros Hnd Hsym Hfun Hirr. remember (length I) as n eqn:En. revert I Hnd En.
  induction n as [n IH] using lt_wf_ind. intros I Hnd En Hex.
  destruct I as [|i I]; simpl in En; [subst; by exists 0|].
  destruct (Hex i) as (j & Hj & HR); [left|]. apply elem_of_cons in Hj as [->|Hj]; [by destruct (Hirr i)|].
  apply elem_of_Permutation in Hj as (I' & HI').
  pose proof (Permutation_length HI') as Hlen. simpl in Hlen.
  assert (NoDup (i :: j :: I')) as Hnd' by (by rewrite <- HI').
  apply NoDup_cons in Hnd' as [Hi Hnd']. apply NoDup_cons in Hnd' as [Hj Hnd'].
  destruct (IH (length I')) with (I := I') as (m & Hm); [lia|done|done| |exists (S m); lia].
  intros i' Hi'. destruct (Hex i') as (j' & Hj' & HR').
  { rewrite HI'. by do 2 right. }
  exists j'. split; [|done]. rewrite HI' in Hj'.
  apply elem_of_cons in Hj' as [->|Hj'].
  { destruct Hj. rewrite (Hfun i j i'); [done|done|by apply Hsym]. }
  apply elem_of_cons in Hj' as [->|Hj']; [|done].
  destruct Hi. rewrite (Hfun j i i'); [by right|by apply Hsym|by apply Hsym].
Qed.

(** ** Partners of schedules *)

Section flip.
  Context (pos : nat → nat).

  (** At the first place where this is possible, the last qubit of a step gets a step
      of its own, or the other way round. *)
  Inductive flip : schedule → schedule → Prop :=
  | flip_split m B C σ : B ≡ₚ m :: C → C ≠ [] → (∀ c, c ∈ C → pos c < pos m) →
      flip (B :: σ) ([m] :: C :: σ)
  | flip_merge m B C σ : B ≡ₚ m :: C → C ≠ [] → (∀ c, c ∈ C → pos c < pos m) →
      flip ([m] :: C :: σ) (B :: σ)
  | flip_later x y C σ τ : y ∈ C → pos x < pos y → flip (C :: σ) τ → flip ([x] :: C :: σ) ([x] :: τ).

  Lemma flip_max C σ τ x y : flip (C :: σ) τ → y ∈ C → x < pos y →
    ∃ C' τ' y', τ = C' :: τ' ∧ y' ∈ C' ∧ x < pos y'.
  Proof.
    intros Hf Hy Hx. inversion Hf as [m0 B0 C0 σ0 HB0 HC0 Hm0|m0 B0 C0 σ0 HB0 HC0 Hm0|x0 y0 C0 σ0 τ0 Hy0 Hx0 Hf0]; subst.
    - exists [m0], (C0 :: σ), m0. split; [done|]. split; [left|].
      rewrite HB0 in Hy. apply elem_of_cons in Hy as [->|Hy]; [done|]. apply Hm0 in Hy. lia.
    - apply elem_of_list_singleton in Hy as ->. exists B0, σ0, m0. split; [done|]. split; [|done]. rewrite HB0. left.
    - apply elem_of_list_singleton in Hy as ->. exists [x0], τ0, x0. split; [done|]. split; [left|done].
  Qed.

  Lemma flip_sym σ τ : flip σ τ → flip τ σ.
  Proof.
    induction 1 as [| |x y C σ τ Hy Hx Hf IH]; [by constructor..|].
    destruct (flip_max _ _ _ _ _ Hf Hy Hx) as (C' & τ' & y' & -> & Hy' & Hx'). by eapply flip_later.
  Qed.

  Lemma flip_length σ τ : flip σ τ → length τ = S (length σ) ∨ length σ = S (length τ).
  Proof. induction 1; simpl in *; lia. Qed.

  Lemma flip_fun σ τ σ' τ' : flip σ τ → flip σ' τ' → same_schedule σ σ' → same_schedule τ τ'.
  Proof.
    intros Hf. revert σ' τ'.
    induction Hf as [m B C σ HB HC Hm|m B C σ HB HC Hm|x y C σ τ Hy Hx Hf IH]; intros σ' τ' Hf' Hs.
    - inversion Hs as [|? B' ? ρ HBB Hρ]; subst. inversion Hf' as [m0 B0 C0 σ0 HB0 HC0 Hm0|m0 B0 C0 σ0 HB0 HC0 Hm0|x0 y0 C0 σ0 τ0 Hy0 Hx0 Hf0]; subst.
      + assert (m = m0) as ->.
        { assert (m :: C ≡ₚ m0 :: C0) as E by (by rewrite <- HB, HBB).
          assert (m ∈ m0 :: C0) as E1 by (rewrite <- E; left).
          assert (m0 ∈ m :: C) as E2 by (rewrite E; left).
          apply elem_of_cons in E1 as [E1|E1]; [done|]. apply elem_of_cons in E2 as [E2|E2]; [done|].
          apply Hm in E2. apply Hm0 in E1. lia. }
        repeat constructor; [|done]. apply (Permutation_cons_inv (a := m0)). by rewrite <- HB, HBB.
      + apply Permutation_length in HBB. rewrite HB in HBB. destruct C; simpl in *; [done|lia].
      + apply Permutation_length in HBB. rewrite HB in HBB. destruct C; simpl in *; [done|lia].
    - inversion Hs as [|? M' ? ρ HMM Hρ]; subst. inversion Hρ as [|? C' ? ρ' HCC Hρ']; subst. inversion Hf' as [m0 B0 C0 σ0 HB0 HC0 Hm0|m0 B0 C0 σ0 HB0 HC0 Hm0|x0 y0 C0 σ0 τ0 Hy0 Hx0 Hf0]; subst.
      + apply Permutation_length in HMM. rewrite HB0 in HMM. destruct C0; simpl in *; [done|lia].
      + apply Permutation_singleton_inj in HMM as <-. constructor; [|done]. by rewrite HB, HB0, HCC.
      + apply Permutation_singleton_inj in HMM as <-. rewrite <- HCC in Hy0. apply Hm in Hy0. lia.
    - inversion Hs as [|? M' ? ρ HMM Hρ]; subst. inversion Hρ as [|? C' ? ρ' HCC Hρ']; subst. inversion Hf' as [m0 B0 C0 σ0 HB0 HC0 Hm0|m0 B0 C0 σ0 HB0 HC0 Hm0|x0 y0 C0 σ0 τ0 Hy0 Hx0 Hf0]; subst.
      + apply Permutation_length in HMM. rewrite HB0 in HMM. destruct C0; simpl in *; [done|lia].
      + apply Permutation_singleton_inj in HMM as <-. rewrite HCC in Hy. apply Hm0 in Hy. lia.
      + constructor; [done|]. by eapply IH.
  Qed.

  (** The schedule without a partner. *)
  Fixpoint increasing (σ : schedule) : Prop :=
    match σ with
    | [] => True
    | M :: σ' => (∃ x, M = [x] ∧ ∀ y, y ∈ default [] (head σ') → pos x < pos y) ∧ increasing σ'
    end.

  Lemma last_one (B : list nat) : (∀ x y, x ∈ B → y ∈ B → pos x = pos y → x = y) → NoDup B → B ≠ [] →
    ∃ m C, B ≡ₚ m :: C ∧ ∀ c, c ∈ C → pos c < pos m.
  Proof.
    induction B as [|b B IH]; intros Hinj Hnd Hne; [done|]. apply NoDup_cons in Hnd as [Hb Hnd].
    destruct B as [|b' B']; [exists b, []; split; [done|]; by intros c Hc%elem_of_nil|].
    destruct IH as (m & C & HB & Hm); [|done|done|].
    { intros x y Hx Hy. apply Hinj; by right. }
    assert (b ≠ m) as Hbm. { intros ->. apply Hb. rewrite HB. left. }
    destruct (decide (pos b < pos m)) as [Hlt|Hge].
    - exists m, (b :: C). split; [rewrite HB; apply Permutation_swap|].
      intros c [->|Hc]%elem_of_cons; [done|by apply Hm].
    - assert (pos b ≠ pos m) as Hp. { intros E. apply Hbm, Hinj; [left|right; rewrite HB; left|done]. }
      exists b, (m :: C). split; [by rewrite HB|]. intros c [->|Hc]%elem_of_cons; [lia|]. apply Hm in Hc. lia.
  Qed.

  Lemma flip_total σ : (∀ x y, x ∈ concat σ → y ∈ concat σ → pos x = pos y → x = y) → NoDup (concat σ) →
    [] ∉ σ → increasing σ ∨ ∃ τ, flip σ τ.
  Proof.
    induction σ as [|B σ IH]; intros Hinj Hnd Hne; [by left|]. simpl in *.
    apply NoDup_app in Hnd as (HndB & Hdis & Hnd). apply not_elem_of_cons in Hne as [HneB Hne].
    destruct (last_one B) as (m & C & HB & Hm); [|done|by intros ->|].
    { intros x y Hx Hy. apply Hinj; apply elem_of_app; by left. }
    destruct C as [|c C]; [|right; eexists; by apply (flip_split m B (c :: C))].
    apply Permutation_singleton_r in HB as ->. destruct σ as [|D σ].
    { left. split; [|done]. exists m. split; [done|]. simpl. by intros y Hy%elem_of_nil. }
    pose proof Hne as Hne'. apply not_elem_of_cons in Hne' as [HneD _].
    destruct (last_one D) as (n & E & HD & Hn); [| |by intros ->|].
    { intros x y Hx Hy. apply Hinj; simpl; right; apply elem_of_app; by left. }
    { simpl in Hnd. apply NoDup_app in Hnd as [Hnd _]. done. }
    assert (n ∈ D) as HnD by (rewrite HD; left).
    assert (m ≠ n) as Hmn. { intros ->. apply (Hdis n); [left|]. simpl. apply elem_of_app. by left. }
    assert (pos m ≠ pos n) as Hp.
    { intros Ep. apply Hmn, Hinj; [left| |done]. simpl. right. apply elem_of_app. by left. }
    destruct (decide (pos m < pos n)) as [Hlt|Hge].
    - destruct IH as [Hi|(τ & Hτ)]; [|done|done| |].
      { intros x y Hx Hy. apply Hinj; by right. }
      + left. split; [|done]. exists m. split; [done|]. simpl. destruct Hi as [(z & -> & _) _].
        apply elem_of_list_singleton in HnD as ->. by intros y ->%elem_of_list_singleton.
      + right. eexists. by eapply flip_later.
    - right. eexists. apply (flip_merge m (m :: D)); [done|done|].
      intros c Hc. rewrite HD in Hc. apply elem_of_cons in Hc as [->|Hc]; [lia|]. apply Hn in Hc. lia.
  Qed.

  Lemma flip_increasing σ τ : flip σ τ → ¬ increasing σ.
  Proof.
    induction 1 as [m B C σ HB HC Hm|m B C σ HB HC Hm|x y C σ τ Hy Hx Hf IH].
    - intros [(x & -> & _) _]. apply Permutation_length in HB. destruct C; [done|]. simpl in HB. lia.
    - intros [(x & E & Hx) _]. injection E as <-. destruct C as [|c C]; [done|]. simpl in Hx.
      pose proof (Hm c ltac:(left)). pose proof (Hx c ltac:(left)). lia.
    - by intros [_ H].
  Qed.

  Lemma increasing_sorted σ : increasing σ →
    ∃ l, σ = map (λ b, [b]) l ∧ Sorted (λ x y, pos x < pos y) l.
  Proof.
    induction σ as [|M σ IH]; [by exists []|]. intros [(x & -> & Hx) Hi].
    destruct (IH Hi) as (l & -> & Hl). exists (x :: l). split; [done|]. constructor; [done|].
    destruct l as [|y l]; constructor. apply Hx. left.
  Qed.

  Lemma sorted_increasing l : Sorted (λ x y, pos x < pos y) l → increasing (map (λ b, [b]) l).
  Proof.
    induction 1 as [|x l Hl IH Hx]; [done|]. split; [|done]. exists x. split; [done|].
    destruct Hx; simpl; [by intros y Hy%elem_of_nil|]. by intros y ->%elem_of_list_singleton.
  Qed.
End flip.

(** A step can be made in two. *)
Lemma one_by_one g σ M M' τ :
  valid_schedule g (σ ++ (M ++ M') :: τ) → M ≠ [] → M' ≠ [] → valid_schedule g (σ ++ M :: M' :: τ).
Proof.
  intros [[H1 H2 H3 H4] H5] HM HM'.
  assert (concat (σ ++ M :: M' :: τ) = concat (σ ++ (M ++ M') :: τ)) as E.
  { rewrite !concat_app. simpl. by rewrite <- app_assoc. }
  split; [split|].
  - intros X HX. apply elem_of_app in HX as [HX|HX]; [apply H1, elem_of_app; by left|].
    apply elem_of_cons in HX as [->|HX]; [done|]. apply elem_of_cons in HX as [->|HX]; [done|].
    apply H1, elem_of_app. right. by right.
  - by rewrite E.
  - intros b. rewrite E. apply H3.
  - intros k X b d Hk Hb Hdep. destruct (decide (k < length σ)) as [Hlt|Hge].
    { rewrite lookup_app_l in Hk by done. rewrite take_app_le by lia.
      pose proof (H4 k X b d) as H. rewrite lookup_app_l, take_app_le in H by lia. by apply H. }
    rewrite lookup_app_r in Hk by lia.
    assert (b ∈ M ++ M' → d ∈ concat σ) as H0.
    { intros Hb'. pose proof (H4 (length σ) (M ++ M') b d) as H.
      rewrite list_lookup_middle, take_app in H by done. by apply H. }
    destruct (k - length σ) as [|[|m]] eqn:Em; simpl in Hk.
    + assert (k = length σ) as -> by lia. injection Hk as <-. rewrite take_app. apply H0, elem_of_app. by left.
    + replace k with (length σ + 1) by lia. injection Hk as <-. rewrite take_add_app by done.
      rewrite concat_app. apply elem_of_app. left. apply H0, elem_of_app. by right.
    + pose proof (H4 (length σ + S m) X b d) as H.
      rewrite lookup_app_r, take_add_app in H by lia.
      replace (length σ + S m - length σ) with (S m) in H by lia. specialize (H Hk Hb Hdep).
      replace k with (length σ + S (S m)) by lia. rewrite take_add_app by done.
      rewrite concat_app in *. simpl in *. by rewrite <- app_assoc in H.
  - intros b. rewrite E. apply H5.
Qed.

Lemma same_middle (σ : schedule) M M' τ : M ≡ₚ M' → same_schedule (σ ++ M :: τ) (σ ++ M' :: τ).
Proof.
  intros H. apply same_schedule_app; [apply same_schedule_refl|]. constructor; [done|apply same_schedule_refl].
Qed.

Lemma flip_valid pos g ρ σ τ : (∀ b d, depends g b d → pos d < pos b) →
  flip pos σ τ → valid_schedule g (ρ ++ σ) → valid_schedule g (ρ ++ τ).
Proof.
  intros Hpos Hf. revert ρ.
  induction Hf as [m B C σ HB HC Hm|m B C σ HB HC Hm|x y C σ τ Hy Hx Hf IH]; intros ρ Hv.
  - apply (one_by_one g ρ [m] C σ); [|done|done]. eapply same_valid; [|exact Hv]. by apply same_middle.
  - apply (same_valid g (ρ ++ ([m] ++ C) :: σ)); [by apply same_middle|]. apply at_once; [done|].
    intros b d Hb ->%elem_of_list_singleton Hd. apply Hpos in Hd. apply Hm in Hb. lia.
  - specialize (IH (ρ ++ [[x]])). rewrite <- !app_assoc in IH. by apply IH.
Qed.

(** ** The place in a list *)

Definition place (l : list nat) (x : nat) : nat := default 0 (fst <$> list_find (x =.) l).

Lemma place_lookup l i x : NoDup l → l !! i = Some x → place l x = i.
Proof.
  intros Hnd Hi. unfold place. destruct (list_find_elem_of (x =.) l x) as ([j y] & Hj); [by eapply elem_of_list_lookup_2|done|].
  rewrite Hj. simpl. apply list_find_Some in Hj as (Hj & <- & _). by eapply NoDup_lookup.
Qed.

Lemma place_sorted l : NoDup l → Sorted (λ x y, place l x < place l y) l.
Proof.
  intros Hnd. assert (∀ l1 l2, l = l1 ++ l2 → Sorted (λ x y, place l x < place l y) l2) as H; [|by apply (H [])].
  intros l1 l2. revert l1. induction l2 as [|x l2 IH]; intros l1 E; [constructor|]. constructor.
  - apply (IH (l1 ++ [x])). by rewrite <- app_assoc.
  - destruct l2 as [|y l2]; constructor.
    rewrite (place_lookup l (length l1) x), (place_lookup l (S (length l1)) y); [lia|done| |done|].
    + rewrite E, lookup_app_r by lia. by replace (S (length l1) - length l1) with 1 by lia.
    + by rewrite E, list_lookup_middle.
Qed.

Lemma same_singles σ l : same_schedule σ (map (λ b, [b]) l) → σ = map (λ b, [b]) l.
Proof.
  revert σ. induction l as [|x l IH]; intros σ Hs; inversion Hs as [|M ? ρ ? HM Hρ]; subst; [done|].
  apply Permutation_singleton_r in HM as ->. simpl. f_equal. by apply IH.
Qed.

(** There is an odd number of schedules. *)
Lemma amount_odd :
  ∀ adj g k, wf_input adj g → amount g k → Nat.Odd k.
Proof.
  intros adj g k Hin (L & <- & HL).
  destruct (time_optimal_valid adj g Hin) as (p & _ & [Hv _] & _).
  set (l := concat (steps p)). pose proof (Metamorphic.singles_valid g _ Hv) as Hs. fold l in Hs.
  assert (NoDup l) as Hnd by apply Hv. set (pos := place l).
  assert (∀ l', concat (map (λ b : nat, [b]) l') = l') as Hconcat.
  { intros l'. induction l' as [|x l' IH]; [done|]. simpl. by rewrite IH. }
  assert (∀ b, listed g b → ∃ i, l !! i = Some b) as Hlist.
  { intros b Hb. apply elem_of_list_lookup. by apply Hv. }
  assert (∀ x y, listed g x → listed g y → pos x = pos y → x = y) as Hinj.
  { intros x y Hx Hy E. destruct (Hlist x Hx) as (i & Hi), (Hlist y Hy) as (j & Hj). unfold pos in E.
    rewrite (place_lookup l i x), (place_lookup l j y) in E by done. congruence. }
  assert (∀ b d, depends g b d → pos d < pos b) as Hpos.
  { intros b d Hd. destruct (Hlist b) as (i & Hi); [destruct Hd as (y & ds & ? & ? & _); by exists y, ds|].
    assert (d ∈ concat (take i (map (λ b, [b]) l))) as H.
    { apply (lp_order _ _ (vs_legal _ _ Hs) i [b] b d); [|left|done].
      unfold Metamorphic.singles. rewrite list_lookup_fmap. by rewrite Hi. }
    rewrite firstn_map, Hconcat in H. apply elem_of_take in H as (j & Hj & Hlt). unfold pos.
    by rewrite (place_lookup l i b), (place_lookup l j d). }
  assert (increasing pos (map (λ b, [b]) l)) as Hinc by (by apply sorted_increasing, place_sorted).
  assert (∀ σ, valid_schedule g σ → increasing pos σ → σ = map (λ b, [b]) l) as Huniq.
  { intros σ Hσ Hi. destruct (increasing_sorted _ _ Hi) as (l' & -> & Hl'). f_equal.
    destruct Hσ as [[_ Hnd' Hl'' _] Hc]. rewrite Hconcat in *.
    assert (Transitive (λ x y, pos x < pos y)) by (intros x y z; lia).
    assert (AntiSymm (=) (λ x y, pos x < pos y)) by (intros x y; lia).
    apply (Sorted_unique (λ x y, pos x < pos y)); [done|by apply place_sorted|].
    apply NoDup_Permutation; [done|done|]. intros b. split; intros Hb.
    - by apply (vs_complete _ _ Hv), Hl''.
    - by apply Hc, (lp_listed _ _ (vs_legal _ _ Hv)). }
  destruct (lists_find _ _ _ HL Hs) as (i0 & τ0 & Hi0 & Hτ0). apply same_singles in Hτ0 as ->.
  set (R i j := ∃ σ τ σ' τ', L !! i = Some σ ∧ L !! j = Some τ ∧ same_schedule σ σ' ∧ same_schedule τ τ' ∧
    flip pos σ' τ').
  assert (∀ i j, R i j → R j i) as Hsym.
  { intros i j (σ & τ & σ' & τ' & ? & ? & ? & ? & ?%flip_sym). by exists τ, σ, τ', σ'. }
  assert (i0 ∈ seq 0 (length L)) as Hin0.
  { apply elem_of_seq. apply lookup_lt_Some in Hi0. lia. }
  apply elem_of_Permutation in Hin0 as (I & HI).
  pose proof (NoDup_seq 0 (length L)) as HndI. rewrite HI in HndI. apply NoDup_cons in HndI as [HiI HndI].
  apply Permutation_length in HI as Hlen. rewrite seq_length in Hlen. simpl in Hlen.
  destruct (paired R I) as (m & Hm); [done|done| | | |exists m; lia].
  - intros i j j' (σ & τ & σ' & τ' & Hi & Hj & Hσ & Hτ & Hf) (σ1 & τ1 & σ1' & τ1' & Hi1 & Hj1 & Hσ1 & Hτ1 & Hf1).
    assert (σ1 = σ) as -> by congruence. eapply (lists_same g L); [done..|].
    eapply same_schedule_trans; [exact Hτ|]. eapply same_schedule_trans; [|by apply same_schedule_sym].
    eapply flip_fun; [done..|]. eapply same_schedule_trans; [by apply same_schedule_sym|done].
  - intros i (σ & τ & σ' & τ' & Hi & Hj & Hσ & Hτ & Hf). assert (τ = σ) as -> by congruence.
    apply flip_length in Hf. rewrite <- (same_schedule_length _ _ Hσ), <- (same_schedule_length _ _ Hτ) in Hf. lia.
  - intros i Hi. assert (i ∈ seq 0 (length L)) as Hi'. { rewrite HI. by right. }
    apply elem_of_seq in Hi'. destruct (lookup_lt_is_Some_2 L i) as (σ & Hσ); [lia|].
    pose proof (lists_valid _ _ _ _ HL Hσ) as Hvσ.
    destruct (flip_total pos σ) as [Hf|(τ & Hf)].
    + intros x y Hx Hy. apply Hinj; by apply Hvσ.
    + apply Hvσ.
    + by eapply valid_nonempty.
    + destruct HiI. rewrite (Huniq σ Hvσ Hf) in Hσ.
      by rewrite (lists_same g L i0 i _ _ HL Hi0 Hσ (same_schedule_refl _)).
    + pose proof (flip_valid pos g [] σ τ Hpos Hf Hvσ) as Hvτ. simpl in Hvτ.
      destruct (lists_find _ _ _ HL Hvτ) as (j & τ' & Hj & Hτ').
      exists j. split.
      * assert (j ∈ seq 0 (length L)) as Hj'. { apply elem_of_seq. apply lookup_lt_Some in Hj. lia. }
        rewrite HI in Hj'. apply elem_of_cons in Hj' as [->|Hj']; [|done]. exfalso.
        assert (τ' = map (λ b, [b]) l) as -> by congruence.
        apply same_schedule_sym, same_singles in Hτ' as ->. by apply flip_sym, flip_increasing in Hf.
      * exists σ, τ', σ, τ. split; [done|]. split; [done|]. split; [apply same_schedule_refl|done].
Qed.

(** A sweep records an odd number of paths. *)
Lemma swept_odd :
  ∀ adj g buf, wf_input adj g → length adj ≤ length buf → (∃ b, listed g b) →
  ∃ t ps qs, from_dependency_graph (T := Partition nat) g buf None = Val t ∧
    (∀ bd, returns (λ fuel, get_all_paths (H := time_focus_iterator bd) fuel [] t) ps) ∧
    (∀ bd, returns (λ fuel, get_all_paths (H := scheduler_focus_iterator bd) fuel []
                              (mkScheduler t (graph_new adj))) qs) ∧
    Nat.Odd (length ps) ∧ Nat.Odd (length qs).
Proof.
  intros adj g buf Hin Hb Hl. destruct (amount_swept adj g buf Hin Hb Hl) as (t & ps & qs & Ht & H1 & H2 & A1 & A2 & _).
  exists t, ps, qs. do 3 (split; [done|]). split; by eapply amount_odd.
Qed.

(** ** Numbers of steps *)

Lemma valid_qubits n g σ : wf_order n g → valid_schedule g σ → length (concat σ) = length (qubits g).
Proof.
  intros Hwf Hv. apply Permutation_length, NoDup_Permutation; [apply Hv|by eapply wf_nodup|].
  intros b. rewrite <- listed_qubits. split; apply Hv.
Qed.

Lemma length_steps (σ : schedule) : [] ∉ σ → length σ ≤ length (concat σ).
Proof.
  induction σ as [|M σ IH]; [done|]. intros [HM Hσ]%not_elem_of_cons. simpl. rewrite app_length.
  destruct M; [done|]. simpl. specialize (IH Hσ). lia.
Qed.

Lemma long_step (σ : schedule) : length σ < length (concat σ) →
  ∃ σ1 x y M σ2, σ = σ1 ++ (x :: y :: M) :: σ2.
Proof.
  induction σ as [|M σ IH]; simpl; [lia|]. rewrite app_length. intros H.
  destruct M as [|x [|y M]]; [| |by exists [], x, y, M, σ]; simpl in H;
    (destruct IH as (σ1 & x' & y' & M' & σ2 & ->); [lia|]).
  - by exists ([] :: σ1), x', y', M', σ2.
  - by exists ([x] :: σ1), x', y', M', σ2.
Qed.

(** Every number of steps between that of the time optimal schedule and the number of
    qubits is possible, and no other one. *)
Lemma every_time :
  ∀ adj g, wf_input adj g →
  ∃ p, (∀ bd, returns (λ fuel, get_time_optimal bd fuel adj g) [p]) ∧
    ∀ t, (∃ σ, valid_schedule g σ ∧ time_cost σ = t) ↔ time p ≤ t ∧ t ≤ length (qubits g).
Proof.
  intros adj g Hin. destruct (time_optimal_valid adj g Hin) as (p & Hp & [Hv Hok] & Hmin & _). exists p.
  split; [done|]. assert (time p = length (steps p)) as Ht by (by apply Hok). intros t. split.
  - intros (σ & Hσ & <-). split; [by apply Hmin|].
    rewrite <- (valid_qubits _ _ _ (proj2 Hin) Hσ). by eapply length_steps, valid_nonempty.
  - intros [H1 H2]. induction t as [|t IH].
    { exists (steps p). split; [done|]. unfold time_cost. lia. }
    destruct (decide (time p = S t)) as [E|E]; [exists (steps p); split; [done|]; unfold time_cost; lia|].
    destruct IH as (σ & Hσ & Hlen); [lia..|]. unfold time_cost in *.
    destruct (long_step σ) as (σ1 & x & y & M & σ2 & ->).
    { rewrite (valid_qubits _ _ _ (proj2 Hin) Hσ). lia. }
    exists (σ1 ++ [x] :: (y :: M) :: σ2). split; [by apply one_by_one|].
    rewrite app_length in *. simpl in *. lia.
Qed.
