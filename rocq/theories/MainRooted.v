(** * Trees: results *)
From Verif Require Export RootedSpec MainOrder.

Definition weight (t : rooted) : nat := length (members t).

Lemma summit_member t : summit t ∈ members t.
Proof. destruct t. left. Qed.

Lemma member_inside v ts t x : t ∈ ts → x ∈ members t → x ∈ members (Rooted v ts).
Proof.
  intros Ht Hx. cbn. right. apply elem_of_concat. exists (members t). split; [by apply elem_of_list_fmap_1|done].
Qed.

Lemma edge_members t x y : tree_edge t x y → x ∈ members t ∧ y ∈ members t.
Proof.
  induction 1 as [v ts t Ht|v ts t Ht|v ts t x y Ht _ [IH1 IH2]].
  - split; [left|by eapply member_inside; [|apply summit_member]].
  - split; [by eapply member_inside; [|apply summit_member]|left].
  - split; by eapply member_inside.
Qed.

Lemma beneath_members t x y : beneath t x y → x ∈ members t ∧ y ∈ members t.
Proof.
  induction 1 as [v ts t y Ht Hy|v ts t x y Ht _ [IH1 IH2]].
  - split; [left|by eapply member_inside].
  - split; by eapply member_inside.
Qed.

Lemma weight_inside v ts t : t ∈ ts → weight t < weight (Rooted v ts).
Proof.
  intros Ht. unfold weight. cbn. apply elem_of_list_split in Ht as (l1 & l2 & ->).
  rewrite map_app, concat_app. cbn. rewrite !app_length. lia.
Qed.

(** An order in which the qubits of [t] can be measured one by one with [k] places: at
    every moment the unmeasured qubits that are needed are in a list of length [k]. *)
Record good (t : rooted) (k : nat) (L : list nat) : Prop := {
  gd_perm : L ≡ₚ members t;
  gd_top : ∃ L0, L = L0 ++ [summit t];
  gd_sorted : ∀ l1 b l2, L = l1 ++ b :: l2 → ∀ d, beneath t b d → d ∈ l1;
  gd_few : ∀ l1 b l2, L = l1 ++ b :: l2 → ∃ M, length M ≤ k ∧
    ∀ x, x ∉ l1 → (x = b ∨ ∃ y, (y ∈ l1 ∨ y = b) ∧ tree_edge t y x) → x ∈ M
}.

Lemma good_more t k k' L : k ≤ k' → good t k L → good t k' L.
Proof.
  intros Hk [H1 H2 H3 H4]. split; [done..|]. intros l1 b l2 E. destruct (H4 l1 b l2 E) as (M & HM & H). exists M. split; [lia|done].
Qed.

(** Several trees, one after the other. *)
Lemma good_trees ts k :
  NoDup (concat (map members ts)) → (∀ t, t ∈ ts → ∃ L, good t k L) →
  ∃ L, L ≡ₚ concat (map members ts) ∧
    ∀ l1 b l2, L = l1 ++ b :: l2 → ∃ t a m1 m2, t ∈ ts ∧ good t k (m1 ++ b :: m2) ∧ l1 = a ++ m1 ∧
      (∀ x, x ∈ a → x ∉ members t) ∧
      (∀ x t', x ∈ a → t' ∈ ts → x ∈ members t' → ∀ y, y ∈ members t' → y ∈ a).
Proof.
  induction ts as [|t ts IH]; intros Hnd Hg.
  { exists []. split; [done|]. intros l1 b l2 E. by destruct l1. }
  cbn in Hnd. apply NoDup_app in Hnd as (Hnd1 & Hdis & Hnd2).
  destruct (Hg t) as [L0 HL0]; [left|]. destruct IH as (L & HL & Hsplit); [done|intros t' Ht'; apply Hg; by right|].
  assert (∀ x, x ∈ L0 ↔ x ∈ members t) as Hx0 by (intros x; by rewrite (gd_perm _ _ _ HL0)).
  assert (∀ t' x, t' ∈ ts → x ∈ members t' → x ∈ concat (map members ts)) as Hin.
  { intros t' x Ht' Hx. apply elem_of_concat. exists (members t'). split; [by apply elem_of_list_fmap_1|done]. }
  exists (L0 ++ L). split; [cbn; by rewrite HL, (gd_perm _ _ _ HL0)|].
  intros l1 b l2 E. apply split_app in E as [(r & E)|(r & -> & E)].
  - exists t, [], l1, r. split; [left|]. rewrite <- E. split; [done|]. split; [done|].
    split; intros x; [|intros t']; intros Hx; by apply elem_of_nil in Hx.
  - destruct (Hsplit _ _ _ E) as (t' & a & m1 & m2 & Ht' & Hgood & -> & Ha1 & Ha2).
    exists t', (L0 ++ a), m1, m2. split; [by right|]. split; [done|]. split; [by rewrite app_assoc|]. split.
    + intros x [Hx|Hx]%elem_of_app Hx'; [|by apply (Ha1 x)]. apply (Hdis x); [by apply Hx0|by eapply Hin].
    + assert (∀ x, x ∈ a → x ∈ concat (map members ts)) as Hat.
      { intros x Hx. rewrite <- HL, E. rewrite <- app_assoc. apply elem_of_app. by left. }
      intros x u [Hx|Hx]%elem_of_app Hu Hxu y Hy; apply elem_of_app.
      * apply elem_of_cons in Hu as [->|Hu]; [left; by apply Hx0|]. exfalso. apply (Hdis x); [by apply Hx0|by eapply Hin].
      * apply elem_of_cons in Hu as [->|Hu]; [|right; by apply (Ha2 x u)]. exfalso. apply (Hdis x); [done|by apply Hat].
Qed.

Lemma largest (ts : list rooted) : ts ≠ [] → ∃ t ts', ts ≡ₚ t :: ts' ∧ ∀ t', t' ∈ ts' → weight t' ≤ weight t.
Proof.
  induction ts as [|t ts IH]; [done|]. intros _. destruct ts as [|u ts].
  { exists t, []. split; [done|]. intros t' Ht'. by apply elem_of_nil in Ht'. }
  destruct IH as (m & ms & Hp & Hm); [done|]. destruct (decide (weight t ≤ weight m)) as [Hle|Hle].
  - exists m, (t :: ms). split; [by rewrite Hp, Permutation_swap|]. intros t' [->|Ht']%elem_of_cons; [done|by apply Hm].
  - exists t, (m :: ms). split; [by rewrite Hp|]. intros t' [->|Ht']%elem_of_cons; [lia|]. specialize (Hm t' Ht'). lia.
Qed.

Lemma members_perm ts ts' : ts ≡ₚ ts' → concat (map members ts) ≡ₚ concat (map members ts').
Proof. intros H. induction H; cbn; [done|by f_equiv|by rewrite !app_assoc, (Permutation_app_comm (members y))|by etrans]. Qed.

Lemma tree_edge_perm v ts ts' x y : ts ≡ₚ ts' → tree_edge (Rooted v ts) x y → tree_edge (Rooted v ts') x y.
Proof.
  intros Hp H. inversion H; subst.
  - apply te_down. by rewrite <- Hp.
  - apply te_up. by rewrite <- Hp.
  - eapply te_inside; [|done]. by rewrite <- Hp.
Qed.

Lemma beneath_perm v ts ts' x y : ts ≡ₚ ts' → beneath (Rooted v ts) x y → beneath (Rooted v ts') x y.
Proof.
  intros Hp H. inversion H; subst.
  - eapply bn_top; [|done]. by rewrite <- Hp.
  - eapply bn_inside; [|done]. by rewrite <- Hp.
Qed.

Lemma good_perm v ts ts' k L : ts ≡ₚ ts' → good (Rooted v ts) k L → good (Rooted v ts') k L.
Proof.
  intros Hp [H1 H2 H3 H4]. split.
  - rewrite H1. cbn. by rewrite (members_perm _ _ Hp).
  - done.
  - intros l1 b l2 E d Hd. eapply H3; [done|]. by eapply beneath_perm.
  - intros l1 b l2 E. destruct (H4 l1 b l2 E) as (M & HM & H). exists M. split; [done|]. intros x Hx Hx'. apply H; [done|].
    destruct Hx' as [?|(y & Hy & He)]; [by left|]. right. exists y. split; [done|]. by eapply tree_edge_perm.
Qed.

Lemma disjoint_trees ts t t' x :
  NoDup (concat (map members ts)) → t ∈ ts → t' ∈ ts → x ∈ members t → x ∈ members t' → t = t'.
Proof.
  induction ts as [|u ts IH]; intros Hnd Ht Ht' Hx Hx'; [by apply elem_of_nil in Ht|].
  cbn in Hnd. apply NoDup_app in Hnd as (_ & Hdis & Hnd).
  assert (∀ w y, w ∈ ts → y ∈ members w → y ∈ concat (map members ts)) as Hin.
  { intros w y Hw Hy. apply elem_of_concat. exists (members w). split; [by apply elem_of_list_fmap_1|done]. }
  apply elem_of_cons in Ht as [->|Ht], Ht' as [->|Ht']; [done|..|by apply IH].
  - exfalso. apply (Hdis x); [done|by eapply Hin].
  - exfalso. apply (Hdis x); [done|by eapply Hin].
Qed.

(** The largest tree first, then the others while the root stays in memory. *)
Lemma good_join v t ts k :
  NoDup (members (Rooted v (t :: ts))) → 2 ≤ k → (∃ L, good t k L) → (∀ t', t' ∈ ts → ∃ L, good t' (k - 1) L) →
  ∃ L, good (Rooted v (t :: ts)) k L.
Proof.
  intros Hnd Hk [L1 HL1] Hts. cbn [members] in Hnd. apply NoDup_cons in Hnd as [Hv Hnd].
  pose proof (λ t1 t2 x, disjoint_trees (t :: ts) t1 t2 x Hnd) as Hsame.
  cbn [map concat] in Hnd. apply NoDup_app in Hnd as (Hnd1 & Hdis & Hnd2).
  destruct (good_trees ts (k - 1) Hnd2 Hts) as (L2 & HL2 & Hsplit).
  assert (∀ t' x, t' ∈ ts → x ∈ members t' → x ∈ concat (map members ts)) as Hin.
  { intros t' x Ht' Hx. apply elem_of_concat. exists (members t'). split; [by apply elem_of_list_fmap_1|done]. }
  assert (∀ x, x ∈ L1 ↔ x ∈ members t) as H1 by (intros x; by rewrite (gd_perm _ _ _ HL1)).
  assert (∀ x, x ∈ L2 ↔ x ∈ concat (map members ts)) as H2 by (intros x; by rewrite HL2).
  assert (∀ t' x, t' ∈ t :: ts → x ∈ members t' → x ∈ L1 ++ L2) as H12.
  { intros t' x [->|Ht']%elem_of_cons Hx; apply elem_of_app; [left; by apply H1|right; apply H2; by eapply Hin]. }
  assert (v ∉ L1 ++ L2) as HvL.
  { intros [H|H]%elem_of_app; apply Hv; cbn; apply elem_of_app; [left; by apply H1|right; by apply H2]. }
  assert (NoDup L1) as HndL1 by (by rewrite (gd_perm _ _ _ HL1)).
  exists (L1 ++ L2 ++ [v]). split.
  - cbn. rewrite (gd_perm _ _ _ HL1), HL2, app_assoc, Permutation_app_comm. done.
  - exists (L1 ++ L2). by rewrite app_assoc.
  - intros l1 b l2 E d Hd. apply split_app in E as [(r & E)|(s & -> & E)].
    + assert (b ∈ L1) as Hb by (rewrite E; apply elem_of_app; right; left).
      inversion Hd as [v' ts' t' y Ht' Hy|v' ts' t' x y Ht' Hb']; subst.
      { exfalso. apply HvL, elem_of_app. by left. }
      assert (t' = t) as -> by (apply (Hsame t' t b); [done|left|by apply (beneath_members _ _ _ Hb')|by apply H1]).
      by apply (gd_sorted _ _ _ HL1 l1 b r).
    + apply elem_of_app. apply split_app in E as [(r & E)|(s' & -> & E)].
      * destruct (Hsplit _ _ _ E) as (u & a & m1 & m2 & Hu & Hgood & -> & _ & _). right.
        assert (b ∈ members u) as Hbu by (rewrite <- (gd_perm _ _ _ Hgood); apply elem_of_app; right; left).
        inversion Hd as [v' ts' t' y Ht' Hy|v' ts' t' x y Ht' Hb']; subst.
        { exfalso. apply HvL. apply (H12 u); [by right|done]. }
        assert (t' = u) as -> by (apply (Hsame t' u b); [done|by right|by apply (beneath_members _ _ _ Hb')|done]).
        apply elem_of_app. right. by apply (gd_sorted _ _ _ Hgood m1 b m2).
      * assert (d ∈ L1 ++ L2) as [Hd1|Hd2]%elem_of_app; [|by left|right; apply elem_of_app; by left].
        inversion Hd as [v' ts' t' y Ht' Hy|v' ts' t' x y Ht' Hb']; subst; [by apply (H12 t')|].
        apply (H12 t'); [done|by apply (beneath_members _ _ _ Hb')].
  - intros l1 b l2 E. apply split_app in E as [(r & E)|(s & -> & E)].
    + assert (∀ y, y ∈ l1 ∨ y = b → y ∈ members t) as Hy1.
      { intros y Hy. apply H1. rewrite E. rewrite elem_of_app, elem_of_cons. destruct Hy; auto. }
      assert (∀ y t', y ∈ l1 ∨ y = b → t' ∈ t :: ts → y ∈ members t' → t' = t) as Ht1.
      { intros y t' Hy Ht' Hy'. apply (Hsame t' t y); [done|left|done|by apply Hy1]. }
      assert (∀ y, y ∈ l1 ∨ y = b → y ≠ v) as Hyv.
      { intros y Hy ->. apply HvL, elem_of_app. left. by apply H1, Hy1. }
      destruct r as [|c r].
      * exists [b; v]. split; [done|]. intros x Hx [->|(y & Hy & He)]; [left|].
        inversion He as [v' ts' t' Ht'|v' ts' t' Ht'|v' ts' t' y' x' Ht' He']; subst.
        -- exfalso. by eapply Hyv; [exact Hy|].
        -- right; left.
        -- assert (t' = t) as -> by (apply (Ht1 y); [done|done|by apply (edge_members _ _ _ He')]).
           destruct (edge_members _ _ _ He') as [_ Hxt]. apply H1 in Hxt. apply elem_of_app in Hxt as [?|Hxt]; [done|].
           apply elem_of_list_singleton in Hxt as ->. left.
      * destruct (gd_few _ _ _ HL1 l1 b (c :: r) E) as (M & HM & Hfew). exists M. split; [done|].
        intros x Hx Hx'. apply Hfew; [done|]. destruct Hx' as [?|(y & Hy & He)]; [by left|]. right. exists y. split; [done|].
        inversion He as [v' ts' t' Ht'|v' ts' t' Ht'|v' ts' t' y' x' Ht' He']; subst.
        -- exfalso. by eapply Hyv; [exact Hy|].
        -- exfalso. assert (t' = t) as -> by (apply (Ht1 (summit t')); [done|done|apply summit_member]).
           destruct (gd_top _ _ _ HL1) as [L0 E0]. 
           assert (∃ r', c :: r = r' ++ [summit t]) as [r' Er].
           { destruct (exists_last (l := c :: r)) as (r' & z & Ez); [done|]. exists r'. rewrite Ez in *.
             rewrite app_comm_cons, app_assoc in E0. by apply app_inj_tail in E0 as [_ ->]. }
           rewrite Er in HndL1. apply NoDup_app in HndL1 as (_ & Hn1 & Hn2). apply NoDup_cons in Hn2 as [Hn2 _].
           destruct Hy as [Hy|Hy].
           ++ apply (Hn1 _ Hy). right. apply elem_of_app. right. left.
           ++ apply Hn2. rewrite <- Hy. apply elem_of_app. right. left.
        -- assert (t' = t) as -> by (apply (Ht1 y); [done|done|by apply (edge_members _ _ _ He')]). done.
    + apply split_app in E as [(r & E)|(s' & -> & E)].
      * destruct (Hsplit _ _ _ E) as (u & a & m1 & m2 & Hu & Hgood & -> & Ha1 & Ha2).
        assert (∀ y, y ∈ m1 ∨ y = b → y ∈ members u) as Hyu.
        { intros y Hy. rewrite <- (gd_perm _ _ _ Hgood), elem_of_app, elem_of_cons. destruct Hy; auto. }
        assert (∀ y, y ∈ a → y ∈ L2) as Hya by (intros y Hy; rewrite E, <- app_assoc; apply elem_of_app; by left).
        destruct (gd_few _ _ _ Hgood m1 b m2 eq_refl) as (M & HM & Hfew). exists (v :: M). split; [cbn; lia|].
        intros x Hx Hx'. rewrite !elem_of_app in Hx.
        destruct Hx' as [->|(y & Hy & He)]; [right; apply Hfew; [naive_solver|by left]|].
        rewrite !elem_of_app in Hy.
        assert (y ∈ L1 ++ L2) as HyL.
        { apply elem_of_app. destruct Hy as [[Hy|[Hy|Hy]]|Hy]; [by left|right; by apply Hya|right..].
          - apply H2, (Hin u); [done|apply Hyu; by left].
          - apply H2, (Hin u); [done|apply Hyu; by right]. }
        inversion He as [v' ts' t' Ht'|v' ts' t' Ht'|v' ts' t' y' x' Ht' He']; subst.
        -- done.
        -- left.
        -- right. destruct (edge_members _ _ _ He') as [Hyt Hxt].
           assert (y ∈ L1 → False) as Hno1.
           { intros HyL1. assert (t' = t) as -> by (apply (Hsame t' t y); [done|left|done|by apply H1]). apply Hx. left. by apply H1. }
           assert (y ∈ a → False) as Hno2.
           { intros Hy2. apply elem_of_cons in Ht' as [->|Ht'].
             - apply (Hdis y); [done|by apply H2, Hya].
             - apply Hx. right. left. by apply (Ha2 y t'). }
           assert (y ∈ m1 ∨ y = b) as Hy3 by naive_solver.
           assert (t' = u) as -> by (apply (Hsame t' u y); [done|by right|done|by apply Hyu]).
           apply Hfew; [naive_solver|]. right. exists y. by split.
      * assert (s' = [] ∧ b = v) as [-> ->].
        { destruct s' as [|z s']; [by injection E as ->|]. injection E as _ E. by destruct s'. }
        exists [v]. split; [cbn; lia|]. intros x Hx [->|(y & _ & He)]; [left|].
        destruct (edge_members _ _ _ He) as [_ Hxm]. cbn [members] in Hxm. apply elem_of_cons in Hxm as [->|Hxm]; [left|].
        exfalso. apply Hx. cbn in Hxm. rewrite app_nil_r. rewrite elem_of_app in *. by rewrite H1, H2.
Qed.

Lemma tree_good n t : weight t ≤ n → NoDup (members t) → ∃ L, good t (S (Nat.log2 (weight t))) L.
Proof.
  revert t. induction n as [|n IH]; intros t Hn Hnd.
  { destruct t. unfold weight in Hn. cbn in Hn. lia. }
  destruct t as [v ts]. destruct (decide (ts = [])) as [->|Hne].
  { exists [v]. split.
    - done.
    - by exists [].
    - intros l1 b l2 _ d Hd. inversion Hd as [? ? ? ? Ht|? ? ? ? ? Ht]; by apply elem_of_nil in Ht.
    - intros l1 b l2 E. assert (l1 = [] ∧ b = v) as [-> ->].
      { destruct l1 as [|z l1]; [by injection E as ->|]. injection E as _ E. by destruct l1. }
      exists [v]. split; [done|]. intros x _ [->|(y & _ & He)]; [left|].
      inversion He as [? ? ? Ht|? ? ? Ht|? ? ? ? ? Ht]; by apply elem_of_nil in Ht. }
  destruct (largest ts Hne) as (t & ts' & Hp & Hmax).
  assert (∀ u, u ∈ t :: ts' → weight u < weight (Rooted v ts)) as Hw by (intros u Hu; apply weight_inside; by rewrite Hp).
  assert (NoDup (concat (map members (t :: ts')))) as Hnd'.
  { rewrite <- (members_perm _ _ Hp). cbn in Hnd. by apply NoDup_cons in Hnd as [_ ?]. }
  assert (∀ u, u ∈ t :: ts' → NoDup (members u)) as Hndu.
  { clear -Hnd'. induction (t :: ts') as [|w l IHl]; intros u Hu; [by apply elem_of_nil in Hu|].
    cbn in Hnd'. apply NoDup_app in Hnd' as (? & _ & ?). apply elem_of_cons in Hu as [->|Hu]; [done|by apply IHl]. }
  assert (∀ u, weight u ≠ 0) as Hpos by (intros [? ?]; done).
  assert (∀ u, u ∈ ts' → 2 * weight u ≤ weight (Rooted v ts)) as H2.
  { intros u Hu. specialize (Hmax u Hu). assert (weight t + weight u < weight (Rooted v ts)); [|lia].
    unfold weight. cbn [members length]. rewrite (members_perm _ _ Hp). cbn. rewrite app_length.
    apply elem_of_list_split in Hu as (l1 & l2 & ->). rewrite map_app, concat_app. cbn. rewrite !app_length. lia. }
  set (w := weight (Rooted v ts)) in *.
  assert (2 ≤ w) as Hw2 by (pose proof (Hw t ltac:(left)); pose proof (Hpos t); lia).
  destruct (good_join v t ts' (S (Nat.log2 w))) as [L HL].
  - cbn [members]. apply NoDup_cons. split; [|done]. rewrite <- (members_perm _ _ Hp). cbn in Hnd. by apply NoDup_cons in Hnd as [? _].
  - pose proof (Nat.log2_le_mono 2 w Hw2) as Hlog. change (Nat.log2 2) with 1 in Hlog. lia.
  - destruct (IH t) as [L HL]; [pose proof (Hw t ltac:(left)); lia|apply Hndu; left|]. exists L. eapply good_more; [|done].
    apply le_n_S, Nat.log2_le_mono. pose proof (Hw t ltac:(left)). lia.
  - intros u Hu. destruct (IH u) as [L HL]; [pose proof (Hw u ltac:(by right)); lia|apply Hndu; by right|]. exists L.
    eapply good_more; [|done]. rewrite <- Nat.log2_double by (pose proof (Hpos u); lia).
    pose proof (Nat.log2_le_mono _ _ (H2 u Hu)). lia.
  - exists L. by eapply good_perm.
Qed.

(** ** Whole runs *)

Lemma run_forest :
  ∀ ts adj g w ps,
  wf_input adj g → forest_input ts adj g → (∀ t, t ∈ ts → length (members t) ≤ w) → (∃ b, listed g b) →
  searched adj g ps →
  ∃ p, p ∈ ps ∧ time p ≤ length (qubits g) ∧ (space p <= N.of_nat (S (Nat.log2 w)))%N.
Proof.
  intros ts adj g w ps Hin [Hnd Hlis Hed Hdep] Hw Hne Hps.
  apply searched_front in Hps as (_ & _ & Hc); [|done|done].
  assert (∀ t t' x, t ∈ ts → t' ∈ ts → x ∈ members t → x ∈ members t' → t = t') as Hsame.
  { intros t t' x. by apply disjoint_trees. }
  destruct (good_trees ts (S (Nat.log2 w)) Hnd) as (L & HL & Hsplit).
  { intros t Ht. destruct (tree_good (weight t) t) as [L HL]; [done| |].
    - clear -Hnd Ht. induction ts as [|u l IHl]; [by apply elem_of_nil in Ht|].
      cbn in Hnd. apply NoDup_app in Hnd as (? & _ & ?). apply elem_of_cons in Ht as [->|Ht]; [done|by apply IHl].
    - exists L. eapply good_more; [|done]. by apply le_n_S, Nat.log2_le_mono, Hw. }
  assert (NoDup L) as HndL by (by rewrite HL).
  assert (∀ b, b ∈ L ↔ listed g b) as HLl by (intros b; by rewrite HL, Hlis).
  assert (valid_schedule g (map (λ b, [b]) L)) as Hv.
  { apply singles_valid; [done|done|]. intros l1 b l2 d E Hd.
    destruct (Hsplit l1 b l2 E) as (t & a & m1 & m2 & Ht & Hgood & -> & _). destruct (Hdep b d Hd) as (t' & Ht' & Hb).
    assert (b ∈ members t) as Hbt by (rewrite <- (gd_perm _ _ _ Hgood); apply elem_of_app; right; left).
    assert (t' = t) as -> by (apply (Hsame t' t b); [done|done|by apply (beneath_members _ _ _ Hb)|done]).
    apply elem_of_app. right. by apply (gd_sorted _ _ _ Hgood m1 b m2). }
  destruct (Hc _ Hv) as (p & Hp & H1 & H2). exists p. split; [done|]. split.
  { unfold time_cost in H1. rewrite map_length in H1. etrans; [exact H1|]. apply submseteq_length, NoDup_submseteq; [done|].
    intros b Hb. by apply listed_qubits, HLl. }
  etrans; [exact H2|]. apply N2Z.inj_le. rewrite !nat_N_Z. apply Nat2Z.inj_le.
  apply space_cost_lub. intros k Hk. rewrite map_length in Hk. destruct (lookup_lt_is_Some_2 _ _ Hk) as [b Hb].
  destruct (Hsplit (take k L) b (drop (S k) L)) as (t & a & m1 & m2 & Ht & Hgood & El & Ha1 & Ha2); [by rewrite take_drop_middle|].
  destruct (gd_few _ _ _ Hgood m1 b m2 eq_refl) as (M & HM & Hfew). etrans; [|exact HM].
  unfold memory_at. apply submseteq_length, NoDup_submseteq; [apply NoDup_filter, NoDup_seq|].
  intros x [[Hx1 Hx2] _]%elem_of_list_filter. rewrite firstn_map, concat_singles, El in Hx1.
  rewrite firstn_map, concat_singles, (take_S_r _ _ _ Hb), El in Hx2.
  rewrite elem_of_app in Hx1. apply Hfew; [naive_solver|].
  assert (∀ y, y ∈ (a ++ m1) ++ [b] → listed g y) as Hlist.
  { intros y Hy. apply HLl. rewrite <- (take_drop (S k) L), (take_S_r _ _ _ Hb), El. apply elem_of_app. by left. }
  assert (∀ y, y ∈ m1 ∨ y = b → y ∈ members t) as Hyt.
  { intros y Hy. rewrite <- (gd_perm _ _ _ Hgood), elem_of_app, elem_of_cons. destruct Hy; auto. }
  destruct Hx2 as [Hx2|(y & Hy & Hyx)].
  { rewrite !elem_of_app, elem_of_list_singleton in Hx2. naive_solver. }
  pose proof (Hlist y Hy) as Hly. rewrite !elem_of_app, elem_of_list_singleton in Hy.
  destruct (Hed y x Hly Hyx) as [->|(t' & Ht' & He)]; [naive_solver|]. right. exists y.
  destruct (edge_members _ _ _ He) as [Hy' Hx'].
  assert (y ∈ a → False) as Hno by (intros Hya; apply Hx1; left; by apply (Ha2 y t')).
  assert (y ∈ m1 ∨ y = b) as Hy3 by naive_solver. split; [done|].
  by assert (t' = t) as -> by (apply (Hsame t' t y); [done|done|done|by apply Hyt]).
Qed.
