(** * How many draws lead to a given random graph, order and set of corrections *)
From stdpp Require Import strings.
From Verif Require Export MainResults Counting.
From Verif Require Import Spec.

(** Number of the possible samples that are below the density. *)
Definition below (x : f64) (values : list f64) : nat := hits (λ v, SFltb v x) values.

(** ** Graphs *)

(** The generator yields the samples [us], beginning with draw number [k]. *)
Definition samples_from (rng : Rng) (k : nat) (us : list f64) : Prop :=
  ∀ i u, us !! i = Some u → r_uniform rng (k + i) = u.

(** The samples that lead to the graph with the pairs [R] as edges. *)
Definition graph_samples (d : Density) (size k : nat) (values : list f64) (R : nat → nat → bool)
    (us : list f64) : Prop :=
  length us = length (node_pairs size) ∧ (∀ u, u ∈ us → u ∈ values) ∧
  ∀ rng, samples_from rng k us →
  ∃ adj, get_graph rng d size k = Val (adj, k + length us) ∧
    ∀ u v, u < v → v < size → (v ∈ neighbours adj u ↔ R u v = true).

Lemma wanted_values (f : f64 → bool) (r : bool) values v :
  v ∈ List.filter (λ v, Bool.eqb (f v) r) values ↔ v ∈ values ∧ f v = r.
Proof. rewrite !elem_of_list_In, filter_In. by rewrite eqb_true_iff. Qed.

Lemma wanted_length x (r : bool) values :
  length (List.filter (λ v, Bool.eqb (SFltb v x) r) values) =
  if r then below x values else length values - below x values.
Proof.
  unfold below. pose proof (hits_not (λ v, SFltb v x) values) as H. unfold hits in *.
  destruct r.
  - f_equal. apply filter_ext. intros v. by destruct (SFltb v x).
  - rewrite <- H. rewrite Nat.add_comm, Nat.add_sub. f_equal; apply filter_ext; intros v; by destruct (SFltb v x).
Qed.

(** A generator with given samples. *)
Definition rng_of (k : nat) (us : list f64) : Rng := mkRng (λ j, nth (j - k) us f64_zero) (λ _ _, 0) (λ _, 0%N).
Lemma rng_of_samples k us : samples_from (rng_of k us) k us.
Proof. intros i u Hi. cbn [rng_of r_uniform]. replace (k + i - k) with i by lia. by apply nth_lookup_Some. Qed.

Lemma graph_samples_iff d x size k values R us :
  size = 0 ∨ density_value d size x →
  graph_samples d size k values R us ↔
  us ∈ vectors ((λ e, List.filter (λ v, Bool.eqb (SFltb v x) (R e.1 e.2)) values) <$> node_pairs size).
Proof.
  intros Hd. rewrite vectors_elem, Forall2_fmap_r, Forall2_same_length_lookup. split.
  - intros (Hl & Hv & Hg). split; [done|]. intros i u [a b] Hu Hi. apply wanted_values.
    split; [by eapply Hv, elem_of_list_lookup_2|]. cbn [fst snd].
    destruct (Hg (rng_of k us) (rng_of_samples k us)) as (adj & E & Hadj).
    destruct (random_graph (rng_of k us) d x size k Hd) as (adj' & E' & _ & Hadj'). rewrite E in E'. injection E' as <- _.
    pose proof (elem_of_list_lookup_2 _ _ _ Hi) as [H1 H2]%node_pairs_elem.
    specialize (Hadj a b H1 H2). rewrite (Hadj' i a b Hi), (rng_of_samples k us i u Hu) in Hadj.
    destruct (SFltb u x), (R a b); try done; [symmetry|]; by apply Hadj.
  - intros [Hl H]. split; [done|]. split.
    + intros u (i & Hi)%elem_of_list_lookup_1. assert (i < length (node_pairs size)) as Hlt by (rewrite <- Hl; by eapply lookup_lt_Some).
      apply lookup_lt_is_Some_2 in Hlt as [[a b] He]. by apply (H i u _ Hi), wanted_values in He as [? _].
    + intros rng Hrng. destruct (random_graph rng d x size k Hd) as (adj & E & _ & Hadj).
      exists adj. rewrite Hl. split; [done|]. intros a b H1 H2.
      destruct (elem_of_list_lookup_1 (node_pairs size) (a, b)) as [i Hi]; [by apply node_pairs_elem|].
      rewrite (Hadj i a b Hi). assert (i < length us) as [u Hu]%lookup_lt_is_Some_2 by (rewrite Hl; by eapply lookup_lt_Some).
      rewrite (Hrng i u Hu). specialize (H i u (a, b) Hu Hi). apply wanted_values in H as [_ ->]. done.
Qed.

Lemma graph_count :
  ∀ d x size k values R, NoDup values → size = 0 ∨ density_value d size x →
  let edges := hits (λ e, R e.1 e.2) (node_pairs size) in
  exactly (below x values ^ edges * (length values - below x values) ^ (length (node_pairs size) - edges))
    (graph_samples d size k values R).
Proof.
  intros d x size k values R Hn Hd edges.
  exists (vectors ((λ e, List.filter (λ v, Bool.eqb (SFltb v x) (R e.1 e.2)) values) <$> node_pairs size)).
  split_and!.
  - apply vectors_nodup. apply Forall_fmap, Forall_true. intros e. cbn. apply NoDup_ListNoDup, List.NoDup_filter.
    by apply NoDup_ListNoDup.
  - intros us. by rewrite graph_samples_iff.
  - rewrite vectors_length, <- list_fmap_compose. unfold edges. rewrite <- product_two. f_equal.
    apply list_fmap_ext. intros i e _. cbn. apply wanted_length.
Qed.

(** ** Orders and corrections *)

(** One round of the loop of [get_order]: the index that is drawn, and the samples for
    the qubits that are left. *)
Notation Round := (nat * list f64)%type.

(** The rounds with [n] qubits in the pool that can be drawn. *)
Fixpoint possible (values : list f64) (n : nat) (rs : list Round) : Prop :=
  match n, rs with
  | 0, [] => True
  | S n, (i, us) :: rs => i < S n ∧ length us = n ∧ (∀ u, u ∈ us → u ∈ values) ∧ possible values n rs
  | _, _ => False
  end.

(** The generator yields these rounds, beginning with draw number [k]. *)
Fixpoint yields (rng : Rng) (k : nat) (rs : list Round) : Prop :=
  match rs with
  | [] => True
  | (i, us) :: rs =>
      r_range rng k (S (length us)) = i ∧ samples_from rng (S k) us ∧ yields rng (S k + length us) rs
  end.

Fixpoint draws (rs : list Round) : nat :=
  match rs with [] => 0 | (_, us) :: rs => S (length us) + draws rs end.

(** The qubits in the order in which they are taken, each with the samples of those
    that are left. *)
Fixpoint play (pool : list nat) (rs : list Round) : list (nat * list (nat * f64)) :=
  match rs with
  | [] => []
  | (i, us) :: rs =>
      match pool !! i with
      | Some b => (b, zip (swap_remove pool i) us) :: play (swap_remove pool i) rs
      | None => []
      end
  end.

Lemma choose_samples rng x pool k us :
  samples_from rng k us → length us = length pool →
  (choose_corrections rng x pool k).2 = k + length us ∧
  ∀ c, c ∈ (choose_corrections rng x pool k).1 ↔ ∃ u, (c, u) ∈ zip pool us ∧ SFltb u x = true.
Proof.
  revert k us. induction pool as [|b pool IH]; intros k us Hs Hl.
  - destruct us; [|done]. cbn. split; [lia|]. intros c. split; [by intros ?%elem_of_nil|]. by intros (u & ?%elem_of_nil & _).
  - destruct us as [|u us]; [done|]. cbn [choose_corrections]. injection Hl as Hl.
    assert (samples_from rng (S k) us) as Hs'.
    { intros i w Hi. specialize (Hs (S i) w Hi). by rewrite Nat.add_succ_r in Hs. }
    destruct (IH (S k) us Hs' Hl) as [H1 H2].
    destruct (choose_corrections rng x pool (S k)) as [cs k'] eqn:E. cbn [fst snd] in *. split; [simpl; lia|].
    pose proof (Hs 0 u eq_refl) as H0. rewrite Nat.add_0_r in H0. rewrite H0.
    intros c. cbn [zip zip_with]. destruct (SFltb u x) eqn:Eu.
    + rewrite elem_of_cons, H2. split.
      * intros [->|(w & Hw & ?)]; [exists u; split; [by left|done]|exists w; split; [by right|done]].
      * intros (w & [[= -> ->]|Hw]%elem_of_cons & ?); [by left|right; eauto].
    + rewrite H2. split.
      * intros (w & Hw & ?). exists w. split; [by right|done].
      * intros (w & [[= -> ->]|Hw]%elem_of_cons & ?); [congruence|eauto].
Qed.

Lemma play_frames rng x size values rs frames pool map k :
  yields rng k rs → possible values (length pool) rs → rectangular size frames → map ++ pool ≡ₚ seq 0 size →
  ∃ frames', (∀ fuel, length pool < fuel → loop (get_order_body rng x) fuel (frames, pool, map, k)
                = Some (Val (frames', map ++ (play pool rs).*1, k + draws rs))) ∧
    ∀ c p, corrected frames' c p ↔ corrected frames c p ∨
      ∃ j b cs u, p = length map + j ∧ play pool rs !! j = Some (b, cs) ∧ (c, u) ∈ cs ∧ SFltb u x = true.
Proof.
  revert frames pool map k. induction rs as [|[i us] rs IH]; intros frames pool map k Hy Hp Hr Hm.
  - destruct pool as [|a pool]; [|done]. exists frames. split.
    + intros [|fuel] Hf; [lia|]. cbn [loop get_order_body play draws fmap list_fmap]. by rewrite app_nil_r, Nat.add_0_r.
    + intros c p. split; [by left|]. intros [?|(j & b & cs & u & _ & Hj & _)]; done.
  - destruct pool as [|a pool]; [done|]. cbn [length possible] in Hp. destruct Hp as (Hi & Hl & _ & Hp).
    cbn [yields] in Hy. destruct Hy as (Hri & Hus & Hy).
    destruct (swap_take_spec (a :: pool) i) as (b & pool' & E & Hperm & Hb); [simpl; lia|].
    assert (pool' = swap_remove (a :: pool) i) as Hpool'.
    { unfold swap_take, index in E. rewrite Hb in E. cbn [obind] in E. by injection E as <-. }
    assert (length pool' = length pool) as Hlen by (apply Permutation_length in Hperm; simpl in Hperm; lia).
    destruct (choose_samples rng x pool' (S k) us Hus ltac:(lia)) as [Hk Hc].
    destruct (choose_corrections rng x pool' (S k)) as [cs k'] eqn:Ec. cbn [fst snd] in Hk, Hc.
    assert (map ++ b :: pool' ≡ₚ seq 0 size) as Hm' by (by rewrite <- Hperm).
    assert (length map < size) as Hms.
    { apply Permutation_length in Hm'. rewrite app_length, seq_length in Hm'. simpl in Hm'. lia. }
    destruct (set_frames_spec size (length map) cs frames Hr Hms) as (f1 & Ef & Hr1 & Hf1).
    { intros c (u & Hcu & _)%Hc. apply elem_of_zip_l in Hcu. assert (c ∈ seq 0 size) as Hs.
      { rewrite <- Hm'. apply elem_of_app. right. by right. } apply elem_of_seq in Hs. lia. }
    destruct (IH f1 pool' (map ++ [b]) k') as (frames' & Hf & Hcorr).
    + by rewrite Hk.
    + by rewrite Hlen.
    + done.
    + by rewrite <- app_assoc.
    + exists frames'. cbn [play draws]. rewrite Hb, <- Hpool'. split.
      * intros [|fuel] Hfu; [lia|]. cbn [loop]. unfold get_order_body at 1. cbn [length]. rewrite <- Hl, Hri, E. cbn [obind].
        rewrite Ec, Ef. cbn [obind]. rewrite Hf by (simpl in Hfu; lia). rewrite <- app_assoc. cbn [app fmap list_fmap fst].
        replace (k' + draws rs) with (k + (S (length us) + draws rs)) by lia. done.
      * intros c p. rewrite Hcorr, Hf1, Hc. split.
        -- intros [[?|[(u & Hu & ?) ->]]|(j & b' & cs' & u & -> & Hj & ? & ?)]; [by left|..]; right.
           ++ exists 0, b, (zip pool' us), u. split_and!; [lia|done|done|done].
           ++ exists (S j), b', cs', u. split_and!; [rewrite app_length; simpl; lia|done|done|done].
        -- intros [?|([|j] & b' & cs' & u & -> & Hj & ? & ?)]; [by left; left|..].
           ++ injection Hj as <- <-. left. right. split; [eauto|lia].
           ++ right. exists j, b', cs', u. split_and!; [rewrite app_length; simpl; lia|done|done|done].
Qed.

(** The rounds that lead to the order [l] with samples in [A]. *)
Fixpoint enum (A : nat → nat → list f64) (p : nat) (pool l : list nat) : list (list Round) :=
  match l with
  | [] => [[]]
  | b :: l =>
      match list_find (λ a, a = b) pool with
      | Some (i, _) =>
          vectors (A p <$> swap_remove pool i) ≫= λ us, cons (i, us) <$> enum A (S p) (swap_remove pool i) l
      | None => []
      end
  end.
Fixpoint weights (A : nat → nat → list f64) (p : nat) (l : list nat) : nat :=
  match l with [] => 1 | b :: l => product ((λ c, length (A p c)) <$> l) * weights A (S p) l end.

Lemma find_in (b : nat) pool l : pool ≡ₚ b :: l →
  ∃ i, list_find (λ a, a = b) pool = Some (i, b) ∧ pool !! i = Some b ∧ swap_remove pool i ≡ₚ l ∧ i < length pool.
Proof.
  intros Hp. destruct (list_find_elem_of (λ a, a = b) pool b) as [[i a] Hi]; [rewrite Hp; by left|done|].
  pose proof Hi as Hi'. apply list_find_Some in Hi' as (Ha & -> & _). exists i. split_and!; [done|done| |by eapply lookup_lt_Some].
  pose proof (swap_remove_perm pool i b Ha) as H. apply (Permutation_cons_inv (a:=b)). by rewrite <- H.
Qed.

Lemma zip_vectors (f : nat → list f64) pool us :
  us ∈ vectors (f <$> pool) ↔ length us = length pool ∧ ∀ c u, (c, u) ∈ zip pool us → u ∈ f c.
Proof.
  rewrite vectors_elem, Forall2_fmap_r. revert us. induction pool as [|c pool IH]; intros us.
  - split; [intros H; inversion H; split; [done|by intros ?? ?%elem_of_nil]|]. intros [? _]. by destruct us.
  - split.
    + intros H. inversion H as [|u ? us' ? Hu Hus]; subst. apply IH in Hus as [Hl Hz]. split; [simpl; lia|].
      intros c' u' [[= -> ->]|Hin]%elem_of_cons; [done|by apply Hz].
    + intros [Hl Hz]. destruct us as [|u us]; [done|]. constructor; [apply Hz; by left|].
      apply IH. split; [simpl in Hl; lia|]. intros c' u' Hin. apply Hz. by right.
Qed.

Lemma enum_elem A values p pool l rs :
  (∀ p c v, v ∈ A p c → v ∈ values) → NoDup pool → pool ≡ₚ l →
  rs ∈ enum A p pool l ↔
  possible values (length pool) rs ∧ (play pool rs).*1 = l ∧
  ∀ j b cs c u, play pool rs !! j = Some (b, cs) → (c, u) ∈ cs → u ∈ A (p + j) c.
Proof.
  intros HA. revert p pool rs. induction l as [|b l IH]; intros p pool rs Hn Hp.
  - apply Permutation_nil_r in Hp as ->. cbn [enum]. rewrite elem_of_list_singleton. split.
    + intros ->. split_and!; [done|done|]. intros j b cs c u Hj. done.
    + intros (H & _). by destruct rs.
  - destruct (find_in b pool l Hp) as (i & Ei & Hi & Hp' & Hlt). cbn [enum]. rewrite Ei.
    pose proof (Permutation_length Hp) as Hlen. pose proof (Permutation_length Hp') as Hlen'. cbn [length] in Hlen.
    assert (NoDup (swap_remove pool i)) as Hn'.
    { pose proof (swap_remove_perm pool i b Hi) as H. rewrite H in Hn. by apply NoDup_cons in Hn as [_ ?]. }
    rewrite elem_of_list_bind. split.
    + intros (us & Hrs & Hus). apply elem_of_list_fmap in Hrs as (rs' & -> & Hrs').
      apply IH in Hrs' as (Hpo & Hpl & Hal); [|done|done]. apply zip_vectors in Hus as [Hl Hz].
      rewrite Hlen. cbn [possible play]. rewrite Hi. cbn [fmap list_fmap fst]. split_and!.
      * lia.
      * lia.
      * intros u Hu. apply elem_of_list_lookup in Hu as [j Hj].
        assert (j < length (swap_remove pool i)) as [c Hc]%lookup_lt_is_Some_2 by (rewrite <- Hl; by eapply lookup_lt_Some).
        eapply HA, (Hz c). apply elem_of_list_lookup. exists j. rewrite lookup_zip_with, Hc. cbn. by rewrite Hj.
      * by rewrite <- Hlen'.
      * by f_equal.
      * intros [|j] b' cs c u Hj Hin.
        -- injection Hj as <- <-. rewrite Nat.add_0_r. by apply Hz.
        -- rewrite <- Nat.add_succ_comm. eapply Hal; [exact Hj|done].
    + intros (Hpo & Hpl & Hal). rewrite Hlen in Hpo. destruct rs as [|[i' us] rs]; [done|]. cbn [possible] in Hpo.
      destruct Hpo as (Hi' & Hl & _ & Hpo). cbn [play] in Hpl, Hal.
      destruct (pool !! i') as [b'|] eqn:Eb; [|done]. cbn [fmap list_fmap fst] in Hpl. injection Hpl as -> Hpl.
      assert (i' = i) as -> by exact (NoDup_lookup pool i' i b Hn Eb Hi).
      exists us. split.
      * apply elem_of_list_fmap. exists rs. split; [done|]. apply IH; [done|done|]. split_and!; [by rewrite Hlen'|done|].
        intros j b' cs c u Hj Hin. rewrite Nat.add_succ_comm. by apply (Hal (S j) b' cs).
      * apply zip_vectors. split; [lia|]. intros c u Hin. rewrite <- (Nat.add_0_r p). by apply (Hal 0 b (zip (swap_remove pool i) us)).
Qed.

Lemma enum_nodup A p pool l : (∀ p c, NoDup (A p c)) → NoDup (enum A p pool l).
Proof.
  intros HA. revert p pool. induction l as [|b l IH]; intros p pool; [apply NoDup_singleton|]. cbn [enum].
  destruct (list_find _ pool) as [[i a]|]; [|constructor]. apply NoDup_bind.
  - apply vectors_nodup, Forall_fmap, Forall_true. intros c. apply HA.
  - intros us _. apply NoDup_fmap_2; [|apply IH]. by intros ?? [= ->].
  - intros us us' y _ _ H H'. apply elem_of_list_fmap in H as (? & -> & _). by apply elem_of_list_fmap in H' as (? & [= ->] & _).
Qed.

Lemma enum_length A p pool l : pool ≡ₚ l → length (enum A p pool l) = weights A p l.
Proof.
  revert p pool. induction l as [|b l IH]; intros p pool Hp; [done|]. cbn [enum weights].
  destruct (find_in b pool l Hp) as (i & -> & _ & Hp' & _).
  rewrite (bind_length _ _ (weights A (S p) l)).
  - rewrite vectors_length, <- list_fmap_compose. f_equal. apply product_perm. by rewrite Hp'.
  - intros us _. by rewrite fmap_length, IH.
Qed.

(** The pairs of positions. *)
Fixpoint pairs_from (p n : nat) : list (nat * nat) :=
  match n with 0 => [] | S n => (pair p <$> seq (S p) n) ++ pairs_from (S p) n end.

Lemma node_pairs_from size : node_pairs size = pairs_from 0 size.
Proof.
  assert (∀ n p, List.concat (map (λ u, map (pair u) (seq (u + 1) (p + n - (u + 1)))) (seq p (n - 1))) = pairs_from p n) as H.
  { induction n as [|n IH]; intros p; [done|]. cbn [pairs_from]. rewrite <- IH.
    destruct n as [|n]; [done|]. replace (S (S n) - 1) with (S n) by lia. cbn [seq map List.concat].
    replace (S n - 1) with n by lia. replace (p + S (S n) - (p + 1)) with (S n) by lia.
    replace (p + 1) with (S p) by lia. f_equal. f_equal. apply map_ext. intros u. f_equal. f_equal. lia. }
  unfold node_pairs. by rewrite <- (H size 0).
Qed.

Lemma weights_pairs A (w : nat → nat → nat) p l :
  (∀ u j c, l !! j = Some c → length (A u c) = w u (p + j)) →
  weights A p l = product ((λ e, w e.1 e.2) <$> pairs_from p (length l)).
Proof.
  revert p. induction l as [|b l IH]; intros p H; [done|]. cbn [weights length pairs_from].
  rewrite fmap_app, product_app, (IH (S p)).
  - f_equal. f_equal. rewrite <- list_fmap_compose. apply list_eq. intros j. rewrite !list_lookup_fmap.
    destruct (l !! j) as [c|] eqn:Ej.
    + rewrite lookup_seq_lt by (by eapply lookup_lt_Some). cbn. f_equal.
      rewrite (H p (S j) c Ej). f_equal. lia.
    + rewrite lookup_seq_ge by (by apply lookup_ge_None). done.
  - intros u j c Hj. rewrite (H u (S j) c Hj). f_equal. lia.
Qed.
