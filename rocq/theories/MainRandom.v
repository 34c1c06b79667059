(** * The distribution of the random instances: main facts *)
From stdpp Require Import strings.
From Coq Require Import Factorial.
From Verif Require Export RandomCounts.
From Verif Require Import Spec.

Lemma exactly_pair {A B} n m (P : A → Prop) (Q : B → Prop) :
  exactly n P → exactly m Q → exactly (n * m) (λ ab, P ab.1 ∧ Q ab.2).
Proof.
  intros (l & Hn & Hl & <-) (l' & Hn' & Hl' & <-). exists (l ≫= λ a, pair a <$> l'). split_and!.
  - apply NoDup_bind; [done|..].
    + intros a _. apply NoDup_fmap_2; [|done]. by intros ?? [= ->].
    + intros a b y _ _ Ha Hb. apply elem_of_list_fmap in Ha as (? & -> & _). by apply elem_of_list_fmap in Hb as (? & [= ->] & _).
  - intros [a b]. cbn [fst snd]. rewrite elem_of_list_bind, <- Hl, <- Hl'. split.
    + intros (a' & Hab & Ha). by apply elem_of_list_fmap in Hab as (b' & [= -> ->] & ?).
    + intros [? ?]. exists a. split; [|done]. apply elem_of_list_fmap. by exists b.
  - by rewrite (bind_length _ _ (length l')) by (intros; by rewrite fmap_length).
Qed.

(** ** A generator for given rounds *)
Definition flat (rs : list Round) : list (nat * f64) :=
  List.concat ((λ r : Round, (r.1, f64_zero) :: (pair 0 <$> r.2)) <$> rs).
Definition rounds_rng (k : nat) (ds : list (nat * f64)) : Rng :=
  mkRng (λ j, (nth (j - k) ds (0, f64_zero)).2) (λ j _, (nth (j - k) ds (0, f64_zero)).1) (λ _, 0%N).

Lemma rounds_rng_at k ds i d : ds !! i = Some d →
  r_uniform (rounds_rng k ds) (k + i) = d.2 ∧ ∀ n, r_range (rounds_rng k ds) (k + i) n = d.1.
Proof.
  intros H. cbn [rounds_rng r_uniform r_range]. replace (k + i - k) with i by lia.
  by rewrite (nth_lookup_Some ds i _ d H).
Qed.

Lemma rounds_rng_yields k rs pre : yields (rounds_rng k (pre ++ flat rs)) (k + length pre) rs.
Proof.
  revert pre. induction rs as [|[i us] rs IH]; intros pre; [done|]. cbn [yields].
  assert (pre ++ flat ((i, us) :: rs) = (pre ++ [(i, f64_zero)]) ++ (pair 0 <$> us) ++ flat rs) as Hf.
  { rewrite <- app_assoc. done. }
  split_and!.
  - apply (rounds_rng_at k _ (length pre) (i, f64_zero)). rewrite Hf, <- app_assoc, lookup_app_r by done.
    by rewrite Nat.sub_diag.
  - intros j u Hj. rewrite <- Nat.add_succ_r, <- Nat.add_assoc.
    destruct (rounds_rng_at k (pre ++ flat ((i, us) :: rs)) (S (length pre) + j) (0, u)) as [H _]; [|exact H].
    rewrite Hf. rewrite lookup_app_r by (rewrite app_length; simpl; lia).
    rewrite app_length. simpl length. replace (S (length pre) + j - (length pre + 1)) with j by lia.
    rewrite lookup_app_l by (rewrite fmap_length; by eapply lookup_lt_Some). by rewrite list_lookup_fmap, Hj.
  - rewrite Hf, app_assoc.
    replace (S (k + length pre) + length us) with (k + length ((pre ++ [(i, f64_zero)]) ++ (pair 0 <$> us))).
    + apply IH.
    + rewrite !app_length, fmap_length. simpl. lia.
Qed.

Lemma rounds_rng_ok k rs : yields (rounds_rng k (flat rs)) k rs.
Proof. pose proof (rounds_rng_yields k rs []) as H. by rewrite Nat.add_0_r in H. Qed.

(** ** The qubits that are left *)
Lemma swap_rest (pool : list nat) i b :
  pool !! i = Some b → S (length (swap_remove pool i)) = length pool ∧ pool ≡ₚ b :: swap_remove pool i.
Proof.
  intros H. pose proof (swap_remove_perm pool i b H) as Hp. split; [|done]. apply Permutation_length in Hp. simpl in Hp. lia.
Qed.

Lemma play_perm values pool rs : possible values (length pool) rs → (play pool rs).*1 ≡ₚ pool.
Proof.
  revert pool. induction rs as [|[i us] rs IH]; intros pool H.
  - by destruct pool.
  - destruct (length pool) as [|n] eqn:En; [done|]. cbn [possible] in H. destruct H as (Hi & Hl & _ & Hp).
    assert (i < length pool) as [b Hb]%lookup_lt_is_Some_2 by lia.
    cbn [play]. rewrite Hb. cbn [fmap list_fmap fst]. destruct (swap_rest pool i b Hb) as [Hlen Hperm].
    etrans; [|symmetry; exact Hperm]. constructor. apply IH. replace (length (swap_remove pool i)) with n by lia. done.
Qed.

Lemma play_rest values pool rs j b cs :
  NoDup pool → possible values (length pool) rs → play pool rs !! j = Some (b, cs) →
  NoDup cs.*1 ∧ (∀ c, c ∈ cs.*1 ↔ ∃ q, j < q ∧ (play pool rs).*1 !! q = Some c) ∧ (∀ c u, (c, u) ∈ cs → u ∈ values).
Proof.
  revert pool j. induction rs as [|[i us] rs IH]; intros pool j Hn H Hj; [done|].
  destruct (length pool) as [|n] eqn:En; [done|]. cbn [possible] in H. destruct H as (Hi & Hl & Hv & Hp).
  assert (i < length pool) as [a Ha]%lookup_lt_is_Some_2 by lia.
  cbn [play] in *. rewrite Ha in *. cbn [fmap list_fmap fst]. destruct (swap_rest pool i a Ha) as [Hlen Hperm].
  assert (length (swap_remove pool i) = n) as Hn1 by lia. rewrite <- Hn1 in Hp.
  assert (NoDup (swap_remove pool i)) as Hn2 by (rewrite Hperm in Hn; by apply NoDup_cons in Hn as [_ ?]).
  destruct j as [|j].
  - injection Hj as <- <-. rewrite fst_zip by lia. split_and!; [done| |].
    + intros c. rewrite <- (play_perm values _ rs Hp) at 1. rewrite elem_of_list_lookup. split.
      * intros [q Hq]. exists (S q). split; [lia|done].
      * intros ([|q] & Hlt & Hq); [lia|]. by exists q.
    + intros c u Hu. apply Hv. by eapply elem_of_zip_r.
  - destruct (IH _ j Hn2 Hp Hj) as (H1 & H2 & H3). split_and!; [done| |done].
    intros c. rewrite H2. split.
    + intros (q & Hlt & Hq). exists (S q). split; [lia|done].
    + intros ([|q] & Hlt & Hq); [lia|]. exists q. split; [lia|done].
Qed.

(** ** The order and the corrections *)

(** The draws that lead to the order [l] with the corrections [R]: [R p q] says that the
    measurement number [p] causes a correction of the qubit measured as number [q]. *)
Definition order_draws (x : f64) (size k : nat) (values : list f64) (l : list nat) (R : nat → nat → bool)
    (rs : list Round) : Prop :=
  possible values size rs ∧
  ∀ rng, yields rng k rs →
  ∃ frames, (∀ fuel, size < fuel → get_frames fuel rng x size k = Some (Val (frames, l, k + draws rs))) ∧
    ∀ p q c, p < q → l !! q = Some c → (corrected frames c p ↔ R p q = true).

(** The draws that lead to the order [l]. *)
Definition order_only (x : f64) (size k : nat) (values : list f64) (l : list nat) (rs : list Round) : Prop :=
  possible values size rs ∧
  ∀ rng, yields rng k rs →
  ∃ frames, ∀ fuel, size < fuel → get_frames fuel rng x size k = Some (Val (frames, l, k + draws rs)).

Lemma frames_played rng x size values rs k :
  yields rng k rs → possible values size rs →
  ∃ frames, (∀ fuel, size < fuel → get_frames fuel rng x size k
                = Some (Val (frames, (play (seq 0 size) rs).*1, k + draws rs))) ∧
    ∀ c p, corrected frames c p ↔
      ∃ b cs u, play (seq 0 size) rs !! p = Some (b, cs) ∧ (c, u) ∈ cs ∧ SFltb u x = true.
Proof.
  intros Hy Hp. destruct (play_frames rng x size values rs (replicate size (replicate size false)) (seq 0 size) [] k) as (frames & Hf & Hc).
  - done.
  - by rewrite seq_length.
  - split; [apply replicate_length|]. intros z [-> _]%elem_of_replicate. apply replicate_length.
  - done.
  - exists frames. split.
    + intros fuel Hfu. unfold get_frames. apply Hf. by rewrite seq_length.
    + intros c p. rewrite Hc. split.
      * intros [(z & [-> _]%lookup_replicate & [? _]%lookup_replicate)|(j & b & cs & u & -> & ?)]; [done|]. by exists b, cs, u.
      * intros (b & cs & u & H). right. by exists p, b, cs, u.
Qed.

Definition place (l : list nat) (c : nat) : nat :=
  match list_find (λ a, a = c) l with Some (q, _) => q | None => 0 end.
Lemma place_at l q c : NoDup l → l !! q = Some c → place l c = q.
Proof.
  intros Hn Hq. unfold place. destruct (list_find_elem_of (λ a, a = c) l c) as [[i a] Hi]; [by eapply elem_of_list_lookup_2|done|].
  rewrite Hi. apply list_find_Some in Hi as (Ha & -> & _). by eapply NoDup_lookup.
Qed.

Definition wanted (x : f64) (values : list f64) (l : list nat) (R : nat → nat → bool) (p c : nat) : list f64 :=
  List.filter (λ v, Bool.eqb (SFltb v x) (R p (place l c))) values.

Lemma order_draws_iff x size k values l R rs :
  l ≡ₚ seq 0 size →
  order_draws x size k values l R rs ↔ rs ∈ enum (wanted x values l R) 0 (seq 0 size) l.
Proof.
  intros Hl. assert (NoDup l) as Hnl by (rewrite Hl; apply NoDup_seq).
  rewrite (enum_elem _ values); [|intros p c v [? _]%wanted_values; done|apply NoDup_seq|done].
  rewrite seq_length. split.
  - intros (Hp & Hr). destruct (Hr _ (rounds_rng_ok k rs)) as (frames & Hf & Hc).
    destruct (frames_played _ x size values rs k (rounds_rng_ok k rs) Hp) as (frames' & Hf' & Hc').
    specialize (Hf (S size) ltac:(lia)). rewrite (Hf' (S size) ltac:(lia)) in Hf. injection Hf as -> El.
    split_and!; [done|done|]. intros j b cs c u Hj Hin. cbn [Nat.add]. apply wanted_values.
    assert (possible values (length (seq 0 size)) rs) as Hp' by (by rewrite seq_length).
    destruct (play_rest values (seq 0 size) rs j b cs (NoDup_seq _ _) Hp' Hj) as (H1 & H2 & H3).
    split; [by eapply H3|].
    assert (c ∈ cs.*1) as Hcc by (apply elem_of_list_fmap; by exists (c, u)).
    apply H2 in Hcc as (q & Hq & Hlq). rewrite El in Hlq. rewrite (place_at l q c Hnl Hlq).
    specialize (Hc j q c Hq Hlq). rewrite Hc' in Hc.
    assert (SFltb u x = true ↔ ∃ b' cs' u', play (seq 0 size) rs !! j = Some (b', cs') ∧ (c, u') ∈ cs' ∧ SFltb u' x = true) as Hu.
    { split; [intros; by exists b, cs, u|]. intros (b' & cs' & u' & Hj' & Hin' & Hu'). rewrite Hj in Hj'. injection Hj' as <- <-.
      apply elem_of_list_lookup in Hin as [i1 Hi1], Hin' as [i2 Hi2].
      assert (i1 = i2) as <-.
      { assert (cs.*1 !! i1 = Some c) as E1 by (rewrite list_lookup_fmap; by apply (f_equal (fmap fst)) in Hi1).
        assert (cs.*1 !! i2 = Some c) as E2 by (rewrite list_lookup_fmap; by apply (f_equal (fmap fst)) in Hi2).
        exact (NoDup_lookup cs.*1 i1 i2 c H1 E1 E2). }
      assert (Some (c, u) = Some (c, u')) as [= ->] by (by etrans; [symmetry; exact Hi1|exact Hi2]). done. }
    rewrite <- Hu in Hc. destruct (SFltb u x), (R j q); try done; [symmetry|]; by apply Hc.
  - intros (Hp & El & Hw). split; [done|]. intros rng Hy.
    destruct (frames_played rng x size values rs k Hy Hp) as (frames & Hf & Hc). rewrite El in Hf.
    exists frames. split; [done|]. intros p q c Hpq Hq. rewrite Hc.
    assert (possible values (length (seq 0 size)) rs) as Hp' by (by rewrite seq_length).
    assert (p < length (play (seq 0 size) rs)) as [[b cs] Hpl]%lookup_lt_is_Some_2.
    { apply lookup_lt_Some in Hq. rewrite <- El, fmap_length in Hq. lia. }
    destruct (play_rest values (seq 0 size) rs p b cs (NoDup_seq _ _) Hp' Hpl) as (H1 & H2 & H3).
    split.
    + intros (b' & cs' & u & Hpl' & Hin & Hu). rewrite Hpl in Hpl'. injection Hpl' as <- <-.
      specialize (Hw p b cs c u Hpl Hin). apply wanted_values in Hw as [_ Hw]. cbn [Nat.add] in Hw.
      rewrite (place_at l q c Hnl Hq) in Hw. congruence.
    + intros HR. assert (c ∈ cs.*1) as Hcc by (apply H2; exists q; by rewrite El).
      apply elem_of_list_fmap in Hcc as ([c' u] & -> & Hin). exists b, cs, u. split_and!; [done|done|].
      specialize (Hw p b cs c' u Hpl Hin). apply wanted_values in Hw as [_ Hw]. cbn [Nat.add] in Hw. cbn [fst] in Hq.
      rewrite (place_at l q c' Hnl Hq) in Hw. congruence.
Qed.

Lemma order_count :
  ∀ x size k values l R, NoDup values → l ≡ₚ seq 0 size →
  let corrections := hits (λ e, R e.1 e.2) (node_pairs size) in
  exactly (below x values ^ corrections * (length values - below x values) ^ (length (node_pairs size) - corrections))
    (order_draws x size k values l R).
Proof.
  intros x size k values l R Hn Hl corrections.
  assert (NoDup l) as Hnl by (rewrite Hl; apply NoDup_seq).
  exists (enum (wanted x values l R) 0 (seq 0 size) l). split_and!.
  - apply enum_nodup. intros p c. apply NoDup_ListNoDup, List.NoDup_filter. by apply NoDup_ListNoDup.
  - intros rs. by rewrite order_draws_iff.
  - rewrite enum_length by done. unfold corrections. rewrite <- product_two, node_pairs_from.
    pose proof (Permutation_length Hl) as Hlen. rewrite seq_length in Hlen. rewrite <- Hlen.
    apply (weights_pairs _ (λ u v, if R u v then below x values else length values - below x values)).
    intros u j c Hj. unfold wanted. rewrite wanted_length, (place_at l j c Hnl Hj). done.
Qed.

Lemma order_only_count :
  ∀ x size k values l, NoDup values → l ≡ₚ seq 0 size →
  exactly (length values ^ length (node_pairs size)) (order_only x size k values l).
Proof.
  intros x size k values l Hn Hl. exists (enum (λ _ _, values) 0 (seq 0 size) l). split_and!.
  - by apply enum_nodup.
  - intros rs. rewrite (enum_elem _ values); [|done|apply NoDup_seq|done]. rewrite seq_length. split.
    + intros (Hp & El & _). split; [done|]. intros rng Hy.
      destruct (frames_played rng x size values rs k Hy Hp) as (frames & Hf & _). rewrite El in Hf. by exists frames.
    + intros (Hp & Hr). split; [done|]. destruct (Hr _ (rounds_rng_ok k rs)) as (frames & Hf).
      destruct (frames_played _ x size values rs k (rounds_rng_ok k rs) Hp) as (frames' & Hf' & _).
      specialize (Hf (S size) ltac:(lia)). rewrite (Hf' (S size) ltac:(lia)) in Hf. injection Hf as _ El.
      split; [done|]. intros j b cs c u Hj Hin.
      assert (possible values (length (seq 0 size)) rs) as Hp' by (by rewrite seq_length).
      destruct (play_rest values (seq 0 size) rs j b cs (NoDup_seq _ _) Hp' Hj) as (_ & _ & H3). by eapply H3.
  - rewrite enum_length by done.
    pose proof (Permutation_length Hl) as Hlen. rewrite seq_length in Hlen.
    rewrite (weights_pairs _ (λ _ _, length values)) by done. rewrite node_pairs_from, <- Hlen. apply product_const.
Qed.

Lemma pairs_count p n : length (pairs_from p (S n)) = n + length (pairs_from (S p) n).
Proof. cbn [pairs_from]. by rewrite app_length, fmap_length, seq_length. Qed.

Lemma pairs_length p q n : length (pairs_from p n) = length (pairs_from q n).
Proof. revert p q. induction n as [|n IH]; intros p q; [done|]. by rewrite !pairs_count, (IH (S p) (S q)). Qed.

Lemma possible_count :
  ∀ size values, NoDup values →
  exactly (fact size * length values ^ length (node_pairs size)) (possible values size).
Proof.
  intros size values Hn. rewrite node_pairs_from. induction size as [|n IH].
  - exists [[]]. split_and!; [apply NoDup_singleton| |done]. intros rs. rewrite elem_of_list_singleton. by destruct rs.
  - assert (exactly (length values ^ n) (λ us : list f64, length us = n ∧ ∀ u, u ∈ us → u ∈ values)) as Hu.
    { exists (vectors (replicate n values)). split_and!.
      - apply vectors_nodup. by apply Forall_replicate.
      - intros us. rewrite vectors_elem. clear. revert us. induction n as [|n IH]; intros us; simpl.
        + split; [intros H; inversion H; split; [done|by intros ? ?%elem_of_nil]|]. intros [? _]. by destruct us.
        + split.
          * intros H. inversion H as [|u ? us' ? Hu Hus]; subst. apply IH in Hus as [? Hus]. split; [simpl; lia|].
            intros w [->|?]%elem_of_cons; [done|by apply Hus].
          * intros [Hl Hu]. destruct us as [|u us]; [done|]. constructor; [apply Hu; by left|]. apply IH.
            split; [simpl in Hl; lia|]. intros w Hw. apply Hu. by right.
      - rewrite vectors_length, fmap_replicate. clear. unfold product. induction n as [|n IH]; [done|]. simpl. by rewrite IH. }
    assert (exactly (S n) (λ i, i < S n)) as Hi.
    { exists (seq 0 (S n)). split_and!; [apply NoDup_seq| |apply seq_length]. intros i. rewrite elem_of_seq. lia. }
    pose proof (exactly_pair _ _ _ _ (exactly_pair _ _ _ _ Hi Hu) IH) as (l & Hnl & Hl & Hlen).
    exists ((λ y, (y.1.1, y.1.2) :: y.2) <$> l). split_and!.
    + apply NoDup_fmap_2; [|done]. intros [[i us] rs] [[i' us'] rs'] [= -> -> ->]. done.
    + intros rs. rewrite elem_of_list_fmap. split.
      * intros ([[i us] rs'] & -> & H). apply Hl in H. cbn in *. tauto.
      * intros H. destruct rs as [|[i us] rs]; [done|]. cbn in H. exists ((i, us), rs). split; [done|]. apply Hl. cbn. tauto.
    + rewrite fmap_length, Hlen, pairs_count. rewrite (pairs_length 1 0), Nat.pow_add_r. simpl fact. nia.
Qed.

Lemma instance_count :
  ∀ ed ex cx size k values Re l Rc, NoDup values → size = 0 ∨ density_value ed size ex → l ≡ₚ seq 0 size →
  let pairs := length (node_pairs size) in
  let edges := hits (λ e, Re e.1 e.2) (node_pairs size) in
  let corrections := hits (λ e, Rc e.1 e.2) (node_pairs size) in
  exactly (below ex values ^ edges * (length values - below ex values) ^ (pairs - edges) *
           (below cx values ^ corrections * (length values - below cx values) ^ (pairs - corrections)))
    (λ ds, graph_samples ed size k values Re ds.1 ∧ order_draws cx size (k + length ds.1) values l Rc ds.2).
Proof.
  intros ed ex cx size k values Re l Rc Hn Hd Hl pairs edges corrections.
  eapply exactly_iff; [|apply exactly_pair; [by apply graph_count|by apply (order_count cx size (k + pairs))]].
  intros [us rs]. cbn [fst snd]. split.
  - intros [Hg Ho]. pose proof Hg as [Hl' _]. by rewrite Hl'.
  - intros [Hg Ho]. pose proof Hg as [Hl' _]. by rewrite Hl' in Ho.
Qed.

Lemma edge_count :
  ∀ d x size k values u v, NoDup values → density_value d size x → u < v → v < size →
  exactly (below x values * length values ^ (length (node_pairs size) - 1))
    (λ us, length us = length (node_pairs size) ∧ (∀ w, w ∈ us → w ∈ values) ∧
       ∀ rng, samples_from rng k us →
       ∃ adj k', get_graph rng d size k = Val (adj, k') ∧ v ∈ neighbours adj u).
Proof.
  intros d x size k values u v Hn Hd H1 H2.
  pose (A := λ e : nat * nat, if decide (e = (u, v)) then List.filter (λ w, SFltb w x) values else values).
  exists (vectors (A <$> node_pairs size)). split_and!.
  - apply vectors_nodup. apply Forall_fmap, Forall_true. intros e. unfold A. cbn. destruct (decide _); [|done].
    apply NoDup_ListNoDup, List.NoDup_filter. by apply NoDup_ListNoDup.
  - intros us. rewrite vectors_elem, Forall2_fmap_r, Forall2_same_length_lookup.
    destruct (elem_of_list_lookup_1 (node_pairs size) (u, v)) as [i Hi]; [by apply node_pairs_elem|].
    split.
    + intros [Hl H]. split_and!; [done|..].
      * intros w (j & Hj)%elem_of_list_lookup_1. assert (j < length (node_pairs size)) as [e He]%lookup_lt_is_Some_2 by (rewrite <- Hl; by eapply lookup_lt_Some).
        specialize (H j w e Hj He). unfold A, compose in H. destruct (decide (e = (u, v))); [|done]. rewrite elem_of_list_In, filter_In in H. destruct H as [H _]. by apply elem_of_list_In.
      * intros rng Hrng. destruct (random_graph rng d x size k (or_intror Hd)) as (adj & E & _ & Hadj). exists adj. eexists. split; [done|].
        apply (Hadj i u v Hi). assert (i < length us) as [w Hw]%lookup_lt_is_Some_2 by (rewrite Hl; by eapply lookup_lt_Some).
        rewrite (Hrng i w Hw). specialize (H i w _ Hw Hi). unfold A, compose in H. rewrite decide_True in H by done.
        rewrite elem_of_list_In, filter_In in H. exact (proj2 H).
    + intros (Hl & Hv & Hr). split; [done|]. intros j w e Hj He. unfold A, compose. destruct (decide (e = (u, v))) as [->|Hne].
      * assert (j = i) as -> by (eapply NoDup_lookup; [apply node_pairs_nodup|done|done]).
        destruct (Hr _ (rng_of_samples k us)) as (adj & k' & E & Hadj).
        destruct (random_graph (rng_of k us) d x size k (or_intror Hd)) as (adj' & E' & _ & Hadj'). rewrite E in E'. injection E' as <- _.
        apply (Hadj' i u v Hi) in Hadj. rewrite (rng_of_samples k us i w Hj) in Hadj.
        rewrite elem_of_list_In, filter_In. split; [|done]. apply elem_of_list_In. by eapply Hv, elem_of_list_lookup_2.
      * by eapply Hv, elem_of_list_lookup_2.
  - rewrite vectors_length. destruct (elem_of_Permutation (node_pairs size) (u, v)) as [He _].
    destruct He as [l Hl]; [by apply node_pairs_elem|].
    rewrite (product_perm (length <$> (A <$> node_pairs size)) (length <$> (A <$> (u, v) :: l))) by (by rewrite Hl).
    pose proof (Permutation_length Hl) as Hlen. rewrite Hlen. cbn [length]. rewrite Nat.sub_succ, Nat.sub_0_r.
    assert (length <$> (A <$> l) = (λ _, length values) <$> l) as El.
    { rewrite <- list_fmap_compose. apply list_fmap_ext. intros j e Hj. unfold compose, A.
      rewrite decide_False; [done|]. intros ->. pose proof (node_pairs_nodup size) as Hnd. rewrite Hl in Hnd.
      apply NoDup_cons in Hnd as [Hnd _]. apply Hnd. by eapply elem_of_list_lookup_2. }
    change (length (A (u, v)) * product (length <$> (A <$> l)) = below x values * length values ^ length l).
    rewrite El, product_const. f_equal. unfold A. by rewrite decide_True.
Qed.
