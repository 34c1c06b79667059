(** * Facts about the random graphs and orders of the benchmark crate *)
From stdpp Require Import strings.
From Verif Require Export Results MainInterface.
From Verif Require Import Spec.

(** ** Random graphs *)

(** The pairs of nodes, in the order in which [get_graph] visits them. *)
Definition node_pairs (size : nat) : list (nat * nat) :=
  List.concat (map (λ u, map (pair u) (seq (u + 1) (size - (u + 1)))) (seq 0 (size - 1))).

Lemma node_pairs_elem size u v : (u, v) ∈ node_pairs size ↔ u < v ∧ v < size.
Proof.
  unfold node_pairs. rewrite elem_of_list_In, in_concat. split.
  - intros (l & Hl & Hin). apply in_map_iff in Hl as (u' & <- & Hu'). apply in_map_iff in Hin as (v' & [= -> ->] & Hv).
    apply in_seq in Hu', Hv. lia.
  - intros [H1 H2]. eexists. split; [apply in_map_iff; exists u; split; [reflexivity|apply in_seq; lia]|].
    apply in_map_iff. exists v. split; [done|]. apply in_seq. lia.
Qed.

Lemma node_pairs_nodup size : NoDup (node_pairs size).
Proof.
  unfold node_pairs. generalize (seq 0 (size - 1)) (NoDup_seq 0 (size - 1)). intros l Hl.
  induction Hl as [|u l Hu Hl IH]; simpl; [constructor|]. apply NoDup_app. split; [|split; [|done]].
  - apply NoDup_ListNoDup, FinFun.Injective_map_NoDup; [|apply seq_NoDup]. by intros x y [= ->].
  - intros [a b] Hab Hin. apply elem_of_list_In, in_map_iff in Hab as (v & [= <- <-] & _).
    apply elem_of_list_In, in_concat in Hin as (l' & Hl' & Hin).
    apply in_map_iff in Hl' as (u' & <- & Hu'). apply in_map_iff in Hin as (v' & [= <- _] & _).
    apply Hu. by apply elem_of_list_In.
Qed.

Lemma ofold_app {A S} (f : S → A → out S) l1 l2 s :
  ofold f (l1 ++ l2) s = (let* s' := ofold f l1 s in ofold f l2 s').
Proof.
  revert s. induction l1 as [|a l1 IH]; intros s; simpl; [done|]. destruct (f s a); simpl; [apply IH|done].
Qed.

Lemma ofold_map {A B S} (f : S → B → out S) (h : A → B) l s :
  ofold f (map h l) s = ofold (λ s a, f s (h a)) l s.
Proof. revert s. induction l as [|a l IH]; intros s; simpl; [done|]. destruct (f s (h a)); simpl; [apply IH|done]. Qed.

Lemma ofold_concat {A B S} (f : S → B → out S) (h : A → list B) l s :
  ofold (λ s a, ofold f (h a) s) l s = ofold f (List.concat (map h l)) s.
Proof.
  revert s. induction l as [|a l IH]; intros s; simpl; [done|]. rewrite ofold_app.
  destruct (ofold f (h a) s); simpl; [apply IH|done].
Qed.

Definition pair_body (rng : Rng) (x : f64) (s : SpacialGraph * nat) (e : nat * nat) :=
  get_graph_body rng x e.1 s e.2.

Lemma get_graph_pairs rng d size k :
  get_graph rng d size k =
  if size =? 0 then Val ([], k)
  else let* x := density_get d size in
       ofold (pair_body rng x) (node_pairs size) (replicate size [], k).
Proof.
  unfold get_graph. destruct (size =? 0); [done|]. destruct (density_get d size) as [x|]; [|done].
  cbn [obind]. unfold node_pairs. rewrite <- ofold_concat.
  assert (∀ l s,
    ofold (λ s0 this, ofold (get_graph_body rng x this) (seq (this + 1) (size - (this + 1))) s0) l s =
    ofold (λ s0 a, ofold (pair_body rng x) (map (pair a) (seq (a + 1) (size - (a + 1)))) s0) l s) as H.
  { induction l as [|a l IH]; intros s; [done|]. cbn [ofold]. rewrite ofold_map. unfold pair_body at 1. simpl.
    destruct (ofold _ _ s); simpl; [apply IH|done]. }
  apply H.
Qed.

(** The neighbour of [w] that the edge [e] contributes. *)
Definition partner (w : nat) (e : nat * nat) : option nat :=
  if decide (e.1 = w) then Some e.2 else if decide (e.2 = w) then Some e.1 else None.

(** The graph with the edges [es], in this order. *)
Definition graph_of (size : nat) (es : list (nat * nat)) : SpacialGraph :=
  map (λ w, omap (partner w) es) (seq 0 size).

Lemma graph_of_lookup size es w :
  w < size → graph_of size es !! w = Some (omap (partner w) es).
Proof.
  intros H. unfold graph_of. rewrite list_lookup_fmap, lookup_seq_lt by done. done.
Qed.

Lemma graph_of_length size es : length (graph_of size es) = size.
Proof. unfold graph_of. by rewrite map_length, seq_length. Qed.

Lemma index_push_Val {A} (v : list (list A)) i a l :
  v !! i = Some l → index_push v i a = Val (<[i := l ++ [a]]> v).
Proof. intros H. unfold index_push, index. rewrite H. cbn [obind]. unfold index_set. by rewrite H. Qed.

Lemma graph_of_push size es u v :
  u < v → v < size →
  (let* r := index_push (graph_of size es) u v in index_push r v u) = Val (graph_of size (es ++ [(u, v)])).
Proof.
  intros H1 H2. rewrite (index_push_Val _ _ _ _ (graph_of_lookup size es u ltac:(lia))). cbn [obind].
  erewrite index_push_Val.
  2: { rewrite list_lookup_insert_ne by lia. apply graph_of_lookup. lia. }
  f_equal. apply list_eq. intros w. destruct (decide (w < size)) as [Hw|Hw].
  - rewrite (graph_of_lookup size (es ++ _) w Hw). rewrite omap_app. simpl.
    destruct (decide (w = v)) as [->|Hv].
    + rewrite list_lookup_insert by (rewrite insert_length, graph_of_length; lia).
      unfold partner at 3. simpl. rewrite decide_False by lia. by rewrite decide_True.
    + rewrite list_lookup_insert_ne by done. destruct (decide (w = u)) as [->|Hu].
      * rewrite list_lookup_insert by (rewrite graph_of_length; lia). unfold partner at 3. simpl. by rewrite decide_True.
      * rewrite list_lookup_insert_ne by done. rewrite graph_of_lookup by done.
        unfold partner at 3. simpl. rewrite !decide_False by done. by rewrite app_nil_r.
  - rewrite !lookup_ge_None_2; [done|rewrite graph_of_length; lia|rewrite !insert_length, graph_of_length; lia].
Qed.

(** The pairs among [ps] that are chosen; draw [k] decides about the first. *)
Fixpoint chosen (rng : Rng) (x : f64) (k : nat) (ps : list (nat * nat)) : list (nat * nat) :=
  match ps with
  | [] => []
  | e :: ps =>
      if SFltb (r_uniform rng k) x then e :: chosen rng x (S k) ps else chosen rng x (S k) ps
  end.

Lemma chosen_elem rng x k ps e :
  e ∈ chosen rng x k ps ↔ ∃ i, ps !! i = Some e ∧ SFltb (r_uniform rng (k + i)) x = true.
Proof.
  revert k. induction ps as [|p ps IH]; intros k; cbn [chosen].
  - split; [by intros ?%elem_of_nil|]. by intros (i & ? & _).
  - assert ((∃ i, (p :: ps) !! i = Some e ∧ SFltb (r_uniform rng (k + i)) x = true) ↔
      (p = e ∧ SFltb (r_uniform rng k) x = true) ∨
      ∃ i, ps !! i = Some e ∧ SFltb (r_uniform rng (S k + i)) x = true) as ->.
    { split.
      - intros ([|i] & Hi & Hs); simpl in Hi.
        + rewrite Nat.add_0_r in Hs. left. by simplify_eq.
        + right. exists i. split; [done|]. by rewrite Nat.add_succ_comm.
      - intros [[-> Hs]|(i & Hi & Hs)].
        + exists 0. by rewrite Nat.add_0_r.
        + exists (S i). split; [done|]. by rewrite Nat.add_succ_comm in Hs. }
    destruct (SFltb (r_uniform rng k) x).
    + rewrite elem_of_cons, IH. intuition congruence.
    + rewrite IH. intuition congruence.
Qed.

Lemma chosen_sublist rng x k ps : chosen rng x k ps `sublist_of` ps.
Proof.
  revert k. induction ps as [|p ps IH]; intros k; cbn [chosen]; [constructor|].
  destruct (SFltb _ _); by constructor.
Qed.

Lemma pairs_loop rng x size k ps es :
  (∀ u v, (u, v) ∈ ps → u < v ∧ v < size) →
  ofold (pair_body rng x) ps (graph_of size es, k) =
  Val (graph_of size (es ++ chosen rng x k ps), k + length ps).
Proof.
  revert k es. induction ps as [|[u v] ps IH]; intros k es H; cbn [ofold chosen].
  - by rewrite app_nil_r, Nat.add_0_r.
  - unfold pair_body at 1, get_graph_body. cbn [fst snd].
    destruct (H u v ltac:(by left)) as [H1 H2].
    destruct (SFltb (r_uniform rng k) x).
    + pose proof (graph_of_push size es u v H1 H2) as Hp.
      destruct (index_push (graph_of size es) u v) as [r|]; cbn [obind] in *; [|done].
      rewrite Hp. cbn [obind]. rewrite IH by (intros; apply H; by right).
      rewrite <- app_assoc. simpl. by rewrite Nat.add_succ_r.
    + cbn [obind]. rewrite IH by (intros; apply H; by right). simpl. by rewrite Nat.add_succ_r.
Qed.

Lemma get_graph_spec rng d x size k :
  size = 0 ∨ density_get d size = Val x →
  get_graph rng d size k =
  Val (graph_of size (chosen rng x k (node_pairs size)), k + length (node_pairs size)).
Proof.
  intros Hd. rewrite get_graph_pairs. destruct (Nat.eqb_spec size 0) as [->|Hs].
  - simpl. by rewrite Nat.add_0_r.
  - destruct Hd as [?| ->]; [done|]. cbn [obind].
    replace (replicate size []) with (graph_of size []).
    + rewrite pairs_loop; [done|]. intros u v. apply node_pairs_elem.
    + unfold graph_of. clear. generalize 0. induction size as [|n IH]; intros s; simpl; [done|]. by rewrite IH.
Qed.

Lemma partner_Some w e v : partner w e = Some v → (e = (w, v) ∨ e = (v, w)).
Proof.
  destruct e as [a b]. unfold partner. simpl. case_decide as H1; [intros [= ->]; subst; by left|].
  case_decide as H2; [intros [= ->]; subst; by right|done].
Qed.

Lemma graph_of_neighbours size es u v :
  (∀ a b, (a, b) ∈ es → a < b ∧ b < size) →
  v ∈ neighbours (graph_of size es) u ↔ (u, v) ∈ es ∨ (v, u) ∈ es.
Proof.
  intros H. unfold neighbours. destruct (decide (u < size)) as [Hu|Hu].
  - rewrite graph_of_lookup by done. simpl. rewrite elem_of_list_omap. split.
    + intros (e & He & Hp). apply partner_Some in Hp as [->| ->]; auto.
    + intros [He|He]; eexists; (split; [exact He|]); destruct (H _ _ He); unfold partner; simpl.
      * by rewrite decide_True.
      * rewrite decide_False by lia. by rewrite decide_True.
  - rewrite lookup_ge_None_2 by (rewrite graph_of_length; lia). simpl. split; [by intros ?%elem_of_nil|].
    intros [He|He]; destruct (H _ _ He); lia.
Qed.

Lemma graph_of_nodup es w :
  (∀ a b, (a, b) ∈ es → a < b) → NoDup es → NoDup (omap (partner w) es).
Proof.
  intros H Hn. induction Hn as [|e es He Hn IH]; simpl; [constructor|].
  destruct (partner w e) as [v|] eqn:Ep; [|apply IH; intros; apply H; by right].
  constructor; [|apply IH; intros; apply H; by right].
  rewrite elem_of_list_omap. intros (e' & He' & Hp'). apply He.
  enough (e = e') as -> by done. destruct e as [a b], e' as [a' b'].
  pose proof (H a b ltac:(by left)). pose proof (H a' b' ltac:(by right)).
  apply partner_Some in Ep, Hp'. destruct Ep as [[= -> ->]|[= -> ->]], Hp' as [[= -> ->]|[= -> ->]]; try done; lia.
Qed.

(** ** Random orders *)

(** Correction: qubit [c] is corrected depending on the measurement number [p]. *)
Definition corrected (frames : Frames) (c p : nat) : Prop :=
  ∃ z, frames !! c = Some z ∧ z !! p = Some true.

Definition rectangular (size : nat) (frames : Frames) : Prop :=
  length frames = size ∧ ∀ z, z ∈ frames → length z = size.

Lemma swap_take_spec {A} (v : list A) i :
  i < length v → ∃ a v', swap_take v i = Val (a, v') ∧ v ≡ₚ a :: v' ∧ v !! i = Some a.
Proof.
  intros Hi. unfold swap_take, index. destruct (lookup_lt_is_Some_2 v i Hi) as [a Ha]. rewrite Ha.
  exists a, (swap_remove v i). split; [done|]. split; [|done]. by apply swap_remove_perm.
Qed.

Lemma choose_elem rng x pool k b : b ∈ (choose_corrections rng x pool k).1 → b ∈ pool.
Proof.
  revert k. induction pool as [|a pool IH]; intros k; simpl; [by intros ?%elem_of_nil|].
  destruct (choose_corrections rng x pool (S k)) as [cs k'] eqn:E. specialize (IH (S k)). rewrite E in IH. simpl in *.
  destruct (SFltb _ _); [rewrite elem_of_cons; intros [->|?]; [by left|right; auto]|right; auto].
Qed.

Lemma choose_all rng x pool k :
  (∀ k, SFltb (r_uniform rng k) x = true) → (choose_corrections rng x pool k).1 = pool.
Proof.
  intros H. revert k. induction pool as [|a pool IH]; intros k; simpl; [done|].
  specialize (IH (S k)). destruct (choose_corrections rng x pool (S k)). rewrite H. simpl in *. by f_equal.
Qed.
Lemma choose_none rng x pool k :
  (∀ k, SFltb (r_uniform rng k) x = false) → (choose_corrections rng x pool k).1 = [].
Proof.
  intros H. revert k. induction pool as [|a pool IH]; intros k; simpl; [done|].
  specialize (IH (S k)). destruct (choose_corrections rng x pool (S k)). by rewrite H.
Qed.

Lemma set_frame_spec size frames p c :
  rectangular size frames → p < size → c < size →
  ∃ frames', set_frame p frames c = Val frames' ∧ rectangular size frames' ∧
    ∀ c' p', corrected frames' c' p' ↔ corrected frames c' p' ∨ (c' = c ∧ p' = p).
Proof.
  intros [Hl Hz] Hp Hc. unfold set_frame, index.
  destruct (lookup_lt_is_Some_2 frames c ltac:(lia)) as [z Ez]. rewrite Ez. cbn [obind]. unfold index_set at 1.
  pose proof (Hz z (elem_of_list_lookup_2 _ _ _ Ez)) as Hzl.
  destruct (lookup_lt_is_Some_2 z p ltac:(lia)) as [y Ey]. rewrite Ey. cbn [obind]. unfold index_set. rewrite Ez.
  eexists. split; [reflexivity|]. split.
  - split; [by rewrite insert_length|]. intros z' (i & Hi)%elem_of_list_lookup_1.
    apply list_lookup_insert_Some in Hi as [(_ & <- & _)|[_ Hi]]; [by rewrite insert_length|].
    eapply Hz, elem_of_list_lookup_2, Hi.
  - intros c' p'. unfold corrected. split.
    + intros (z' & H1 & H2). apply list_lookup_insert_Some in H1 as [(-> & <- & _)|[Hne H1]]; [|left; eauto].
      apply list_lookup_insert_Some in H2 as [(-> & _ & _)|[_ H2]]; [by right|left; eauto].
    + intros [(z' & H1 & H2)|[-> ->]].
      * destruct (decide (c' = c)) as [->|Hne].
        -- rewrite Ez in H1. injection H1 as <-. eexists. split; [apply list_lookup_insert; lia|].
           destruct (decide (p' = p)) as [->|Hp']; [apply list_lookup_insert; lia|by rewrite list_lookup_insert_ne].
        -- exists z'. by rewrite list_lookup_insert_ne.
      * eexists. split; [apply list_lookup_insert; lia|]. apply list_lookup_insert. lia.
Qed.

Lemma set_frames_spec size p cs frames :
  rectangular size frames → p < size → (∀ c, c ∈ cs → c < size) →
  ∃ frames', ofold (set_frame p) cs frames = Val frames' ∧ rectangular size frames' ∧
    ∀ c' p', corrected frames' c' p' ↔ corrected frames c' p' ∨ (c' ∈ cs ∧ p' = p).
Proof.
  revert frames. induction cs as [|c cs IH]; intros frames Hr Hp Hc; cbn [ofold].
  - exists frames. split; [done|]. split; [done|]. intros c' p'. split; [by left|].
    intros [?|[?%elem_of_nil _]]; done.
  - destruct (set_frame_spec size frames p c Hr Hp (Hc c ltac:(by left))) as (f1 & -> & Hr1 & Hi1). cbn [obind].
    destruct (IH f1 Hr1 Hp ltac:(intros; apply Hc; by right)) as (f2 & -> & Hr2 & Hi2).
    exists f2. split; [done|]. split; [done|]. intros c' p'. rewrite Hi2, Hi1, elem_of_cons. tauto.
Qed.

Record order_inv (rng : Rng) (x : f64) (size : nat) (s : Frames * list nat * list nat * nat) : Prop := {
  oi_rect : rectangular size s.1.1.1;
  oi_perm : s.1.2 ++ s.1.1.2 ≡ₚ seq 0 size;
  oi_corr : ∀ c p, corrected s.1.1.1 c p →
     p < length s.1.2 ∧ c ∉ take (S p) s.1.2 ∧ c < size;
  oi_all : (∀ k, SFltb (r_uniform rng k) x = true) → ∀ c p,
     p < length s.1.2 → c < size → c ∉ take (S p) s.1.2 → corrected s.1.1.1 c p;
  oi_none : (∀ k, SFltb (r_uniform rng k) x = false) → ∀ c p, ¬ corrected s.1.1.1 c p
}.

Lemma get_order_body_inv rng x size s :
  (∀ k n, 0 < n → r_range rng k n < n) → order_inv rng x size s →
  match s.1.1.2 with
  | [] => get_order_body rng x s = Val (inr (s.1.1.1, s.1.2, s.2))
  | _ => ∃ s', get_order_body rng x s = Val (inl s') ∧ order_inv rng x size s' ∧
               S (length s'.1.1.2) = length s.1.1.2
  end.
Proof.
  intros Hrng [H1 H2 H3 H4 H5]. destruct s as [[[frames pool] map] k]. simpl in *.
  destruct pool as [|a pool]; [done|].
  destruct (swap_take_spec (a :: pool) (r_range rng k (length (a :: pool)))) as (b & pool' & E & Hp & _).
  { apply Hrng. simpl. lia. }
  simpl length in E. simpl. rewrite E. cbn [obind].
  destruct (choose_corrections rng x pool' (S k)) as [cs k'] eqn:Ec.
  assert (length map < size) as Hmap.
  { apply Permutation_length in H2. rewrite app_length, seq_length in H2. simpl in H2. lia. }
  assert (map ++ b :: pool' ≡ₚ seq 0 size) as H2' by (by rewrite <- Hp).
  assert (∀ c, c ∈ pool' → c < size ∧ c ∉ map ++ [b]) as Hpool.
  { intros c Hc. assert (c ∈ seq 0 size) as Hs.
    { rewrite <- H2'. apply elem_of_app. right. by right. }
    apply elem_of_seq in Hs. split; [lia|]. intros Hin.
    pose proof (NoDup_seq 0 size) as Hnd. rewrite <- H2' in Hnd.
    change (b :: pool') with ([b] ++ pool') in Hnd. rewrite app_assoc in Hnd. apply NoDup_app in Hnd as (_ & Hd & _).
    by apply (Hd c). }
  destruct (set_frames_spec size (length map) cs frames H1 Hmap) as (f' & -> & Hr & Hi).
  { intros c Hc. eapply Hpool, choose_elem. rewrite Ec. exact Hc. }
  cbn [obind]. eexists. split; [reflexivity|]. simpl. split; [split; simpl|].
  - done.
  - rewrite <- app_assoc. simpl. done.
  - intros c p. rewrite app_length. simpl. rewrite Hi. intros [Hc|[Hc ->]].
    + destruct (H3 c p Hc) as (Ha & Hb & Hd). split; [lia|]. split; [|done].
      rewrite take_app_le by lia. done.
    + split; [lia|]. rewrite take_ge by (rewrite app_length; simpl; lia).
      destruct (Hpool c) as [? ?]; [|done]. eapply choose_elem. rewrite Ec. exact Hc.
  - intros Hall c p. rewrite app_length. simpl. intros Hlt Hcs Hnot. apply Hi.
    destruct (decide (p = length map)) as [->|Hne].
    + right. split; [|done]. rewrite take_ge in Hnot by (rewrite app_length; simpl; lia).
      pose proof (choose_all rng x pool' (S k) Hall) as Hca. rewrite Ec in Hca. simpl in Hca. subst cs.
      assert (c ∈ map ++ b :: pool') as Hin by (rewrite H2'; apply elem_of_seq; lia).
      rewrite elem_of_app, elem_of_cons in Hin. rewrite elem_of_app, elem_of_list_singleton in Hnot. tauto.
    + left. apply H4; [done|lia|done|]. by rewrite take_app_le in Hnot by lia.
  - intros Hnone c p. rewrite Hi. intros [Hc|[Hc _]]; [by eapply H5|].
    pose proof (choose_none rng x pool' (S k) Hnone) as Hca. rewrite Ec in Hca. simpl in Hca. subst cs.
    by apply elem_of_nil in Hc.
  - apply Permutation_length in Hp. simpl in Hp. lia.
Qed.

Lemma get_frames_spec rng x size k :
  (∀ k n, 0 < n → r_range rng k n < n) →
  ∃ frames map k', (∀ fuel, size < fuel → get_frames fuel rng x size k = Some (Val (frames, map, k'))) ∧
    rectangular size frames ∧ map ≡ₚ seq 0 size ∧
    (∀ c p, corrected frames c p → p < size ∧ c < size ∧ c ∉ take (S p) map) ∧
    ((∀ k, SFltb (r_uniform rng k) x = true) → ∀ c p,
       corrected frames c p ↔ p < size ∧ c < size ∧ c ∉ take (S p) map) ∧
    ((∀ k, SFltb (r_uniform rng k) x = false) → ∀ c p, ¬ corrected frames c p).
Proof.
  intros Hrng. unfold get_frames.
  enough (∀ s, order_inv rng x size s → ∃ frames map k',
    (∀ fuel, length s.1.1.2 < fuel → loop (get_order_body rng x) fuel s = Some (Val (frames, map, k'))) ∧
    rectangular size frames ∧ map ≡ₚ seq 0 size ∧
    (∀ c p, corrected frames c p → p < size ∧ c < size ∧ c ∉ take (S p) map) ∧
    ((∀ k, SFltb (r_uniform rng k) x = true) → ∀ c p,
       corrected frames c p ↔ p < size ∧ c < size ∧ c ∉ take (S p) map) ∧
    ((∀ k, SFltb (r_uniform rng k) x = false) → ∀ c p, ¬ corrected frames c p)) as H.
  { destruct (H (replicate size (replicate size false), seq 0 size, [], k)) as (f & m & k' & Hf & Hrest).
    - split; simpl.
      + split; [apply replicate_length|]. intros z Hz. apply elem_of_replicate in Hz as [-> _]. apply replicate_length.
      + done.
      + intros c p (z & Hz & Ht). apply lookup_replicate in Hz as [-> _]. apply lookup_replicate in Ht as [? _]. done.
      + intros _ c p Hp. lia.
      + intros _ c p (z & Hz & Ht). apply lookup_replicate in Hz as [-> _]. apply lookup_replicate in Ht as [? _]. done.
    - exists f, m, k'. split; [|done]. intros fuel Hfu. apply Hf. simpl. by rewrite seq_length. }
  intros s. remember (length s.1.1.2) as n eqn:En. revert s En.
  induction n as [|n IH]; intros s En Hinv; pose proof (get_order_body_inv rng x size s Hrng Hinv) as Hb.
  - destruct s as [[[frames pool] map] k0]. simpl in *. destruct pool as [|a pool]; [|done].
    exists frames, map, k0. destruct Hinv as [H1 H2 H3 H4 H5]. simpl in *. rewrite app_nil_r in H2.
    split; [intros [|fuel] Hfu; [lia|]; done|].
    split; [done|]. split; [done|]. apply Permutation_length in H2 as Hlen. rewrite seq_length in Hlen.
    assert (∀ c p, corrected frames c p → p < size ∧ c < size ∧ c ∉ take (S p) map) as Hcorr.
    { intros c p Hc. destruct (H3 c p Hc) as (Ha & ? & ?). split; [lia|done]. }
    split; [done|]. split; [|done]. intros Hall c p. split; [apply Hcorr|]. intros (Ha & Hb' & Hc).
    apply H4; [done|lia|done|done].
  - destruct (s.1.1.2) as [|a pool]; [done|]. destruct Hb as (s' & Es & Hinv' & Hl).
    destruct (IH s' ltac:(simpl in *; lia) Hinv') as (frames & map & k' & Hf & Hrest).
    exists frames, map, k'. split; [|done]. intros [|fuel] Hfu; [lia|]. cbn [loop]. rewrite Es. apply Hf. lia.
Qed.

(** What is used of [induced_order::get_order]: on acyclic corrections it returns
    a well-formed order of all qubits. *)
Definition induces_orders (induced : Frames → list nat → PartialOrderGraph) : Prop :=
  ∀ size frames map, rectangular size frames → map ≡ₚ seq 0 size →
  (∀ c p, corrected frames c p → c ∉ take (S p) map) →
  wf_order size (induced frames map) ∧ ∀ b, listed (induced frames map) b ↔ b < size.

Lemma get_order_spec induced rng d size k :
  induces_orders induced → (∀ k n, 0 < n → r_range rng k n < n) →
  (size = 0 ∨ ∃ x, density_get d size = Val x) →
  ∃ g k', (∀ fuel, size < fuel → get_order fuel induced rng d size k = Some (Val (g, k'))) ∧
    wf_order size g ∧ ∀ b, listed g b ↔ b < size.
Proof.
  intros Hind Hrng Hd. unfold get_order. destruct (Nat.eqb_spec size 0) as [->|Hs].
  - exists [], k. split; [done|]. split.
    + split; [by intros b ?%elem_of_nil|constructor|by intros b ds ?%elem_of_nil|done].
    + intros b. split; [|lia]. intros (layer & ds & ?%elem_of_nil & _). done.
  - destruct Hd as [?|[x ->]]; [done|]. destruct (get_frames_spec rng x size k Hrng) as (frames & map & k' & Hf & Hr & Hp & Hc & _).
    exists (induced frames map), k'. split.
    + intros fuel Hfu. cbn [rbind]. rewrite Hf by done. done.
    + apply Hind; [done..|]. intros c p Hcp. by apply Hc.
Qed.

(** Also for less fuel: never a panic, always the same result. *)
Lemma get_order_some induced rng d size k fuel o :
  induces_orders induced → (∀ k n, 0 < n → r_range rng k n < n) →
  (size = 0 ∨ ∃ x, density_get d size = Val x) →
  get_order fuel induced rng d size k = Some o →
  ∃ g k', o = Val (g, k') ∧ wf_order size g ∧ ∀ b, listed g b ↔ b < size.
Proof.
  intros Hind Hrng Hd H. destruct (get_order_spec induced rng d size k Hind Hrng Hd) as (g & k' & Hg & Hrest).
  exists g, k'. split; [|done]. specialize (Hg (S size + fuel) ltac:(lia)). unfold get_order in *.
  destruct (size =? 0); [congruence|]. destruct (density_get d size) as [x|]; [|by cbn [rbind] in Hg]. cbn [rbind] in *.
  unfold get_frames in *.
  destruct (loop _ fuel _) as [r|] eqn:E; [|done]. eapply loop_mono in E; [|apply (Nat.le_add_l fuel (S size))].
  rewrite E in Hg. congruence.
Qed.

Lemma submseteq_NoDup {A} (l k : list A) : l ⊆+ k → NoDup k → NoDup l.
Proof.
  intros (l' & Hp)%submseteq_Permutation Hn. rewrite Hp in Hn. by apply NoDup_app in Hn as [? _].
Qed.
