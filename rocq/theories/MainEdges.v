(** * Inputs that differ in a few edges or dependencies: results *)
From Verif Require Export EdgesSpec MainParts MainMetamorphic MainOrder.

Section edges.
  Context (es : list (nat * nat)) (adj adj' : spacial) (Hes : more_edges es adj adj').

  Lemma more_needed A v : needed adj A v → needed adj' A v.
  Proof. intros [?|(u & Hu & Hv)]; [by left|]. right. exists u. split; [done|]. apply Hes. by left. Qed.

  (** The end of an edge that has to be in memory because of the other one. *)
  Definition extra_end (A : list nat) (e : nat * nat) : nat := if decide (e.1 ∈ A) then e.2 else e.1.

  Lemma fewer_needed A v : needed adj' A v → needed adj A v ∨ v ∈ map (extra_end A) es.
  Proof.
    intros [?|(u & Hu & Hv)]; [by left; left|]. apply Hes in Hv as [Hv|Hv]; [left; right; by exists u|].
    destruct (decide (v ∈ A)) as [HA|HA]; [by left; left|]. right. apply elem_of_list_fmap.
    destruct Hv as [Hv|Hv]; [exists (u, v)|exists (v, u)]; (split; [|done]); unfold extra_end; simpl.
    - by rewrite decide_True.
    - by rewrite decide_False.
  Qed.

  Lemma more_memory σ k : memory_at adj σ k ≤ memory_at adj' σ k ≤ memory_at adj σ k + length es.
  Proof.
    unfold memory_at. rewrite (proj1 Hes). split.
    - apply (filter_length_inj _ _ id); [|done]. intros v Hv [H1 H2]. split; [done|].
      split; [done|by apply more_needed].
    - set (A := concat (take (S k) σ)). rewrite <- (map_length (extra_end A) es), <- app_length.
      apply submseteq_length, NoDup_submseteq; [apply NoDup_filter, NoDup_seq|].
      intros v [[H1 H2] Hv]%elem_of_list_filter. apply elem_of_app.
      apply fewer_needed in H2 as [H2|H2]; [left|by right].
      apply elem_of_list_filter. done.
  Qed.

  Lemma more_space σ : space_cost adj σ ≤ space_cost adj' σ ≤ space_cost adj σ + length es.
  Proof.
    split; apply space_cost_lub; intros k Hk; pose proof (more_memory σ k).
    - pose proof (memory_space adj' σ k Hk). lia.
    - pose proof (memory_space adj σ k Hk). lia.
  Qed.
End edges.

(** ** Whole runs *)

Lemma run_edges :
  ∀ es adj adj' g ps ps',
  wf_input adj g → wf_input adj' g → more_edges es adj adj' → (∃ b, listed g b) →
  searched adj g ps → searched adj' g ps' →
  (∀ p, p ∈ ps → ∃ p', p' ∈ ps' ∧ time p' ≤ time p ∧ (space p' <= space p + N.of_nat (length es))%N) ∧
  (∀ p', p' ∈ ps' → ∃ p, p ∈ ps ∧ time p ≤ time p' ∧ (space p <= space p')%N) ∧
  (* the least numbers of steps are the same, the least memories almost *)
  (∀ p p', head ps = Some p → head ps' = Some p' → time p = time p') ∧
  (∀ p p', last ps = Some p → last ps' = Some p' → (space p <= space p' <= space p + N.of_nat (length es))%N).
Proof.
  intros es adj adj' g ps ps' Hin Hin' Hes Hne Hps Hps'.
  apply searched_front in Hps as (Ho & Ht & Hc); [|done|done].
  apply searched_front in Hps' as (Ho' & Ht' & Hc'); [|done|done]. rewrite Forall_forall in Ho, Ho'.
  assert (∀ p, p ∈ ps → ∃ p', p' ∈ ps' ∧ time p' ≤ time p ∧ (space p' <= space p + N.of_nat (length es))%N) as H1.
  { intros p Hp. destruct (Ho p Hp) as (Hv & Et & Em). destruct (Hc' _ Hv) as (p' & Hp' & Et' & Em').
    exists p'. split; [done|]. pose proof (more_space es adj adj' Hes (steps p)). split; [by rewrite Et|lia]. }
  assert (∀ p', p' ∈ ps' → ∃ p, p ∈ ps ∧ time p ≤ time p' ∧ (space p <= space p')%N) as H2.
  { intros p' Hp'. destruct (Ho' p' Hp') as (Hv & Et & Em). destruct (Hc _ Hv) as (p & Hp & Et' & Em').
    exists p. split; [done|]. pose proof (more_space es adj adj' Hes (steps p')). split; [by rewrite Et|lia]. }
  split; [done|]. split; [done|]. split.
  - intros p p' Hp Hp'. destruct (H1 p) as (q' & Hq' & Hq & _); [by apply head_Some_elem_of|].
    destruct (H2 p') as (q & Hq2 & Hq3 & _); [by apply head_Some_elem_of|].
    pose proof (MainParts.tradeoff_head _ _ _ Ht Hp Hq2). pose proof (MainParts.tradeoff_head _ _ _ Ht' Hp' Hq'). lia.
  - intros p p' Hp Hp'. destruct (H1 p) as (q' & Hq' & _ & Hq); [by apply last_Some_elem_of|].
    destruct (H2 p') as (q & Hq2 & _ & Hq3); [by apply last_Some_elem_of|].
    pose proof (MainParts.tradeoff_last _ _ _ Ht Hp Hq2). pose proof (MainParts.tradeoff_last _ _ _ Ht' Hp' Hq'). lia.
Qed.

Lemma run_edges_time :
  ∀ es adj adj' g env env' timeout timeout' nthreads nthreads' bound bound' prob prob' bd bd' p p',
  wf_input adj g → wf_input adj' g → more_edges es adj adj' →
  returns (λ fuel, run bd fuel env adj g false timeout nthreads bound prob) [p] →
  returns (λ fuel, run bd' fuel env' adj' g false timeout' nthreads' bound' prob') [p'] →
  same_schedule (steps p) (steps p') ∧ time p = time p' ∧
  (space p <= space p' <= space p + N.of_nat (length es))%N.
Proof.
  intros es adj adj' g env env' timeout timeout' nthreads nthreads' bound bound' prob prob' bd bd' p p' Hin Hin' Hes Hp Hp'.
  destruct (time_optimal_greedy adj g bd p Hin Hp) as [(Hv & Ht & Hm) Hg].
  destruct (time_optimal_greedy adj' g bd' p' Hin' Hp') as [(Hv' & Ht' & Hm') Hg'].
  assert (same_schedule (steps p) (steps p')) as E by (by apply (greedy_unique g)).
  split; [done|]. split; [rewrite Ht, Ht'; unfold time_cost; by rewrite (Forall2_length _ _ _ E)|].
  rewrite Hm, Hm', <- (space_cost_same adj' _ _ E). pose proof (more_space es adj adj' Hes (steps p)). lia.
Qed.

(** ** More dependencies *)

Section cuts.
  Context (n : nat) (ds : list (nat * nat)) (g g' : order) (Hwf : wf_order n g') (Hds : more_depends ds g g').

  (** The additional dependencies that a chain uses. *)
  Fixpoint cuts (l : list nat) : list (nat * nat) :=
    match l with
    | b :: ((c :: _) as l') => if decide ((c, b) ∈ ds) then (c, b) :: cuts l' else cuts l'
    | _ => []
    end.

  Lemma cuts_chained l :
    chained g' l → l ≠ [] →
    ∃ ls, concat ls = l ∧ Forall (chained g) ls ∧ Forall (λ m, m ≠ []) ls ∧ length ls = S (length (cuts l)).
  Proof.
    induction l as [|b l IH]; [done|]. intros Hc _. destruct l as [|c l].
    { exists [[b]]. by repeat constructor. }
    destruct Hc as [Hd Hc]. destruct (IH Hc) as (ls & E & Hls & Hne & Hlen); [done|].
    cbn [cuts]. fold (cuts (c :: l)). destruct (decide ((c, b) ∈ ds)) as [Hin|Hin].
    - exists ([b] :: ls). split; [cbn; by rewrite E|]. split; [by constructor|]. split; [by constructor|].
      cbn [length]. by rewrite Hlen.
    - destruct (proj2 Hds _ _ Hd) as [Hg|?]; [|done].
      destruct ls as [|m ls]; [done|]. apply Forall_cons in Hls as [Hm Hls], Hne as [Hm0 Hne].
      destruct m as [|c' m]; [done|]. cbn in E. injection E as -> E.
      exists ((b :: c :: m) :: ls). split; [cbn; by rewrite E|]. split; [by constructor|]. split; [by constructor|done].
  Qed.

  Lemma chained_later b l x : chained g' (b :: l) → x ∈ l → later g' x b.
  Proof.
    revert b. induction l as [|c l IH]; intros b Hc Hx; [by apply elem_of_nil in Hx|]. destruct Hc as [Hd Hc].
    apply elem_of_cons in Hx as [->|Hx]; [by apply tc_once|]. eapply tc_r; [by apply IH|done].
  Qed.

  Lemma chained_tail b l : chained g' (b :: l) → chained g' l.
  Proof. by destruct l as [|c l]; [|intros [_ ?]]. Qed.

  Lemma chained_nodup l : chained g' l → NoDup l.
  Proof.
    induction l as [|b l IH]; intros Hc; constructor; [|by eapply IH, chained_tail].
    intros Hb. by eapply later_irreflexive, chained_later.
  Qed.

  Lemma cuts_elem l e : e ∈ cuts l → e ∈ ds ∧ e.2 ∈ l.
  Proof.
    induction l as [|b [|c l] IH]; intros He; [by apply elem_of_nil in He..|].
    cbn [cuts] in He. fold (cuts (c :: l)) in He. destruct (decide _) as [Hin|Hin].
    - apply elem_of_cons in He as [->|He]; [split; [done|left]|]. destruct (IH He). split; [done|by right].
    - destruct (IH He). split; [done|by right].
  Qed.

  Lemma cuts_nodup l : NoDup l → NoDup (cuts l).
  Proof.
    induction l as [|b [|c l] IH]; intros Hnd; [constructor..|]. apply NoDup_cons in Hnd as [Hb Hnd].
    cbn [cuts]. fold (cuts (c :: l)). destruct (decide _); [|by apply IH]. constructor; [|by apply IH].
    intros H. by apply (cuts_elem (c :: l)) in H as [_ ?].
  Qed.

  Lemma chain_length l T :
    chained g' l → (∀ b, b ∈ l → listed g' b) →
    (∀ m, chained g m → (∀ b, b ∈ m → listed g b) → length m ≤ T) → length l ≤ S (length ds) * T.
  Proof.
    intros Hc Hl HT. destruct (decide (l = [])) as [->|Hne]; [cbn; lia|].
    destruct (cuts_chained l Hc Hne) as (ls & E & Hls & _ & Hlen).
    assert (length (cuts l) ≤ length ds) as Hcuts.
    { apply submseteq_length, NoDup_submseteq; [by apply cuts_nodup, chained_nodup|]. by intros e [? _]%cuts_elem. }
    assert (∀ b, b ∈ concat ls → listed g b) as Hlisted by (intros b Hb; apply (proj1 Hds), Hl; by rewrite <- E).
    assert (length (concat ls) ≤ length ls * T) as Hle.
    { clear E Hlen. induction Hls as [|m ls Hm _ IH]; [done|]. cbn. rewrite app_length.
      assert (length m ≤ T) by (apply HT; [done|]; intros b Hb; apply Hlisted; cbn; apply elem_of_app; by left).
      assert (length (concat ls) ≤ length ls * T) by (apply IH; intros b Hb; apply Hlisted; cbn; apply elem_of_app; by right).
      lia. }
    rewrite E, Hlen in Hle. etrans; [exact Hle|]. apply Nat.mul_le_mono_r. lia.
  Qed.
End cuts.

(** The least number of steps. *)
Lemma run_depends_time :
  ∀ ds adj adj' g g' env env' timeout timeout' nthreads nthreads' bound bound' prob prob' bd bd' p p',
  wf_input adj g → wf_input adj' g' → more_depends ds g g' →
  returns (λ fuel, run bd fuel env adj g false timeout nthreads bound prob) [p] →
  returns (λ fuel, run bd' fuel env' adj' g' false timeout' nthreads' bound' prob') [p'] →
  time p' ≤ S (length ds) * time p.
Proof.
  intros ds adj adj' g g' env env' timeout timeout' nthreads nthreads' bound bound' prob prob' bd bd' p p' Hin Hin' Hds Hp Hp'.
  assert (∀ A (f : nat → option (out A)) x y, returns f x → returns f y → x = y) as Hu.
  { intros A f x y [f1 H1] [f2 H2]. specialize (H1 (max f1 f2) ltac:(lia)).
    specialize (H2 (max f1 f2) ltac:(lia)). congruence. }
  destruct (time_optimal_valid adj g Hin) as (q & Hq & _ & _ & _ & Hall & _).
  destruct (time_optimal_valid adj' g' Hin') as (q' & Hq' & _ & _ & (l & Hc & Hl & Hlen) & _).
  pose proof (Hu _ _ _ _ Hp (Hq bd)) as [= ->]. pose proof (Hu _ _ _ _ Hp' (Hq' bd')) as [= ->].
  rewrite <- Hlen. eapply chain_length; [apply (proj2 Hin')|done..].
Qed.
