(** * Dependency graphs as partial orders: results *)
From Verif Require Export OrderSpec MainSeries MainMetamorphic.

(** ** The order decides which schedules are valid *)

Lemma stronger_valid g g' σ : stronger g g' → valid_schedule g' σ → valid_schedule g σ.
Proof.
  intros [Hl Hd] [H C]. split; [split|].
  - apply H.
  - apply H.
  - intros b Hb. apply Hl. by apply (lp_listed _ _ H).
  - intros k M b d HM Hb Hdep. eapply (later_before g' σ k M b d H); [|done|done]. apply Hd. by apply tc_once.
  - intros b Hb. apply C. by apply Hl.
Qed.

Lemma same_stronger g g' : same_order g g' ↔ stronger g g' ∧ stronger g' g.
Proof.
  unfold same_order, stronger. split.
  - intros [H1 H2]. split; (split; [intros b; by rewrite H1|]); intros b d; by apply H2.
  - intros [[H1 H2] [_ H3]]. split; [done|]. intros b d. split; auto.
Qed.

(** ** The valid schedules determine the order *)

Lemma split_app (l1 l2 A B : list nat) b :
  A ++ B = l1 ++ b :: l2 →
  (∃ t, A = l1 ++ b :: t) ∨ (∃ t, l1 = A ++ t ∧ B = t ++ b :: l2).
Proof.
  revert l1. induction A as [|a A IH]; intros l1 E; [right; by exists l1|].
  destruct l1 as [|c l1]; injection E as -> E; [left; by exists A|].
  destruct (IH l1 E) as [(t & ->)|(t & -> & ->)]; [left; by exists t|right; by exists t].
Qed.

Lemma split_filter (P : nat → Prop) `{∀ x, Decision (P x)} l l1 l2 b :
  filter P l = l1 ++ b :: l2 → ∃ m1 m2, l = m1 ++ b :: m2 ∧ l1 = filter P m1.
Proof.
  revert l1. induction l as [|a l IH]; intros l1 E; [by destruct l1|].
  rewrite filter_cons in E. destruct (decide (P a)) as [Ha|Ha].
  - destruct l1 as [|c l1]; injection E as -> E; [by exists [], l|].
    destruct (IH l1 E) as (m1 & m2 & -> & ->). exists (c :: m1), m2. split; [done|].
    by rewrite filter_cons_True.
  - destruct (IH l1 E) as (m1 & m2 & -> & ->). exists (a :: m1), m2. split; [done|].
    by rewrite filter_cons_False.
Qed.

(** Every qubit comes after those on which it depends. *)
Definition sorted_by (g : order) (l : list nat) : Prop :=
  ∀ l1 b l2 d, l = l1 ++ b :: l2 → depends g b d → d ∈ l1.

Lemma singles_valid g l :
  NoDup l → (∀ b, b ∈ l ↔ listed g b) → sorted_by g l → valid_schedule g (map (λ b, [b]) l).
Proof.
  intros Hnd Hl Hs. split; [split|].
  - intros M HM. by apply elem_of_list_fmap in HM as (b & -> & _).
  - by rewrite concat_singles.
  - intros b. rewrite concat_singles. apply Hl.
  - intros k M b d HM Hb Hd. change (map (λ b, [b]) l) with ((λ b, [b]) <$> l) in *.
    rewrite list_lookup_fmap in HM. apply fmap_Some in HM as (b' & Hk & ->). apply elem_of_list_singleton in Hb as <-.
    rewrite <- fmap_take. change ((λ b, [b]) <$> take k l) with (map (λ b, [b]) (take k l)). rewrite concat_singles.
    apply (Hs (take k l) b (drop (S k) l) d); [|done]. by rewrite take_drop_middle.
  - intros b Hb. rewrite concat_singles. by apply Hl.
Qed.

Lemma qubits_sorted n g : wf_order n g → sorted_by g (qubits g).
Proof.
  intros Hwf l1 b l2 d E (layer & ds & Hl & Hb & Hd). apply elem_of_list_lookup in Hl as (k & Hk).
  destruct k as [|k].
  { destruct g as [|l0 g]; [done|]. injection Hk as ->.
    rewrite (wf_first _ _ Hwf b ds Hb) in Hd. by apply elem_of_nil in Hd. }
  destruct (wf_later _ _ Hwf k layer b ds Hk Hb) as (_ & _ & H). specialize (H d Hd).
  assert (qubits g = qubits (take (S k) g) ++ qubits (drop (S k) g)) as Eq.
  { unfold qubits. by rewrite <- map_app, <- concat_app, take_drop. }
  assert (b ∈ qubits (drop (S k) g)) as Hbd.
  { unfold qubits. apply elem_of_list_fmap. exists (b, ds). split; [done|]. apply elem_of_concat. exists layer.
    split; [|done]. apply elem_of_list_lookup. exists 0. rewrite lookup_drop. by rewrite Nat.add_0_r. }
  pose proof (wf_nodup _ _ Hwf) as Hnd. rewrite Eq in Hnd. apply NoDup_app in Hnd as (_ & Hnd & _).
  rewrite Eq in E. apply split_app in E as [(t & Et)|(t & -> & _)].
  - exfalso. apply (Hnd b); [|done]. rewrite Et. apply elem_of_app. right. left.
  - apply elem_of_app. by left.
Qed.

Lemma qubits_valid n g : wf_order n g → valid_schedule g (map (λ b, [b]) (qubits g)).
Proof.
  intros Hwf. apply singles_valid; [apply (wf_nodup _ _ Hwf)|intros b; by rewrite listed_qubits|by eapply qubits_sorted].
Qed.

(** What has to be measured before [b], and [b]. *)
Definition down (E : list (nat * list nat)) (b : nat) : list nat :=
  foldr (λ e acc, if decide (e.1 ∈ acc) then e.2 ++ acc else acc) [b] E.

Lemma down_mono E1 E2 b x : x ∈ down E2 b → x ∈ down (E1 ++ E2) b.
Proof.
  intros H. induction E1 as [|e E1 IH]; [done|]. cbn. destruct (decide _); [apply elem_of_app; by right|done].
Qed.

Lemma down_self E b : b ∈ down E b.
Proof. rewrite <- (app_nil_r E). apply down_mono. by apply elem_of_list_singleton. Qed.

Lemma down_sound g E b x :
  (∀ e d, e ∈ E → d ∈ e.2 → depends g e.1 d) → x ∈ down E b → x = b ∨ later g b x.
Proof.
  revert x. induction E as [|e E IH]; intros x HE Hx; cbn in Hx; [left; by apply elem_of_list_singleton in Hx|].
  assert (∀ x, x ∈ down E b → x = b ∨ later g b x) as IH'.
  { intros y Hy. apply IH; [|done]. intros e' d He'. apply HE. by right. }
  destruct (decide _) as [He|_]; [|by apply IH']. apply elem_of_app in Hx as [Hx|Hx]; [|by apply IH'].
  assert (depends g e.1 x) as Hd by (apply HE; [left|done]). right.
  destruct (IH' _ He) as [Eb|Hl]; [rewrite <- Eb; by apply tc_once|]. by eapply tc_r.
Qed.

Lemma down_late F E b x : (∀ e, e ∈ F → x ∉ e.2) → x ∈ down (F ++ E) b → x ∈ down E b.
Proof.
  induction F as [|e F IH]; intros HF Hx; [done|]. cbn in Hx.
  assert (x ∈ down (F ++ E) b) as Hx'.
  { destruct (decide _); [|done]. apply elem_of_app in Hx as [Hx|Hx]; [|done].
    exfalso. apply (HF e); [left|done]. }
  apply IH; [|done]. intros e' He'. apply HF. by right.
Qed.

Lemma concat_depends (g : order) e d : e ∈ concat g → d ∈ e.2 → depends g e.1 d.
Proof. intros (l & Hl & He)%elem_of_concat Hd. exists l, e.2. split; [done|]. by destruct e. Qed.

Lemma down_closed n g b x d :
  wf_order n g → x ∈ down (concat g) b → depends g x d → d ∈ down (concat g) b.
Proof.
  intros Hwf Hx (layer & ds & Hl & He & Hd).
  assert ((x, ds) ∈ concat g) as Hin by (apply elem_of_concat; by exists layer).
  apply elem_of_list_split in Hin as (E1 & E2 & E).
  assert (qubits g = map fst E1 ++ x :: map fst E2) as Eq by (unfold qubits; by rewrite E, map_app).
  pose proof (wf_nodup _ _ Hwf) as Hnd. rewrite Eq in Hnd.
  apply NoDup_app in Hnd as (_ & Hnd & _).
  assert (x ∉ map fst E1) as Hx1 by (intros H; apply (Hnd x H); left).
  pose proof (qubits_sorted n g Hwf) as Hs.
  assert (∀ e, e ∈ E1 ++ [(x, ds)] → x ∉ e.2) as Hno.
  { intros e He' Hxe. assert (depends g e.1 x) as Hdx.
    { apply concat_depends; [|done]. rewrite E. apply elem_of_app. apply elem_of_app in He' as [?|He']; [by left|right].
      apply elem_of_list_singleton in He' as ->. left. }
    apply elem_of_app in He' as [He'|He'].
    - apply elem_of_list_split in He' as (F1 & F2 & ->). rewrite map_app in Eq, Hx1. cbn [map] in Eq, Hx1.
      rewrite <- app_assoc in Eq. cbn in Eq. pose proof (Hs _ _ _ x Eq Hdx) as H. apply Hx1, elem_of_app. by left.
    - apply elem_of_list_singleton in He' as ->. cbn in Hdx. by apply Hx1, (Hs _ _ _ x Eq). }
  rewrite E in *. replace (E1 ++ (x, ds) :: E2) with ((E1 ++ [(x, ds)]) ++ E2) in Hx by (by rewrite <- app_assoc).
  apply down_late in Hx; [|done]. apply down_mono. cbn. rewrite decide_True by done. apply elem_of_app. by left.
Qed.

(** First [b] and what it has to wait for, then the rest. *)
Lemma first_schedule n g b :
  wf_order n g → listed g b →
  let D := down (concat g) b in
  let l1 := filter (λ x, x ∈ D) (qubits g) in
  let l2 := filter (λ x, x ∉ D) (qubits g) in
  valid_schedule g (map (λ b, [b]) (l1 ++ l2)) ∧ b ∈ l1.
Proof.
  intros Hwf Hb D l1 l2. pose proof (qubits_sorted n g Hwf) as Hs. pose proof (wf_nodup _ _ Hwf) as Hnd. split.
  - apply singles_valid.
    + apply NoDup_app. split; [by apply NoDup_filter|]. split; [|by apply NoDup_filter].
      intros x [H1 _]%elem_of_list_filter [H2 _]%elem_of_list_filter. done.
    + intros x. unfold l1, l2. rewrite elem_of_app, !elem_of_list_filter, listed_qubits.
      destruct (decide (x ∈ D)); naive_solver.
    + intros k1 x k2 d E Hd. apply split_app in E as [(t & E)|(t & -> & E)].
      * assert (x ∈ D) as HxD.
        { assert (x ∈ l1) as Hx by (rewrite E; apply elem_of_app; right; left). by apply elem_of_list_filter in Hx as [? _]. }
        apply split_filter in E as (m1 & m2 & Eq & ->). apply elem_of_list_filter. split; [by eapply down_closed|].
        by apply (Hs m1 x m2 d).
      * apply split_filter in E as (m1 & m2 & Eq & ->). pose proof (Hs m1 x m2 d Eq Hd) as Hm. apply elem_of_app.
        destruct (decide (d ∈ D)) as [HdD|HdD]; [left|right]; apply elem_of_list_filter; (split; [done|]); [|done].
        rewrite Eq. apply elem_of_app. by left.
  - apply elem_of_list_filter. split; [apply down_self|by apply listed_qubits].
Qed.

Lemma later_listed n g b d : wf_order n g → later g b d → listed g b ∧ listed g d.
Proof.
  intros Hwf. induction 1 as [b d H|b c d H _ [_ IH]]; [by eapply wf_depends_listed|].
  split; [|done]. apply (wf_depends_listed n g b c Hwf H).
Qed.

Lemma later_irreflexive n g b : wf_order n g → ¬ later g b b.
Proof.
  intros Hwf H. pose proof (qubits_valid n g Hwf) as Hv.
  destruct (later_listed n g b b Hwf H) as [Hb _].
  apply (vs_complete _ _ Hv) in Hb. apply elem_of_concat in Hb as (M & HM & Hb).
  apply elem_of_list_lookup in HM as (k & Hk). pose proof (later_before _ _ _ _ _ _ (vs_legal _ _ Hv) H Hk Hb) as Hbefore.
  pose proof (lp_once _ _ (vs_legal _ _ Hv)) as Hnd. rewrite <- (take_drop_middle _ _ _ Hk), concat_app in Hnd.
  apply NoDup_app in Hnd as (_ & Hnd & _). apply (Hnd b Hbefore). cbn. apply elem_of_app. by left.
Qed.

(** The order of [g'] is stronger exactly if it has fewer schedules. *)
Lemma schedules_stronger :
  ∀ n n' g g', wf_order n g → wf_order n' g' →
  (∀ σ, valid_schedule g' σ → valid_schedule g σ) ↔ stronger g g'.
Proof.
  intros n n' g g' Hwf Hwf'. split; [|intros H σ; by apply stronger_valid].
  intros H.
  assert (∀ b, listed g b ↔ listed g' b) as Hl.
  { intros b. pose proof (qubits_valid n' g' Hwf') as Hv'. pose proof (H _ Hv') as Hv. split; intros Hb.
    - apply (lp_listed _ _ (vs_legal _ _ Hv')). by apply (vs_complete _ _ Hv).
    - apply (lp_listed _ _ (vs_legal _ _ Hv)). by apply (vs_complete _ _ Hv'). }
  split; [done|]. intros b d Hbd. destruct (later_listed n g b d Hwf Hbd) as [Hb _].
  destruct (decide (d ∈ down (concat g') b)) as [Hd|Hd].
  - destruct (down_sound g' (concat g') b d) as [->|?]; [by apply concat_depends|done| |done].
    by apply (later_irreflexive n g b Hwf) in Hbd.
  - destruct (first_schedule n' g' b Hwf') as [Hv Hb1]; [by apply Hl|]. apply H in Hv.
    set (l1 := filter (λ x, x ∈ down (concat g') b) (qubits g')) in *.
    set (l2 := filter (λ x, x ∉ down (concat g') b) (qubits g')) in *. exfalso. apply Hd.
    apply elem_of_list_lookup in Hb1 as (k & Hk).
    pose proof (lookup_lt_Some _ _ _ Hk) as Hlt.
    assert (map (λ b, [b]) (l1 ++ l2) !! k = Some [b]) as Hk'.
    { change (map (λ b, [b]) (l1 ++ l2)) with ((λ b, [b]) <$> (l1 ++ l2)).
      rewrite list_lookup_fmap, lookup_app_l by done. by rewrite Hk. }
    pose proof (later_before _ _ _ _ b d (vs_legal _ _ Hv) Hbd Hk') as Hin.
    specialize (Hin (proj2 (elem_of_list_singleton _ _) eq_refl)).
    change (map (λ b, [b]) (l1 ++ l2)) with ((λ b, [b]) <$> (l1 ++ l2)) in Hin.
    rewrite <- fmap_take in Hin. change ((λ b, [b]) <$> take k (l1 ++ l2)) with (map (λ b, [b]) (take k (l1 ++ l2))) in Hin.
    rewrite concat_singles, take_app_le in Hin by lia.
    apply elem_of_take in Hin as (i & Hi & _). apply elem_of_list_lookup_2 in Hi.
    by apply elem_of_list_filter in Hi as [? _].
Qed.

Lemma schedules_same :
  ∀ n n' g g', wf_order n g → wf_order n' g' →
  (∀ σ, valid_schedule g σ ↔ valid_schedule g' σ) ↔ same_order g g'.
Proof.
  intros n n' g g' Hwf Hwf'. rewrite same_stronger, <- (schedules_stronger n n' g g' Hwf Hwf'),
    <- (schedules_stronger n' n g' g Hwf' Hwf). split.
  - intros H. split; intros σ; apply H.
  - intros [H1 H2] σ. split; auto.
Qed.

(** ** Whole runs *)

Lemma run_same_order :
  ∀ adj g g' ps ps', wf_input adj g → wf_input adj g' → same_order g g' → (∃ b, listed g b) →
  searched adj g ps → searched adj g' ps' → costs ps = costs ps'.
Proof.
  intros adj g g' ps ps' Hin Hin' Hs [b Hb] Hps Hps'. pose proof (proj1 (same_stronger g g') Hs) as [S1 S2].
  apply searched_front in Hps as (Ho & Ht & Hc); [|done|by exists b].
  apply searched_front in Hps' as (Ho' & Ht' & Hc'); [|done|exists b; by apply (proj1 Hs)].
  rewrite Forall_forall in Ho, Ho'. apply front_costs; [done|done|..]; intros p Hp.
  - destruct (Ho p Hp) as (Hv & Et & Em). destruct (Hc' (steps p)) as (p' & Hp' & H1 & H2); [by apply (stronger_valid g' g)|].
    exists p'. split; [done|]. rewrite Et, Em. done.
  - destruct (Ho' p Hp) as (Hv & Et & Em). destruct (Hc (steps p)) as (p' & Hp' & H1 & H2); [by apply (stronger_valid g g')|].
    exists p'. split; [done|]. rewrite Et, Em. done.
Qed.

Lemma run_stronger :
  ∀ adj g g' ps ps', wf_input adj g → wf_input adj g' → stronger g g' → (∃ b, listed g b) →
  searched adj g ps → searched adj g' ps' →
  ∀ p', p' ∈ ps' → ∃ p, p ∈ ps ∧ time p ≤ time p' ∧ (space p <= space p')%N.
Proof.
  intros adj g g' ps ps' Hin Hin' Hs [b Hb] Hps Hps' p' Hp'.
  apply searched_front in Hps as (Ho & Ht & Hc); [|done|by exists b].
  apply searched_front in Hps' as (Ho' & Ht' & Hc'); [|done|exists b; by apply (proj1 Hs)].
  rewrite Forall_forall in Ho'. destruct (Ho' p' Hp') as (Hv & Et & Em).
  destruct (Hc (steps p')) as (p & Hp & H1 & H2); [by apply (stronger_valid g g')|].
  exists p. split; [done|]. rewrite Et, Em. done.
Qed.

Lemma run_same_order_time :
  ∀ adj g g' env env' timeout timeout' nthreads nthreads' bound bound' prob prob' bd bd' p p',
  wf_input adj g → wf_input adj g' → same_order g g' →
  returns (λ fuel, run bd fuel env adj g false timeout nthreads bound prob) [p] →
  returns (λ fuel, run bd' fuel env' adj g' false timeout' nthreads' bound' prob') [p'] →
  same_schedule (steps p) (steps p') ∧ time p = time p' ∧ space p = space p'.
Proof.
  intros adj g g' env env' timeout timeout' nthreads nthreads' bound bound' prob prob' bd bd' p p' Hin Hin' Hs Hp Hp'.
  pose proof (proj1 (same_stronger g g') Hs) as [S1 S2].
  destruct (time_optimal_greedy adj g bd p Hin Hp) as [(Hv & Ht & Hm) Hg].
  destruct (time_optimal_greedy adj g' bd' p' Hin' Hp') as [(Hv' & Ht' & Hm') Hg'].
  assert (same_schedule (steps p) (steps p')) as E.
  { apply (greedy_unique g); [done| |done|by apply (stronger_valid g g')].
    intros k M HM b. rewrite (Hg' k M HM b). unfold enabled.
    assert (∀ (h h' : order), stronger h h' → stronger h' h → valid_schedule h (steps p') →
      (∀ d, depends h b d → d ∈ concat (take k (steps p'))) → ∀ d, depends h' b d → d ∈ concat (take k (steps p'))) as Hdep.
    { intros h h' Hh Hh' Hvh H d Hd. assert (later h b d) as Hl by (apply Hh'; by apply tc_once).
      inversion Hl as [|? c ? Hc Hl']; subst; [by apply H|]. specialize (H c Hc).
      apply elem_of_concat in H as (M' & HM' & Hc'). apply elem_of_list_lookup in HM' as (i & Hi).
      apply lookup_take_Some in Hi as [Hi Hik].
      pose proof (later_before _ _ _ _ _ _ (vs_legal _ _ Hvh) Hl' Hi Hc') as Hb.
      apply elem_of_concat in Hb as (M'' & HM'' & Hd'). apply elem_of_concat. exists M''. split; [|done].
      apply elem_of_list_lookup in HM'' as (j & Hj). apply lookup_take_Some in Hj as [Hj Hji].
      apply elem_of_list_lookup. exists j. apply lookup_take_Some. split; [done|lia]. }
    split; intros (H1 & H2 & H3); (split; [by apply (proj1 Hs)|]); (split; [done|]).
    - by apply (Hdep g' g).
    - apply (Hdep g g'); [done|done|by apply (stronger_valid g g')|done]. }
  split; [done|]. split.
  - rewrite Ht, Ht'. unfold time_cost. by rewrite (Forall2_length _ _ _ E).
  - by rewrite Hm, Hm', (space_cost_same adj _ _ E).
Qed.

(** Every path of every run is one for the other graph. *)
Lemma run_stronger_valid :
  ∀ adj g g' env do_search timeout nthreads bound prob bd fuel ps,
  wf_input adj g' → (∀ l, e_hash_order env l ≡ₚ l) → stronger g g' →
  run bd fuel env adj g' do_search timeout nthreads bound prob = Some (Val ps) → Forall (path_ok adj g) ps.
Proof.
  intros adj g g' env do_search timeout nthreads bound prob bd fuel ps Hin Hho Hs H.
  destruct (run_valid _ _ _ _ _ _ _ _ _ _ _ Hin Hho H) as [(ps' & [= <-] & Hok & _)|[? _]]; [|done].
  eapply Forall_impl; [exact Hok|]. intros p (Hv & Ht & Hm). split; [by apply (stronger_valid g g')|done].
Qed.

(** It suffices to compare the dependencies that are written down. *)
Lemma same_order_depends :
  ∀ g g', (∀ b, listed g b ↔ listed g' b) →
  (∀ b d, depends g b d → later g' b d) → (∀ b d, depends g' b d → later g b d) → same_order g g'.
Proof.
  assert (∀ h h', (∀ b d, depends h b d → later h' b d) → ∀ b d, later h b d → later h' b d) as H.
  { intros h h' Hh b d. induction 1 as [b d Hd|b c d Hd _ IH]; [by apply Hh|]. eapply tc_transitive; [by apply Hh|done]. }
  intros g g' Hl H1 H2. split; [done|]. intros b d. split; by apply H.
Qed.
