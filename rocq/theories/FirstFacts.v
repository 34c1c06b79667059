(** * The search and the enumeration of all schedules *)
From Verif Require Export MainSweep.

Section first.
  Context (adj : spacial) (g : order) (Hin : wf_input adj g).
  Notation n := (length adj).
  Notation node := (node adj g).
  Notation cost := (cost adj).
  Notation iter_rel := (iter_rel adj g false).
  Notation ok := (ok adj g []).
  Notation visits := (visits (FI := scheduler_focus_iterator Debug)).
  Notation visits_root := (visits_root (FI := scheduler_focus_iterator Debug)).
  Implicit Types all seen rest ps qs : list (schedule * N).

  (** What the sweep would still record in a state of the search. *)
  Inductive remaining : schedule → list (Scheduler (Partition nat)) → list (schedule * N) → Prop :=
  | remaining_root s ps : visits_root [] s ps → remaining [] [s] ps
  | remaining_below p M s cs ps qs :
      visits (p ++ [M]) s ps → remaining p cs qs → remaining (p ++ [M]) (s :: cs) (ps ++ qs).

  Lemma visits_prefix p s ps q m : visits p s ps → (q, m) ∈ ps → ∃ τ, q = p ++ τ.
  Proof.
    induction 1 as [p s s' E|p s s' c i ps qs E _ IH1 _ IH2]; intros Hq.
    - destruct (at_leaf s') as [l|]; [|by apply elem_of_nil in Hq].
      apply elem_of_list_singleton in Hq as [= -> ->]. exists []. by rewrite app_nil_r.
    - apply elem_of_app in Hq as [Hq|Hq]; [|by apply IH2].
      destruct (IH1 Hq) as [τ ->]. exists (i :: τ). by rewrite <- app_assoc.
  Qed.

  Lemma visits_all p s ps q m :
    node p s → visits p s ps → (q, m) ∈ ps →
    valid_schedule g q ∧ m = cost q ∧ ∃ τ, q = p ++ τ.
  Proof.
    intros Hn Hv Hq. destruct (visits_prefix _ _ _ _ _ Hv Hq) as [τ Hτ].
    destruct (enumerate adj g Hin p s Hn) as (ps' & Hps').
    rewrite (visits_fun _ _ _ _ Hv (en_visits _ _ _ _ _ Hps' Debug)) in Hq.
    apply Hps' in Hq as [? ?]. split; [done|]. split; [done|]. by exists τ.
  Qed.

  Lemma no_more_next p s : node p s → no_more s → scheduler_next_and_focus Debug s = Val (advance s, None).
  Proof.
    intros Hn Hno. destruct (items_cases adj g Hin p s Hn) as [[_ E]|(a & b & l & c & Ei & Hb & _)]; [done|].
    exfalso. apply Hb, (Hno a). rewrite Ei. left.
  Qed.

  Lemma visits_no_more p s ps :
    node p s → no_more s → visits p s ps → ps = if decide (mset s = []) then [(p, cost p)] else [].
  Proof.
    intros Hn Hno Hv. pose proof (no_more_next p s Hn Hno) as E.
    apply (visits_end (FI := scheduler_focus_iterator Debug) p) in E.
    rewrite (visits_fun _ _ _ _ Hv E). cbn [at_leaf scheduler_focus_iterator]. case_decide as Em.
    - by rewrite (leaf_some adj g p (advance s)); [|by apply advance_node|done].
    - by rewrite (leaf_none (advance s)).
  Qed.

  Lemma visits_some p s s' c b ps :
    scheduler_next_and_focus Debug s = Val (s', Some (c, b)) → visits p s ps →
    ∃ ps1 ps2, ps = ps1 ++ ps2 ∧ visits (p ++ [b]) c ps1 ∧ visits p s' ps2.
  Proof.
    intros E. inversion 1 as [s1 s2 E'|s1 s2 c' b' ps1 ps2 E' H1 H2]; subst;
      cbn [next_and_focus scheduler_focus_iterator] in E'; rewrite E in E'; simplify_eq.
    by exists ps1, ps2.
  Qed.

  Lemma remaining_some p s s' c b cs ps :
    scheduler_next_and_focus Debug s = Val (s', Some (c, b)) → remaining p (s :: cs) ps →
    ∃ ps1 ps2, ps = ps1 ++ ps2 ∧ visits (p ++ [b]) c ps1 ∧ remaining p (s' :: cs) ps2.
  Proof.
    intros E. inversion 1 as [s1 ps1 Hv|q M s1 cs1 ps1 qs Hv Hr]; subst.
    - inversion Hv as [s1 s2 E'|s1 s2 c' b' ps1 ps2 E' H1 H2]; subst;
        cbn [next_and_focus scheduler_focus_iterator] in E'; rewrite E in E'; simplify_eq.
      exists ps1, ps2. split; [done|]. split; [done|]. by constructor.
    - destruct (visits_some _ _ _ _ _ _ E Hv) as (ps2 & ps3 & -> & H1 & H2).
      exists ps2, (ps3 ++ qs). split; [by rewrite app_assoc|]. split; [done|]. by constructor.
  Qed.

  (** The bounds and the results after looking at the schedules in [seen]. *)
  Record settled seen (s : SearchState) : Prop := {
    st_best : ∀ q m a, (q, m) ∈ seen → ss_best s !! length q = Some a → (a <= m)%N;
    st_first : ∀ t m q, ss_results s !! t = Some (m, q) →
      length q = t ∧
      ∃ before after, seen = before ++ (q, m) :: after ∧
        ∀ τ m', (τ, m') ∈ before → length τ = t → (m < m')%N
  }.

  Definition progress all seen (s : SearchState) : Prop :=
    (∃ rest, all = seen ++ rest ∧
       remaining (ss_path s) (current (ss_scheduler s) :: stack (ss_scheduler s)) rest) ∧
    settled seen s.

  Lemma iter_rel_progress all seen start s r :
    ok s → books adj start s → progress all seen s → iter_rel s r →
    match r with
    | inl s' => ∃ seen', progress all seen' s'
    | inr s' => settled all s'
    end.
  Proof.
    intros [Hch Hlen] [Ha _ _ _ Hl] [(rest & Eall & Hrest) [Hb Hf]] Hi.
    destruct Hi as [cur p best res Hno|cur t ts p best res Hno Hm|cur t ts p best res Hno Hm
      |cur st p best res a b l child m Hi Hbne Hcn Hcf Hbest Hlt Hnx
      |cur st p best res a b l child m Hi Hbne Hcn Hbest Hle Hnx|]; simpl in *;
      pose proof (chain_node _ _ _ _ _ _ Hch) as Hn.
    - assert (rest = []) as ->.
      { inversion Hrest as [s1 ps1 Hv|q M s1 cs1 ps1 qs Hv Hr]; subst; [|inversion Hr].
        pose proof (no_more_next _ _ Hn Hno) as E.
        inversion Hv as [s1 s2 E'|s1 s2 c' b' ps1 ps2 E' H1 H2]; subst; [done|].
        cbn [next_and_focus scheduler_focus_iterator] in E'. rewrite E in E'. done. }
      rewrite app_nil_r in Eall. by subst seen.
    - inversion Hrest as [|q M s1 cs1 ps1 qs Hv Hr]; subst.
      apply (visits_no_more _ _ _ Hn Hno) in Hv. rewrite decide_False in Hv by done. subst ps1.
      exists seen. split; [|done]. exists qs. simpl. by rewrite pop_snoc.
    - inversion Hrest as [|q M s1 cs1 ps1 qs Hv Hr]; subst.
      apply (visits_no_more _ _ _ Hn Hno) in Hv. rewrite decide_True in Hv by done. subst ps1.
      pose proof (legal_length adj g Hin _ (nd_legal _ _ _ _ Hn)) as Hp.
      destruct (lookup_lt_is_Some_2 best (length (q ++ [M]))) as [a Hla]; [lia|].
      pose proof (Hl Hm ltac:(done) a Hla) as Hlt.
      exists (seen ++ [(q ++ [M], cost (q ++ [M]))]).
      split; [exists qs; simpl; by rewrite pop_snoc, <- app_assoc|]. split; simpl.
      + intros σ m a' Hσ Ha'. apply best_leaf_lookup in Ha'; [|done..].
        apply elem_of_app in Hσ as [Hσ|Hσ].
        * destruct Ha' as [[_ Ha']|[[Ha' ->]|(_ & c & Hc & ->)]].
          -- by eapply Hb.
          -- rewrite <- Ha' in Hla. specialize (Hb σ m a Hσ Hla). lia.
          -- specialize (Hb σ m c Hσ Hc). lia.
        * apply elem_of_list_singleton in Hσ as [= -> ->].
          destruct Ha' as [[? _]|[[_ ->]|(? & _)]]; lia.
      + intros t' m σ. rewrite lookup_insert_Some. intros [[<- [= <- <-]]|[_ Hr']].
        * split; [done|]. exists seen, []. split; [done|]. intros τ m' Hτ Hlen'.
          rewrite <- Hlen' in Hla. specialize (Hb τ m' a Hτ Hla). lia.
        * destruct (Hf _ _ _ Hr') as (Ht' & before & after & -> & Hfirst). split; [done|].
          exists before, (after ++ [(q ++ [M], cost (q ++ [M]))]). split; [by rewrite <- app_assoc|done].
    - destruct (remaining_some _ _ _ _ _ _ _ (Hnx Debug) Hrest) as (ps1 & ps2 & -> & Hv & Hr).
      exists seen. split; [|done]. exists (ps1 ++ ps2). split; [done|]. by constructor.
    - destruct (remaining_some _ _ _ _ _ _ _ (Hnx Debug) Hrest) as (ps1 & ps2 & -> & Hv & Hr).
      exists (seen ++ ps1).
      split; [exists ps2; by rewrite <- app_assoc|]. split; simpl.
      + intros σ m' a' Hσ Ha'. apply elem_of_app in Hσ as [Hσ|Hσ]; [by eapply Hb|].
        destruct (visits_all _ _ _ _ _ Hcn Hv Hσ) as (Hval & -> & τ & Hτ).
        rewrite <- app_assoc in Hτ. rewrite Hτ in Hval.
        pose proof (min_length_lower adj g Hin p b child τ Hcn Hval) as Hml. rewrite <- Hτ in Hml.
        pose proof (Ha _ _ _ _ Hml Hbest Ha'). rewrite Hτ, app_assoc.
        pose proof (cost_prefix adj g Hin (p ++ [b]) τ). lia.
      + intros t' m' σ Hr'. destruct (Hf _ _ _ Hr') as (Ht' & before & after & -> & Hfirst). split; [done|].
        exists before, (after ++ ps1). split; [by rewrite <- app_assoc|done].
    - done.
  Qed.

  Lemma iters_progress all seen start j s s' :
    ok s → books adj start s → progress all seen s → iters adj g false j s s' →
    ∃ seen', progress all seen' s'.
  Proof.
    intros Hok Hbk Hp Hi. revert seen Hok Hbk Hp. induction Hi as [s|j s s1 s2 H1 _ IH]; intros seen Hok Hbk Hp.
    - by exists seen.
    - destruct (iter_rel_progress _ _ _ _ _ Hok Hbk Hp H1) as [seen' Hp']. apply (IH seen').
      + exact (iter_rel_ok _ _ _ _ _ _ Hok H1).
      + exact (iter_rel_books adj g Hin [] _ _ _ _ Hok Hbk H1).
      + done.
  Qed.
End first.

(** ** C50: what the search keeps of the schedules it has looked at *)

Lemma first_unique (all : list (schedule * N)) p q :
  selected all p → selected all q → time p = time q → p = q.
Proof.
  intros (Hp & l1 & l2 & E1 & H1 & H2 & _) (Hq & k1 & k2 & E2 & H3 & H4 & _) Et.
  destruct p as [tp sp σ], q as [tq sq τ]. simpl in *. subst tp tq.
  assert (sp = sq) as ->.
  { assert ((τ, sq) ∈ l1 ++ (σ, sp) :: l2) as Hi by (rewrite <- E1, E2; set_solver).
    assert ((σ, sp) ∈ k1 ++ (τ, sq) :: k2) as Hj by (rewrite <- E2, E1; set_solver).
    apply N.le_antisymm.
    - apply elem_of_app in Hi as [Hi|Hi]; [specialize (H1 _ _ Hi); lia|].
      apply elem_of_cons in Hi as [[= _ ->]|Hi]; [done|]. specialize (H2 _ _ Hi). lia.
    - apply elem_of_app in Hj as [Hj|Hj]; [specialize (H3 _ _ Hj); lia|].
      apply elem_of_cons in Hj as [[= _ ->]|Hj]; [done|]. specialize (H4 _ _ Hj). lia. }
  rewrite E1 in E2. apply app_eq_inv in E2 as [(k & -> & E)|(k & -> & E)].
  - destruct k as [|x k]; simplify_eq/=; [done|].
    exfalso. assert ((τ, sq) ∈ k1 ++ (τ, sq) :: k) as Hi by set_solver.
    specialize (H1 _ _ Hi). lia.
  - destruct k as [|x k]; simplify_eq/=; [done|].
    exfalso. assert ((σ, sq) ∈ l1 ++ (σ, sq) :: k) as Hi by set_solver.
    specialize (H3 _ _ Hi). lia.
Qed.

Lemma search_selects :
  ∀ adj g timer ho, wf_input adj g → (∀ l, ho l ≡ₚ l) →
  ∃ t all seen rest ps,
    from_dependency_graph g (dependency_buffer_new (length adj)) None = Val t ∧
    (* all schedules in the order in which a sweep finds them *)
    (∀ bd, returns (λ fuel, get_all_paths (H := scheduler_focus_iterator bd) fuel []
                              (mkScheduler t (graph_new adj))) all) ∧
    (∀ bd, returns (λ fuel, search_single bd fuel timer ho adj g None) ps) ∧
    (* the search gets to a certain point of the sweep, without a timeout to its end *)
    all = seen ++ rest ∧ ((∀ k, timer k = false) → rest = []) ∧
    (* and returns exactly what a look at all these schedules selects *)
    ∀ p, p ∈ ps ↔ selected seen p.
Proof.
  intros adj g timer ho Hin Hho.
  destruct (search_core_root adj g Hin) as (root & Hroot & Hn & Hf & Hok & Hbk & Hcore).
  destruct (scheduler_sweep adj g (dependency_buffer_new (length adj)) Hin) as (t & all & Et & Hv & Hall & _).
  { unfold dependency_buffer_new. by rewrite replicate_length. }
  unfold search_scheduler in Hroot. rewrite Et in Hroot. cbn [obind] in Hroot. injection Hroot as <-.
  destruct (search_finishes Debug timer ho adj g None) as (o & f0 & Ho).
  destruct (Hcore _ _ _ _ _ _ (Ho f0 (le_n _)) (or_introl I)) as (j & to & s & fin & Eo & H1 & H2 & _ & Hto).
  simpl in H1, H2.
  destruct (search_valid adj g timer ho None Hin Hho I) as (ps & Hret & Hvalid & Htr).
  assert (o = Val ps) as -> by (apply (finishes_det _ _ _ (ex_intro _ f0 Ho) (Hret Debug))).
  symmetry in Eo.
  pose proof (iters_ok _ _ _ _ _ _ _ Hok H1) as Hoks.
  pose proof (iters_books adj g Hin [] _ _ _ _ _ Hok Hbk H1) as Hbks.
  assert (∃ seen, progress all seen s) as [seen0 Hpr].
  { eapply (iters_progress adj g Hin all []); [exact Hok|exact Hbk| |exact H1]. split.
    - exists all. split; [done|]. constructor. apply Hv.
    - split; simpl; [by intros ? ? ? ?%elem_of_nil|]. intros ? ? ?. by rewrite lookup_empty. }
  assert (∃ seen rest, all = seen ++ rest ∧ ((∀ k, timer k = false) → rest = []) ∧ settled seen fin)
    as (seen & rest & Eall & Hrest & Hset).
  { pose proof (iter_rel_progress adj g Hin _ _ _ _ _ Hoks Hbks Hpr H2) as H. destruct to.
    - destruct H as (seen' & (rest & -> & _) & Hs). exists seen', rest. split; [done|]. split; [|done].
      intros Ht. specialize (Hto eq_refl). rewrite Ht in Hto. done.
    - exists all, []. by rewrite app_nil_r. }
  exists t, all, seen, rest, ps. split; [done|].
  split; [intros bd; apply collect_returns, Hv|]. split; [done|]. split; [done|]. split; [done|].
  assert (∀ q m, (q, m) ∈ seen → valid_schedule g q ∧ m = cost adj q) as Hseen.
  { intros q m Hq. apply Hall. rewrite Eall. apply elem_of_app. by left. }
  assert (∀ q m, (q, m) ∈ seen → ∃ p, p ∈ ps ∧ time p ≤ length q ∧ (space p <= m)%N) as Hcov.
  { intros q m Hq. destruct (Hseen q m Hq) as [Hqv Hm].
    assert (books adj (replicate (length adj + 1) usize_max) fin) as Hbf by (by eapply last_books).
    assert (ok adj g [] fin) as Hokf by (by eapply last_ok).
    pose proof (valid_length adj g Hin q Hqv) as Hlen.
    destruct (lookup_lt_is_Some_2 (ss_best fin) (length q)) as [a Ha].
    { rewrite (ok_best _ _ _ _ Hokf). lia. }
    pose proof (st_best _ _ Hset q m a Hq Ha) as Hc. pose proof (cost_lt_max adj g Hin q) as Hmax.
    destruct (bk_wit _ _ _ Hbf _ _ Ha) as [Hst|(t' & q' & Ht & Hr)].
    { apply lookup_replicate in Hst as [-> _]. lia. }
    destruct (finish_matches ho Hho _ _ _ t' a q' Eo Hr) as (p & Hp & Hp1 & Hp2); [lia|lia|].
    exists p. split; [done|]. lia. }
  assert (∀ p q, p ∈ ps → q ∈ ps → (time q < time p → (space p < space q)%N) ∧ (time q = time p → q = p)) as Hord.
  { intros p q Hp Hq. apply elem_of_list_lookup in Hp as [i Hi]. apply elem_of_list_lookup in Hq as [k Hk].
    destruct (lt_eq_lt_dec i k) as [[Hlt| ->]|Hlt].
    - destruct (Htr i k p q Hlt Hi Hk). split; lia.
    - assert (p = q) as -> by congruence. split; [lia|done].
    - destruct (Htr k i q p Hlt Hk Hi). split; lia. }
  assert (∀ p, p ∈ ps → selected seen p) as Hto_sel.
  { intros p Hp. destruct (finish_spec ho Hho (length adj) (ss_results fin)) as (ps' & Eps & _ & _ & Hps).
    rewrite Eps in Eo. injection Eo as ->. pose proof Hp as Hp'. apply Hps in Hp' as (_ & Hr & _).
    destruct (st_first _ _ Hset _ _ _ Hr) as (Hlen & before & after & Es & Hfirst).
    assert (∀ τ m, (τ, m) ∈ seen → (length τ < time p → (space p < m)%N) ∧ (length τ = time p → (space p <= m)%N)) as Hlow.
    { intros τ m Hτ. destruct (Hcov τ m Hτ) as (q & Hq & Hq1 & Hq2). destruct (Hord p q Hp Hq) as [Ho1 Ho2]. split.
      - intros Hlt. specialize (Ho1 ltac:(lia)). lia.
      - intros Heq. destruct (decide (time q = time p)) as [He|He]; [by rewrite <- (Ho2 He)|].
        specialize (Ho1 ltac:(lia)). lia. }
    split; [done|]. exists before, after. split; [done|]. rewrite Es in Hlow. split; [|split].
    - intros τ m Hτ Hle. destruct (decide (length τ = time p)) as [He|He]; [by eapply Hfirst|].
      apply (Hlow τ m); [|lia]. apply elem_of_app. by left.
    - intros τ m Hτ Hle. assert ((τ, m) ∈ before ++ (steps p, space p) :: after) as Hi.
      { apply elem_of_app. right. by right. }
      destruct (Hlow τ m Hi) as [Hl1 Hl2]. destruct (decide (length τ = time p)) as [He|He]; [by apply Hl2|].
      specialize (Hl1 ltac:(lia)). lia.
    - intros τ m Hτ Hlt. apply (Hlow τ m); [|done]. apply elem_of_app. right. by right. }
  intros p. split; [apply Hto_sel|]. intros Hsel. pose proof Hsel as (Htime & before & after & Es & Hb & Ha1 & Ha2).
  assert ((steps p, space p) ∈ seen) as Hi by (rewrite Es; apply elem_of_app; right; left).
  destruct (Hcov _ _ Hi) as (q & Hq & Hq1 & Hq2). pose proof (Hto_sel q Hq) as Hselq.
  destruct (decide (time q = time p)) as [He|He].
  - by rewrite <- (first_unique _ _ _ Hselq Hsel He).
  - exfalso. destruct Hselq as (Htq & b' & a' & Es' & _).
    assert ((steps q, space q) ∈ seen) as Hiq by (rewrite Es'; apply elem_of_app; right; left).
    rewrite Es in Hiq. apply elem_of_app in Hiq as [Hiq|Hiq].
    + specialize (Hb _ _ Hiq). lia.
    + apply elem_of_cons in Hiq as [Hiq|Hiq]; [|specialize (Ha2 _ _ Hiq); lia].
      injection Hiq as H3 H4. rewrite H3 in Htq. lia.
Qed.

