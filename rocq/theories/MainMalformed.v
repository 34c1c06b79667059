(** * Dependency graphs that are not well-formed *)
From Verif Require Export MainSearch MalformedFacts Check.

Lemma repaired_well_formed :
  ∀ n g, wf_order n g → repaired g = g.
Proof.
  intros n g Hwf. apply list_eq. intros [|k].
  - destruct g as [|first rest]; [done|]. simpl. f_equal.
    assert (∀ b ds, (b, ds) ∈ first → ds = []) as Hf by apply (wf_first _ _ Hwf).
    clear Hwf. induction first as [|[b ds] first IH]; [done|]. simpl.
    rewrite (Hf b ds) by left. f_equal. apply IH. intros b' ds' H. apply (Hf b' ds'). by right.
  - assert (∀ k, take k (repaired g) = take k g → ∀ layer, g !! S k = Some layer →
      take (S k) (repaired g) = take (S k) g → filter (usable (qubits (take (S k) (repaired g)))) layer = layer) as Hl.
    { intros j _ layer Hj Ht. rewrite Ht.
      assert (∀ e, e ∈ layer → usable (qubits (take (S j) g)) e) as Hu.
      { intros [b ds] He. destruct (wf_later _ _ Hwf j layer b ds Hj He) as (H1 & H2 & H3).
        split; [done|]. split; [done|]. by apply Forall_forall. }
      clear -Hu. induction layer as [|e layer IH]; [done|].
      rewrite filter_cons_True by (apply Hu; left). f_equal. apply IH. intros e' He'. apply Hu. by right. }
    assert (∀ k, take k (repaired g) = take k g) as Ht.
    { induction k0 as [|j IH]; [done|]. destruct (g !! j) as [layer|] eqn:Ej.
      - destruct j as [|j].
        + destruct g as [|first rest]; [done|]. simpl. f_equal.
          assert (∀ b ds, (b, ds) ∈ first → ds = []) as Hf by apply (wf_first _ _ Hwf).
          clear -Hf. induction first as [|[b ds] first IH]; [done|]. simpl.
          rewrite (Hf b ds) by left. f_equal. apply IH. intros b' ds' H. apply (Hf b' ds'). by right.
        + rewrite (take_S_r g (S j) layer) by done.
          rewrite (take_S_r (repaired g) (S j) layer); [by rewrite IH|].
          rewrite repaired_lookup, Ej. simpl. f_equal. apply Hl; [|done|done].
          by apply (f_equal (take j)) in IH; rewrite !take_take, !Nat.min_l in IH by lia.
      - apply lookup_ge_None in Ej. rewrite (take_ge g (S j)) by lia. rewrite (take_ge g j) in IH by lia.
        rewrite take_ge by (rewrite repaired_length; lia). rewrite take_ge in IH by (rewrite repaired_length; lia). done. }
    rewrite repaired_lookup. destruct (g !! S k) as [layer|] eqn:Ek; [|done]. simpl. f_equal.
    by apply Hl.
Qed.

Lemma malformed_time_optimal :
  ∀ adj g, wf_spacial adj → (∀ b, listed g b → b < length adj) → NoDup (qubits g) →
  wf_input adj (repaired g) ∧
  ∀ bd fuel, get_time_optimal bd fuel adj g = get_time_optimal bd fuel adj (repaired g).
Proof.
  intros adj g Hadj Hr Hnd. assert (∀ b, b ∈ qubits g → b < length adj) as Hr'.
  { intros b Hb. by apply Hr, listed_qubits. }
  split; [split; [done|by apply repaired_wf]|]. intros bd fuel. by apply time_optimal_twin.
Qed.

Lemma malformed_search :
  ∀ adj g timer ho prob, wf_spacial adj → (∀ b, listed g b → b < length adj) → NoDup (qubits g) →
  (∀ l, ho l ≡ₚ l) → calm prob →
  ∃ ps, (∀ bd, returns (λ fuel, search_single bd fuel timer ho adj g prob) ps) ∧
    Forall (path_ok adj (repaired g)) ps ∧ tradeoff ps.
Proof.
  intros adj g timer ho prob Hadj Hr Hnd Hho Hcalm. assert (∀ b, b ∈ qubits g → b < length adj) as Hr'.
  { intros b Hb. by apply Hr, listed_qubits. }
  destruct (search_start_similar adj g Hadj Hr' Hnd) as (root & E & Hs).
  assert (∀ bd fuel o, search_single bd fuel timer ho adj g prob = Some o →
    search_single Debug fuel timer ho adj g prob = Some o ∧
    ∃ res, sound adj (repaired g) res ∧ o = finish ho (length adj) res) as Hrun.
  { intros bd fuel o. unfold search_single. rewrite E. destruct prob as [[acc smp]|].
    - unfold do_probabilistic_search.
      assert (∀ fuel k d s, similar adj g s →
        loop (do_probabilistic_search_body bd timer acc smp) fuel (k, (d, s))
        = loop (do_probabilistic_search_body Debug timer acc smp) fuel (k, (d, s)) ∧
        ∀ o, loop (do_probabilistic_search_body bd timer acc smp) fuel (k, (d, s)) = Some o →
          ∃ res best, o = Val (res, best) ∧ sound adj (repaired g) res) as Hloop.
      { clear fuel o Hs E. intros fuel. induction fuel as [|fuel IH]; intros k d s Hs; [done|].
        destruct (probabilistic_iteration_similar adj g Hadj Hr' Hnd acc smp d s Hcalm Hs) as (d' & r & Er & Hsim).
        simpl. unfold do_probabilistic_search_body at 1 3 5. cbn [fst snd]. rewrite !Er. cbn [obind].
        destruct r as [s'|s']; cbn [with_drawn].
        - destruct (timer k); [|by apply IH]. split; [done|]. intros o [= <-]. eexists _, _. split; [done|].
          destruct Hsim as (x' & _ & _ & Hsd & Ha). by rewrite (al_results _ _ _ Ha).
        - split; [done|]. intros o [= <-]. eexists _, _. split; [done|].
          destruct Hsim as (x' & _ & _ & Hsd & Ha). by rewrite (al_results _ _ _ Ha). }
      destruct (Hloop fuel 0 (0, 0) _ Hs) as [El Ho]. rewrite <- El.
      destruct (loop _ fuel _) as [o'|]; [|done]. destruct (Ho o' eq_refl) as (res & best & -> & Hsd).
      intros [= <-]. split; [done|]. by exists res.
    - unfold do_search.
      assert (∀ fuel k s, similar adj g s →
        loop (do_search_body bd timer) fuel (k, s) = loop (do_search_body Debug timer) fuel (k, s) ∧
        ∀ o, loop (do_search_body bd timer) fuel (k, s) = Some o →
          ∃ res best, o = Val (res, best) ∧ sound adj (repaired g) res) as Hloop.
      { clear fuel o Hs E. intros fuel. induction fuel as [|fuel IH]; intros k s Hs; [done|].
        destruct (search_iteration_similar adj g Hadj Hr' Hnd s Hs) as (r & Er & Hsim).
        simpl. unfold do_search_body at 1 3 5. cbn [fst snd]. rewrite !Er. cbn [obind].
        destruct r as [s'|s'].
        - destruct (timer k); [|by apply IH]. split; [done|]. intros o [= <-]. eexists _, _. split; [done|].
          destruct Hsim as (x' & _ & _ & Hsd & Ha). by rewrite (al_results _ _ _ Ha).
        - split; [done|]. intros o [= <-]. eexists _, _. split; [done|].
          destruct Hsim as (x' & _ & _ & Hsd & Ha). by rewrite (al_results _ _ _ Ha). }
      destruct (Hloop fuel 0 _ Hs) as [El Ho]. rewrite <- El.
      destruct (loop _ fuel _) as [o'|]; [|done]. destruct (Ho o' eq_refl) as (res & best & -> & Hsd).
      intros [= <-]. split; [done|]. by exists res. }
  destruct (search_finishes Debug timer ho adj g prob) as (o & f0 & Ho).
  destruct (Hrun Debug f0 o (Ho f0 (le_n _))) as (_ & res & Hsd & ->).
  destruct (finish_spec ho Hho (length adj) res) as (ps & Eps & _ & _ & Hps).
  exists ps. split; [|split].
  - intros bd. destruct (search_finishes bd timer ho adj g prob) as (o & f1 & Ho1).
    assert (o = Val ps) as ->; [|by exists f1].
    destruct (Hrun bd (f0 + f1) o) as [H1 _]; [apply Ho1; lia|]. rewrite Ho in H1 by lia. congruence.
  - apply Forall_forall. intros p Hp. apply Hps in Hp as (_ & Hp & _).
    destruct (Hsd _ _ _ Hp) as (H1 & H2 & H3). done.
  - by eapply finish_tradeoff.
Qed.

(** Removed qubits are never measured. *)
Lemma malformed_never_measured :
  ∀ adj g timer ho prob bd p ps b, wf_spacial adj → (∀ b, listed g b → b < length adj) → NoDup (qubits g) →
  (∀ l, ho l ≡ₚ l) →
  returns (λ fuel, get_time_optimal bd fuel adj g) [p] →
  returns (λ fuel, search_single bd fuel timer ho adj g prob) ps →
  listed g b →
  (listed (repaired g) b ↔ b ∈ concat (steps p)) ∧
  ∀ q, q ∈ ps → (listed (repaired g) b ↔ b ∈ concat (steps q)).
Proof.
  intros adj g timer ho prob bd p ps b Hadj Hr Hnd Hho Hp Hps Hb.
  destruct (malformed_time_optimal adj g Hadj Hr Hnd) as [Hwf E].
  destruct (time_optimal_path adj (repaired g) Hwf) as (p' & Hp' & Hok & _).
  assert (p = p') as <-.
  { assert (returns (λ fuel, get_time_optimal bd fuel adj (repaired g)) [p]) as H.
    { destruct Hp as [f0 Hp]. exists f0. intros fuel Hf. rewrite <- E. by apply Hp. }
    by pose proof (finishes_det _ _ _ H (Hp' bd)) as [= ->]. }
  assert (∀ q, valid_schedule (repaired g) q → listed (repaired g) b ↔ b ∈ concat q) as Hv.
  { intros q Hq. split; [apply (vs_complete _ _ Hq)|apply (lp_listed _ _ (vs_legal _ _ Hq))]. }
  split; [by apply Hv|]. intros q Hq.
  destruct (malformed_search adj g timer ho (calm_single prob) Hadj Hr Hnd Hho (calm_single_calm prob))
    as (ps' & Hps' & Hall & _).
  pose proof (finishes_det _ _ _ (returns_calmed bd timer ho adj g prob ps Hps) (Hps' bd)) as [= <-].
  rewrite Forall_forall in Hall. by apply Hv, Hall.
Qed.

(** The search of a graph with a removed qubit may miss the best schedules of
    the remaining qubits. *)
Lemma malformed_suboptimal :
  ¬ (∀ adj g, wf_spacial adj → (∀ b, listed g b → b < length adj) → NoDup (qubits g) →
     ∀ ps, (∀ bd, returns (λ fuel, search_single bd fuel (λ _, false) id adj g None) ps) →
     ∀ σ, valid_schedule (repaired g) σ → ∃ p, p ∈ ps ∧ time p ≤ time_cost σ ∧
       (space p <= N.of_nat (space_cost adj σ))%N).
Proof.
  intros H.
  set (adj := [[2]; [2]; [0; 1]; []] : spacial).
  set (g := [[(0, []); (1, [])]; [(2, [0]); (3, [])]] : order).
  assert (wf_spacial adj) as H1 by (by apply wf_spacial_checked; vm_compute).
  assert (NoDup (qubits g)) as H2.
  { apply (bool_decide_unpack _). by vm_compute. }
  assert (∀ b, listed g b → b < length adj) as H3.
  { intros b Hb. apply listed_qubits in Hb. revert b Hb. apply Forall_forall.
    apply (bool_decide_unpack _). by vm_compute. }
  destruct (H adj g H1 H3 H2 [MkPath 2 3 [[0; 1]; [2]]; MkPath 3 2 [[1]; [0]; [2]]]) with (σ := [[0]; [1; 2]])
    as (p & Hp & Ht & Hs).
  - assert (∀ bd, search_single bd 100 (λ _, false) id adj g None
      = Some (Val [MkPath 2 3 [[0; 1]; [2]]; MkPath 3 2 [[1]; [0]; [2]]])) as E by (intros []; by vm_compute).
    intros bd. exists 100. intros fuel Hf. eapply search_single_mono; [apply E|done].
  - by apply valid_checked; vm_compute.
  - assert (space_cost adj [[0]; [1; 2]] = 2) as E by (by vm_compute). rewrite E in Hs.
    unfold time_cost in Ht. simpl in Ht. rewrite !elem_of_cons, elem_of_nil in Hp.
    destruct Hp as [->|[->|[]]]; simpl in *; lia.
Qed.
