(** * Facts about [Graph] *)
From Verif Require Export Space Spec Histories.

Lemma filter_length_app `{EqDecision A} (P Q : A → Prop)
    `{∀ x, Decision (P x)} `{∀ x, Decision (Q x)} (l s : list A) :
  NoDup l → NoDup s → (∀ x, x ∈ s → x ∈ l ∧ P x ∧ ¬ Q x) →
  (∀ y, y ∈ l → y ∉ s → P y ↔ Q y) →
  length (filter P l) = length (filter Q l) + length s.
Proof.
  intros Hl Hs Hin Heq.
  assert (filter P l ≡ₚ filter Q l ++ s) as ->; [|apply app_length].
  apply NoDup_Permutation.
  - by apply NoDup_filter.
  - apply NoDup_app. split_and!; [by apply NoDup_filter| |done].
    intros x Hx Hxs. apply elem_of_list_filter in Hx as [??]. by destruct (Hin x Hxs) as (?&?&?).
  - intros x. rewrite elem_of_app, !elem_of_list_filter. split.
    + intros [HP Hx]. destruct (decide (x ∈ s)); [by right|left]. split; [|done].
      by apply Heq.
    + intros [[HQ Hx]|Hx]; [|destruct (Hin x Hx) as (?&?&?); done].
      split; [|done]. destruct (decide (x ∈ s)) as [Hxs|]; [|by apply Heq].
      by destruct (Hin x Hxs) as (?&?&?).
Qed.

Lemma filter_length_ext_in {A} (P Q : A → Prop)
    `{∀ x, Decision (P x)} `{∀ x, Decision (Q x)} (l : list A) :
  (∀ x, x ∈ l → P x ↔ Q x) → filter P l = filter Q l.
Proof.
  induction l as [|x l IH]; intros Heq; [done|].
  assert (filter P l = filter Q l) as E by (apply IH; intros y ?; apply Heq; by right).
  destruct (decide (P x)).
  - rewrite !filter_cons_True; [by f_equal|apply Heq; [left|done]|done].
  - rewrite !filter_cons_False; [done|rewrite <- Heq; [done|left]|done].
Qed.

Section graph.
  Context (adj : spacial).
  Implicit Types st : nat → State.
  Notation n := (length adj).

  Definition state_of (P : list nat) (v : nat) : State :=
    if decide (v ∈ P) then Measured
    else if decide (needed adj P v) then InMemory else Sleeping.

  Definition rep (st : nat → State) : list (State * list nat) :=
    map (λ v, (st v, neighbours adj v)) (seq 0 n).

  (** Nodes that are awake and not measured in an earlier step. *)
  Definition occ (P : list nat) (st : nat → State) : nat :=
    length (filter (λ v, v ∉ P ∧ st v ≠ Sleeping) (seq 0 n)).

  Lemma rep_lookup st v : v < n → rep st !! v = Some (st v, neighbours adj v).
  Proof.
    intros. unfold rep. change (((λ v, (st v, neighbours adj v)) <$> seq 0 n) !! v = Some (st v, neighbours adj v)).
    by rewrite list_lookup_fmap, lookup_seq_lt.
  Qed.

  Lemma rep_lookup_None st v : n ≤ v → rep st !! v = None.
  Proof. intros. apply lookup_ge_None. unfold rep. by rewrite map_length, seq_length. Qed.

  Lemma rep_ext st st' : (∀ v, v < n → st v = st' v) → rep st = rep st'.
  Proof.
    intros Heq. unfold rep. apply map_ext_in. intros v Hv%in_seq. rewrite Heq; [done|lia].
  Qed.

  Lemma occ_ext P st st' : (∀ v, v < n → st v = st' v) → occ P st = occ P st'.
  Proof.
    intros Heq. unfold occ. f_equal. apply filter_length_ext_in.
    intros v Hv%elem_of_seq. rewrite Heq by lia. done.
  Qed.

  Lemma rep_length st : length (rep st) = n.
  Proof. unfold rep. by rewrite map_length, seq_length. Qed.

  Lemma rep_insert st v s :
    v < n →
    <[v := (s, neighbours adj v)]> (rep st) = rep (λ w, if decide (w = v) then s else st w).
  Proof.
    intros Hv. apply list_eq. intros i. destruct (decide (i < n)).
    - rewrite (rep_lookup _ i) by done. destruct (decide (i = v)) as [->|].
      + apply list_lookup_insert. by rewrite rep_length.
      + rewrite list_lookup_insert_ne by done. by apply rep_lookup.
    - rewrite (rep_lookup_None _ i) by lia. apply lookup_ge_None.
      rewrite insert_length, rep_length. lia.
  Qed.

  Lemma occ_le P st : occ P st ≤ n.
  Proof. unfold occ. rewrite filter_length. by rewrite seq_length. Qed.

  Lemma occ_wake P st st' v :
    v < n → v ∉ P → st v = Sleeping → st' v ≠ Sleeping →
    (∀ w, w ≠ v → st' w = st w) →
    occ P st' = S (occ P st).
  Proof.
    intros Hv HP Hs Hs' Heq. unfold occ.
    rewrite (filter_length_app _ (λ v, v ∉ P ∧ st v ≠ Sleeping) _ [v]).
    - simpl. lia.
    - apply NoDup_seq.
    - apply NoDup_singleton.
    - intros x ->%elem_of_list_singleton. split_and!; [apply elem_of_seq; lia|done..|].
      by intros [_ ?].
    - intros y _ Hy%not_elem_of_cons. rewrite Heq by naive_solver. done.
  Qed.

  Context (Hsize : (N.of_nat n < 2 ^ 64 - 1)%N).

  Lemma add_usize_one bd k : S k ≤ n → add_usize bd (N.of_nat k) 1 = Val (N.of_nat (S k)).
  Proof.
    intros Hk. unfold add_usize.
    replace (N.of_nat k + 1)%N with (N.of_nat (S k)) by lia.
    rewrite (proj2 (N.leb_le _ _)); [done|]. unfold usize_max, usize_mod.
    assert (2 ^ 64 = 18446744073709551616)%N by done. lia.
  Qed.

  Definition wake st v : nat → State :=
    λ w, if decide (w = v ∧ st w = Sleeping) then InMemory else st w.

  Lemma initialize_spec bd P st mx v :
    v < n → (st v = Sleeping → v ∉ P) →
    initialize bd (mkGraph (rep st) (N.of_nat (occ P st)) mx) v
    = Val (mkGraph (rep (wake st v)) (N.of_nat (occ P (wake st v))) mx).
  Proof.
    intros Hv HP. unfold initialize, index. simpl. rewrite rep_lookup by done. simpl.
    destruct (st v) eqn:E.
    - assert (occ P (wake st v) = S (occ P st)) as Hocc.
      { apply (occ_wake P st _ v); [done|by apply HP|done| |].
        - unfold wake. by rewrite decide_True.
        - intros w Hw. unfold wake. rewrite decide_False; naive_solver. }
      rewrite add_usize_one by (rewrite <- Hocc; apply occ_le). simpl.
      rewrite rep_insert, Hocc by done. f_equal. f_equal. apply rep_ext.
      intros w _. unfold wake. destruct (decide (w = v)) as [->|].
      + by rewrite decide_True.
      + rewrite decide_False; naive_solver.
    - assert (∀ w, wake st v w = st w) as Hw.
      { intros w. unfold wake. destruct (decide _) as [[-> ?]|]; congruence. }
      rewrite (rep_ext (wake st v) st), (occ_ext _ (wake st v) st) by done. done.
    - assert (∀ w, wake st v w = st w) as Hw.
      { intros w. unfold wake. destruct (decide _) as [[-> ?]|]; congruence. }
      rewrite (rep_ext (wake st v) st), (occ_ext _ (wake st v) st) by done. done.
  Qed.

  Lemma wake_sleeping st v w : wake st v w = Sleeping → st w = Sleeping.
  Proof. unfold wake. destruct (decide _); done. Qed.

  Lemma initialize_all_spec bd P ns st mx :
    (∀ v, v ∈ ns → v < n) → (∀ v, st v = Sleeping → v ∉ P) →
    ofold (initialize bd) ns (mkGraph (rep st) (N.of_nat (occ P st)) mx)
    = Val (mkGraph (rep (foldl wake st ns)) (N.of_nat (occ P (foldl wake st ns))) mx).
  Proof.
    revert st. induction ns as [|v ns IH]; intros st Hns HP; [done|].
    cbn [ofold]. rewrite initialize_spec; [|apply Hns; left|apply HP]. simpl.
    apply IH; [intros; apply Hns; by right|]. intros w Hw%wake_sleeping. by apply HP.
  Qed.

  Lemma wake_all_spec ns st w :
    foldl wake st ns w = if decide (w ∈ ns ∧ st w = Sleeping) then InMemory else st w.
  Proof.
    revert st. induction ns as [|v ns IH]; intros st.
    - rewrite decide_False; [done|]. intros [?%elem_of_nil ?]. done.
    - simpl. rewrite IH. unfold wake.
      destruct (decide (w = v ∧ st w = Sleeping)) as [[-> E]|Hn].
      + rewrite decide_False by naive_solver. rewrite decide_True; [done|]. split; [left|done].
      + destruct (decide (w ∈ ns ∧ st w = Sleeping)) as [[??]|].
        * rewrite decide_True; [done|]. split; [by right|done].
        * rewrite decide_False; [done|]. rewrite elem_of_cons. naive_solver.
  Qed.

  Context (Hrange : ∀ ns v, ns ∈ adj → v ∈ ns → v < n).

  Lemma neighbours_range u v : v ∈ neighbours adj u → v < n.
  Proof.
    unfold neighbours. destruct (adj !! u) eqn:E; simpl; [|by intros ?%elem_of_nil].
    intros. eapply Hrange; [|done]. by eapply elem_of_list_lookup_2.
  Qed.

  Lemma needed_app A B v : needed adj (A ++ B) v ↔ needed adj A v ∨ needed adj B v.
  Proof.
    unfold needed. setoid_rewrite elem_of_app. naive_solver.
  Qed.

  Lemma needed_singleton u v : needed adj [u] v ↔ v = u ∨ v ∈ neighbours adj u.
  Proof. unfold needed. setoid_rewrite elem_of_list_singleton. naive_solver. Qed.

  Lemma state_of_sleeping A v : state_of A v = Sleeping ↔ v ∉ A ∧ ¬ needed adj A v.
  Proof.
    unfold state_of. destruct (decide (v ∈ A)); [naive_solver|].
    destruct (decide (needed adj A v)); naive_solver.
  Qed.
  Lemma state_of_measured A v : state_of A v = Measured ↔ v ∈ A.
  Proof.
    unfold state_of. destruct (decide (v ∈ A)); [naive_solver|].
    destruct (decide (needed adj A v)); naive_solver.
  Qed.
  Lemma state_of_inmemory A v : state_of A v = InMemory ↔ v ∉ A ∧ needed adj A v.
  Proof.
    unfold state_of. destruct (decide (v ∈ A)); [naive_solver|].
    destruct (decide (needed adj A v)); naive_solver.
  Qed.

  (** The graph in the middle of a step: [P] has been measured in earlier steps,
      [Q] in this step. *)
  Definition graph_mid (P Q : list nat) (mx : N) : Graph :=
    mkGraph (rep (state_of (P ++ Q))) (N.of_nat (occ P (state_of (P ++ Q)))) mx.

  Lemma measure_raw_spec bd P Q mx v :
    v < n → v ∉ P ++ Q →
    measure_raw bd (graph_mid P Q mx) v = Val (Some (graph_mid P (Q ++ [v]) mx)).
  Proof.
    intros Hv Hnew. unfold measure_raw, graph_mid, index. simpl. rewrite rep_lookup by done.
    cbn [obind fst snd]. set (st := state_of (P ++ Q)).
    set (st1 := λ w, if decide (w = v) then Measured else st w).
    assert (∀ w, foldl wake st1 (neighbours adj v) w = state_of (P ++ Q ++ [v]) w) as Hfin.
    { intros w. rewrite wake_all_spec. rewrite app_assoc.
      destruct (state_of ((P ++ Q) ++ [v]) w) eqn:E.
      - apply state_of_sleeping in E. rewrite needed_app, needed_singleton in E.
        rewrite (elem_of_app (P ++ Q)), elem_of_list_singleton in E.
        rewrite decide_False by naive_solver. unfold st1. rewrite decide_False by naive_solver.
        apply state_of_sleeping. tauto.
      - apply state_of_inmemory in E. rewrite needed_app, needed_singleton in E.
        rewrite (elem_of_app (P ++ Q)), elem_of_list_singleton in E.
        destruct E as [E1 E2]. unfold st1. rewrite (decide_False (P:= w = v)) by naive_solver.
        destruct (st w) eqn:Es.
        + rewrite decide_True; [done|]. split; [|done].
          apply state_of_sleeping in Es. tauto.
        + rewrite decide_False; [done|by intros [_ ?]].
        + apply state_of_measured in Es. tauto.
      - apply state_of_measured in E. rewrite (elem_of_app (P ++ Q)), elem_of_list_singleton in E.
        destruct (decide (w = v)) as [->|].
        + unfold st1. rewrite decide_False; [by rewrite decide_True|].
          intros [_ Hs]. by rewrite decide_True in Hs.
        + unfold st1. rewrite (decide_False (P:= w = v)) by done.
          assert (st w = Measured) as -> by (apply state_of_measured; tauto).
          rewrite decide_False; [done|by intros [_ ?]]. }
    assert (∀ w, st1 w = Sleeping → w ∉ P) as HP.
    { intros w. unfold st1. destruct (decide (w = v)); [done|].
      intros Hw%state_of_sleeping. rewrite elem_of_app in Hw. naive_solver. }
    rewrite <- (rep_ext _ _ (λ w _, Hfin w)), <- (occ_ext P _ _ (λ w _, Hfin w)).
    destruct (st v) eqn:E.
    - assert (occ P st1 = S (occ P st)) as Hocc.
      { apply (occ_wake P st _ v); [done| |done| |].
        - rewrite elem_of_app in Hnew. naive_solver.
        - unfold st1. by rewrite decide_True.
        - intros w Hw. unfold st1. by rewrite decide_False. }
      rewrite add_usize_one by (rewrite <- Hocc; apply occ_le). cbn [obind].
      rewrite rep_insert by done. fold st1. rewrite <- Hocc.
      rewrite initialize_all_spec; [done| |done]. apply neighbours_range.
    - assert (occ P st1 = occ P st) as Hocc.
      { unfold occ. f_equal. apply filter_length_ext_in. intros w _. unfold st1.
        destruct (decide (w = v)) as [->|]; [|done]. rewrite E. naive_solver. }
      rewrite rep_insert by done. fold st1. rewrite <- Hocc.
      rewrite initialize_all_spec; [done| |done]. apply neighbours_range.
    - apply state_of_measured in E. done.
  Qed.

  Lemma measure_raw_measured bd P Q mx v :
    v < n → v ∈ P ++ Q → measure_raw bd (graph_mid P Q mx) v = Val None.
  Proof.
    intros Hv Hin. unfold measure_raw, graph_mid, index. simpl. rewrite rep_lookup by done.
    simpl. apply state_of_measured in Hin. by rewrite Hin.
  Qed.

  Lemma measure_raw_range bd P Q mx v :
    n ≤ v → measure_raw bd (graph_mid P Q mx) v = Panic.
  Proof.
    intros Hv. unfold measure_raw, graph_mid, index. simpl. by rewrite rep_lookup_None.
  Qed.

  Lemma measure_all_spec bd P Q mx S :
    (∀ v, v ∈ S → v < n) → NoDup S → (∀ v, v ∈ S → v ∉ P ++ Q) →
    measure_all bd (graph_mid P Q mx) S = Val (graph_mid P (Q ++ S) mx, Ok tt).
  Proof.
    revert Q. induction S as [|v S IH]; intros Q Hr Hnd Hnew.
    - by rewrite app_nil_r.
    - apply NoDup_cons in Hnd as [HvS Hnd]. cbn [measure_all]. unfold measure.
      rewrite measure_raw_spec; [|apply Hr; left|apply Hnew; left]. cbn [obind].
      rewrite IH; [by rewrite <- app_assoc| |done|].
      + intros; apply Hr; by right.
      + intros w Hw. rewrite app_assoc, elem_of_app, elem_of_list_singleton.
        intros [?| ->]; [|done]. by apply (Hnew w); [right|].
  Qed.

  Lemma measure_all_app bd g S1 S2 g1 :
    measure_all bd g S1 = Val (g1, Ok tt) →
    measure_all bd g (S1 ++ S2) = measure_all bd g1 S2.
  Proof.
    revert g. induction S1 as [|v S1 IH]; intros g; cbn [measure_all app].
    - by intros [= ->].
    - destruct (measure bd g v) as [[g' [[]|e]]|]; cbn [obind]; [|done..]. apply IH.
  Qed.

  Lemma measure_all_error bd P mx S1 b S2 :
    (∀ v, v ∈ S1 → v < n) → NoDup S1 → (∀ v, v ∈ S1 → v ∉ P) →
    b < n → b ∈ P ++ S1 →
    measure_all bd (graph_mid P [] mx) (S1 ++ b :: S2)
    = Val (graph_mid P S1 mx, Err (mkAlreadyMeasured b)).
  Proof.
    intros Hr Hnd Hnew Hb Hin.
    erewrite measure_all_app; [|apply measure_all_spec; [done..|by rewrite app_nil_r]].
    cbn [measure_all]. unfold measure. rewrite measure_raw_measured by done. done.
  Qed.

  Lemma measure_unchecked_all_spec bd P Q mx S :
    (∀ v, v ∈ S → v < n) → NoDup S → (∀ v, v ∈ S → v ∉ P ++ Q) →
    ofold (measure_unchecked bd) S (graph_mid P Q mx) = Val (graph_mid P (Q ++ S) mx).
  Proof.
    revert Q. induction S as [|v S IH]; intros Q Hr Hnd Hnew.
    - by rewrite app_nil_r.
    - apply NoDup_cons in Hnd as [HvS Hnd]. cbn [ofold]. unfold measure_unchecked at 1.
      rewrite measure_raw_spec; [|apply Hr; left|apply Hnew; left]. cbn [obind].
      rewrite IH; [by rewrite <- app_assoc| |done|].
      + intros; apply Hr; by right.
      + intros w Hw. rewrite app_assoc, elem_of_app, elem_of_list_singleton.
        intros [?| ->]; [|done]. by apply (Hnew w); [right|].
  Qed.

  (** The graph after the steps [σ]: a function of [σ] alone. *)
  Definition graph_at (σ : schedule) : Graph :=
    graph_mid (concat σ) [] (N.of_nat (space_cost adj σ)).

  Lemma graph_at_new : graph_new adj = graph_at [].
  Proof.
    unfold graph_at, graph_mid, graph_new. f_equal.
    - apply list_eq. intros v. destruct (decide (v < n)).
      + rewrite rep_lookup by done. destruct (lookup_lt_is_Some_2 adj v) as [ns E]; [done|].
        rewrite list_lookup_fmap, E. simpl. unfold neighbours. rewrite E. simpl.
        f_equal.
      + rewrite rep_lookup_None by lia. rewrite list_lookup_fmap.
        rewrite lookup_ge_None_2 by lia. done.
    - change 0%N with (N.of_nat 0). f_equal. symmetry. unfold occ.
      apply length_zero_iff_nil. destruct (filter _ _) as [|v l] eqn:E; [done|].
      assert (v ∈ v :: l) as Hv by left. rewrite <- E in Hv.
      apply elem_of_list_filter in Hv as [[_ Hs] _]. by destruct Hs.
  Qed.

  (** *** Cost of an extended schedule *)

  Lemma memory_at_prefix σ τ k : k < length σ → memory_at adj (σ ++ τ) k = memory_at adj σ k.
  Proof.
    intros Hk. unfold memory_at. f_equal. apply filter_length_ext_in. intros v _. unfold occupies.
    rewrite (take_app_le σ τ k), (take_app_le σ τ (S k)) by lia. done.
  Qed.

  Lemma max_list_app l1 l2 : max_list (l1 ++ l2) = max (max_list l1) (max_list l2).
  Proof. induction l1 as [|x l IH]; simpl; [done|]. unfold max_list in *. lia. Qed.

  Lemma space_cost_snoc σ S :
    space_cost adj (σ ++ [S]) = max (space_cost adj σ) (memory_at adj (σ ++ [S]) (length σ)).
  Proof.
    unfold space_cost. rewrite app_length. simpl.
    rewrite Nat.add_1_r, seq_S, map_app, max_list_app. f_equal.
    - f_equal. apply map_ext_in. intros k Hk%in_seq. apply memory_at_prefix. lia.
    - simpl. lia.
  Qed.

  Lemma memory_at_last σ S :
    memory_at adj (σ ++ [S]) (length σ) = occ (concat σ) (state_of (concat σ ++ S)).
  Proof.
    unfold memory_at, occ. f_equal. apply filter_length_ext_in. intros v _.
    unfold occupies. rewrite take_app_alt by done. rewrite take_ge by (rewrite app_length; simpl; lia).
    rewrite concat_app. simpl. rewrite app_nil_r.
    destruct (state_of (concat σ ++ S) v) eqn:E.
    - apply state_of_sleeping in E. naive_solver.
    - apply state_of_inmemory in E. naive_solver.
    - apply state_of_measured in E. assert (needed adj (concat σ ++ S) v) by by left. naive_solver.
  Qed.

  Lemma occ_after P S :
    NoDup S → (∀ v, v ∈ S → v < n) → (∀ v, v ∈ S → v ∉ P) →
    occ P (state_of (P ++ S)) = occ (P ++ S) (state_of (P ++ S)) + length S.
  Proof.
    intros Hnd Hr Hnew. unfold occ. apply filter_length_app.
    - apply NoDup_seq.
    - done.
    - intros v Hv. split; [apply elem_of_seq; specialize (Hr v Hv); lia|split].
      + split; [by apply Hnew|]. intros Hs%state_of_sleeping. destruct Hs as [Hs _].
        apply Hs, elem_of_app. by right.
      + intros [Hs _]. apply Hs, elem_of_app. by right.
    - intros v _ Hv. rewrite not_elem_of_app. naive_solver.
  Qed.

  Lemma update_memory_spec bd σ S :
    NoDup S → (∀ v, v ∈ S → v < n) → (∀ v, v ∈ S → v ∉ concat σ) →
    update_memory bd (graph_mid (concat σ) S (N.of_nat (space_cost adj σ))) (length S)
    = Val (graph_at (σ ++ [S])).
  Proof.
    intros Hnd Hr Hnew. unfold update_memory, graph_mid. cbn [max_memory current_memory nodes].
    unfold sub_usize. pose proof (occ_after (concat σ) S Hnd Hr Hnew) as Ho.
    rewrite (proj2 (N.leb_le _ _)) by lia. cbn [obind]. unfold graph_at, graph_mid.
    rewrite concat_app. cbn [concat]. rewrite !app_nil_r. f_equal. f_equal; [lia|].
    rewrite space_cost_snoc, memory_at_last.
    destruct (N.ltb_spec (N.of_nat (space_cost adj σ)) (N.of_nat (occ (concat σ) (state_of (concat σ ++ S))))); lia.
  Qed.

  Lemma graph_focus_inplace_spec bd σ S :
    NoDup S → (∀ v, v ∈ S → v < n) → (∀ v, v ∈ S → v ∉ concat σ) →
    graph_focus_inplace bd (graph_at σ) S = Val (graph_at (σ ++ [S]), Ok tt).
  Proof.
    intros Hnd Hr Hnew. unfold graph_focus_inplace. unfold graph_at at 1.
    rewrite measure_all_spec by (rewrite ?app_nil_r; done). cbn [obind app].
    by rewrite update_memory_spec.
  Qed.

  Lemma graph_focus_inplace_unchecked_spec bd σ S :
    NoDup S → (∀ v, v ∈ S → v < n) → (∀ v, v ∈ S → v ∉ concat σ) →
    graph_focus_inplace_unchecked bd (graph_at σ) S = Val (graph_at (σ ++ [S])).
  Proof.
    intros Hnd Hr Hnew. unfold graph_focus_inplace_unchecked. unfold graph_at at 1.
    rewrite measure_unchecked_all_spec by (rewrite ?app_nil_r; done). cbn [obind app].
    by rewrite update_memory_spec.
  Qed.

  (** *** Schedules that measure the same sets *)

  Lemma needed_proper P Q v : (∀ u, u ∈ P ↔ u ∈ Q) → needed adj P v ↔ needed adj Q v.
  Proof. intros H. unfold needed. setoid_rewrite H. done. Qed.

  Lemma same_schedule_concat σ τ : same_schedule σ τ → concat σ ≡ₚ concat τ.
  Proof. induction 1; simpl; [done|]. by f_equiv. Qed.

  Lemma same_schedule_take σ τ k : same_schedule σ τ → same_schedule (take k σ) (take k τ).
  Proof. apply Forall2_take. Qed.

  Lemma memory_at_same σ τ k : same_schedule σ τ → memory_at adj σ k = memory_at adj τ k.
  Proof.
    intros H. unfold memory_at. f_equal. apply filter_length_ext_in. intros v _.
    unfold occupies.
    rewrite (needed_proper (concat (take (S k) σ)) (concat (take (S k) τ))).
    - by rewrite (same_schedule_concat _ _ (same_schedule_take _ _ k H)).
    - intros u. by rewrite (same_schedule_concat _ _ (same_schedule_take _ _ (S k) H)).
  Qed.

  Lemma space_cost_same σ τ : same_schedule σ τ → space_cost adj σ = space_cost adj τ.
  Proof.
    intros H. unfold space_cost. rewrite (Forall2_length _ _ _ H). f_equal.
    apply map_ext. intros. by apply memory_at_same.
  Qed.

  Lemma space_cost_prefix σ τ : space_cost adj σ ≤ space_cost adj (σ ++ τ).
  Proof.
    revert σ. induction τ as [|S τ IH]; intros σ; [by rewrite app_nil_r|].
    rewrite (app_assoc σ [S] τ : σ ++ S :: τ = _).
    etrans; [|apply IH]. rewrite space_cost_snoc. lia.
  Qed.

  Lemma space_cost_le σ : space_cost adj σ ≤ n.
  Proof.
    induction σ as [|S σ IH] using rev_ind; [unfold space_cost; simpl; lia|].
    rewrite space_cost_snoc. apply Nat.max_lub; [done|]. unfold memory_at.
    etrans; [apply filter_length|]. by rewrite seq_length.
  Qed.
End graph.
