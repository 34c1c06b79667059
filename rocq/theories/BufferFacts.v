(** * Facts about buffers: [DependencyBuffer] and [GraphBuffer] *)
From Verif Require Export Histories TimeFacts SpaceFacts.
From Verif Require Export Spec.

(** ** The content of the dependency buffer *)

Definition fill_layer (rest : order) (layer : list (nat * list nat)) (look : list (list nat)) :=
  foldl (λ look e, <[e.1 := map fst (filter (λ e', e.1 ∈ e'.2) (concat rest))]> look) look layer.

Fixpoint fill (g : order) (look : list (list nat)) : list (list nat) :=
  match g with
  | [] => look
  | layer :: rest => fill rest (fill_layer rest layer look)
  end.

Definition counters (layer : list (nat * list nat)) (dc : gmap nat N) : gmap nat N :=
  foldl (λ dc e, <[e.1 := N.of_nat (length e.2)]> dc) dc layer.

Definition fits (l : list nat) (look : list (list nat)) : Prop := Forall (λ b, b < length look) l.

Lemma fill_layer_length rest layer look : length (fill_layer rest layer look) = length look.
Proof.
  unfold fill_layer. revert look. induction layer as [|e l IH]; intros look; [done|]. simpl.
  by rewrite IH, insert_length.
Qed.

Lemma resolve_fits b rest look :
  resolve b rest look =
  if decide (b < length look) then Val (<[b := map fst (filter (λ e, b ∈ e.2) (concat rest))]> look)
  else Panic.
Proof.
  destruct (decide _) as [H|H]; [by apply resolve_spec|].
  unfold resolve, index_set. by rewrite lookup_ge_None_2 by lia.
Qed.

Lemma fits_cons b l look : fits (b :: l) look ↔ b < length look ∧ fits l look.
Proof. unfold fits. by rewrite Forall_cons. Qed.

Lemma fits_length l look look' : length look = length look' → fits l look ↔ fits l look'.
Proof. unfold fits. by intros ->. Qed.

Global Instance fits_dec l look : Decision (fits l look).
Proof. unfold fits. apply _. Defined.

Lemma first_loop_eq rest first look m :
  ofold (λ s e, let* look := resolve e.1 rest s.1 in Val (look, s.2 ++ [e.1])) first (look, m) =
  if decide (fits (map fst first) look) then Val (fill_layer rest first look, m ++ map fst first) else Panic.
Proof.
  revert look m. induction first as [|e l IH]; intros look m; cbn [ofold obind fst snd map rest_loop].
  - rewrite decide_True by constructor. unfold fill_layer. simpl. by rewrite app_nil_r.
  - rewrite resolve_fits. destruct (decide (e.1 < length look)) as [He|He]; cbn [ofold obind fst snd map rest_loop].
    + rewrite IH. pose proof (fits_length (map fst l) look
        (<[e.1 := map fst (filter (λ e', e.1 ∈ e'.2) (concat rest))]> look)) as Hl.
      rewrite insert_length in Hl. specialize (Hl eq_refl).
      destruct (decide (fits (map fst l) _)) as [Hf|Hf].
      * rewrite decide_True; [by rewrite <- app_assoc|]. apply fits_cons. tauto.
      * rewrite decide_False; [done|]. rewrite fits_cons. tauto.
    + rewrite decide_False; [done|]. rewrite fits_cons. tauto.
Qed.

Lemma layer_loop_eq rest layer look dc :
  layer_loop rest layer (look, dc) =
  if decide (fits (map fst layer) look) then Val (fill_layer rest layer look, counters layer dc) else Panic.
Proof.
  unfold layer_loop. revert look dc. induction layer as [|e l IH]; intros look dc; cbn [ofold obind fst snd map rest_loop].
  - by rewrite decide_True by constructor.
  - rewrite resolve_fits. destruct (decide (e.1 < length look)) as [He|He]; cbn [ofold obind fst snd map rest_loop].
    + rewrite IH. pose proof (fits_length (map fst l) look
        (<[e.1 := map fst (filter (λ e', e.1 ∈ e'.2) (concat rest))]> look)) as Hl.
      rewrite insert_length in Hl. specialize (Hl eq_refl).
      destruct (decide (fits (map fst l) _)) as [Hf|Hf].
      * rewrite decide_True; [done|]. apply fits_cons. tauto.
      * rewrite decide_False; [done|]. rewrite fits_cons. tauto.
    + rewrite decide_False; [done|]. rewrite fits_cons. tauto.
Qed.

Lemma fits_app l1 l2 look : fits (l1 ++ l2) look ↔ fits l1 look ∧ fits l2 look.
Proof. unfold fits. by rewrite Forall_app. Qed.

Lemma rest_loop_eq rest look dc :
  rest_loop rest (look, dc) =
  if decide (fits (qubits rest) look) then Val (fill rest look, counters (concat rest) dc) else Panic.
Proof.
  revert look dc. induction rest as [|layer rest IH]; intros look dc; cbn [ofold obind fst snd map rest_loop].
  - by rewrite decide_True by constructor.
  - rewrite layer_loop_eq. change (layer :: rest) with ([layer] ++ rest).
    pose proof (fits_app (map fst layer) (qubits rest) look) as Ha.
    assert (qubits ([layer] ++ rest) = map fst layer ++ qubits rest) as ->.
    { rewrite qubits_app. unfold qubits at 1. simpl. by rewrite app_nil_r. }
    destruct (decide (fits (map fst layer) look)) as [Hl|Hl]; cbn [ofold obind fst snd map rest_loop].
    + rewrite IH. pose proof (fits_length (qubits rest) look (fill_layer rest layer look)) as Hf.
      rewrite fill_layer_length in Hf. specialize (Hf eq_refl).
      assert (counters (concat ([layer] ++ rest)) dc = counters (concat rest) (counters layer dc)) as ->.
      { unfold counters. simpl. by rewrite foldl_app. }
      destruct (decide (fits (qubits rest) (fill_layer _ _ _))).
      * rewrite decide_True; [done|]. tauto.
      * rewrite decide_False; [done|]. tauto.
    + rewrite decide_False; [done|]. tauto.
Qed.

Lemma from_dependency_graph_eq `{LawfulMeasurableSet T} g buf :
  from_dependency_graph (T := T) g buf None =
  if decide (fits (qubits g) buf)
  then Val (mkPathGenerator (ms_init (map fst (default [] (head g)))) (counters (concat (tail g)) ∅) (fill g buf))
  else Panic.
Proof.
  destruct g as [|first rest].
  - rewrite decide_True by constructor. simpl. by rewrite ms_default_init.
  - unfold from_dependency_graph, first_loop. rewrite first_loop_eq. cbn [tail head default].
    assert (qubits (first :: rest) = map fst first ++ qubits rest) as ->.
    { unfold qubits. simpl. by rewrite map_app. }
    pose proof (fits_app (map fst first) (qubits rest) buf) as Ha.
    destruct (decide (fits (map fst first) buf)) as [Hl|Hl]; cbn [obind].
    + rewrite rest_loop_eq. pose proof (fits_length (qubits rest) buf (fill_layer rest first buf)) as Hf.
      rewrite fill_layer_length in Hf. specialize (Hf eq_refl).
      destruct (decide (fits (qubits rest) (fill_layer _ _ _))); cbn [obind].
      * rewrite decide_True; [done|]. tauto.
      * rewrite decide_False; [done|]. tauto.
    + rewrite decide_False; [done|]. tauto.
Qed.

(** Agreement of two filled buffers. *)
Lemma fill_layer_agree rest layer look1 look2 b :
  b < length look1 → b < length look2 → look1 !! b = look2 !! b ∨ b ∈ map fst layer →
  fill_layer rest layer look1 !! b = fill_layer rest layer look2 !! b.
Proof.
  unfold fill_layer. revert look1 look2. induction layer as [|e l IH]; intros look1 look2 H1 H2 H; simpl.
  - destruct H as [H|H]; [done|]. by apply elem_of_nil in H.
  - apply IH; [by rewrite insert_length..|].
    destruct (decide (b = e.1)) as [->|Hne].
    + left. by rewrite !list_lookup_insert.
    + rewrite !list_lookup_insert_ne by done. destruct H as [H|H]; [by left|].
      simpl in H. apply elem_of_cons in H as [?|H]; [done|]. by right.
Qed.

Lemma fill_agree g look1 look2 b :
  b < length look1 → b < length look2 → look1 !! b = look2 !! b ∨ b ∈ qubits g →
  fill g look1 !! b = fill g look2 !! b.
Proof.
  revert look1 look2. induction g as [|layer rest IH]; intros look1 look2 H1 H2 H; simpl.
  - destruct H as [H|H]; [done|]. by apply elem_of_nil in H.
  - apply IH; [by rewrite fill_layer_length..|].
    assert (qubits (layer :: rest) = map fst layer ++ qubits rest) as Hq.
    { unfold qubits. simpl. by rewrite map_app. }
    rewrite Hq, elem_of_app in H. destruct H as [H|[H|H]].
    + left. apply fill_layer_agree; auto.
    + left. apply fill_layer_agree; auto.
    + by right.
Qed.

Lemma fill_layer_sub (P : nat → Prop) rest layer look b D :
  (∀ x, x ∈ qubits rest → P x) →
  (∀ D, look !! b = Some D → b ∉ map fst layer → Forall P D) →
  fill_layer rest layer look !! b = Some D → Forall P D.
Proof.
  intros HP. unfold fill_layer. revert look. induction layer as [|e l IH]; intros look Hl; simpl.
  - intros HD. apply Hl; [done|]. apply not_elem_of_nil.
  - intros HD. eapply IH; [|exact HD]. intros D' HD' Hnot.
    destruct (decide (b = e.1)) as [->|Hne].
    + apply list_lookup_insert_Some in HD' as [(_ & <- & _)|[? _]]; [|done].
      apply Forall_forall. intros x Hx. apply HP. unfold qubits. apply elem_of_list_fmap in Hx as (y & -> & Hy).
      apply elem_of_list_filter in Hy as [_ Hy]. apply elem_of_list_fmap. by exists y.
    + rewrite list_lookup_insert_ne in HD' by done. apply Hl; [done|]. simpl. by apply not_elem_of_cons.
Qed.

Lemma fill_sub (P : nat → Prop) g look b D :
  (∀ x, x ∈ qubits g → P x) →
  (∀ D, look !! b = Some D → b ∉ qubits g → Forall P D) →
  fill g look !! b = Some D → Forall P D.
Proof.
  revert look. induction g as [|layer rest IH]; intros look HP Hl; simpl.
  - intros HD. apply Hl; [done|]. apply not_elem_of_nil.
  - assert (qubits (layer :: rest) = map fst layer ++ qubits rest) as Hq.
    { unfold qubits. simpl. by rewrite map_app. }
    rewrite Hq in *. intros HD. eapply IH; [| |exact HD].
    + intros x Hx. apply HP, elem_of_app. by right.
    + intros D' HD' Hnot. eapply fill_layer_sub; [| |exact HD'].
      * intros x Hx. apply HP, elem_of_app. by right.
      * intros D'' HD'' Hnot'. apply Hl; [done|]. by apply not_elem_of_app.
Qed.

(** ** Generators that differ only in unused entries of the buffer *)

Section alike.
  Context `{LawfulMeasurableSet T} (P : nat → Prop).

  Record alike (t1 t2 : PathGenerator T) : Prop := {
    al_measurable : measurable t1 = measurable t2;
    al_counter : deps_counter t1 = deps_counter t2;
    al_dependents : ∀ b, P b → dependents t1 !! b = dependents t2 !! b;
    al_set : Forall P (ms_set (measurable t1));
    al_sub : ∀ b D, P b → dependents t1 !! b = Some D → Forall P D
  }.

  Lemma part_fold_sub S m :
    (∀ x, x ∈ (part_fold S m).2 → x ∈ m) ∧
    (∀ x, x ∈ S → x ∈ m ∨ x ∈ (part_fold S m).1).
  Proof.
    unfold part_fold. induction m as [|e m IH] using rev_ind; [split; [done|by right]|].
    rewrite foldl_app. simpl. destruct (foldl _ _ m) as [copy new]. simpl in *.
    destruct IH as [IH1 IH2]. destruct (position e copy) as [p|] eqn:Ep; simpl.
    - apply position_Some in Ep. apply swap_remove_perm in Ep as Hp. split.
      + intros x Hx. apply elem_of_app. left. auto.
      + intros x Hx. rewrite elem_of_app, elem_of_list_singleton.
        destruct (IH2 x Hx) as [?|Hc]; [auto|]. rewrite Hp in Hc. apply elem_of_cons in Hc. tauto.
    - split.
      + intros x. rewrite !elem_of_app. intros [Hx|Hx]; [left; auto|by right].
      + intros x Hx. rewrite elem_of_app. destruct (IH2 x Hx); auto.
  Qed.

  Lemma time_partition_sub m S new :
    time_partition m S = Val (Ok new) → (∀ x, x ∈ new → x ∈ m) ∧ (∀ x, x ∈ S → x ∈ m).
  Proof.
    rewrite time_partition_unfold. destruct (_ <? _); [done|].
    destruct (part_fold_sub S m) as [H1 H2]. destruct (part_fold S m).1; [|done]. intros [= <-].
    split; [done|]. intros x Hx. destruct (H2 x Hx) as [?|Hn]; [done|]. by apply elem_of_nil in Hn.
  Qed.

  Lemma update_dependents_sub bd D dc new dc' new' :
    ofold (update_dependent bd) D (dc, new) = Val (dc', new') →
    Forall P D → Forall P new → Forall P new'.
  Proof.
    revert dc new. induction D as [|b D IH]; intros dc new; simpl; [by intros [= <- <-]|].
    destruct (update_dependent bd (dc, new) b) as [[dc1 new1]|] eqn:E; [|done]. cbn [obind].
    intros Hf HD Hn. apply Forall_cons in HD as [Hb HD]. eapply IH; [exact Hf|done|].
    unfold update_dependent in E. simpl in E. destruct (dc !! b); [|done].
    destruct (sub_usize _ _ _); [|done]. cbn [obind] in E. destruct (_ =? _)%N; injection E as <- <-; [|done].
    apply Forall_app. split; [done|]. by constructor.
  Qed.

  Lemma update_alike bd t1 t2 S dc new :
    alike t1 t2 → Forall P S → Forall P new →
    update_unchecked bd (dependents t1) dc S new = update_unchecked bd (dependents t2) dc S new ∧
    ∀ dc' new', update_unchecked bd (dependents t1) dc S new = Val (dc', new') → Forall P new'.
  Proof.
    intros Hal. unfold update_unchecked. revert dc new. induction S as [|b S IH]; intros dc new HS Hn; simpl.
    - split; [done|]. by intros ? ? [= <- <-].
    - apply Forall_cons in HS as [Hb HS]. unfold index. rewrite <- (al_dependents _ _ Hal b Hb).
      destruct (dependents t1 !! b) as [D|] eqn:E; [|split; done]. cbn [obind].
      destruct (ofold (update_dependent bd) D (dc, new)) as [[dc1 new1]|] eqn:E1; [|split; done]. cbn [obind].
      apply IH; [done|]. eapply update_dependents_sub; [exact E1| |done].
      by eapply (al_sub _ _ Hal).
  Qed.

  (** The same outcome, and again alike. *)
  Definition alike_out {A} (o1 o2 : out (PathGenerator T * A)) : Prop :=
    match o1, o2 with
    | Val (t1, a1), Val (t2, a2) => alike t1 t2 ∧ a1 = a2
    | Panic, Panic => True
    | _, _ => False
    end.

  Lemma focus_unchecked_alike bd t1 t2 S new :
    alike t1 t2 → Forall P S → Forall P new →
    match time_focus_unchecked bd t1 S new, time_focus_unchecked bd t2 S new with
    | Val t1', Val t2' => alike t1' t2'
    | Panic, Panic => True
    | _, _ => False
    end.
  Proof.
    intros Hal HS Hn. unfold time_focus_unchecked. rewrite <- (al_counter _ _ Hal).
    destruct (update_alike bd t1 t2 S (deps_counter t1) new Hal HS Hn) as [He Hp]. rewrite <- He.
    destruct (update_unchecked _ _ _ _ _) as [[dc' new']|]; [|done]. cbn [obind].
    destruct Hal as [A1 A2 A3 A4 A5]. split; simpl; try done. rewrite ms_set_init. by eapply Hp.
  Qed.

  Lemma call_focus_alike bd t1 t2 c :
    alike t1 t2 → alike_out (call_focus bd t1 c) (call_focus bd t2 c).
  Proof.
    intros Hal. destruct c as [inplace M]. unfold call_focus, time_focus_inplace, time_focus.
    rewrite <- (al_measurable _ _ Hal).
    destruct (time_partition (ms_set (measurable t1)) M) as [[new|e]|] eqn:E.
    - apply time_partition_sub in E as [E1 E2].
      pose proof (proj1 (Forall_forall _ _) (al_set _ _ Hal)) as Hs.
      assert (Forall P M) as HM by (apply Forall_forall; auto).
      assert (Forall P new) as Hn by (apply Forall_forall; auto).
      pose proof (focus_unchecked_alike bd t1 t2 M new Hal HM Hn) as Hf.
      unfold time_focus_unchecked in *. cbn [obind].
      destruct (update_unchecked bd (dependents t1) _ _ _) as [[dc1 n1]|],
        (update_unchecked bd (dependents t2) _ _ _) as [[dc2 n2]|]; try done; cbn [obind] in *;
        destruct inplace; try done; by split.
    - cbn [obind]. by destruct inplace.
    - cbn [obind]. by destruct inplace.
  Qed.

  Lemma observe_alike {C A} (call : PathGenerator T → C → out (PathGenerator T * A)) t1 t2 cs :
    (∀ t1 t2 c, alike t1 t2 → alike_out (call t1 c) (call t2 c)) →
    alike t1 t2 → observe call t1 cs = observe call t2 cs.
  Proof.
    intros Hc. revert t1 t2. induction cs as [|c cs IH]; intros t1 t2 Hal; [done|]. simpl.
    specialize (Hc t1 t2 c Hal).
    destruct (call t1 c) as [[t1' a1]|], (call t2 c) as [[t2' a2]|]; try done.
    destruct Hc as [Hal' ->]. unfold num_remaining_nodes, has_unmeasureable.
    rewrite (al_measurable _ _ Hal'), (al_counter _ _ Hal'). f_equal. by apply IH.
  Qed.
End alike.

Lemma call_next_alike P bd t1 t2 c :
  alike P t1 t2 → alike_out P (call_next bd t1 c) (call_next bd t2 c).
Proof.
  intros Hal. destruct c as [c|descend]; unfold call_next.
  - pose proof (call_focus_alike P bd t1 t2 c Hal) as Hc.
    destruct (call_focus bd t1 c) as [[t1' a1]|], (call_focus bd t2 c) as [[t2' a2]|]; try done; cbn [obind].
    destruct Hc as [? ->]. done.
  - unfold time_next_and_focus. rewrite <- (al_measurable _ _ _ Hal). unfold partition_next.
    destruct (piter (measurable t1)) as [|sub rest] eqn:Ep.
    + cbn [obind]. split; [|done]. destruct Hal as [A1 A2 A3 A4 A5]. split; try done.
    + destruct (partition_map 0 sub (pset (measurable t1))) as [a b] eqn:Em.
      assert (shuffle (pset (measurable t1)) a b) as Hsh.
      { pose proof (partition_map_shuffle 0 sub (pset (measurable t1))) as H. by rewrite Em in H. }
      apply shuffle_sublist in Hsh as [Ha Hb].
      pose proof (proj1 (Forall_forall _ _) (al_set _ _ _ Hal)) as Hs. simpl in Hs.
      set (u1 := mkPathGenerator _ (deps_counter t1) (dependents t1)).
      set (u2 := mkPathGenerator _ (deps_counter t2) (dependents t2)).
      assert (alike P u1 u2) as Hu.
      { destruct Hal as [A1 A2 A3 A4 A5]. unfold u1, u2. split; simpl; done. }
      destruct b as [|x b]; [done|].
      assert (Forall P (x :: b)) as HB by (apply Forall_forall; intros y Hy; apply Hs; by eapply elem_of_submseteq; [|apply sublist_submseteq]).
      assert (Forall P a) as HA by (apply Forall_forall; intros y Hy; apply Hs; by eapply elem_of_submseteq; [|apply sublist_submseteq]).
      pose proof (focus_unchecked_alike P bd u1 u2 (x :: b) a Hu HB HA) as Hf.
      destruct (time_focus_unchecked bd u1 _ _), (time_focus_unchecked bd u2 _ _); try done; cbn [obind].
      by destruct descend.
Qed.

(** ** [GraphBuffer] *)

Definition fits_edge (n : nat) (e : nat * nat) : Prop := e.1 < n ∧ e.2 < n.

Lemma index_in {A} (l : list A) i : i < length l → ∃ x, l !! i = Some x ∧ index l i = Val x.
Proof. intros [x Hx]%lookup_lt_is_Some_2. exists x. unfold index. by rewrite Hx. Qed.

Lemma new_body_unchecked_spec inner l r :
  (fits_edge (length inner) (l, r) →
   ∃ inner', new_body_unchecked inner l r = Val inner' ∧ length inner' = length inner ∧
     ∀ u, neighbours inner' u
       = neighbours inner u ++ (if l =? u then [r] else []) ++ (if r =? u then [l] else [])) ∧
  (¬ fits_edge (length inner) (l, r) → new_body_unchecked inner l r = Panic).
Proof.
  unfold fits_edge. simpl. split.
  - intros [Hl Hr]. unfold new_body_unchecked.
    destruct (index_in inner l Hl) as (x & Hx & ->). cbn [obind]. unfold index_set at 1. rewrite Hx. cbn [obind].
    assert (r < length (<[l:=x ++ [r]]> inner)) as Hr' by (by rewrite insert_length).
    destruct (index_in _ r Hr') as (y & Hy & ->). cbn [obind]. unfold index_set. rewrite Hy.
    eexists. split; [done|]. split; [by rewrite !insert_length|]. intros u. unfold neighbours.
    destruct (Nat.eqb_spec r u) as [<-|Hru].
    + rewrite list_lookup_insert by done. simpl. rewrite list_lookup_insert_Some in Hy.
      destruct (Nat.eqb_spec l r) as [<-|Hlr].
      * destruct Hy as [(_ & <- & _)|[? _]]; [|done]. rewrite Hx. simpl. by rewrite <- app_assoc.
      * destruct Hy as [(? & _)|[_ Hy]]; [done|]. by rewrite Hy.
    + rewrite list_lookup_insert_ne by done. destruct (Nat.eqb_spec l u) as [<-|Hlu].
      * rewrite list_lookup_insert by done. by rewrite Hx.
      * rewrite list_lookup_insert_ne by done. by rewrite app_nil_r.
  - intros Hn. unfold new_body_unchecked, index at 1.
    destruct (inner !! l) as [x|] eqn:Hx; [|done]. cbn [obind]. unfold index_set at 1. rewrite Hx. cbn [obind].
    unfold index. rewrite lookup_ge_None_2; [done|]. rewrite insert_length.
    apply lookup_lt_Some in Hx. lia.
Qed.

(** What an edge contributes to the neighbours of [u]. *)
Definition ends (u : nat) (e : nat * nat) : list nat :=
  (if e.1 =? u then [e.2] else []) ++ (if e.2 =? u then [e.1] else []).

Lemma elem_of_ends u v e : v ∈ ends u e ↔ e = (u, v) ∨ e = (v, u).
Proof.
  destruct e as [l r]. unfold ends. simpl.
  rewrite elem_of_app. destruct (Nat.eqb_spec l u), (Nat.eqb_spec r u);
    rewrite ?elem_of_list_singleton, ?elem_of_nil; naive_solver.
Qed.

Lemma unchecked_loop inner E :
  (Forall (fits_edge (length inner)) E →
   ∃ inner', ofold (λ inner e, new_body_unchecked inner e.1 e.2) E inner = Val inner' ∧
     length inner' = length inner ∧
     ∀ u, neighbours inner' u = neighbours inner u ++ concat (map (ends u) E)) ∧
  (¬ Forall (fits_edge (length inner)) E →
   ofold (λ inner e, new_body_unchecked inner e.1 e.2) E inner = Panic).
Proof.
  revert inner. induction E as [|[l r] E IH]; intros inner.
  - split; [|intros []; constructor]. intros _. exists inner. split; [done|]. split; [done|].
    intros u. by rewrite app_nil_r.
  - destruct (new_body_unchecked_spec inner l r) as [H1 H2]. rewrite Forall_cons. cbn [ofold fst snd].
    destruct (decide (fits_edge (length inner) (l, r))) as [Hf|Hf].
    + destruct (H1 Hf) as (i1 & -> & Hl & Hu). cbn [obind]. destruct (IH i1) as [I1 I2]. rewrite Hl in *.
      split.
      * intros [_ HE]. destruct (I1 HE) as (i2 & -> & Hl2 & Hu2). exists i2.
        split; [done|]. split; [lia|]. intros u. rewrite Hu2, Hu. simpl. unfold ends at 2. simpl.
        by rewrite <- !app_assoc.
      * intros Hn. apply I2. tauto.
    + rewrite H2 by done. cbn [obind]. split; [tauto|done].
Qed.

Definition checked_ok (n : nat) (e : nat * nat) : Prop := e.1 ≠ e.2 → fits_edge n e.
Global Instance checked_ok_dec n e : Decision (checked_ok n e).
Proof. unfold checked_ok, fits_edge. apply _. Defined.
Global Instance fits_edge_dec n e : Decision (fits_edge n e).
Proof. unfold fits_edge. apply _. Defined.

(** The invariant of the checked loop. *)
Definition simple_buffer (E : list (nat * nat)) (inner : list (list nat)) : Prop :=
  (∀ u, NoDup (neighbours inner u)) ∧
  ∀ u v, v ∈ neighbours inner u ↔ u ≠ v ∧ joined E u v.

Lemma checked_step E inner l r :
  simple_buffer E inner → Forall (checked_ok (length inner)) E →
  (checked_ok (length inner) (l, r) →
   ∃ inner', new_body_checked inner l r = Val inner' ∧ length inner' = length inner ∧
     simple_buffer (E ++ [(l, r)]) inner' ∧
     (l ≠ r → ¬ joined E l r → new_body_unchecked inner l r = Val inner')) ∧
  (¬ checked_ok (length inner) (l, r) → new_body_checked inner l r = Panic).
Proof.
  intros [Hnd Hadj] HE. unfold new_body_checked, checked_ok. simpl.
  assert (∀ u v, joined (E ++ [(l, r)]) u v ↔ joined E u v ∨ (l, r) = (u, v) ∨ (l, r) = (v, u)) as Hj.
  { intros u v. unfold joined. rewrite !elem_of_app, !elem_of_list_singleton. naive_solver. }
  destruct (Nat.eqb_spec l r) as [->|Hne].
  - split; [|tauto]. intros _. exists inner. split; [done|]. split; [done|]. split; [|done].
    split; [done|]. intros u v. rewrite Hadj, Hj. naive_solver.
  - split.
    + intros Hf. specialize (Hf Hne). pose proof Hf as [Hl Hr]. simpl in Hl, Hr.
      destruct (index_in inner l Hl) as (x & Hx & ->). cbn [obind].
      assert (neighbours inner l = x) as Hnx by (unfold neighbours; by rewrite Hx).
      destruct (bool_decide (r ∈ x)) eqn:Eb.
      * apply bool_decide_eq_true in Eb. rewrite <- Hnx, Hadj in Eb. destruct Eb as [_ Eb].
        exists inner. split; [done|]. split; [done|]. split; [|tauto]. split; [done|].
        intros u v. rewrite Hadj, Hj. unfold joined in *. naive_solver.
      * apply bool_decide_eq_false in Eb. rewrite <- Hnx, Hadj in Eb.
        assert (¬ joined E l r) as Hnj by tauto.
        destruct (new_body_unchecked_spec inner l r) as [H1 _].
        destruct (H1 Hf) as (inner' & E' & Hlen & Hu). exists inner'. split; [done|]. split; [done|].
        split; [|done]. split.
        -- intros u. rewrite Hu. change (_ ++ _) with (ends u (l, r)) at 2. apply NoDup_app. split; [apply Hnd|].
           split.
           ++ intros v Hv Hv'. apply elem_of_ends in Hv'. apply Hadj in Hv as [_ Hv].
              apply Hnj. unfold joined in *. naive_solver.
           ++ unfold ends. simpl. destruct (Nat.eqb_spec l u), (Nat.eqb_spec r u); simpl; subst;
                try done; try apply NoDup_singleton. constructor.
        -- intros u v. rewrite Hu. change (_ ++ _) with (ends u (l, r)) at 2.
           rewrite elem_of_app, elem_of_ends, Hadj, Hj. naive_solver.
    + intros Hf. assert (¬ fits_edge (length inner) (l, r)) as Hnf by tauto.
      unfold index. destruct (inner !! l) as [x|] eqn:Hx; [|done]. cbn [obind].
      rewrite bool_decide_eq_false_2.
      * destruct (new_body_unchecked_spec inner l r) as [_ H2]. by apply H2.
      * intros Hrx. assert (r ∈ neighbours inner l) as Hr by (unfold neighbours; by rewrite Hx).
        apply Hadj in Hr as [_ Hr]. apply Hnf. rewrite Forall_forall in HE.
        destruct Hr as [Hr|Hr]; apply HE in Hr; unfold checked_ok, fits_edge in *; simpl in *; naive_solver.
Qed.

Lemma checked_loop E1 E2 inner :
  simple_buffer E1 inner → Forall (checked_ok (length inner)) E1 →
  (Forall (checked_ok (length inner)) E2 →
   ∃ inner', ofold (λ inner e, new_body_checked inner e.1 e.2) E2 inner = Val inner' ∧
     length inner' = length inner ∧ simple_buffer (E1 ++ E2) inner' ∧
     (simple_edges (E1 ++ E2) → ofold (λ inner e, new_body_unchecked inner e.1 e.2) E2 inner = Val inner')) ∧
  (¬ Forall (checked_ok (length inner)) E2 →
   ofold (λ inner e, new_body_checked inner e.1 e.2) E2 inner = Panic).
Proof.
  revert E1 inner. induction E2 as [|[l r] E2 IH]; intros E1 inner Hs H1.
  - split; [|intros []; constructor]. intros _. exists inner. rewrite app_nil_r. done.
  - rewrite Forall_cons. cbn [ofold fst snd].
    destruct (checked_step E1 inner l r Hs H1) as [S1 S2].
    destruct (decide (checked_ok (length inner) (l, r))) as [Hc|Hc].
    + destruct (S1 Hc) as (i1 & -> & Hl & Hs1 & Hun). cbn [obind].
      destruct (IH (E1 ++ [(l, r)]) i1) as [I1 I2]; [done| |].
      { rewrite Hl, Forall_app, Forall_singleton. done. }
      rewrite <- app_assoc in I1. simpl in I1. rewrite Hl in *. split.
      * intros [_ HE]. destruct (I1 HE) as (i2 & -> & Hl2 & Hs2 & Hun2). exists i2.
        split; [done|]. split; [done|]. split; [done|]. intros Hsim.
        rewrite Hun; [by apply Hun2|..].
        -- destruct Hsim as [_ Hsim]. apply (Hsim l r). apply elem_of_app. right. left.
        -- destruct Hsim as [Hnd Hsim]. apply NoDup_app in Hnd as (_ & Hdis & _).
           intros [Hj|Hj].
           ++ apply (Hdis _ Hj). left.
           ++ destruct (Hsim l r) as [_ Hno]; [apply elem_of_app; right; left|].
              apply Hno, elem_of_app. by left.
      * intros Hn. apply I2. tauto.
    + rewrite S2 by done. cbn [obind]. split; [tauto|done].
Qed.

Lemma neighbours_empty n u : neighbours (replicate n []) u = [].
Proof.
  unfold neighbours. destruct (replicate n [] !! u) as [x|] eqn:E; [|done].
  by apply lookup_replicate in E as [-> _].
Qed.

Lemma simple_buffer_empty n : simple_buffer [] (replicate n []).
Proof.
  split.
  - intros u. rewrite neighbours_empty. apply NoDup_nil_2.
  - intros u v. rewrite neighbours_empty. unfold joined. rewrite !elem_of_nil. naive_solver.
Qed.

Lemma graph_buffer_new_eq edges n m chk :
  graph_buffer_new edges n m chk =
  ofold (λ inner e, (if chk then new_body_checked else new_body_unchecked) inner e.1 e.2)
    (rename_edges (mapping_fun m) edges) (replicate n []).
Proof.
  unfold graph_buffer_new. generalize (replicate n [] : list (list nat)).
  destruct m as [m|]; induction edges as [|e edges IH]; intros inner; try done; simpl.
  - unfold rename, mapping_fun, update_bit in *. destruct (_ inner _ _); [|done]. cbn [obind]. apply IH.
  - unfold rename, mapping_fun in *. simpl. destruct (_ inner _ _); [|done]. cbn [obind]. apply IH.
Qed.
