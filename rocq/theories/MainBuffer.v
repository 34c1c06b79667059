(** * Final statements about buffers *)
From Verif Require Export BufferFacts Check.
From Verif Require Export Spec.

(** ** C09 *)

Lemma buffer_checked :
  ∀ edges n m, let E := rename_edges (mapping_fun m) edges in
  (∀ u v, (u, v) ∈ E → u ≠ v → u < n ∧ v < n) →
  ∃ buf, graph_buffer_new edges n m true = Val buf ∧ length buf = n ∧
    (∀ u, NoDup (neighbours buf u)) ∧
    (∀ u v, v ∈ neighbours buf u ↔ u ≠ v ∧ joined E u v).
Proof.
  intros edges n m E HE. rewrite graph_buffer_new_eq. fold E.
  destruct (checked_loop [] E (replicate n []) (simple_buffer_empty n)) as [H _]; [constructor|].
  rewrite replicate_length in H. destruct H as (buf & E1 & Hl & [H1 H2] & _).
  { apply Forall_forall. intros [u v] Huv Hne. by apply HE. }
  by exists buf.
Qed.

Lemma buffer_checked_panics :
  ∀ edges n m u v, (u, v) ∈ rename_edges (mapping_fun m) edges → u ≠ v → n ≤ u ∨ n ≤ v →
  graph_buffer_new edges n m true = Panic.
Proof.
  intros edges n m u v Huv Hne Hn. rewrite graph_buffer_new_eq.
  destruct (checked_loop [] (rename_edges (mapping_fun m) edges) (replicate n []) (simple_buffer_empty n))
    as [_ H]; [constructor|]. rewrite replicate_length in H. apply H.
  rewrite Forall_forall. intros Hall. destruct (Hall _ Huv Hne). simpl in *. lia.
Qed.

Lemma buffer_unchecked :
  ∀ edges n m, let E := rename_edges (mapping_fun m) edges in
  (∀ u v, (u, v) ∈ E → u < n ∧ v < n) →
  ∃ buf, graph_buffer_new edges n m false = Val buf ∧ length buf = n ∧
    ∀ u, neighbours buf u
      = concat (map (λ e, (if e.1 =? u then [e.2] else []) ++ (if e.2 =? u then [e.1] else [])) E).
Proof.
  intros edges n m E HE. rewrite graph_buffer_new_eq. fold E.
  destruct (unchecked_loop (replicate n []) E) as [H _].
  rewrite replicate_length in H. destruct H as (buf & E1 & Hl & H).
  { apply Forall_forall. intros [u v] Huv. by apply HE. }
  exists buf. split; [done|]. split; [done|]. intros u. rewrite H, neighbours_empty. done.
Qed.

Lemma buffer_unchecked_panics :
  ∀ edges n m u v, (u, v) ∈ rename_edges (mapping_fun m) edges → n ≤ u ∨ n ≤ v →
  graph_buffer_new edges n m false = Panic.
Proof.
  intros edges n m u v Huv Hn. rewrite graph_buffer_new_eq.
  destruct (unchecked_loop (replicate n []) (rename_edges (mapping_fun m) edges)) as [_ H].
  rewrite replicate_length in H. apply H.
  rewrite Forall_forall. intros Hall. destruct (Hall _ Huv). simpl in *. lia.
Qed.

Lemma buffer_same :
  ∀ edges n m, simple_edges (rename_edges (mapping_fun m) edges) →
  graph_buffer_new edges n m true = graph_buffer_new edges n m false.
Proof.
  intros edges n m Hs. rewrite !graph_buffer_new_eq. set (E := rename_edges (mapping_fun m) edges) in *.
  destruct (checked_loop [] E (replicate n []) (simple_buffer_empty n)) as [H1 H2]; [constructor|].
  destruct (decide (Forall (checked_ok (length (replicate n ([] : list nat)))) E)) as [Hf|Hf].
  - destruct (H1 Hf) as (buf & -> & _ & _ & Hun). by rewrite Hun.
  - rewrite H2 by done. destruct (unchecked_loop (replicate n []) E) as [_ H].
    rewrite H; [done|]. intros Hall. apply Hf. eapply Forall_impl; [exact Hall|].
    intros e He _. exact He.
Qed.

(** ** C13 *)

Lemma mapping_relabels :
  ∀ (T : Type) (MS : MeasurableSet T) g buf m,
  from_dependency_graph (T := T) g buf (Some m)
  = from_dependency_graph (rename_order (λ b, m !! b) g) buf None.
Proof. intros T MS g buf m. by destruct g. Qed.

Lemma fits_iff g buf : ¬ fits (qubits g) buf ↔ ∃ b, listed g b ∧ length buf ≤ b.
Proof.
  unfold fits. split.
  - intros H. apply not_Forall_Exists in H; [|intros ?; apply _].
    apply Exists_exists in H as (b & Hb & Hn). exists b. split; [by apply listed_qubits|]. simpl in Hn. lia.
  - intros (b & Hb%listed_qubits & Hn) H. rewrite Forall_forall in H. apply H in Hb. lia.
Qed.

Lemma construction_panics `{LawfulMeasurableSet T} g buf :
  from_dependency_graph (T := T) g buf None = Panic ↔ ∃ b, listed g b ∧ length buf ≤ b.
Proof.
  rewrite from_dependency_graph_eq, <- fits_iff. destruct (decide _); split; try done.
Qed.

Lemma generator_construction_panics :
  ∀ g buf,
  (from_dependency_graph (T := list nat) g buf None = Panic ↔ ∃ b, listed g b ∧ length buf ≤ b) ∧
  (from_dependency_graph (T := Partition nat) g buf None = Panic ↔ ∃ b, listed g b ∧ length buf ≤ b).
Proof. intros g buf. split; apply construction_panics. Qed.

Lemma new_alike `{LawfulMeasurableSet T} g buf1 buf2 t1 t2 :
  from_dependency_graph (T := T) g buf1 None = Val t1 →
  from_dependency_graph (T := T) g buf2 None = Val t2 → alike (λ b, b ∈ qubits g) t1 t2.
Proof.
  rewrite !from_dependency_graph_eq.
  destruct (decide (fits (qubits g) buf1)) as [H1|]; [|done].
  destruct (decide (fits (qubits g) buf2)) as [H2|]; [|done].
  intros [= <-] [= <-]. unfold fits in *. rewrite Forall_forall in H1, H2. split; simpl; try done.
  - intros b Hb. apply fill_agree; auto.
  - rewrite ms_set_init. apply Forall_forall. intros b Hb. destruct g as [|first rest]; [done|].
    unfold qubits. simpl in *. rewrite map_app. apply elem_of_app. by left.
  - intros b D Hb HD. eapply fill_sub; [|  |exact HD]; [done|]. intros D' _ Hn. done.
Qed.

Lemma buffer_reuse_manual :
  ∀ g buf1 buf2 t1 t2 bd calls,
  from_dependency_graph (T := list nat) g buf1 None = Val t1 →
  from_dependency_graph (T := list nat) g buf2 None = Val t2 →
  (measurable t1, num_remaining_nodes t1, has_unmeasureable t1)
  = (measurable t2, num_remaining_nodes t2, has_unmeasureable t2) ∧
  observe (call_focus bd) t1 calls = observe (call_focus bd) t2 calls.
Proof.
  intros g buf1 buf2 t1 t2 bd calls H1 H2. pose proof (new_alike g buf1 buf2 t1 t2 H1 H2) as Hal.
  split.
  - unfold num_remaining_nodes, has_unmeasureable. by rewrite (al_measurable _ _ _ Hal), (al_counter _ _ _ Hal).
  - eapply observe_alike; [|exact Hal]. intros. by apply call_focus_alike.
Qed.

Lemma buffer_reuse :
  ∀ g buf1 buf2 t1 t2 bd calls,
  from_dependency_graph (T := Partition nat) g buf1 None = Val t1 →
  from_dependency_graph (T := Partition nat) g buf2 None = Val t2 →
  (measurable t1, num_remaining_nodes t1, has_unmeasureable t1)
  = (measurable t2, num_remaining_nodes t2, has_unmeasureable t2) ∧
  observe (call_next bd) t1 calls = observe (call_next bd) t2 calls.
Proof.
  intros g buf1 buf2 t1 t2 bd calls H1 H2. pose proof (new_alike g buf1 buf2 t1 t2 H1 H2) as Hal.
  split.
  - unfold num_remaining_nodes, has_unmeasureable. by rewrite (al_measurable _ _ _ Hal), (al_counter _ _ _ Hal).
  - eapply observe_alike; [|exact Hal]. intros. by apply call_next_alike.
Qed.
