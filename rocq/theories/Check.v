(** * Deciding well-formedness (used for the concrete examples) *)
From Verif Require Export TimeFacts Histories Spec.

Definition wf_spacial_check (adj : spacial) : bool :=
  forallb (forallb (λ v, v <? length adj)) adj && (N.of_nat (length adj) <? 2 ^ 64 - 1)%N.

Lemma wf_spacial_checked adj : wf_spacial_check adj = true → wf_spacial adj.
Proof.
  unfold wf_spacial_check. rewrite andb_true_iff, forallb_forall, N.ltb_lt. intros [H1 H2].
  split; [|done]. intros ns v Hns Hv. apply elem_of_list_In, H1 in Hns.
  rewrite forallb_forall in Hns. apply elem_of_list_In, Hns, Nat.ltb_lt in Hv. done.
Qed.

Fixpoint later_check (before : list nat) (g : order) : bool :=
  match g with
  | [] => true
  | layer :: g =>
      forallb (λ e : nat * list nat,
        negb (bool_decide (e.2 = [])) && bool_decide (NoDup e.2)
        && forallb (λ d, bool_decide (d ∈ before)) e.2) layer
      && later_check (before ++ map fst layer) g
  end.

Definition wf_order_check (n : nat) (g : order) : bool :=
  forallb (λ b, b <? n) (qubits g) && bool_decide (NoDup (qubits g))
  && match g with
     | [] => true
     | first :: rest =>
         forallb (λ e : nat * list nat, bool_decide (e.2 = [])) first
         && later_check (map fst first) rest
     end.

Lemma later_checked before g :
  later_check before g = true →
  ∀ k layer b ds, g !! k = Some layer → (b, ds) ∈ layer →
    ds ≠ [] ∧ NoDup ds ∧ ∀ d, d ∈ ds → d ∈ before ++ qubits (take k g).
Proof.
  revert before. induction g as [|layer g IH]; intros before Hc k layer' b ds Hk Hb; [done|].
  simpl in Hc. apply andb_true_iff in Hc as [H1 H2]. destruct k as [|k]; simpl in Hk.
  - injection Hk as <-. rewrite forallb_forall in H1. apply elem_of_list_In, H1 in Hb.
    simpl in Hb. rewrite !andb_true_iff, negb_true_iff in Hb. destruct Hb as [[Ha Hb] Hc].
    apply bool_decide_eq_false in Ha. apply bool_decide_eq_true in Hb.
    split; [done|]. split; [done|]. intros d Hd. rewrite forallb_forall in Hc.
    apply elem_of_list_In, Hc, bool_decide_eq_true in Hd. apply elem_of_app. by left.
  - destruct (IH _ H2 k layer' b ds Hk Hb) as (? & ? & Hd). split; [done|]. split; [done|].
    intros d Hd'. apply Hd in Hd'. simpl. change (layer :: take k g) with ([layer] ++ take k g).
    rewrite qubits_app. unfold qubits at 1. simpl. rewrite app_nil_r. by rewrite app_assoc.
Qed.

Lemma wf_order_checked n g : wf_order_check n g = true → wf_order n g.
Proof.
  unfold wf_order_check. rewrite !andb_true_iff. intros [[H1 H2] H3]. split.
  - intros b Hb. rewrite forallb_forall in H1. by apply elem_of_list_In, H1, Nat.ltb_lt in Hb.
  - by apply bool_decide_eq_true in H2.
  - destruct g as [|first rest]; [by intros ? ? ?%elem_of_nil|]. simpl.
    apply andb_true_iff in H3 as [H3 _]. rewrite forallb_forall in H3.
    intros b ds Hb. apply elem_of_list_In, H3 in Hb. by apply bool_decide_eq_true in Hb.
  - destruct g as [|first rest]; [done|]. apply andb_true_iff in H3 as [_ H3].
    intros k layer b ds Hk Hb. simpl in Hk.
    destruct (later_checked _ _ H3 k layer b ds Hk Hb) as (? & ? & Hd). split; [done|]. split; [done|].
    intros d Hd'. apply Hd in Hd'. change (take (S k) (first :: rest)) with ([first] ++ take k rest).
    rewrite qubits_app. unfold qubits at 1. simpl. rewrite app_nil_r. done.
Qed.

Lemma wf_input_checked adj g :
  wf_spacial_check adj && wf_order_check (length adj) g = true → wf_input adj g.
Proof.
  rewrite andb_true_iff. intros [H1 H2]. split; [by apply wf_spacial_checked|by apply wf_order_checked].
Qed.

(** ** Checking schedules *)

Definition deps_check (g : order) (σ : schedule) : bool :=
  forallb (λ k : nat, match σ !! k with
    | Some M => forallb (λ b, forallb (λ e : nat * list nat,
        negb (b =? e.1) || forallb (λ d, bool_decide (d ∈ concat (take k σ))) e.2) (concat g)) M
    | None => true end) (seq 0 (length σ)).

Definition valid_check (g : order) (σ : schedule) : bool :=
  forallb (λ M, negb (bool_decide (M = []))) σ
  && bool_decide (NoDup (concat σ))
  && forallb (λ b, bool_decide (b ∈ qubits g)) (concat σ)
  && forallb (λ b, bool_decide (b ∈ concat σ)) (qubits g)
  && deps_check g σ.

Lemma valid_checked g σ : valid_check g σ = true → valid_schedule g σ.
Proof.
  unfold valid_check. rewrite !andb_true_iff. intros [[[[H1 H2] H3] H4] H5].
  rewrite forallb_forall in H1, H3, H4. split; [split|].
  - intros M HM. apply elem_of_list_In, H1, negb_true_iff, bool_decide_eq_false in HM. done.
  - by apply bool_decide_eq_true in H2.
  - intros b Hb. apply listed_qubits. by apply elem_of_list_In, H3, bool_decide_eq_true in Hb.
  - intros k M b d Hk Hb Hd. unfold deps_check in H5. rewrite forallb_forall in H5.
    assert (In k (seq 0 (length σ))) as Hin.
    { apply in_seq. apply lookup_lt_Some in Hk. lia. }
    apply H5 in Hin. rewrite Hk in Hin. rewrite forallb_forall in Hin.
    apply elem_of_list_In, Hin in Hb. rewrite forallb_forall in Hb.
    apply depends_entry in Hd as (ds & He & Hd). apply elem_of_list_In, Hb in He. simpl in He.
    apply orb_true_iff in He as [He|He]; [by rewrite negb_true_iff, Nat.eqb_neq in He|].
    rewrite forallb_forall in He. by apply elem_of_list_In, He, bool_decide_eq_true in Hd.
  - intros b Hb. apply listed_qubits, elem_of_list_In, H4, bool_decide_eq_true in Hb. done.
Qed.

Fixpoint obeys_check (adj : spacial) (live gone : list nat) (ops : list action) : bool :=
  match ops with
  | [] => true
  | Init v :: ops =>
      (v <? length adj) && bool_decide (v ∉ live) && bool_decide (v ∉ gone)
      && obeys_check adj (v :: live) gone ops
  | MeasureStep M :: ops =>
      bool_decide (NoDup M) && forallb (λ u, bool_decide (u ∈ live)) M
      && forallb (λ u, forallb (λ v, bool_decide (v ∈ live) || bool_decide (v ∈ gone))
                         (neighbours adj u)) M
      && obeys_check adj (filter (λ v, v ∉ M) live) (gone ++ M) ops
  end.

Lemma obeys_checked adj live gone ops :
  obeys_check adj live gone ops = true → obeys adj live gone ops.
Proof.
  revert live gone. induction ops as [|[v|M] ops IH]; intros live gone; cbn [obeys obeys_check];
    [done|rewrite !andb_true_iff..].
  - intros [[[H1%Nat.ltb_lt H2%bool_decide_eq_true] H3%bool_decide_eq_true] H4].
    split; [done|]. split; [done|]. split; [done|]. by apply IH.
  - intros [[[H1%bool_decide_eq_true H2] H3] H4]. rewrite forallb_forall in H2, H3.
    split; [done|]. split; [|split; [|by apply IH]].
    + intros u Hu. by apply elem_of_list_In, H2, bool_decide_eq_true in Hu.
    + intros u v Hu Hv. apply elem_of_list_In, H3 in Hu. rewrite forallb_forall in Hu.
      apply elem_of_list_In, Hu, orb_true_iff in Hv. by rewrite !bool_decide_eq_true in Hv.
Qed.

(** ** Computing histories *)

Fixpoint graph_run (bd : build) (gr : Graph) (σ : schedule) : option Graph :=
  match σ with
  | [] => Some gr
  | M :: σ => match graph_focus_inplace bd gr M with
              | Val (gr', Ok _) => graph_run bd gr' σ
              | _ => None
              end
  end.

Lemma graph_run_reached bd adj σ0 gr σ gr' :
  graph_reached adj σ0 gr → graph_run bd gr σ = Some gr' → graph_reached adj (σ0 ++ σ) gr'.
Proof.
  revert σ0 gr. induction σ as [|M σ IH]; intros σ0 gr Hr; simpl.
  - intros [= <-]. by rewrite app_nil_r.
  - destruct (graph_focus_inplace bd gr M) as [[gr1 [[]|]]|] eqn:E; [|done..]. intros H.
    rewrite cons_middle, app_assoc. eapply IH; [|done]. by eapply reached_inplace.
Qed.

Section run.
  Context {T : Type} `{MeasurableSet T}.

  Fixpoint generator_run (bd : build) (t : PathGenerator T) (σ : schedule) : option (PathGenerator T) :=
    match σ with
    | [] => Some t
    | M :: σ => match time_focus_inplace bd t M with
                | Val (t', Ok _) => generator_run bd t' σ
                | _ => None
                end
    end.

  Lemma generator_run_reached bd n g σ0 t σ t' :
    generator_reached n g σ0 t → generator_run bd t σ = Some t' → generator_reached n g (σ0 ++ σ) t'.
  Proof.
    revert σ0 t. induction σ as [|M σ IH]; intros σ0 t Hr; simpl.
    - intros [= <-]. by rewrite app_nil_r.
    - destruct (time_focus_inplace bd t M) as [[t1 [[]|]]|] eqn:E; [|done..]. intros E'.
      rewrite cons_middle, app_assoc. eapply IH; [|done]. by eapply generator_inplace.
  Qed.

  (** From a newly built generator. *)
  Definition generator_from (bd : build) (n : nat) (g : order) (σ : schedule) : option (PathGenerator T) :=
    match from_dependency_graph g (dependency_buffer_new n) None with
    | Val t => generator_run bd t σ
    | Panic => None
    end.

  Lemma generator_from_reached bd n g σ t :
    generator_from bd n g σ = Some t → generator_reached n g σ t.
  Proof.
    unfold generator_from. destruct (from_dependency_graph _ _ _) as [t0|] eqn:E; [|done].
    intros Hr. apply (generator_run_reached bd n g [] t0 σ t); [|done].
    apply (generator_new n g (dependency_buffer_new n)); [|done].
    unfold dependency_buffer_new. by rewrite replicate_length.
  Qed.

  (** Rejected instructions are skipped; the accepted ones are returned. *)
  Fixpoint scheduler_run (bd : build) (s : Scheduler T) (σ0 σ : schedule) : option (schedule * Scheduler T) :=
    match σ with
    | [] => Some (σ0, s)
    | M :: σ => match scheduler_focus_inplace bd s M with
                | Val (s', Ok _) => scheduler_run bd s' (σ0 ++ [M]) σ
                | Val (s', Err _) => scheduler_run bd s' σ0 σ
                | Panic => None
                end
    end.

  Lemma scheduler_run_reached bd adj g σ0 s σ σ' s' :
    scheduler_reached adj g σ0 s → scheduler_run bd s σ0 σ = Some (σ', s') →
    scheduler_reached adj g σ' s'.
  Proof.
    revert σ0 s. induction σ as [|M σ IH]; intros σ0 s Hr; simpl.
    - by intros [= <- <-].
    - destruct (scheduler_focus_inplace bd s M) as [[s1 [[]|e]]|] eqn:E; [| |done]; intros E'.
      + eapply IH; [|done]. by eapply scheduler_accept.
      + eapply IH; [|done]. by eapply scheduler_reject.
  Qed.

  Definition scheduler_from (bd : build) (adj : spacial) (g : order) (σ : schedule)
      : option (schedule * Scheduler T) :=
    match from_dependency_graph g (dependency_buffer_new (length adj)) None with
    | Val t => scheduler_run bd (mkScheduler t (graph_new adj)) [] σ
    | Panic => None
    end.

  Lemma scheduler_from_reached bd adj g σ σ' s' :
    scheduler_from bd adj g σ = Some (σ', s') → scheduler_reached adj g σ' s'.
  Proof.
    unfold scheduler_from. destruct (from_dependency_graph _ _ _) as [t0|] eqn:E; [|done].
    intros Hr. eapply scheduler_run_reached; [|done].
    apply (scheduler_new adj g (dependency_buffer_new (length adj))); [|done].
    unfold dependency_buffer_new. by rewrite replicate_length.
  Qed.
End run.

(** ** Inputs used by the examples *)

(** The example of the documentation: four qubits on a square. *)
Definition square : spacial := [[1; 2]; [0; 3]; [0; 3]; [1; 2]].
Definition square_order : order := [[(0, [])]; [(3, [0]); (1, [0])]; [(2, [3])]].

Lemma square_wf : wf_input square square_order.
Proof. apply wf_input_checked. by vm_compute. Qed.

(** test_files/fourier_4o: sixteen qubits. *)
Definition fourier : spacial :=
  [[]; [14; 15]; [10; 11; 12; 13]; [4; 5; 6; 7; 8; 9]; [3]; [3]; [3]; [3]; [3]; [3];
   [2]; [2]; [2]; [2]; [1]; [1]].
Definition fourier_order : order :=
  [[(8, []); (5, []); (7, []); (4, []); (6, []); (3, [])];
   [(12, [7]); (10, [7]); (2, [7]); (11, [7]); (9, [8; 5; 7; 4; 6; 3])];
   [(13, [12; 10; 2; 11]); (1, [5; 11]); (14, [5; 11])];
   [(0, [3; 2; 1]); (15, [1; 14])]].

Lemma fourier_wf : wf_input fourier fourier_order.
Proof. apply wf_input_checked. by vm_compute. Qed.

(** Two pairs of connected qubits; measuring the pairs one after the other saves memory. *)
Definition pairs : spacial := [[2]; [3]; [0]; [1]].
Definition pairs_order : order := [[(0, []); (1, [])]; [(2, [0]); (3, [1])]].

Lemma pairs_wf : wf_input pairs pairs_order.
Proof. by apply wf_input_checked; vm_compute. Qed.
