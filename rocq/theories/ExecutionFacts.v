(** * Executing a scheduled pattern *)
From Verif Require Export Execution.
From Verif Require Import Spec TimeFacts.

(** ** Specification *)

(** The product of the frames whose qubits are chosen, at the qubit [v]. *)
Fixpoint accumulated (chosen : nat → bool) (l : list (nat * frame)) (v : nat) : pauli :=
  match l with
  | [] => (false, false)
  | (q, f) :: l =>
      if chosen q then pauli_mul (at_qubit f v) (accumulated chosen l v) else accumulated chosen l v
  end.

(** The correction that belongs to the outcomes of all measurements. *)
Definition required (st : Storage) (outcome : nat → bool) (v : nat) : pauli :=
  accumulated outcome (zip (st_frame_flags st) (st_frames st)) v.

(** [q] has to be measured before [v], possibly because of qubits in between. *)
Definition after (g : order) (v q : nat) : Prop := tc (depends g) v q.

(** A widget over [n] qubits with the dependency graph [g]: every frame belongs to one
    qubit, and if a frame corrects a qubit that is measured, then this qubit comes after
    the qubit of the frame.  The last part is what [get_order] of [pauli_tracker] is for. *)
Record compiled (n : nat) (g : order) (st : Storage) : Prop := {
  co_length : length (st_frames st) = length (st_frame_flags st);
  co_frames : Forall (λ f, length f = n) (st_frames st);
  co_flags : NoDup (st_frame_flags st);
  co_order : ∀ i q f v, st_frame_flags st !! i = Some q → st_frames st !! i = Some f →
    at_qubit f v ≠ (false, false) → listed g v → after g v q
}.

(** ** Products *)

Lemma pauli_mul_1_l a : pauli_mul (false, false) a = a.
Proof. by destruct a as [[] []]. Qed.
Lemma pauli_mul_1_r a : pauli_mul a (false, false) = a.
Proof. by destruct a as [[] []]. Qed.
Lemma pauli_mul_assoc a b c : pauli_mul a (pauli_mul b c) = pauli_mul (pauli_mul a b) c.
Proof. by destruct a as [[] []], b as [[] []], c as [[] []]. Qed.
Lemma pauli_mul_comm a b : pauli_mul a b = pauli_mul b a.
Proof. by destruct a as [[] []], b as [[] []]. Qed.
Lemma pauli_mul_cancel a b c : pauli_mul a b = pauli_mul a c → b = c.
Proof. by destruct a as [[] []], b as [[] []], c as [[] []]. Qed.

Lemma accumulated_ext c1 c2 l v :
  (∀ q f, (q, f) ∈ l → c1 q = c2 q ∨ at_qubit f v = (false, false)) →
  accumulated c1 l v = accumulated c2 l v.
Proof.
  induction l as [|[q f] l IH]; intros H; [done|]. cbn [accumulated].
  rewrite IH by (intros; apply H; by right).
  destruct (H q f) as [-> | ->]; [by left|done|]. rewrite pauli_mul_1_l. by repeat case_match.
Qed.

Lemma accumulated_none c l v : (∀ q f, (q, f) ∈ l → c q = false) → accumulated c l v = (false, false).
Proof.
  induction l as [|[q f] l IH]; intros H; [done|]. cbn [accumulated]. rewrite (H q f) by left.
  apply IH. intros. eapply H. by right.
Qed.

Definition upto (outcome : nat → bool) (done : list nat) (q : nat) : bool :=
  outcome q && bool_decide (q ∈ done).

Lemma upto_snoc_other outcome done a q : q ≠ a → upto outcome (done ++ [a]) q = upto outcome done q.
Proof.
  intros Hq. unfold upto. f_equal. apply bool_decide_ext. rewrite elem_of_app, elem_of_list_singleton. tauto.
Qed.

Lemma accumulated_snoc_other outcome done a l v : a ∉ l.*1 →
  accumulated (upto outcome (done ++ [a])) l v = accumulated (upto outcome done) l v.
Proof.
  intros Ha. apply accumulated_ext. intros q f Hq. left. apply upto_snoc_other. intros ->.
  apply Ha, elem_of_list_fmap. by exists (a, f).
Qed.

Lemma accumulated_snoc outcome done a i f l v : NoDup l.*1 → a ∉ done → l !! i = Some (a, f) →
  accumulated (upto outcome (done ++ [a])) l v =
  pauli_mul (accumulated (upto outcome done) l v) (if outcome a then at_qubit f v else (false, false)).
Proof.
  intros Hl Ha. revert i. induction l as [|[q f'] l IH]; intros i Hi; [done|].
  cbn [fmap list_fmap fst] in Hl. apply NoDup_cons in Hl as [Hq Hl].
  destruct i as [|i].
  - injection Hi as -> ->. cbn [accumulated]. rewrite accumulated_snoc_other by done.
    assert (upto outcome (done ++ [a]) a = outcome a) as ->.
    { unfold upto. rewrite bool_decide_true by set_solver. apply andb_true_r. }
    assert (upto outcome done a = false) as ->.
    { unfold upto. rewrite bool_decide_false by done. apply andb_false_r. }
    destruct (outcome a); [apply pauli_mul_comm|by rewrite pauli_mul_1_r].
  - cbn [lookup list_lookup] in Hi. cbn [accumulated]. rewrite (IH Hl i Hi).
    rewrite upto_snoc_other.
    + destruct (upto outcome done q); [by rewrite pauli_mul_assoc|done].
    + intros ->. apply Hq, elem_of_list_fmap. exists (a, f). split; [done|]. by eapply elem_of_list_lookup_2.
Qed.

Lemma index_of_some l a i : NoDup l → l !! i = Some a → index_of l a = Some i.
Proof.
  revert i. induction l as [|b l IH]; intros i Hl Hi; [done|]. apply NoDup_cons in Hl as [Hb Hl].
  cbn [index_of]. destruct i as [|i].
  - injection Hi as ->. by rewrite Nat.eqb_refl.
  - cbn [lookup list_lookup] in Hi. destruct (Nat.eqb_spec b a) as [->|].
    + destruct Hb. by eapply elem_of_list_lookup_2.
    + by rewrite (IH i).
Qed.

Lemma zip_fst (flags : list nat) (frames : list frame) : length frames = length flags →
  (zip flags frames).*1 = flags.
Proof. intros H. apply fst_zip. lia. Qed.

Lemma at_qubit_lookup (f : frame) v : v < length f → f !! v = Some (at_qubit f v).
Proof. intros H. unfold at_qubit. destruct (lookup_lt_is_Some_2 f v H) as [p ->]. done. Qed.

(** ** The loops *)

Section loops.
Context (n : nat) (st : Storage) (outcome : nat → bool) (init : frame).
Hypothesis Hlength : length (st_frames st) = length (st_frame_flags st).
Hypothesis Hframes : Forall (λ f, length f = n) (st_frames st).
Hypothesis Hflags : NoDup (st_frame_flags st).

(** The correction known after the qubits of [done] have been measured. *)
Definition known (done : list nat) (v : nat) : pauli :=
  pauli_mul (at_qubit init v) (accumulated (upto outcome done) (zip (st_frame_flags st) (st_frames st)) v).
Definition knows (done : list nat) (cf : frame) : Prop :=
  length cf = n ∧ ∀ v, v < n → at_qubit cf v = known done v.

Fixpoint recorded (done l : list nat) : list record :=
  match l with
  | [] => []
  | a :: l => (a, known done a, performed (known done a)) :: recorded (done ++ [a]) l
  end.

Lemma execute_node_knows done cf log a : knows done cf → a < n → a ∉ done →
  ∃ cf', execute_node st outcome (Some (cf, log)) a
         = Some (cf', log ++ [(a, known done a, performed (known done a))]) ∧ knows (done ++ [a]) cf'.
Proof.
  intros [Hcf Hk] Ha Hd. unfold execute_node. cbn [mbind option_bind].
  rewrite (at_qubit_lookup cf a) by lia. cbn [mbind option_bind]. rewrite Hk by done.
  destruct (outcome a) eqn:Ho; cbn [andb]; [destruct (bool_decide_reflect (a ∈ st_frame_flags st)) as [Hin|Hin]|].
  - apply elem_of_list_lookup in Hin as [i Hi]. rewrite (index_of_some _ _ i) by done. cbn [mbind option_bind].
    unfold get_and_add_to_stack.
    destruct (lookup_lt_is_Some_2 (st_frames st) i) as [f Hf].
    { rewrite Hlength. by eapply lookup_lt_Some. }
    rewrite Hf. cbn [mbind option_bind]. eexists. split; [done|].
    assert (length f = n) as Hfn by (eapply Forall_lookup_1 in Hframes; [|done]; done).
    split; [rewrite zip_with_length; lia|]. intros v Hv. unfold at_qubit at 1.
    rewrite lookup_zip_with, (at_qubit_lookup cf v), (at_qubit_lookup f v) by lia.
    cbn [mbind option_bind default from_option]. rewrite Hk by done. unfold known.
    rewrite (accumulated_snoc outcome done a i f); [|by rewrite zip_fst|done|by rewrite lookup_zip_with, Hi, Hf].
    rewrite Ho. cbn. by rewrite pauli_mul_assoc.
  - cbn [mbind option_bind]. eexists. split; [done|]. split; [done|]. intros v Hv. rewrite Hk by done.
    unfold known. by rewrite accumulated_snoc_other by (by rewrite zip_fst).
  - cbn [mbind option_bind]. eexists. split; [done|]. split; [done|]. intros v Hv. rewrite Hk by done.
    unfold known. f_equal. apply accumulated_ext. intros q f _. left. unfold upto.
    destruct (decide (q = a)) as [->|Hq]; [by rewrite Ho|]. symmetry. exact (upto_snoc_other outcome done a q Hq).
Qed.

Lemma execute_nodes_knows done cf log l : knows done cf → (∀ v, v ∈ l → v < n) → NoDup (done ++ l) →
  ∃ cf', foldl (execute_node st outcome) (Some (cf, log)) l = Some (cf', log ++ recorded done l) ∧
         knows (done ++ l) cf'.
Proof.
  revert done cf log. induction l as [|a l IH]; intros done cf log Hk Hl Hnd.
  - exists cf. cbn. rewrite !app_nil_r. done.
  - assert (a ∉ done) as Ha.
    { intros Ha. apply NoDup_app in Hnd as (_ & Hnd & _). apply (Hnd a); [done|by left]. }
    destruct (execute_node_knows done cf log a) as (cf1 & He & Hk1); [done|apply Hl; by left|done|].
    destruct (IH (done ++ [a]) cf1 (log ++ [(a, known done a, performed (known done a))])) as (cf2 & He2 & Hk2);
      [done|intros v Hv; apply Hl; by right|by rewrite <- app_assoc|].
    exists cf2. cbn [foldl recorded]. rewrite He, He2, <- !app_assoc. split; [done|].
    by rewrite <- app_assoc in Hk2.
Qed.

Lemma foldl_concat {A B} (h : A → B → A) (ls : list (list B)) (s : A) :
  foldl (foldl h) s ls = foldl h s (concat ls).
Proof. revert s. induction ls as [|l ls IH]; intros s; cbn; [done|]. by rewrite IH, foldl_app. Qed.

Lemma knows_init : length init = n → knows [] init.
Proof.
  intros H. split; [done|]. intros v _. unfold known. rewrite accumulated_none, pauli_mul_1_r; [done|].
  intros q f _. unfold upto. by rewrite bool_decide_false, andb_false_r by set_solver.
Qed.

Lemma execute_knows σ : length init = n → (∀ v, v ∈ concat σ → v < n) → NoDup (concat σ) →
  ∃ cf, execute st outcome init σ = Some (cf, recorded [] (concat σ)) ∧ knows (concat σ) cf.
Proof.
  intros Hi Hl Hnd. unfold execute. rewrite foldl_concat.
  destruct (execute_nodes_knows [] init [] (concat σ)) as (cf & He & Hk); eauto using knows_init.
Qed.

(** Everything that is needed is known. *)
Lemma known_required done v :
  (∀ i q f, st_frame_flags st !! i = Some q → st_frames st !! i = Some f →
     at_qubit f v ≠ (false, false) → q ∈ done) →
  known done v = pauli_mul (at_qubit init v) (required st outcome v).
Proof.
  intros H. unfold known, required. f_equal. apply accumulated_ext. intros q f Hq.
  apply elem_of_list_lookup in Hq as [i Hi]. rewrite lookup_zip_with in Hi.
  destruct (st_frame_flags st !! i) as [q'|] eqn:Hq; [|done]. cbn in Hi.
  destruct (st_frames st !! i) as [f'|] eqn:Hf; [|done]. cbn in Hi. injection Hi as -> ->.
  destruct (decide (at_qubit f v = (false, false))) as [|Hn]; [by right|left].
  unfold upto. rewrite bool_decide_true; [apply andb_true_r|]. by eapply H.
Qed.

Lemma recorded_required done l :
  (∀ l1 a l2, l = l1 ++ a :: l2 →
     known (done ++ l1) a = pauli_mul (at_qubit init a) (required st outcome a)) →
  recorded done l =
  map (λ v, let c := pauli_mul (at_qubit init v) (required st outcome v) in (v, c, performed c)) l.
Proof.
  revert done. induction l as [|a l IH]; intros done H; [reflexivity|]. cbn [recorded map]. f_equal.
  - cbn zeta. pose proof (H [] a l eq_refl) as H0. rewrite app_nil_r in H0. by rewrite H0.
  - apply IH. intros l1 b l2 ->. rewrite <- app_assoc. by apply (H (a :: l1) b l2).
Qed.
End loops.

(** ** Schedules *)

Lemma after_earlier g σ k S v q : legal_prefix g σ → σ !! k = Some S → v ∈ S → after g v q →
  q ∈ concat (take k σ).
Proof.
  intros Hσ Hk Hv Ha. revert k S Hk Hv.
  induction Ha as [v q Hd|v w q Hd _ IH]; intros k S Hk Hv.
  - by eapply lp_order.
  - assert (w ∈ concat (take k σ)) as Hw by (by eapply lp_order).
    apply elem_of_concat in Hw as (S' & HS' & Hw). apply elem_of_list_lookup in HS' as [k' Hk'].
    assert (k' < k) as Hlt.
    { apply lookup_lt_Some in Hk'. rewrite take_length in Hk'. lia. }
    rewrite lookup_take in Hk' by done. specialize (IH k' S' Hk' Hw).
    rewrite <- (take_drop k' (take k σ)), take_take, concat_app, elem_of_app.
    left. by replace (k' `min` k) with k' by lia.
Qed.

Lemma split_steps (σ : schedule) l1 a l2 : concat σ = l1 ++ a :: l2 →
  ∃ k S, σ !! k = Some S ∧ a ∈ S ∧ ∀ q, q ∈ concat (take k σ) → q ∈ l1.
Proof.
  revert l1. induction σ as [|S σ IH]; intros l1 H; cbn in H; [by destruct l1|].
  apply app_eq_app in H as (m & [[-> Hm]|[-> Hm]]).
  - destruct m as [|b m].
    + cbn in Hm. destruct (IH [] (eq_sym Hm)) as (k & S' & Hk & Ha & Hq).
      exists (Datatypes.S k), S'. split; [done|]. split; [done|]. intros q. cbn [take concat].
      rewrite app_nil_r, elem_of_app. intros [?|Hin]; [done|]. by apply Hq, elem_of_nil in Hin.
    + cbn in Hm. injection Hm as -> ->. exists 0, (l1 ++ b :: m). split; [done|].
      split; [set_solver|]. cbn. intros q Hq. by apply elem_of_nil in Hq.
  - destruct (IH m (Hm)) as (k & S' & Hk & Ha & Hq).
    exists (Datatypes.S k), S'. split; [done|]. split; [done|]. intros q. cbn [take concat].
    rewrite !elem_of_app. intros [?|Hin]; [by left|right]. by apply Hq.
Qed.

Lemma execution_complete :
  ∀ n g st outcome init σ,
  compiled n g st → (∀ b, listed g b → b < n) → valid_schedule g σ → length init = n →
  ∃ final,
    execute st outcome init σ =
      Some (final, map (λ v, let c := pauli_mul (at_qubit init v) (required st outcome v) in
                             (v, c, performed c)) (concat σ)) ∧
    length final = n ∧
    ((∀ q, q ∈ st_frame_flags st → listed g q) →
     ∀ v, v < n → final !! v = Some (pauli_mul (at_qubit init v) (required st outcome v))).
Proof.
  intros n g st outcome init σ [Hlen Hfr Hfl Hord] Hlt [Hσ Hc] Hi.
  destruct (execute_knows n st outcome init Hlen Hfr Hfl σ Hi) as (cf & He & Hk).
  { intros v Hv. by apply Hlt, (lp_listed _ _ Hσ). }
  { apply Hσ. }
  exists cf. split; [|split; [apply Hk|]].
  - rewrite He. do 2 f_equal. apply recorded_required. intros l1 a l2 Hl. apply known_required.
    intros i q f Hq Hf Hn. destruct (split_steps _ _ _ _ Hl) as (k & S & Hk' & Ha & Hin). cbn [app].
    apply Hin. eapply after_earlier; [done..|]. eapply Hord; [done..|]. apply (lp_listed _ _ Hσ).
    rewrite Hl. set_solver.
  - intros Hq v Hv. destruct Hk as [Hcf Hk]. rewrite at_qubit_lookup by lia. rewrite Hk by done.
    f_equal. apply known_required. intros i q f Hi1 Hi2 _. apply Hc, Hq. by eapply elem_of_list_lookup_2.
Qed.

(** The corrections of the qubits of a step are known before the step. *)
Lemma known_before_step :
  ∀ n g st outcome init σ k S,
  compiled n g st → (∀ b, listed g b → b < n) → legal_prefix g σ → length init = n →
  σ !! k = Some S →
  ∃ cf log, execute st outcome init (take k σ) = Some (cf, log) ∧
    ∀ v, v ∈ S → cf !! v = Some (pauli_mul (at_qubit init v) (required st outcome v)).
Proof.
  intros n g st outcome init σ k S [Hlen Hfr Hfl Hord] Hlt Hσ Hi HS.
  assert (∀ v, v ∈ concat σ → v < n) as Hn by (intros v Hv; by apply Hlt, (lp_listed _ _ Hσ)).
  pose proof (lp_once _ _ Hσ) as Hnd. rewrite <- (take_drop k σ), concat_app in Hn, Hnd.
  destruct (execute_knows n st outcome init Hlen Hfr Hfl (take k σ) Hi) as (cf & He & Hcf & Hk).
  { intros v Hv. apply Hn. set_solver. }
  { by apply NoDup_app in Hnd as (? & _). }
  exists cf, (recorded st outcome init [] (concat (take k σ))). split; [done|]. intros v Hv.
  assert (v ∈ concat σ) as Hvc.
  { apply elem_of_concat. exists S. split; [|done]. by eapply elem_of_list_lookup_2. }
  assert (v < n) as Hvn by (by apply Hlt, (lp_listed _ _ Hσ)).
  rewrite at_qubit_lookup by lia. rewrite Hk by done. f_equal. apply known_required.
  intros i q f Hq Hf Hn'. eapply after_earlier; [done..|]. eapply Hord; [done..|]. by apply (lp_listed _ _ Hσ).
Qed.

(** It does not matter which schedule is executed. *)
Lemma execution_same :
  ∀ n g st outcome init σ τ,
  compiled n g st → (∀ b, listed g b → b < n) → valid_schedule g σ → valid_schedule g τ → length init = n →
  (∀ q, q ∈ st_frame_flags st → listed g q) →
  ∃ final log log', log ≡ₚ log' ∧
    execute st outcome init σ = Some (final, log) ∧ execute st outcome init τ = Some (final, log').
Proof.
  intros n g st outcome init σ τ Hc Hlt Hσ Hτ Hi Hfl.
  destruct (execution_complete n g st outcome init σ) as (f1 & H1 & L1 & F1); [done..|].
  destruct (execution_complete n g st outcome init τ) as (f2 & H2 & L2 & F2); [done..|].
  assert (f1 = f2) as <-.
  { apply list_eq. intros i. destruct (decide (i < n)) as [Hin|Hin]; [by rewrite F1, F2|].
    rewrite !lookup_ge_None_2 by lia. done. }
  eexists f1, _, _. split; [|by split]. apply Permutation_map. apply NoDup_Permutation.
  - apply Hσ.
  - apply Hτ.
  - intros v. split; intros Hv.
    + apply Hτ. by apply (lp_listed _ _ (vs_legal _ _ Hσ)).
    + apply Hσ. by apply (lp_listed _ _ (vs_legal _ _ Hτ)).
Qed.
