(** * From the schedules of the library to executed patterns *)
From Verif Require Export ExecutionFacts MainPython.
From Verif Require Import TimeFacts.

Lemma wf_listed n g b : wf_order n g → listed g b → b < n.
Proof. intros H Hb. apply (wf_range _ _ H). by apply listed_qubits. Qed.

(** Every path returned by the Python function [run] can be executed. *)
Lemma run_executes :
  ∀ bd fuel env warn adj o g do_search timeout nthreads prob bound ps p st outcome init,
  wf_input adj g → (∀ l, e_hash_order env l ≡ₚ l) → denotes warn o g →
  py_run bd fuel env warn adj o do_search timeout nthreads prob bound = Some (Val (Ok ps)) →
  p ∈ into_py_paths ps → compiled (length adj) g st → length init = length adj →
  (∃ final,
     execute st outcome init (py_steps p) =
       Some (final, map (λ v, let c := pauli_mul (at_qubit init v) (required st outcome v) in
                              (v, c, performed c)) (concat (py_steps p))) ∧
     length final = length adj ∧
     ((∀ q, q ∈ st_frame_flags st → listed g q) →
      ∀ v, v < length adj → final !! v = Some (pauli_mul (at_qubit init v) (required st outcome v)))) ∧
  ∀ k S, py_steps p !! k = Some S →
    ∃ cf log, execute st outcome init (take k (py_steps p)) = Some (cf, log) ∧
      ∀ v, v ∈ S → cf !! v = Some (pauli_mul (at_qubit init v) (required st outcome v)).
Proof.
  intros bd fuel env warn adj o g do_search timeout nthreads prob bound ps p st outcome init
    Hin Hh Ho Hr Hp Hc Hi.
  assert (¬ (is_callback prob ∧ 2 ≤ nthreads)) as Hcb.
  { intros [H1 H2]. pose proof (py_run_callback_threads bd fuel env warn adj o do_search timeout nthreads prob bound H1 H2) as H.
    rewrite H in Hr. discriminate. }
  destruct (py_run_valid _ _ _ _ _ _ _ _ _ _ _ _ _ Hin Hh Ho Hcb Hr) as [(ps' & Hps & Hf & _)|(? & _)]; [|done].
  injection Hps as <-. rewrite Forall_forall in Hf. specialize (Hf p Hp).
  assert (∀ b, listed g b → b < length adj) as Hb by (intros b; apply wf_listed, Hin).
  assert (valid_schedule g (py_steps p)) as Hv by apply Hf.
  split.
  - by apply (execution_complete (length adj) g).
  - intros k S HS. apply (known_before_step (length adj) g st outcome init (py_steps p) k S); [done|done|apply Hv|done|done].
Qed.

(** The example program: the path with number 0 exists, and the widget is executed
    with all corrections. *)
Lemma widget_executes :
  ∀ adj g, wf_input adj g →
  ∃ p, (∀ bd env warn, ∃ fuel0, ∀ fuel, fuel0 ≤ fuel → ∃ ps,
          py_run_default bd fuel env warn adj (partial_order_graph g) = Some (Val (Ok ps)) ∧
          into_py_paths ps !! 0 = Some p) ∧
    ∀ frames flags buffer outcome,
    let st := mkStorage frames flags adj p buffer in
    compiled (length adj) g st →
    ∃ final, execute_widget_a st outcome =
      Some (final, map (λ v, (v, required st outcome v, performed (required st outcome v)))
                     (concat (py_steps p))).
Proof.
  intros adj g Hin. destruct (py_run_default_optimal adj g Hin) as (p & Hp & _ & Hr). exists p. split.
  - intros bd env warn. destruct (Hr bd env warn) as (fuel0 & Hf). exists fuel0. intros fuel Hle.
    destruct (Hf fuel Hle) as (ps & H1 & H2). exists ps. split; [done|]. by rewrite H2.
  - intros frames flags buffer outcome st Hc.
    assert (∀ b, listed g b → b < length adj) as Hb by (intros b; apply wf_listed, Hin).
    destruct (execution_complete (length adj) g st outcome (zeros (length adj)) (py_steps p)) as (final & He & _);
      [done|done|apply Hp|apply replicate_length|].
    exists final. unfold execute_widget_a. cbn [st st_graph st_path]. rewrite He. do 2 f_equal.
    apply map_ext. intros v. cbn zeta.
    assert (at_qubit (zeros (length adj)) v = (false, false)) as ->.
    { unfold at_qubit, zeros. destruct (decide (v < length adj)); [by rewrite lookup_replicate_2|].
      by rewrite lookup_ge_None_2 by (rewrite replicate_length; lia). }
    by rewrite pauli_mul_1_l.
Qed.

(** ** The order is needed *)

(** Position of the dependencies in the list of the qubits. *)
Lemma prefix_before {A} (P M k1 k2 : list A) b : NoDup (P ++ M) → b ∈ M → P ++ M = k1 ++ b :: k2 →
  ∀ d, d ∈ P → d ∈ k1.
Proof.
  intros Hnd Hb H d Hd. apply app_eq_app in H as (m & [[-> Hm]|[-> Hm]]).
  - destruct m as [|c m]; [by rewrite app_nil_r in Hd|]. cbn in Hm. injection Hm as -> ->.
    apply NoDup_app in Hnd as (_ & Hnd & _). destruct (Hnd c); [set_solver|done].
  - set_solver.
Qed.

Lemma depends_before n g k1 b k2 d : wf_order n g → qubits g = k1 ++ b :: k2 → depends g b d → d ∈ k1.
Proof.
  intros Hwf Hq (layer & ds & Hl & Hb & Hd). apply elem_of_list_lookup in Hl as [k Hk].
  destruct k as [|k].
  - assert (ds = []) as ->; [|by apply elem_of_nil in Hd]. eapply (wf_first _ _ Hwf).
    destruct g as [|l g]; [done|]. injection Hk as ->. done.
  - destruct (wf_later _ _ Hwf _ _ _ _ Hk Hb) as (_ & _ & Hin).
    assert (qubits g = qubits (take (S k) g) ++ qubits (drop (S k) g)) as Hsplit.
    { unfold qubits. rewrite <- map_app, <- concat_app, take_drop. done. }
    eapply (prefix_before (qubits (take (S k) g)) (qubits (drop (S k) g)) k1 k2 b); [..|by apply Hin].
    + rewrite <- Hsplit. apply Hwf.
    + rewrite (drop_S _ layer) by done. unfold qubits. cbn [concat]. rewrite map_app, elem_of_app. left.
      apply elem_of_list_fmap. by exists (b, ds).
    + by rewrite <- Hsplit.
Qed.

(** A schedule with one qubit per step. *)
Definition sorted_by (g : order) (l : list nat) : Prop :=
  ∀ k1 b k2 d, l = k1 ++ b :: k2 → depends g b d → d ∈ k1.

Lemma singles_concat (l : list nat) : concat (map (λ b, [b]) l) = l.
Proof. induction l as [|b l IH]; cbn; [done|]. by rewrite IH. Qed.

Lemma singles_valid g l : NoDup l → (∀ b, b ∈ l ↔ listed g b) → sorted_by g l →
  valid_schedule g (map (λ b, [b]) l).
Proof.
  intros Hnd Hl Hs. split; [split|].
  - intros S (b & -> & _)%elem_of_list_fmap. done.
  - by rewrite singles_concat.
  - intros b. rewrite singles_concat. apply Hl.
  - intros k S b d Hk Hb Hd. rewrite list_lookup_fmap in Hk.
    destruct (l !! k) as [b'|] eqn:E; [|done]. injection Hk as <-. apply elem_of_list_singleton in Hb as ->.
    rewrite firstn_map, singles_concat. apply (Hs _ b' (drop (S k) l)); [|done].
    symmetry. by apply take_drop_middle.
  - intros b Hb. rewrite singles_concat. by apply Hl.
Qed.

Global Instance depends_dec g b d : Decision (depends g b d).
Proof.
  destruct (decide (Exists (λ layer, Exists (λ e : nat * list nat, e.1 = b ∧ d ∈ e.2) layer) g)) as [H|H].
  - left. apply Exists_exists in H as (layer & Hl & H). apply Exists_exists in H as ([b' ds] & He & Hb & Hd).
    cbn in Hb, Hd. subst. by exists layer, ds.
  - right. intros (layer & ds & Hl & Hb & Hd). apply H, Exists_exists. exists layer. split; [done|].
    apply Exists_exists. exists (b, ds). by split.
Defined.

(** The qubits that have to be measured before [v], and [v] itself, in the order of [L]. *)
Definition ancestors (g : order) (v : nat) (L : list nat) : list nat :=
  foldr (λ b A, if decide (b = v ∨ Exists (λ c, depends g c b) A) then b :: A else A) [] L.

Lemma ancestors_cons g v b L : ancestors g v (b :: L) =
  if decide (b = v ∨ Exists (λ c, depends g c b) (ancestors g v L))
  then b :: ancestors g v L else ancestors g v L.
Proof. done. Qed.

Lemma ancestors_in g v L b : b ∈ ancestors g v L → b ∈ L ∧ (b = v ∨ after g v b).
Proof.
  revert b. induction L as [|a L IH]; intros b; [by intros ?%elem_of_nil|]. rewrite ancestors_cons.
  destruct (decide _) as [H|_].
  - intros [->|Hb]%elem_of_cons.
    + split; [by left|]. destruct H as [->|H]; [by left|right].
      apply Exists_exists in H as (c & Hc & Hd). destruct (IH c Hc) as [_ [->|Ha]]; [by apply tc_once|].
      eapply tc_r; done.
    + destruct (IH b Hb). split; [by right|done].
  - intros Hb. destruct (IH b Hb). split; [by right|done].
Qed.

Lemma ancestors_self g v L : v ∈ L → v ∈ ancestors g v L.
Proof.
  induction L as [|a L IH]; intros Hv; [by apply elem_of_nil in Hv|]. rewrite ancestors_cons.
  apply elem_of_cons in Hv as [<-|Hv].
  - rewrite decide_True by (by left). by left.
  - case_decide; [right|]; by apply IH.
Qed.

Lemma ancestors_nodup g v L : NoDup L → NoDup (ancestors g v L).
Proof.
  induction 1 as [|a L Ha _ IH]; [apply NoDup_nil_2|]. rewrite ancestors_cons. case_decide; [|done].
  constructor; [|done]. intros Hc. by apply ancestors_in in Hc as [? _].
Qed.

Lemma ancestors_sorted g v K L :
  NoDup (K ++ L) → sorted_by g (K ++ L) →
  ∀ k1 c k2 d, ancestors g v L = k1 ++ c :: k2 → depends g c d → d ∈ k1 ∨ d ∉ L.
Proof.
  revert K. induction L as [|b L IH]; intros K Hnd Hs k1 c k2 d H Hd; [by destruct k1|].
  assert (K ++ b :: L = (K ++ [b]) ++ L) as HK by (by rewrite <- app_assoc).
  rewrite HK in Hnd, Hs. specialize (IH (K ++ [b]) Hnd Hs).
  rewrite ancestors_cons in H. destruct (decide _) as [Hb|Hb].
  - destruct k1 as [|b' k1].
    + cbn in H. injection H as -> _. right. intros HdL. rewrite <- HK in Hs, Hnd.
      pose proof (Hs K c L d eq_refl Hd) as HdK. apply NoDup_app in Hnd as (_ & Hnd & _).
      by apply (Hnd d).
    + cbn in H. injection H as -> H'. rename H' into H. destruct (decide (d = b')) as [->|Hne]; [left; by left|].
      destruct (IH _ _ _ _ H Hd) as [?|Hn]; [left; by right|right]. intros [->|?]%elem_of_cons; done.
  - destruct (IH _ _ _ _ H Hd) as [?|Hn]; [by left|right]. intros [->|?]%elem_of_cons; [|done].
    apply Hb. right. apply Exists_exists. exists c. split; [|done]. rewrite H. set_solver.
Qed.

(** A schedule in which [v] does not wait for [q]. *)
Lemma not_after_schedule n g v q : wf_order n g → listed g v → ¬ after g v q →
  ∃ σ l1 l2, valid_schedule g σ ∧ concat σ = l1 ++ v :: l2 ∧ q ∉ l1.
Proof.
  intros Hwf Hv Hq. set (L := qubits g). set (A := ancestors g v L).
  assert (NoDup L) as HL by apply Hwf.
  assert (sorted_by g L) as Hs by (intros ???? H1 H2; by eapply depends_before).
  assert (NoDup A) as HA by (by apply ancestors_nodup).
  assert (∀ k1 c k2 d, A = k1 ++ c :: k2 → depends g c d → d ∈ k1) as HAs.
  { intros k1 c k2 d H Hd. destruct (ancestors_sorted g v [] L HL Hs _ _ _ _ H Hd) as [?|Hn]; [done|].
    destruct Hn. assert (c ∈ L) as Hc by (apply (ancestors_in g v L); fold A; rewrite H; set_solver).
    apply elem_of_list_split in Hc as (m1 & m2 & Hm). rewrite Hm, elem_of_app. left. by eapply Hs. }
  set (R := filter (λ b, b ∉ A) L).
  assert (∀ b, b ∈ A ++ R ↔ listed g b) as HAR.
  { intros b. rewrite elem_of_app, (listed_qubits g b). fold L. unfold R. rewrite elem_of_list_filter. split.
    - intros [Hb|[_ ?]]; [by apply ancestors_in in Hb as [? _]|done].
    - intros Hb. destruct (decide (b ∈ A)); [by left|by right]. }
  assert (NoDup (A ++ R)) as HndAR.
  { apply NoDup_app. split; [done|]. split; [|by apply NoDup_filter]. intros x Hx Hr.
    by apply elem_of_list_filter in Hr as [? _]. }
  assert (valid_schedule g (map (λ b, [b]) (A ++ R))) as Hvalid.
  { apply singles_valid; [done|done|]. intros k1 b k2 d H Hd.
    destruct (decide (b ∈ A)) as [HbA|HbA].
    - apply elem_of_list_split in HbA as (a1 & a2 & Ha). pose proof (HAs _ _ _ _ Ha Hd) as Hda.
      rewrite Ha, <- app_assoc in H. cbn in H.
      eapply (prefix_before a1 ((b :: a2) ++ R) k1 k2 b); [|set_solver|done|done].
      rewrite Ha in HndAR. by rewrite <- app_assoc in HndAR.
    - assert (b ∈ R) as HbR.
      { assert (b ∈ A ++ R) as Hb by (rewrite H; set_solver). by apply elem_of_app in Hb as [?|?]. }
      apply elem_of_list_filter in HbR as [_ HbL]. apply elem_of_list_split in HbL as (m1 & m2 & Hm).
      assert (d ∈ m1) as Hdm by (by eapply Hs).
      assert (R = filter (λ b, b ∉ A) m1 ++ b :: filter (λ b, b ∉ A) m2) as HR.
      { unfold R. rewrite Hm, filter_app, filter_cons_True by done. done. }
      rewrite HR, app_assoc in H. rewrite HR, app_assoc in HndAR.
      eapply (prefix_before (A ++ filter (λ b, b ∉ A) m1) (b :: filter (λ b, b ∉ A) m2) k1 k2 b); [done|by left|done|].
      rewrite elem_of_app, elem_of_list_filter. destruct (decide (d ∈ A)); [by left|by right]. }
  assert (v ∈ A) as HvA by (apply ancestors_self, listed_qubits, Hv).
  apply elem_of_list_split in HvA as (a1 & a2 & Ha).
  exists (map (λ b, [b]) (A ++ R)), a1, (a2 ++ R). split; [done|].
  split; [by rewrite singles_concat, Ha, <- app_assoc|].
  intros Hq1. assert (q ∈ A) as HqA by (rewrite Ha; set_solver).
  apply ancestors_in in HqA as [_ [->|?]]; [|done].
  rewrite Ha in HA. apply NoDup_app in HA as (_ & HA & _). apply (HA v); [done|by left].
Qed.

Lemma recorded_app st outcome init l1 l2 M :
  recorded st outcome init M (l1 ++ l2) =
  recorded st outcome init M l1 ++ recorded st outcome init (M ++ l1) l2.
Proof.
  revert M. induction l1 as [|a l1 IH]; intros M; cbn [app recorded]; [by rewrite app_nil_r|].
  rewrite IH, <- app_assoc. done.
Qed.

Lemma accumulated_single q i f l v : NoDup l.*1 → l !! i = Some (q, f) →
  accumulated (λ x, x =? q) l v = at_qubit f v.
Proof.
  intros Hnd Hi.
  pose proof (accumulated_snoc (λ x, x =? q) [] q i f l v Hnd ltac:(apply not_elem_of_nil) Hi) as H.
  cbn beta in H. rewrite Nat.eqb_refl in H. rewrite (accumulated_none (upto _ [])), pauli_mul_1_l in H.
  - rewrite <- H. apply accumulated_ext. intros x f' _. left. unfold upto. cbn [app].
    destruct (Nat.eqb_spec x q) as [->|]; [|done]. rewrite bool_decide_true by set_solver. done.
  - intros x f' _. unfold upto. rewrite bool_decide_false by apply not_elem_of_nil. apply andb_false_r.
Qed.

(** If a corrected qubit does not come after the qubit of the frame, then some legal
    schedule measures it with a wrong correction. *)
Lemma order_needed :
  ∀ n g st init i q f v,
  wf_order n g → length (st_frames st) = length (st_frame_flags st) →
  Forall (λ f, length f = n) (st_frames st) → NoDup (st_frame_flags st) → length init = n →
  st_frame_flags st !! i = Some q → st_frames st !! i = Some f → at_qubit f v ≠ (false, false) →
  listed g v → ¬ after g v q →
  ∃ σ outcome final log c, valid_schedule g σ ∧ execute st outcome init σ = Some (final, log) ∧
    (v, c, performed c) ∈ log ∧ c ≠ pauli_mul (at_qubit init v) (required st outcome v).
Proof.
  intros n g st init i q f v Hwf Hlen Hfr Hfl Hi Hq Hf Hn Hv Ha.
  destruct (not_after_schedule n g v q Hwf Hv Ha) as (σ & l1 & l2 & Hσ & Hc & Hql).
  set (outcome := λ x, x =? q).
  destruct (execute_knows n st outcome init Hlen Hfr Hfl σ Hi) as (cf & He & _).
  { intros b Hb. apply (wf_listed n g); [done|]. by apply (lp_listed _ _ (vs_legal _ _ Hσ)). }
  { apply Hσ. }
  exists σ, outcome, cf, (recorded st outcome init [] (concat σ)), (known st outcome init l1 v).
  split; [done|]. split; [done|]. split.
  - rewrite Hc, recorded_app, elem_of_app. right. cbn [app recorded]. left.
  - unfold known, required. intros H. apply pauli_mul_cancel in H. rewrite accumulated_none in H.
    + rewrite (accumulated_single q i f) in H; [by symmetry in H| |].
      * by rewrite zip_fst.
      * by rewrite lookup_zip_with, Hq, Hf.
    + intros x f' _. unfold upto, outcome. destruct (Nat.eqb_spec x q) as [->|]; [|done].
      by rewrite bool_decide_false.
Qed.

(** ** Corrections with both parts *)

Lemma performed_spec c : performed c = c ↔ c ≠ (true, true).
Proof. destruct c as [[] []]; cbn; split; congruence. Qed.

(** ** Taking over the corrections of another widget *)

Lemma at_qubit_mul f1 f2 a : length f1 = length f2 →
  at_qubit (zip_with pauli_mul f1 f2) a = pauli_mul (at_qubit f1 a) (at_qubit f2 a).
Proof.
  intros H. unfold at_qubit. rewrite lookup_zip_with.
  destruct (decide (a < length f1)) as [Ha|Ha].
  - destruct (lookup_lt_is_Some_2 f1 a) as [x ->]; [done|].
    destruct (lookup_lt_is_Some_2 f2 a) as [y ->]; [lia|]. done.
  - rewrite !lookup_ge_None_2 by lia. done.
Qed.

Lemma insert_mul f1 f2 (a : nat) x y :
  <[a := pauli_mul x y]> (zip_with pauli_mul f1 f2) = zip_with pauli_mul (<[a := x]> f1) (<[a := y]> f2).
Proof. apply insert_zip_with. Qed.

Lemma conjugate_length g f : length (conjugate g f) = length f + match g with GNewQubit => 1 | _ => 0 end.
Proof.
  destruct g as [a|a b|a b|a b|]; cbn [conjugate]; repeat case_match;
    rewrite ?insert_length, ?app_length; cbn; lia.
Qed.

Lemma conjugate_mul g f1 f2 : length f1 = length f2 →
  conjugate g (zip_with pauli_mul f1 f2) = zip_with pauli_mul (conjugate g f1) (conjugate g f2).
Proof.
  intros H. destruct g as [a|a b|a b|a b|]; cbn [conjugate]; rewrite ?at_qubit_mul by done.
  - rewrite <- insert_mul. done.
  - destruct (at_qubit f1 a) as [[] []], (at_qubit f2 a) as [[] []], (at_qubit f1 b) as [[] []], (at_qubit f2 b) as [[] []];
      cbn; rewrite <- !insert_mul; done.
  - destruct (at_qubit f1 a) as [[] []], (at_qubit f2 a) as [[] []], (at_qubit f1 b) as [[] []], (at_qubit f2 b) as [[] []];
      cbn; rewrite <- !insert_mul; done.
  - destruct (at_qubit f1 a) as [[] []], (at_qubit f2 a) as [[] []], (at_qubit f1 b) as [[] []], (at_qubit f2 b) as [[] []];
      cbn; rewrite <- !insert_mul; done.
  - rewrite zip_with_app by done. done.
Qed.

Lemma conjugate_zeros g n : conjugate g (zeros n) = zeros (n + match g with GNewQubit => 1 | _ => 0 end).
Proof.
  assert (∀ a, at_qubit (zeros n) a = (false, false)) as Hz.
  { intros a. unfold at_qubit, zeros. destruct (decide (a < n)); [by rewrite lookup_replicate_2|].
    by rewrite lookup_ge_None_2 by (rewrite replicate_length; lia). }
  assert (∀ a, <[a := (false, false)]> (zeros n) = zeros n) as Hi.
  { intros a. unfold zeros. destruct (decide (a < n)).
    - apply list_insert_id. by apply lookup_replicate_2.
    - apply list_insert_ge. rewrite replicate_length. lia. }
  destruct g as [a|a b|a b|a b|]; cbn [conjugate]; rewrite ?Hz; cbn; rewrite ?Hi, ?Nat.add_0_r; [done..|].
  unfold zeros. by rewrite replicate_add.
Qed.

(** The gates of a widget. *)
Definition conjugate_all (gs : list gate) (f : frame) : frame := foldl (λ f g, conjugate g f) f gs.
Fixpoint new_qubits (gs : list gate) : nat :=
  match gs with
  | [] => 0
  | g :: gs => match g with GNewQubit => 1 | _ => 0 end + new_qubits gs
  end.

Lemma conjugate_all_length gs f : length (conjugate_all gs f) = length f + new_qubits gs.
Proof.
  revert f. induction gs as [|g gs IH]; intros f; cbn [conjugate_all foldl new_qubits]; [lia|].
  fold (conjugate_all gs (conjugate g f)). rewrite IH, conjugate_length. lia.
Qed.

Lemma conjugate_all_mul gs f1 f2 : length f1 = length f2 →
  conjugate_all gs (zip_with pauli_mul f1 f2) =
  zip_with pauli_mul (conjugate_all gs f1) (conjugate_all gs f2).
Proof.
  revert f1 f2. induction gs as [|g gs IH]; intros f1 f2 H; [done|]. cbn [conjugate_all foldl].
  rewrite conjugate_mul by done. apply IH. rewrite !conjugate_length. lia.
Qed.

Lemma conjugate_all_zeros gs n : conjugate_all gs (zeros n) = zeros (n + new_qubits gs).
Proof.
  revert n. induction gs as [|g gs IH]; intros n; cbn [conjugate_all foldl new_qubits]; [by rewrite Nat.add_0_r|].
  rewrite conjugate_zeros. fold (conjugate_all gs (zeros (n + match g with GNewQubit => 1 | _ => 0 end))).
  rewrite IH. f_equal. lia.
Qed.

(** The frames of the buffer. *)
Definition unit_frame (len : nat) (p : pauli) (i : nat) : frame := <[i := p]> (zeros len).

Lemma buffer_frames len i : i < len →
  tr_frames (buffer_tracker len) !! (2 * i) = Some (unit_frame len (true, false) i) ∧
  tr_frames (buffer_tracker len) !! (2 * i + 1) = Some (unit_frame len (false, true) i).
Proof.
  intros Hi. unfold buffer_tracker.
  assert (∀ m, m ≤ len →
    let t := foldl (λ t i, track_x i (track_z i t)) (tracker_new len) (seq 0 m) in
    tr_qubits t = len ∧ length (tr_frames t) = 2 * m ∧
    ∀ i, i < m → tr_frames t !! (2 * i) = Some (unit_frame len (true, false) i) ∧
                 tr_frames t !! (2 * i + 1) = Some (unit_frame len (false, true) i)) as H.
  { induction m as [|m IH]; intros Hm.
    - split; [done|]. split; [done|]. intros j Hj. lia.
    - destruct IH as (H1 & H2 & H3); [lia|]. cbn zeta. rewrite seq_S, foldl_app. cbn [foldl Nat.add].
      set (t := foldl _ _ _) in *. unfold track_x, track_z, track. cbn [tr_qubits tr_frames]. rewrite H1.
      split; [done|]. split; [rewrite !app_length, H2; cbn; lia|]. intros j Hj.
      destruct (decide (j < m)) as [Hjm|Hjm].
      + destruct (H3 j Hjm) as [Ha Hb]. rewrite <- !app_assoc.
        rewrite !lookup_app_l by lia. done.
      + assert (j = m) as -> by lia. rewrite <- app_assoc.
        split; (rewrite lookup_app_r by lia); rewrite H2.
        * by replace (2 * m - 2 * m) with 0 by lia.
        * by replace (2 * m + 1 - 2 * m) with 1 by lia. }
  by apply (H len).
Qed.

Lemma gates_frames gs t : tr_frames (foldl (λ t g, tracker_gate g t) t gs) = map (conjugate_all gs) (tr_frames t).
Proof.
  revert t. induction gs as [|g gs IH]; intros t; cbn [foldl].
  - change (conjugate_all []) with (λ f : frame, f). by rewrite map_id.
  - rewrite IH. cbn [tracker_gate tr_frames]. rewrite map_map. done.
Qed.

Lemma zeros_length n : length (zeros n) = n.
Proof. apply replicate_length. Qed.

Lemma mul_zeros (f : frame) : zip_with pauli_mul f (zeros (length f)) = f.
Proof. induction f as [|x f IH]; [done|]. cbn. unfold zeros in IH. by rewrite IH, pauli_mul_1_r. Qed.

Lemma unit_mul (k : nat) (l : frame) (p q : pauli) (m : nat) : length l = k →
  zip_with pauli_mul (l ++ p :: zeros m) (unit_frame (k + S m) q k) = l ++ pauli_mul p q :: zeros m.
Proof.
  intros <-. unfold unit_frame.
  assert (zeros (length l + S m) = zeros (length l) ++ (false, false) :: zeros m) as ->.
  { unfold zeros. rewrite replicate_add. done. }
  assert (<[length l:=q]> (zeros (length l) ++ (false, false) :: zeros m) = zeros (length l) ++ q :: zeros m) as ->.
  { rewrite <- (zeros_length (length l)) at 1. rewrite <- (Nat.add_0_r (length (zeros (length l)))).
    by rewrite insert_app_r. }
  rewrite zip_with_app by (by rewrite zeros_length). cbn [zip_with]. rewrite mul_zeros.
  pose proof (mul_zeros (zeros m)) as Hz. rewrite zeros_length in Hz. by rewrite Hz.
Qed.

Lemma take_over_right :
  ∀ gs outs,
  take_over (λ idx, 2 * idx) (λ idx, 2 * idx + 1)
    (tr_frames (foldl (λ t g, tracker_gate g t) (buffer_tracker (length outs)) gs))
    (length outs + new_qubits gs) outs
  = Some (conjugate_all gs outs).
Proof.
  intros gs outs. unfold take_over. rewrite gates_frames.
  set (buffer := map (conjugate_all gs) (tr_frames (buffer_tracker (length outs)))).
  assert (∀ rest l, outs = l ++ rest →
    foldl (take_over_one (λ idx, 2 * idx) (λ idx, 2 * idx + 1) buffer)
      (Some (conjugate_all gs (l ++ zeros (length rest)))) (zip (seq (length l) (length rest)) rest)
    = Some (conjugate_all gs outs)) as H.
  { induction rest as [|p rest IH]; intros l Hl; [cbn; by rewrite Hl|].
    cbn [length seq zip zip_with foldl].
    specialize (IH (l ++ [p])). rewrite app_length in IH. cbn [length] in IH.
    replace (length l + 1) with (S (length l)) in IH by lia.
    rewrite <- IH by (by rewrite <- app_assoc). f_equal. unfold take_over_one. cbn [mbind option_bind].
    assert (length outs = length l + S (length rest)) as Ho by (by rewrite Hl, app_length).
    destruct (buffer_frames (length outs) (length l)) as [Hz Hx]; [lia|].
    assert (buffer !! (2 * length l) = Some (conjugate_all gs (unit_frame (length outs) (true, false) (length l)))) as Hz'.
    { unfold buffer. rewrite list_lookup_fmap, Hz. done. }
    assert (buffer !! (2 * length l + 1) = Some (conjugate_all gs (unit_frame (length outs) (false, true) (length l)))) as Hx'.
    { unfold buffer. rewrite list_lookup_fmap, Hx. done. }
    unfold get_and_add_to_stack. rewrite Hz', Hx'. cbn [mbind option_bind].
    assert (∀ p q, zip_with pauli_mul (conjugate_all gs (l ++ p :: zeros (length rest)))
                     (conjugate_all gs (unit_frame (length outs) q (length l)))
                   = conjugate_all gs (l ++ pauli_mul p q :: zeros (length rest))) as Hmul.
    { intros p1 q1. rewrite <- conjugate_all_mul.
      - by rewrite Ho, unit_mul.
      - unfold unit_frame. rewrite app_length, insert_length. cbn [length]. rewrite !zeros_length. lia. }
    assert (zeros (S (length rest)) = (false, false) :: zeros (length rest)) as -> by done.
    rewrite <- app_assoc. cbn [app].
    destruct p as [[] []]; cbn [fst snd mbind option_bind]; rewrite ?Hmul; done. }
  specialize (H outs [] eq_refl). cbn [length app] in H. rewrite conjugate_all_zeros in H. exact H.
Qed.

(** The numbers [idx] and [idx + 1] of the example are right for one output qubit. *)
Lemma take_over_single :
  ∀ st gs c,
  st_buffer st = tr_frames (foldl (λ t g, tracker_gate g t) (buffer_tracker 1) gs) →
  length (st_graph st) = 1 + new_qubits gs →
  initial_correction_frame st [c] = Some (conjugate_all gs [c]).
Proof.
  intros st gs c Hb Hn. unfold initial_correction_frame. rewrite Hb, Hn.
  pose proof (take_over_right gs [c]) as H. cbn [length] in H. rewrite <- H. done.
Qed.
