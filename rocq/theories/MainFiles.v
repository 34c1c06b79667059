(** * C56-C58: the file formats, from files to files *)
From stdpp Require Import strings.
From Verif Require Import MainInterface Metamorphic.
From Verif Require Export Codec FormatSpec CodecFacts.

Lemma reading_json :
  ∀ b, (∀ adj, json_from_reader json_spacial_reader b = Some adj ↔ json_file json_spacial_text adj b) ∧
       (∀ g, json_from_reader json_order_reader b = Some g ↔ json_file json_order_text g b).
Proof. intros b. split; [intros adj; apply json_spacial_read|intros g; apply json_order_read]. Qed.

Lemma reading_bincode :
  ∀ b, (∀ adj, bin_from_reader bin_spacial_reader b = Some adj ↔ bin_file bin_spacial_text adj b) ∧
       (∀ g, bin_from_reader bin_order_reader b = Some g ↔ bin_file bin_order_text g b).
Proof.
  intros b. split; [intros adj; apply bin_reader, bin_spacial_exact|intros g; apply bin_reader, bin_order_exact].
Qed.

(** ** Round trips *)

Lemma round_trip_graphs :
  ∀ adj g, spacial_fits adj → spacial_lengths adj → order_fits g → order_lengths g →
  json_from_reader json_spacial_reader (json_spacial_writer adj) = Some adj ∧
  json_from_reader json_order_reader (json_order_writer g) = Some g ∧
  bin_from_reader bin_spacial_reader (bin_spacial_writer adj) = Some adj ∧
  bin_from_reader bin_order_reader (bin_order_writer g) = Some g.
Proof.
  intros adj g Ha Hla Hg Hlg. split; [|split; [|split]].
  - apply json_spacial_read. exists (json_spacial_writer adj), []. split; [by rewrite app_nil_r|].
    split; [by apply json_spacial_written|constructor].
  - apply json_order_read. exists (json_order_writer g), []. split; [by rewrite app_nil_r|].
    split; [by apply json_order_written|constructor].
  - apply reading_bincode. exists (bin_spacial_writer adj), []. split; [by rewrite app_nil_r|]. by apply vecs_written.
  - apply reading_bincode. exists (bin_order_writer g), []. split; [by rewrite app_nil_r|]. by apply bin_order_written.
Qed.

Lemma round_trip_paths :
  ∀ ps, fits (N.of_nat (length ps)) → Forall (λ p, path_fits p ∧ spacial_lengths (steps p)) ps →
  json_read_paths (json_write_seq json_write_path ps) = Some ps ∧
  bin_read_paths (bin_write_seq bin_write_path ps) = Some ps.
Proof.
  intros ps Hl H. split.
  - apply json_paths_read_back. eapply Forall_impl; [exact H|]. by intros p [Hp _].
  - rewrite <- (app_nil_r (bin_write_seq _ _)). by apply bin_paths_read_back.
Qed.

(** ** Files to files *)

(** The file can be read and contains, in the given format, a text that stands for
    the value. *)
Definition stored {A} (json bin : A → bytes → Prop) (os : System_) (fs : Files)
    (file format : string) (a : A) : Prop :=
  os_open_fails os file = false ∧ ∃ b, f_contents fs !! file = Some b ∧
  (format = "serde_json"%string ∧ json_file json a b ∨ format = "bincode"%string ∧ bin_file bin a b).

(** What a reader of the results gets from a file. *)
Definition paths_in (fs : Files) (file format : string) : option (list path) :=
  match f_contents fs !! file with
  | None => None
  | Some b =>
      if String.eqb format "serde_json" then json_read_paths b
      else if String.eqb format "bincode" then bin_read_paths b
      else None
  end.

Lemma stored_spacial os fs file format adj :
  stored json_spacial_text bin_spacial_text os fs file format adj ↔
  holds_spacial (with_codecs os) fs (file, format) adj.
Proof.
  unfold stored, holds_spacial, holds_value. simpl.
  split; intros (Ho & b & Hb & H); (split; [done|]); exists b; (split; [done|]).
  - destruct H as [[-> H]|[-> H]]; [left|right]; (split; [done|]).
    + by apply json_spacial_read. + by apply reading_bincode.
  - destruct H as [[-> H]|[-> H]]; [left|right]; (split; [done|]).
    + by apply json_spacial_read. + by apply reading_bincode.
Qed.

Lemma stored_order os fs file format g :
  stored json_order_text bin_order_text os fs file format g ↔
  holds_order (with_codecs os) fs (file, format) g.
Proof.
  unfold stored, holds_order, holds_value. simpl.
  split; intros (Ho & b & Hb & H); (split; [done|]); exists b; (split; [done|]).
  - destruct H as [[-> H]|[-> H]]; [left|right]; (split; [done|]).
    + by apply json_order_read. + by apply reading_bincode.
  - destruct H as [[-> H]|[-> H]]; [left|right]; (split; [done|]).
    + by apply json_order_read. + by apply reading_bincode.
Qed.

Lemma concat_element {A} (l : list (list A)) x : x ∈ l → length x ≤ length (concat l).
Proof.
  intros Hx. apply elem_of_list_split in Hx as (l1 & l2 & ->).
  rewrite concat_app, app_length. simpl. rewrite app_length. lia.
Qed.

Lemma valid_total adj g σ : wf_input adj g → legal_prefix g σ → length (concat σ) ≤ length adj.
Proof.
  intros Hin Hv. rewrite <- (seq_length (length adj) 0). apply submseteq_length, NoDup_submseteq; [apply Hv|].
  intros b Hb. apply (lp_listed _ _ Hv) in Hb. apply listed_qubits in Hb.
  apply (wf_range _ _ (proj2 Hin)) in Hb. apply elem_of_seq. lia.
Qed.

Lemma path_ok_fits adj g p : wf_input adj g → path_ok adj g p → path_fits p ∧ spacial_lengths (steps p).
Proof.
  intros Hin (Hv & Ht & Hs). pose proof (valid_total adj g (steps p) Hin (vs_legal _ _ Hv)) as Hl.
  pose proof (proj2 (proj1 Hin)) as Hn.
  pose proof (valid_time _ _ _ Hin Hv) as Htm. pose proof (space_cost_le adj Hn (steps p)) as Hsp.
  assert (∀ n, n ≤ length adj → fits (N.of_nat n)) as Hf by (intros n Hle; unfold fits; lia).
  assert (length (steps p) ≤ length adj) as Hls.
  { etransitivity; [|exact Hl]. clear -Hv. destruct Hv as [[Hne _ _ _] _].
    induction (steps p) as [|S σ IH]; [done|]. simpl. rewrite app_length.
    assert (S ≠ []) by (apply Hne; constructor). destruct S; [done|]. simpl.
    assert (length σ ≤ length (concat σ)); [|lia]. apply IH. intros S' HS'. apply Hne. by constructor. }
  split.
  - split; [rewrite Ht; by apply Hf|]. split; [rewrite Hs; by apply Hf|].
    intros l v Hl' Hv'. apply Hf. assert (v ∈ concat (steps p)) as Hc by (apply elem_of_concat; by exists l).
    apply (lp_listed _ _ (vs_legal _ _ Hv)), listed_qubits, (wf_range _ _ (proj2 Hin)) in Hc. lia.
  - split; [by apply Hf|]. intros l Hl'. apply Hf. pose proof (concat_element _ _ Hl'). lia.
Qed.

Lemma tradeoff_fits adj g ps : wf_input adj g → Forall (path_ok adj g) ps → tradeoff ps →
  fits (N.of_nat (length ps)) ∧ Forall (λ p, path_fits p ∧ spacial_lengths (steps p)) ps.
Proof.
  intros Hin Hok Ht. split.
  2:{ eapply Forall_impl; [exact Hok|]. intros p. by apply path_ok_fits. }
  destruct (decide (qubits g = [])) as [E|E].
  - (* at most one path *)
    assert (length ps ≤ 1) as Hl.
    { destruct ps as [|p [|q ps]]; [simpl; lia..|]. exfalso.
      pose proof (Ht 0 1 p q ltac:(lia) eq_refl eq_refl) as Hpq.
      assert (∀ x, x ∈ p :: q :: ps → time x = 0) as Hz.
      { intros x Hx. rewrite Forall_forall in Hok. destruct (Hok x Hx) as (Hv & -> & _).
        destruct (steps x) as [|S σ] eqn:Es; [done|]. exfalso. destruct Hv as [[Hne _ Hls _] _].
        assert (S ≠ []) by (apply Hne; constructor). destruct S as [|b S]; [done|].
        assert (listed g b) as Hb by (apply Hls; simpl; constructor).
        apply listed_qubits in Hb. rewrite E in Hb. by apply elem_of_nil in Hb. }
      pose proof (Hz p ltac:(constructor)). pose proof (Hz q ltac:(constructor; constructor)).
      destruct Hpq. lia. }
    unfold fits. lia.
  - assert (∃ b, listed g b) as Hb.
    { destruct (qubits g) as [|b l] eqn:Eq; [done|]. exists b. apply listed_qubits. rewrite Eq. constructor. }
    destruct (paths_bounds adj g ps Hin Hb Hok Ht) as [Hl _].
    assert (length (qubits g) ≤ length adj) as Hq.
    { rewrite <- (seq_length (length adj) 0). apply submseteq_length, NoDup_submseteq; [apply (proj2 Hin)|].
      intros x Hx. apply (wf_range _ _ (proj2 Hin)) in Hx. apply elem_of_seq. lia. }
    pose proof (proj2 (proj1 Hin)). unfold fits. lia.
Qed.

Lemma encoding_read_back os format ps b fs fs' file :
  encoding (with_codecs os) format ps = Some b → f_contents fs' = <[file := b]> (f_contents fs) →
  fits (N.of_nat (length ps)) → Forall (λ p, path_fits p ∧ spacial_lengths (steps p)) ps →
  paths_in fs' file format = Some ps.
Proof.
  intros He Hfs Hl Hps. destruct (round_trip_paths ps Hl Hps) as [Hj Hb].
  unfold paths_in. rewrite Hfs, lookup_insert. unfold encoding in He.
  destruct (String.eqb format "serde_json"); [by injection He as <-|].
  destruct (String.eqb format "bincode"); [by injection He as <-|done].
Qed.

(** Whatever the options: a program that ends regularly has written paths that can
    be read. *)
Lemma files_valid :
  ∀ bd fuel env os fs args fs' adj g,
  stored json_spacial_text bin_spacial_text os fs (a_spacial_graph args) (a_spacial_graph_format args) adj →
  stored json_order_text bin_order_text os fs (a_dependency_graph args) (a_dependency_graph_format args) g →
  wf_input adj g → (∀ l, e_hash_order env l ≡ₚ l) →
  main bd fuel env (with_codecs os) fs args = Some (Val fs') →
  (∃ ps, paths_in fs' (a_paths args) (a_paths_format args) = Some ps ∧ Forall (path_ok adj g) ps ∧ tradeoff ps) ∧
  ∀ q, q ≠ a_paths args → f_contents fs' !! q = f_contents fs !! q.
Proof.
  intros bd fuel env os fs args fs' adj g Ha Hg Hin Hho Hm.
  apply stored_spacial in Ha. apply stored_order in Hg.
  apply main_exit in Hm. apply run_serialized_outcome in Hm as [Hq (adj' & g' & ps & b & Ha' & Hg' & Hr & Hb & Hfs)].
  assert (adj' = adj) as ->.
  { apply deserialize_spec in Ha, Ha'. unfold holds_spacial in *. simpl in *. congruence. }
  assert (g' = g) as ->.
  { apply deserialize_spec in Hg, Hg'. simpl in *. congruence. }
  split; [|exact Hq]. exists ps.
  destruct (run_valid adj g env _ _ _ _ _ bd fuel _ Hin Hho Hr) as [(ps' & E & Hok & Ht)|(E & _)]; [|discriminate E].
  injection E as <-. destruct (tradeoff_fits adj g ps Hin Hok Ht) as [Hl Hps].
  split; [|done]. by eapply encoding_read_back.
Qed.

Lemma files_optimal :
  ∀ env os fs args adj g,
  stored json_spacial_text bin_spacial_text os fs (a_spacial_graph args) (a_spacial_graph_format args) adj →
  stored json_order_text bin_order_text os fs (a_dependency_graph args) (a_dependency_graph_format args) g →
  writable os (a_paths args) →
  (a_paths_format args = "serde_json"%string ∨ a_paths_format args = "bincode"%string) →
  wf_input adj g → (∀ l, e_hash_order env l ≡ₚ l) → (∃ b, listed g b) →
  a_search args = true → a_timeout args = None → a_nthreads args ≤ 1 → a_probabilistic args = false →
  ∃ ps fs', pareto_front adj g ps ∧ paths_in fs' (a_paths args) (a_paths_format args) = Some ps ∧
    ∀ bd, returns (λ fuel, main bd fuel env (with_codecs os) fs args) fs'.
Proof.
  intros env os fs args adj g Ha Hg Hw Hf Hin Hho Hl Hs Ht Hn Hp.
  apply stored_spacial in Ha. apply stored_order in Hg.
  destruct (main_optimal env (with_codecs os) fs args adj g Ha Hg Hw Hf Hin Hho Hl Hs Ht Hn Hp)
    as (ps & b & Hps & Hb & fs' & Hfs & Hr).
  exists ps, fs'. split; [done|]. split; [|done]. destruct Hps as (Hok & Htr & _).
  destruct (tradeoff_fits adj g ps Hin Hok Htr) as [Hl' Hps]. by eapply encoding_read_back.
Qed.
