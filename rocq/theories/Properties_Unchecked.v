(** * Properties: input files with any contents

    No assumption about the graphs in the files, but that the spacial graph is not
    larger than the memory. *)
From Coq Require Import Ascii String.
From stdpp Require Import list strings.
From Verif Require Import Metamorphic MainInterface MainFiles MainCli MainUnchecked.
From Verif Require Import Check Properties_Files Properties_Cli.
Local Open Scope string_scope.

(** ** C95: what is written for graphs of any shape *)

(** A debug build that ends regularly has written paths that measure nodes only, no
    node twice, no node with a neighbour that is not a node, and whose costs are
    exact.  It has changed no other file; the release build does the same. *)
Theorem C95_files :
  ∀ fuel env os fs args fs' adj,
  stored json_spacial_text bin_spacial_text os fs (a_spacial_graph args) (a_spacial_graph_format args) adj →
  (N.of_nat (length adj) < 2 ^ 64 - 1)%N → (∀ l, e_hash_order env l ≡ₚ l) →
  main Debug fuel env (with_codecs os) fs args = Some (Val fs') →
  (∃ ps, paths_in fs' (a_paths args) (a_paths_format args) = Some ps ∧
     Forall (measured_once adj) ps ∧ tradeoff ps ∧
     ∀ p b, p ∈ ps → b ∈ concat (steps p) → ¬ dangling adj b) ∧
  (∀ q, q ≠ a_paths args → f_contents fs' !! q = f_contents fs !! q) ∧
  main Release fuel env (with_codecs os) fs args = Some (Val fs').
Proof. exact files_unchecked. Qed.
Print Assumptions C95_files.

(** The same from the command line. *)
Theorem C95_program :
  ∀ fuel env os fs argv fs' a adj, asks argv a →
  stored json_spacial_text bin_spacial_text os fs (a_spacial_graph a) (a_spacial_graph_format a) adj →
  (N.of_nat (length adj) < 2 ^ 64 - 1)%N → (∀ l, e_hash_order env l ≡ₚ l) →
  program Debug fuel env (with_codecs os) fs argv = Some (Val (Ran fs')) →
  (∃ ps, paths_in fs' (a_paths a) (a_paths_format a) = Some ps ∧
     Forall (measured_once adj) ps ∧ tradeoff ps ∧
     ∀ p b, p ∈ ps → b ∈ concat (steps p) → ¬ dangling adj b) ∧
  (∀ q, q ≠ a_paths a → f_contents fs' !! q = f_contents fs !! q) ∧
  program Release fuel env (with_codecs os) fs argv = Some (Val (Ran fs')).
Proof. exact program_unchecked. Qed.
Print Assumptions C95_program.

(** If a qubit that is to be measured has a neighbour that is not a node, either
    build writes the empty list or fails; it fails unless there is a timeout or
    [-p]. *)
Theorem C95_nothing :
  ∀ bd fuel env os fs args fs' adj g b,
  stored json_spacial_text bin_spacial_text os fs (a_spacial_graph args) (a_spacial_graph_format args) adj →
  stored json_order_text bin_order_text os fs (a_dependency_graph args) (a_dependency_graph_format args) g →
  wf_order (length adj) g → (N.of_nat (length adj) < 2 ^ 64 - 1)%N → (∀ l, e_hash_order env l ≡ₚ l) →
  listed g b → dangling adj b →
  main bd fuel env (with_codecs os) fs args = Some (Val fs') →
  paths_in fs' (a_paths args) (a_paths_format args) = Some [] ∧
  a_search args = true ∧ (a_timeout args ≠ None ∨ a_probabilistic args = true).
Proof. exact files_nothing. Qed.
Print Assumptions C95_nothing.

(** Node 2 has the neighbour 7; qubit 0 is listed twice. *)
Definition odd_files : Files :=
  mkFiles (<["graph" := text "[[1], [0], [7]]"]>
    (<["order" := text "[[[0,[]]],[[0,[]],[1,[0]]]]"]>
    (<["twice" := text "[[[0,[]],[0,[]]]]"]>
    (<["loose" := text "[[[0,[]]],[[2,[0]]]]"]> ∅)))) ∅.

Definition odd (bd : build) (argv : list string) : option (out (option bytes)) :=
  match program bd 1000 example_env (with_codecs example_os) odd_files argv with
  | Some (Val (Ran fs)) => Some (Val (f_contents fs !! "out"))
  | Some Panic => Some Panic | _ => None
  end.

Definition odd_args (order : string) (timeout : option N) : Args :=
  mkArgs "graph" "serde_json" order "serde_json" "out" "serde_json" true timeout 1 false None.

Definition odd_graph : spacial := [[1]; [0]; [7]].

Lemma odd_stored :
  stored json_spacial_text bin_spacial_text example_os odd_files "graph" "serde_json" odd_graph.
Proof. apply stored_spacial. split; [done|]. eexists. split; [done|]. left. by vm_compute. Qed.

Lemma odd_dangling : dangling odd_graph 2.
Proof. exists 7. split; [left|]. simpl. lia. Qed.

Example C95_example :
  asks ["-s"; "graph"; "serde_json"; "order"; "serde_json"; "out"; "serde_json"] (odd_args "order" None) ∧
  (* the qubit 1 is never measured *)
  odd Debug ["-s"; "graph"; "serde_json"; "order"; "serde_json"; "out"; "serde_json"]
  = Some (Val (Some (text "[{""time"":1,""space"":2,""steps"":[[0]]}]"))) ∧
  odd Debug ["-s"; "graph"; "serde_json"; "twice"; "serde_json"; "out"; "serde_json"] = Some Panic ∧
  (* a neighbour that is not a node, without and with a timeout *)
  odd Release ["-s"; "graph"; "serde_json"; "loose"; "serde_json"; "out"; "serde_json"] = Some Panic ∧
  odd Release ["-s"; "-t0"; "graph"; "serde_json"; "loose"; "serde_json"; "out"; "serde_json"]
  = Some (Val (Some (text "[]"))).
Proof.
  split.
  - apply C59_exact. eexists. split; [vm_compute; reflexivity|by vm_compute].
  - by vm_compute.
Qed.

(** The first claim is false for release builds: a qubit is measured twice. *)
Theorem C95_release_refuted :
  ¬ (∀ fuel env os fs args fs' adj,
     stored json_spacial_text bin_spacial_text os fs (a_spacial_graph args) (a_spacial_graph_format args) adj →
     (N.of_nat (length adj) < 2 ^ 64 - 1)%N → (∀ l, e_hash_order env l ≡ₚ l) →
     main Release fuel env (with_codecs os) fs args = Some (Val fs') →
     ∃ ps, paths_in fs' (a_paths args) (a_paths_format args) = Some ps ∧ Forall (measured_once adj) ps).
Proof.
  intros H.
  assert (∃ fs', main Release 1000 example_env (with_codecs example_os) odd_files (odd_args "twice" None)
    = Some (Val fs') ∧ paths_in fs' "out" "serde_json" = Some [MkPath 1 2 [[0; 0]]]) as (fs' & Hm & Hp)
    by (eexists; split; [vm_compute; reflexivity|by vm_compute]).
  destruct (H 1000 example_env example_os odd_files (odd_args "twice" None) fs' odd_graph odd_stored eq_refl
    (λ l, symmetry (Permutation_rev l)) Hm) as (ps & Hps & Hf).
  unfold odd_args in Hps. simpl in Hps. rewrite Hp in Hps. injection Hps as <-.
  apply Forall_inv in Hf as [Hf _ _ _ _]. apply NoDup_cons in Hf as [Hf _]. apply Hf. left.
Qed.
Print Assumptions C95_release_refuted.
