(** * Properties: the two file formats, from files to files

    [FormatSpec.v] says which texts stand for which values, [Codec.v] models how
    the crates read and write them. *)
From stdpp Require Import strings.
From Verif Require Import MainInterface MainFiles.
From Verif Require Import Check.

(** ** C56: what is read from a file *)

Theorem C56_json :
  ∀ b, (∀ adj, json_from_reader json_spacial_reader b = Some adj ↔ json_file json_spacial_text adj b) ∧
       (∀ g, json_from_reader json_order_reader b = Some g ↔ json_file json_order_text g b).
Proof. exact reading_json. Qed.
Print Assumptions C56_json.

Theorem C56_bincode :
  ∀ b, (∀ adj, bin_from_reader bin_spacial_reader b = Some adj ↔ bin_file bin_spacial_text adj b) ∧
       (∀ g, bin_from_reader bin_order_reader b = Some g ↔ bin_file bin_order_text g b).
Proof. exact reading_bincode. Qed.
Print Assumptions C56_bincode.

(** test_files/fourier_4o_spacial.json and fourier_4o_dependency.json. *)
Example C56_example :
  json_from_reader json_spacial_reader (text "[[],[14,15],[10,11,12,13],[4,5,6,7,8,9],[3],[3],[3],[3],[3],[3],[2],[2],[2],[2],[1],[1]]
")
  = Some fourier ∧
  json_from_reader json_order_reader (text "[[[8,[]],[5,[]],[7,[]],[4,[]],[6,[]],[3,[]]],[[12,[7]],[10,[7]],[2,[7]],[11,[7]],[9,[8,5,7,4,6,3]]],[[13,[12,10,2,11]],[1,[5,11]],[14,[5,11]]],[[0,[3,2,1]],[15,[1,14]]]]
")
  = Some fourier_order ∧
  (* blanks do not matter *)
  json_from_reader json_spacial_reader (text " [ [ 1 , 2 ]
,[] ] ") = Some [[1; 2]; []] ∧
  (* superfluous commas and zeros, negative or too large numbers, missing brackets, more text *)
  map (λ s, json_from_reader json_spacial_reader (text s))
    ["[[1,]]"; "[[01]]"; "[[-1]]"; "[[18446744073709551616]]"; "[[1]"; "[[1]]]"; "[[1.0]]"; ""; "null"]%string
  = replicate 9 None ∧
  (* bincode: a prefix is not enough, more is ignored *)
  bin_from_reader bin_spacial_reader (bin_spacial_writer [[1; 2]; []] ++ text "more") = Some [[1; 2]; []] ∧
  bin_from_reader bin_spacial_reader (take 31 (bin_spacial_writer [[1; 2]; []])) = None.
Proof. by vm_compute. Qed.

(** ** C57: what is written can be read back *)

Theorem C57_graphs :
  ∀ adj g, spacial_fits adj → spacial_lengths adj → order_fits g → order_lengths g →
  json_from_reader json_spacial_reader (json_spacial_writer adj) = Some adj ∧
  json_from_reader json_order_reader (json_order_writer g) = Some g ∧
  bin_from_reader bin_spacial_reader (bin_spacial_writer adj) = Some adj ∧
  bin_from_reader bin_order_reader (bin_order_writer g) = Some g.
Proof. exact round_trip_graphs. Qed.
Print Assumptions C57_graphs.

Theorem C57_paths :
  ∀ ps, fits (N.of_nat (length ps)) → Forall (λ p, path_fits p ∧ spacial_lengths (steps p)) ps →
  json_read_paths (json_write_seq json_write_path ps) = Some ps ∧
  bin_read_paths (bin_write_seq bin_write_path ps) = Some ps.
Proof. exact round_trip_paths. Qed.
Print Assumptions C57_paths.

Example C57_example :
  json_write_seq json_write_path [MkPath 2 4 [[0; 1]; [2; 3]]; MkPath 10 1 []]
  = text "[{""time"":2,""space"":4,""steps"":[[0,1],[2,3]]},{""time"":10,""space"":1,""steps"":[]}]" ∧
  bin_write_seq bin_write_path [MkPath 2 258 [[0]]]
  = [Byte.x01; Byte.x00; Byte.x00; Byte.x00; Byte.x00; Byte.x00; Byte.x00; Byte.x00;
     Byte.x02; Byte.x00; Byte.x00; Byte.x00; Byte.x00; Byte.x00; Byte.x00; Byte.x00;
     Byte.x02; Byte.x01; Byte.x00; Byte.x00; Byte.x00; Byte.x00; Byte.x00; Byte.x00;
     Byte.x01; Byte.x00; Byte.x00; Byte.x00; Byte.x00; Byte.x00; Byte.x00; Byte.x00;
     Byte.x01; Byte.x00; Byte.x00; Byte.x00; Byte.x00; Byte.x00; Byte.x00; Byte.x00;
     Byte.x00; Byte.x00; Byte.x00; Byte.x00; Byte.x00; Byte.x00; Byte.x00; Byte.x00] ∧
  (* the fields in another order; an array with the values of the fields *)
  json_read_paths (text "[{""steps"":[[0]], ""space"" : 4,""time"":2},[5,6,[]]]")
  = Some [MkPath 2 4 [[0]]; MkPath 5 6 []] ∧
  (* a missing and a repeated field *)
  json_read_paths (text "[{""steps"":[[0]],""space"":4}]") = None ∧
  json_read_paths (text "[{""steps"":[[0]],""space"":4,""space"":4}]") = None.
Proof. by vm_compute. Qed.

(** The results that are kept in the repository, test_files/fourier_4o_paths.json,
    are in an older format. *)
Example C57_old_results :
  json_read_paths (text "[[4,[6,[[8,5,7,4,6],[12,10,2,11],[3,13,1,14],[9,0,15]]]],[5,[5,[[8,5,4,6],[7,3],[12,10,11,9],[2,1,14],[13,0,15]]]],[6,[4,[[8,4,6],[5,7,3],[10,11,9],[1,14],[12,2,15],[13,0]]]],[9,[3,[[5,6],[7,4],[8,3],[11,9],[12,10],[14],[1],[2,15],[13,0]]]],[15,[2,[[6],[4],[7],[5],[8],[3],[9],[11],[10],[12],[2],[13],[14],[1],[0,15]]]]]")
  = None.
Proof. by vm_compute. Qed.

(** ** C58: the binary reads files and writes files *)

Theorem C58_valid :
  ∀ bd fuel env os fs args fs' adj g,
  stored json_spacial_text bin_spacial_text os fs (a_spacial_graph args) (a_spacial_graph_format args) adj →
  stored json_order_text bin_order_text os fs (a_dependency_graph args) (a_dependency_graph_format args) g →
  wf_input adj g → (∀ l, e_hash_order env l ≡ₚ l) →
  main bd fuel env (with_codecs os) fs args = Some (Val fs') →
  (∃ ps, paths_in fs' (a_paths args) (a_paths_format args) = Some ps ∧ Forall (path_ok adj g) ps ∧ tradeoff ps) ∧
  ∀ q, q ≠ a_paths args → f_contents fs' !! q = f_contents fs !! q.
Proof. exact files_valid. Qed.
Print Assumptions C58_valid.

Theorem C58_optimal :
  ∀ env os fs args adj g,
  stored json_spacial_text bin_spacial_text os fs (a_spacial_graph args) (a_spacial_graph_format args) adj →
  stored json_order_text bin_order_text os fs (a_dependency_graph args) (a_dependency_graph_format args) g →
  writable os (a_paths args) →
  (a_paths_format args = "serde_json"%string ∨ a_paths_format args = "bincode"%string) →
  wf_input adj g → (∀ l, e_hash_order env l ≡ₚ l) → (∃ b, listed g b) →
  a_search args = true → a_timeout args = None → a_nthreads args ≤ 1 → a_probabilistic args = false →
  ∃ ps fs', pareto_front adj g ps ∧ paths_in fs' (a_paths args) (a_paths_format args) = Some ps ∧
    ∀ bd, returns (λ fuel, main bd fuel env (with_codecs os) fs args) fs'.
Proof. exact files_optimal. Qed.
Print Assumptions C58_optimal.

Definition example_env : Env :=
  mkEnv (λ _, [TStep 0; Tick; TStep 0; TStep 0]) [] (@rev _) idle_gen (λ x, x).

(** The codecs in [os] are irrelevant. *)
Definition example_os : System_ :=
  mkSystem_ (λ _, false) (λ _, false) (λ _, false) (λ _, None) (λ _, None)
    (λ _, None) (λ _, None) (λ _, []) (λ _, None) (λ _, None) (λ _, []).

Definition example_files : Files :=
  mkFiles (<["graph"%string := text "[[2], [3], [0], [1]]"]>
    (<["order"%string := bin_order_writer pairs_order]> ∅)) ∅.

Definition example_args : Args :=
  mkArgs "graph" "serde_json" "order" "bincode" "out" "serde_json" true None 1 false None.

Example C58_example :
  match main Debug 1000 example_env (with_codecs example_os) example_files example_args with
  | Some (Val fs) => f_contents fs !! "out"%string
  | _ => None
  end
  = Some (text "[{""time"":2,""space"":4,""steps"":[[0,1],[2,3]]},{""time"":3,""space"":3,""steps"":[[1],[0,3],[2]]},{""time"":4,""space"":2,""steps"":[[1],[3],[0],[2]]}]") ∧
  stored json_spacial_text bin_spacial_text example_os example_files "graph" "serde_json" pairs ∧
  stored json_order_text bin_order_text example_os example_files "order" "bincode" pairs_order ∧
  writable example_os "out".
Proof.
  split; [by vm_compute|]. split; [|split; [|done]].
  - apply stored_spacial. split; [done|]. eexists. split; [done|]. left. by vm_compute.
  - apply stored_order. split; [done|]. eexists. split; [done|]. right. by vm_compute.
Qed.
