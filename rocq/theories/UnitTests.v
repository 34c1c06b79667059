(** * The repository's unit tests and documentation examples, carried out on the model

    Every assertion that the repository makes about concrete values, with file and
    lines; these are checks of the model, not properties. *)
From Verif Require Import Roundtrip Check.

(** ** [scheduler/space.rs:268-341] *)

Definition GN : list (nat * nat) := [(8, 1); (8, 5); (1, 3); (3, 5)].
Definition GM : list (nat * nat) := [(0, 1); (0, 2); (1, 3); (3, 2)].
Definition GNW : list (nat * nat) := [(8, 1); (8, 5); (8, 1); (1, 3); (3, 5); (5, 5)].
Definition GMW : list (nat * nat) := [(0, 1); (0, 2); (0, 1); (1, 3); (3, 2); (2, 2)].

(** space.rs:294-318. *)
Example test_creation :
  let mp : gmap nat nat := list_to_map [(8, 0); (5, 2)] in
  let graph b := (let* b := b in Val (graph_new b)) in
  let expected :=
    Val (mkGraph [(Sleeping, [1; 2]); (Sleeping, [0; 3]); (Sleeping, [0; 3]); (Sleeping, [1; 2])] 0 0) in
  graph (graph_buffer_new GN 4 (Some mp) false) = expected ∧
  graph (graph_buffer_new GM 4 None false) = expected ∧
  graph (graph_buffer_new GNW 4 (Some mp) true) = expected ∧
  graph (graph_buffer_new GMW 4 None true) = expected.
Proof. by vm_compute. Qed.

(** space.rs:284-291 and 320-340.  The first version of [manually] (space.rs:328-335)
    is what both calls give. *)
Example test_updating :
  let init := graph_new [[1; 2]; [0; 3]; [0; 3]; [1; 2]; []] in
  let manually m := mkGraph [(InMemory, [1; 2]); (InMemory, [0; 3]); (Measured, [0; 3]);
                             (Measured, [1; 2]); (Sleeping, [])] 2 m in
  graph_buffer_new GM 5 None false = Val [[1; 2]; [0; 3]; [0; 3]; [1; 2]; []] ∧
  graph_focus Debug init [2; 3] = Val (init, Ok (manually 4%N)) ∧
  graph_focus_inplace Debug init [2; 3] = Val (manually 4%N, Ok tt) ∧
  (let* '(g, r) := graph_focus_inplace Debug init [2] in
   match r with
   | Ok _ => graph_focus_inplace Debug g [3]
   | Err e => Val (g, Err e)
   end) = Val (manually 3%N, Ok tt).
Proof. by vm_compute. Qed.

(** ** [scheduler/time.rs:375-507] *)

(** time.rs:380-387. *)
Definition example_ordering : PartialOrderGraph :=
  [[(0, [])]; [(3, [0]); (1, [0])]; [(2, [3])]].

(** [get_all_paths], time.rs:389-405. *)
Definition all_time_paths (fuel n : nat) (g : PartialOrderGraph) : option (out (list Steps)) :=
  match from_dependency_graph g (dependency_buffer_new n) None with
  | Panic => Some Panic
  | Val t =>
      match get_all_paths (H := time_focus_iterator Debug) fuel [] t with
      | Some (Val l) => Some (Val (map fst l))
      | Some Panic => Some Panic
      | None => None
      end
  end.

(** time.rs:407-426. *)
Example test_simple_paths :
  all_time_paths 100 5 example_ordering
  = Some (Val [[[0]; [3; 1]; [2]]; [[0]; [1]; [3]; [2]]; [[0]; [3]; [1; 2]];
               [[0]; [3]; [2]; [1]]; [[0]; [3]; [1]; [2]]]).
Proof. by vm_compute. Qed.

(** time.rs:428-446, up to 4 nodes (the general statement is C03). *)
Example test_max :
  map (λ n, match all_time_paths 1000 10 [map (λ i, (i, [])) (seq 0 n)] with
            | Some (Val l) => length l
            | _ => 0
            end) [1; 2; 3; 4] = [1; 3; 13; 75].
Proof. by vm_compute. Qed.

(** time.rs:448-497. *)
Example test_wrong_instructions :
  let graph := [[(5, [])]; [(2, [5]); (8, [5])]; [(4, [8; 5])]] in
  let m : gmap nat nat := list_to_map [(5, 0); (8, 1); (2, 2); (4, 3)] in
  from_dependency_graph (T := Partitioner) graph (dependency_buffer_new 5) None = Panic ∧
  (let* t := from_dependency_graph (T := Partitioner) graph (dependency_buffer_new 5) (Some m) in
   let* '(t, r1) := time_focus_inplace Debug t [5] in
   let* '(t, r2) := time_focus_inplace Debug t [1] in
   let* '(t, r3) := time_focus_inplace Debug t [0] in
   let* '(t, r4) := time_focus_inplace Debug t [0] in
   Val [r1; r2; r3; r4])
  = Val [Err (mkNotMeasurable [5]); Err (mkNotMeasurable [1]); Ok tt; Err (mkNotMeasurable [0])].
Proof. by vm_compute. Qed.

(** ** [xdocs/scheduler.md] *)

(** xdocs/scheduler.md:80-112: all paths with their memory. *)
Example doc_all_paths :
  (let* b := graph_buffer_new [(0, 1); (0, 2); (1, 3); (3, 2)] 4 None false in
   let* t := from_dependency_graph example_ordering (dependency_buffer_new 4) None in
   Val (get_all_paths (H := scheduler_focus_iterator Debug) 100 [] (mkScheduler t (graph_new b))))
  = Val (Some (Val [([[0]; [3; 1]; [2]], 3%N); ([[0]; [1]; [3]; [2]], 3%N); ([[0]; [3]; [1; 2]], 3%N);
                    ([[0]; [3]; [2]; [1]], 3%N); ([[0]; [3]; [1]; [2]], 3%N)])).
Proof. by vm_compute. Qed.

(** xdocs/scheduler.md:157-176: the best of them for each length. *)
Example doc_best :
  map_to_list (filtered_all
    [([[0]; [3; 1]; [2]], 3%N); ([[0]; [1]; [3]; [2]], 3%N); ([[0]; [3]; [1; 2]], 3%N);
     ([[0]; [3]; [2]; [1]], 3%N); ([[0]; [3]; [1]; [2]], 3%N)])
  ≡ₚ [(3, (3%N, [[0]; [3; 1]; [2]])); (4, (3%N, [[0]; [1]; [3]; [2]]))].
Proof. apply (bool_decide_unpack _). by vm_compute. Qed.

(** xdocs/scheduler.md:181-285: the search with skipping and the final filter. *)
Example doc_search :
  match search_single Debug 1000 (λ _, false) id square square_order None with
  | Some (Val ps) => ps
  | _ => []
  end = [MkPath 3 3 [[0]; [3; 1]; [2]]].
Proof. by vm_compute. Qed.
