(** * Model of [mbqc_scheduling/src/scheduler/space.rs] *)
From Verif Require Export Base.

(** [enum State], space.rs:31-39. *)
Inductive State := Sleeping | InMemory | Measured.

(** [type Node], space.rs:24: state and (a reference to) the neighbours. *)
Notation Node := (State * list nat)%type.

(** [struct Graph], space.rs:53-57. *)
Record Graph := mkGraph {
  nodes : list Node;
  current_memory : N;
  max_memory : N
}.

(** [type SpacialGraph], space.rs:19. *)
Notation SpacialGraph := (list (list nat)).

(** [macro update!], scheduler.rs:17-24: look a bit up in a bit mapping. *)
Definition update_bit (mapping : gmap nat nat) (bit : nat) : nat :=
  default bit (mapping !! bit).

(** [macro new_body!] with [unchecked], space.rs:88-91. *)
Definition new_body_unchecked (inner : list (list nat)) (left right : nat)
    : out (list (list nat)) :=
  let* l := index inner left in
  let* inner := index_set inner left (l ++ [right]) in
  let* r := index inner right in
  index_set inner right (r ++ [left]).

(** [macro new_body!] with [checked], space.rs:79-87. *)
Definition new_body_checked (inner : list (list nat)) (left right : nat)
    : out (list (list nat)) :=
  if left =? right then Val inner
  else
    let* l := index inner left in
    if bool_decide (right ∈ l) then Val inner
    else new_body_unchecked inner left right.

(** [macro new_loop!], space.rs:63-77, and [GraphBuffer::new], space.rs:103-116. *)
Definition graph_buffer_new (edges : list (nat * nat)) (num_nodes : nat)
    (bit_mapping : option (gmap nat nat)) (check_loop_multi_edge : bool)
    : out (list (list nat)) :=
  let inner := replicate num_nodes [] in
  let body := if check_loop_multi_edge then new_body_checked else new_body_unchecked in
  match bit_mapping with
  | Some m =>
      ofold (λ inner e, body inner (update_bit m e.1) (update_bit m e.2)) edges inner
  | None => ofold (λ inner e, body inner e.1 e.2) edges inner
  end.

(** [Graph::new], space.rs:132-141. *)
Definition graph_new (graph_buffer : SpacialGraph) : Graph :=
  mkGraph (map (λ neighbors, (Sleeping, neighbors)) graph_buffer) 0 0.

(** [Graph::initialize], space.rs:158-167. *)
Definition initialize (bd : build) (g : Graph) (bit : nat) : out Graph :=
  let* n := index (nodes g) bit in
  match n.1 with
  | Sleeping =>
      let* c := add_usize bd (current_memory g) 1 in
      Val (mkGraph (<[bit := (InMemory, n.2)]> (nodes g)) c (max_memory g))
  | InMemory => Val g
  | Measured => Val g
  end.

(** [Err(AlreadyMeasured(bit))], space.rs:266. *)
Inductive AlreadyMeasured := mkAlreadyMeasured (bit : nat).

(** Common part of [macro impl_measure!], space.rs:170-191: [None] is the
    [State::Measured] arm (where nothing has been changed). *)
Definition measure_raw (bd : build) (g : Graph) (bit : nat) : out (option Graph) :=
  let* n := index (nodes g) bit in
  match n.1 with
  | Measured => Val None
  | Sleeping =>
      let* c := add_usize bd (current_memory g) 1 in
      let* g' := ofold (initialize bd) n.2
                   (mkGraph (<[bit := (Measured, n.2)]> (nodes g)) c (max_memory g)) in
      Val (Some g')
  | InMemory =>
      let* g' := ofold (initialize bd) n.2
                   (mkGraph (<[bit := (Measured, n.2)]> (nodes g))
                      (current_memory g) (max_memory g)) in
      Val (Some g')
  end.

(** [measure] (checked), space.rs:218: returns the new receiver and the result. *)
Definition measure (bd : build) (g : Graph) (bit : nat)
    : out (Graph * result unit AlreadyMeasured) :=
  let* r := measure_raw bd g bit in
  match r with
  | Some g' => Val (g', Ok tt)
  | None => Val (g, Err (mkAlreadyMeasured bit))
  end.

(** [measure_unchecked], space.rs:249 (release builds only). *)
Definition measure_unchecked (bd : build) (g : Graph) (bit : nat) : out Graph :=
  let* r := measure_raw bd g bit in
  match r with Some g' => Val g' | None => Val g end.

(** [Graph::update_memory], space.rs:220-225. *)
Definition update_memory (bd : build) (g : Graph) (len : nat) : out Graph :=
  let mx := if (max_memory g <? current_memory g)%N
            then current_memory g else max_memory g in
  let* c := sub_usize bd (current_memory g) (N.of_nat len) in
  Val (mkGraph (nodes g) c mx).

(** The [for] loop of [Graph::focus_inplace], space.rs:239-241; [?] leaves the
    receiver in the state reached so far. *)
Fixpoint measure_all (bd : build) (g : Graph) (measure_set : list nat)
    : out (Graph * result unit AlreadyMeasured) :=
  match measure_set with
  | [] => Val (g, Ok tt)
  | bit :: rest =>
      let* '(g', r) := measure bd g bit in
      match r with
      | Ok _ => measure_all bd g' rest
      | Err e => Val (g', Err e)
      end
  end.

(** [Focus::focus_inplace for Graph], space.rs:238-244. *)
Definition graph_focus_inplace (bd : build) (g : Graph) (measure_set : list nat)
    : out (Graph * result unit AlreadyMeasured) :=
  let* '(g', r) := measure_all bd g measure_set in
  match r with
  | Ok _ => let* g'' := update_memory bd g' (length measure_set) in Val (g'', Ok tt)
  | Err e => Val (g', Err e)
  end.

(** [Focus::focus for Graph], space.rs:230-237: works on a clone; the receiver
    is returned unchanged as first component. *)
Definition graph_focus (bd : build) (g : Graph) (instruction : list nat)
    : out (Graph * result Graph AlreadyMeasured) :=
  let new := g in
  let* '(new', r) := graph_focus_inplace bd new instruction in
  match r with
  | Ok _ => Val (g, Ok new')
  | Err e => Val (g, Err e)
  end.

(** [focus_inplace_unchecked], space.rs:250-255 (release builds only). *)
Definition graph_focus_inplace_unchecked (bd : build) (g : Graph) (measure_set : list nat)
    : out Graph :=
  let* g' := ofold (measure_unchecked bd) measure_set g in
  update_memory bd g' (length measure_set).

(** [focus_unchecked], space.rs:256-260 (release builds only). *)
Definition graph_focus_unchecked (bd : build) (g : Graph) (measure_set : list nat)
    : out Graph :=
  graph_focus_inplace_unchecked bd g measure_set.
