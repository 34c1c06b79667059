(** * Model of the random circuits of the repository's own property test

    [pauli_tracker/pauli_tracker/tests/roundtrips/tracking.rs], which
    [mbqc_scheduling/tests/roundtrip.rs] includes (line 1), and the beginning of the
    test, roundtrip.rs:46-88, where the circuits give the dependency graph.

    The types [TrackedCircuit], [Frames], [Live], [PauliStack] and [PauliTuple] of the
    crate [pauli_tracker] are not part of the repository; what is used of them is
    modelled by its meaning: Pauli operators up to the phase are pairs of bits (Z, X),
    gates conjugate them, a gate on a qubit that is not tracked, or on twice the same
    qubit, panics.  [induced_order::get_order] is a parameter.

    Simplifications: all stacks are padded to the number of frames; the number of qubits
    ever used is a [nat] (the vectors with one entry per qubit fit into the memory). *)
From stdpp Require Export gmap.
From Verif Require Export Roundtrip.

(** ** Pauli operators and gates *)

Notation Pauli := (bool * bool)%type.

(** Conjugation by the gates on one qubit. *)
Definition g_id (p : Pauli) : Pauli := p.
Definition g_s (p : Pauli) : Pauli := (xorb p.1 p.2, p.2).
Definition g_h (p : Pauli) : Pauli := (p.2, p.1).
Definition g_sh (p : Pauli) : Pauli := (xorb p.1 p.2, p.1).
Definition g_hs (p : Pauli) : Pauli := (p.2, xorb p.1 p.2).
Definition g_shs (p : Pauli) : Pauli := (p.1, xorb p.1 p.2).

(** Conjugation by the gates on two qubits, and [move_z_to_z]. *)
Definition g_cz (p q : Pauli) : Pauli * Pauli := ((xorb p.1 q.2, p.2), (xorb q.1 p.2, q.2)).
Definition g_cx (p q : Pauli) : Pauli * Pauli := ((xorb p.1 q.1, p.2), (q.1, xorb q.2 p.2)).
Definition g_cy (p q : Pauli) : Pauli * Pauli :=
  ((xorb p.1 (xorb q.1 q.2), p.2), (xorb q.1 p.2, xorb q.2 p.2)).
Definition g_swap (p q : Pauli) : Pauli * Pauli := (q, p).
Definition g_iswap (p q : Pauli) : Pauli * Pauli :=
  ((xorb q.1 (xorb p.2 q.2), q.2), (xorb p.1 (xorb p.2 q.2), p.2)).
Definition g_move_z_to_z (p q : Pauli) : Pauli * Pauli := ((false, p.2), (xorb q.1 p.1, q.2)).

(** ** Operations *)

(** [Operation], tracking.rs:480-513. *)
Inductive Operation :=
| OpI (b : N) | OpX (b : N) | OpY (b : N) | OpZ (b : N)
| OpS (b : N) | OpSdg (b : N) | OpSz (b : N) | OpSzdg (b : N) | OpHxy (b : N)
| OpH (b : N) | OpSy (b : N) | OpSydg (b : N)
| OpSH (b : N) | OpHS (b : N)
| OpSHS (b : N) | OpSx (b : N) | OpSxdg (b : N) | OpHyz (b : N)
| OpCz (a b : N) | OpCx (a b : N) | OpCy (a b : N)
| OpSwap (a b : N) | OpISwap (a b : N) | OpISwapdg (a b : N)
| OpTeleportedX (a b : N) | OpTeleportedY (a b : N) | OpTeleportedZ (a b : N)
| OpRz (b : N) | OpMeasure (b : N) | OpNewQubit (b : N).

(** A circuit with its tracker: the methods of [TrackedCircuit] and the trait
    [ExtendCircuit], tracking.rs:418-428; [O] is [Output]. *)
Record ExtendCircuit (C O : Type) := mkExtendCircuit {
  x_gate1 : (Pauli → Pauli) → nat → C → out C;
  x_gate2 : (Pauli → Pauli → Pauli * Pauli) → nat → nat → C → out C;
  x_measure : nat → C → out C;
  x_new_qubit : nat → C → out C;
  x_z_rotation_teleportation : nat → nat → C → out (C * O);
  x_pauli_teleportation : nat → nat → Pauli → C → out (C * O)
}.
Arguments x_gate1 {C O}. Arguments x_gate2 {C O}. Arguments x_measure {C O}.
Arguments x_new_qubit {C O}. Arguments x_z_rotation_teleportation {C O}.
Arguments x_pauli_teleportation {C O}.

(** ** The instructor *)

(** [Instructor], tracking.rs:212-216, without the operations, together with the
    circuit and the measurements that [apply] changes: [store] receives pairs (qubit,
    result), of which [WhereMeasured] (tracking.rs:401-408) keeps the qubit and
    [ResultMeasured] (409-416) the result. *)
Record Instructor (C O : Type) := mkInstructor {
  i_used : nat;
  i_memory : list nat;
  i_circuit : C;
  i_measurements : list (nat * O)
}.
Arguments mkInstructor {C O}. Arguments i_used {C O}. Arguments i_memory {C O}.
Arguments i_circuit {C O}. Arguments i_measurements {C O}.

(** [Instructor::new], tracking.rs:219-225. *)
Definition instructor_new {C O} (init : nat) (circuit : C) : Instructor C O :=
  mkInstructor init (seq 0 init) circuit [].

(** [idx], tracking.rs:343-345: a remainder by zero panics. *)
Definition mem_pos (memory : list nat) (bit : N) : out nat :=
  match memory with [] => Panic | _ => Val (N.to_nat (bit mod N.of_nat (length memory))) end.

(** [mem_idx], tracking.rs:346-348. *)
Definition mem_idx (memory : list nat) (bit : N) : out nat :=
  let* p := mem_pos memory bit in index memory p.

(** [double_mem_idx], tracking.rs:349-362. *)
Definition double_mem_idx (bd : build) (memory : list nat) (bit_a bit_b : N) : out (option (nat * nat)) :=
  if length memory =? 1 then Val None
  else
    let* a := mem_pos memory bit_a in
    let* b := mem_pos memory bit_b in
    let* b := (if a =? b then let* bit_b := add_usize bd bit_b 1 in mem_pos memory bit_b else Val b) in
    let* x := index memory a in
    let* y := index memory b in
    Val (Some (x, y)).

Section apply.
  Context {C O : Type} (X : ExtendCircuit C O) (bd : build).

  (** [new_qubit], tracking.rs:364-376. *)
  Definition instruct_new_qubit (s : Instructor C O) : out (Instructor C O) :=
    let* c := x_new_qubit X (i_used s) (i_circuit s) in
    Val (mkInstructor (i_used s + 1) (i_memory s ++ [i_used s]) c (i_measurements s)).

  (** The gates on one qubit, tracking.rs:249-266. *)
  Definition instruct_gate1 (f : Pauli → Pauli) (b : N) (s : Instructor C O) : out (Instructor C O) :=
    let* q := mem_idx (i_memory s) b in
    let* c := x_gate1 X f q (i_circuit s) in
    Val (mkInstructor (i_used s) (i_memory s) c (i_measurements s)).

  (** The gates on two qubits, tracking.rs:267-290. *)
  Definition instruct_gate2 (f : Pauli → Pauli → Pauli * Pauli) (a b : N) (s : Instructor C O)
      : out (Instructor C O) :=
    let* r := double_mem_idx bd (i_memory s) a b in
    match r with
    | None => Val s
    | Some (p, q) =>
        let* c := x_gate2 X f p q (i_circuit s) in
        Val (mkInstructor (i_used s) (i_memory s) c (i_measurements s))
    end.

  (** The rotation, tracking.rs:291-298. *)
  Definition instruct_rotation (b : N) (s : Instructor C O) : out (Instructor C O) :=
    let* bit := mem_idx (i_memory s) b in
    let* '(c, r) := x_z_rotation_teleportation X bit (i_used s) (i_circuit s) in
    let* p := mem_pos (i_memory s) b in
    let* m := index_set (i_memory s) p (i_used s) in
    Val (mkInstructor (i_used s + 1) m c (i_measurements s ++ [(bit, r)])).

  (** The teleportations, tracking.rs:299-331, with [pauli_teleportation], 378-395. *)
  Definition instruct_teleportation (p : Pauli) (a b : N) (s : Instructor C O) : out (Instructor C O) :=
    let* r := double_mem_idx bd (i_memory s) a b in
    match r with
    | None => Val s
    | Some (origin, new) =>
        let* '(c, r) := x_pauli_teleportation X origin new p (i_circuit s) in
        let* pos := mem_pos (i_memory s) a in
        let* pos := mem_pos (i_memory s) (N.of_nat pos) in
        Val (mkInstructor (i_used s) (swap_remove (i_memory s) pos) c (i_measurements s ++ [(origin, r)]))
    end.

  (** A measurement, tracking.rs:332-335. *)
  Definition instruct_measure (b : N) (s : Instructor C O) : out (Instructor C O) :=
    let* q := mem_idx (i_memory s) b in
    let* c := x_measure X q (i_circuit s) in
    let* pos := mem_pos (i_memory s) b in
    Val (mkInstructor (i_used s) (swap_remove (i_memory s) pos) c (i_measurements s)).

  (** One round of the loop of [apply], tracking.rs:241-339. *)
  Definition apply_operation (s : Instructor C O) (op : Operation) : out (Instructor C O) :=
    let* s := match i_memory s with [] => instruct_new_qubit s | _ => Val s end in
    match op with
    | OpI b | OpX b | OpY b | OpZ b => instruct_gate1 g_id b s
    | OpS b | OpSdg b | OpSz b | OpSzdg b | OpHxy b => instruct_gate1 g_s b s
    | OpH b | OpSy b | OpSydg b => instruct_gate1 g_h b s
    | OpSH b => instruct_gate1 g_sh b s
    | OpHS b => instruct_gate1 g_hs b s
    | OpSHS b | OpSx b | OpSxdg b | OpHyz b => instruct_gate1 g_shs b s
    | OpCz a b => instruct_gate2 g_cz a b s
    | OpCx a b => instruct_gate2 g_cx a b s
    | OpCy a b => instruct_gate2 g_cy a b s
    | OpSwap a b => instruct_gate2 g_swap a b s
    | OpISwap a b | OpISwapdg a b => instruct_gate2 g_iswap a b s
    | OpRz b => instruct_rotation b s
    | OpTeleportedX a b => instruct_teleportation (false, true) a b s
    | OpTeleportedY a b => instruct_teleportation (true, true) a b s
    | OpTeleportedZ a b => instruct_teleportation (true, false) a b s
    | OpMeasure b => instruct_measure b s
    | OpNewQubit _ => instruct_new_qubit s
    end.

  (** [Instructor::apply], tracking.rs:232-341. *)
  Definition instructor_apply (ops : list Operation) (s : Instructor C O) : out (Instructor C O) :=
    ofold apply_operation ops s.
End apply.

(** ** Tracking frames *)

(** One stack of Pauli operators per qubit: one for each frame. *)
Notation Stacks := (gmap nat (list (bool * bool))).

(** [TrackedCircuit<DummyCircuit, Frames<Storage>, Storage>]: the stacks of the tracked
    qubits, the number of frames, the stacks of the measured qubits. *)
Record FramesCircuit := mkFramesCircuit { fc_tracker : Stacks; fc_frames : nat; fc_storage : Stacks }.

(** [Frames::init(n)] and the empty storage, roundtrip.rs:71-75. *)
Definition frames_init (n : nat) : FramesCircuit :=
  mkFramesCircuit (list_to_map (map (λ q, (q, [])) (seq 0 n))) 0 ∅.

Definition frames_gate1 (f : Pauli → Pauli) (q : nat) (c : FramesCircuit) : out FramesCircuit :=
  match fc_tracker c !! q with
  | None => Panic
  | Some s => Val (mkFramesCircuit (<[q := map f s]> (fc_tracker c)) (fc_frames c) (fc_storage c))
  end.

Definition frames_gate2 (f : Pauli → Pauli → Pauli * Pauli) (p q : nat) (c : FramesCircuit) : out FramesCircuit :=
  if p =? q then Panic
  else
    match fc_tracker c !! p, fc_tracker c !! q with
    | Some s, Some t =>
        let r := zip_with f s t in
        Val (mkFramesCircuit (<[q := map snd r]> (<[p := map fst r]> (fc_tracker c)))
               (fc_frames c) (fc_storage c))
    | _, _ => Panic
    end.

(** [track_pauli], [track_z]: a new frame. *)
Definition frames_track (q : nat) (p : Pauli) (c : FramesCircuit) : out FramesCircuit :=
  match fc_tracker c !! q with
  | None => Panic
  | Some s =>
      Val (mkFramesCircuit
             (<[q := s ++ [p]]> ((λ t, t ++ [(false, false)]) <$> fc_tracker c))
             (S (fc_frames c)) (fc_storage c))
  end.

(** [tracker.new_qubit]. *)
Definition frames_new_qubit (q : nat) (c : FramesCircuit) : out FramesCircuit :=
  Val (mkFramesCircuit (<[q := replicate (fc_frames c) (false, false)]> (fc_tracker c))
         (fc_frames c) (fc_storage c)).

(** [measure]: the stack is removed, and dropped here. *)
Definition frames_measure (q : nat) (c : FramesCircuit) : out FramesCircuit :=
  Val (mkFramesCircuit (delete q (fc_tracker c)) (fc_frames c) (fc_storage c)).

(** [measure_and_store(q).1.unwrap()]. *)
Definition frames_measure_and_store (q : nat) (c : FramesCircuit) : out FramesCircuit :=
  match fc_tracker c !! q with
  | None => Panic
  | Some s => Val (mkFramesCircuit (delete q (fc_tracker c)) (fc_frames c) (<[q := s]> (fc_storage c)))
  end.

(** [measure_and_store_all], roundtrip.rs:79. *)
Definition frames_measure_and_store_all (c : FramesCircuit) : Stacks :=
  fc_tracker c ∪ fc_storage c.

(** tracking.rs:429-450. *)
Definition frames_circuit : ExtendCircuit FramesCircuit unit :=
  mkExtendCircuit _ _ frames_gate1 frames_gate2 frames_measure frames_new_qubit
    (λ origin new c,
      let* c := frames_new_qubit new c in
      let* c := frames_gate2 g_cx origin new c in
      let* c := frames_gate2 g_move_z_to_z origin new c in
      let* c := frames_measure_and_store origin c in
      let* c := frames_track new (true, false) c in
      Val (c, tt))
    (λ origin new pauli c,
      let* c := frames_track new pauli c in
      let* c := frames_measure_and_store origin c in
      Val (c, tt)).

(** ** Tracking with known results *)

(** [TrackedCircuit<RandomMeasurementCircuit, Live<PauliTuple>, ()>]: the operators of
    the tracked qubits, and the results of the measurements to come. *)
Record LiveCircuit := mkLiveCircuit { lc_tracker : gmap nat Pauli; lc_results : nat → bool }.

(** [Live::init(n)], tracking.rs:110 (in a comment). *)
Definition live_init (n : nat) (results : nat → bool) : LiveCircuit :=
  mkLiveCircuit (list_to_map (map (λ q, (q, (false, false))) (seq 0 n))) results.

Definition live_gate1 (f : Pauli → Pauli) (q : nat) (c : LiveCircuit) : out LiveCircuit :=
  match lc_tracker c !! q with
  | None => Panic
  | Some s => Val (mkLiveCircuit (<[q := f s]> (lc_tracker c)) (lc_results c))
  end.

Definition live_gate2 (f : Pauli → Pauli → Pauli * Pauli) (p q : nat) (c : LiveCircuit) : out LiveCircuit :=
  if p =? q then Panic
  else
    match lc_tracker c !! p, lc_tracker c !! q with
    | Some s, Some t =>
        Val (mkLiveCircuit (<[q := (f s t).2]> (<[p := (f s t).1]> (lc_tracker c))) (lc_results c))
    | _, _ => Panic
    end.

(** [track_pauli], [track_z]. *)
Definition live_track (q : nat) (p : Pauli) (c : LiveCircuit) : out LiveCircuit :=
  match lc_tracker c !! q with
  | None => Panic
  | Some s => Val (mkLiveCircuit (<[q := (xorb s.1 p.1, xorb s.2 p.2)]> (lc_tracker c)) (lc_results c))
  end.

Definition live_new_qubit (q : nat) (c : LiveCircuit) : out LiveCircuit :=
  Val (mkLiveCircuit (<[q := (false, false)]> (lc_tracker c)) (lc_results c)).

(** [self.circuit.measure]: the next result. *)
Definition live_result (c : LiveCircuit) : bool * LiveCircuit :=
  (lc_results c 0, mkLiveCircuit (lc_tracker c) (λ k, lc_results c (S k))).

(** [measure] of [TrackedCircuit]: the operator is removed, and dropped here. *)
Definition live_measure (q : nat) (c : LiveCircuit) : out LiveCircuit :=
  let '(_, c) := live_result c in
  Val (mkLiveCircuit (delete q (lc_tracker c)) (lc_results c)).

(** tracking.rs:451-478. *)
Definition live_circuit : ExtendCircuit LiveCircuit bool :=
  mkExtendCircuit _ _ live_gate1 live_gate2 live_measure live_new_qubit
    (λ origin new c,
      let* c := live_new_qubit new c in
      let* c := live_gate2 g_cx origin new c in
      let* c := live_gate2 g_move_z_to_z origin new c in
      let '(res, c) := live_result c in
      let* c := (if res then live_track new (true, false) c else Val c) in
      Val (c, res))
    (λ origin new pauli c,
      let '(res, c) := live_result c in
      let* c := (if res then live_track new pauli c else Val c) in
      Val (c, res)).

(** ** The beginning of the test *)

(** The closure at roundtrip.rs:54-64. *)
Definition prepare_operation (bd : build) (op : Operation) : out (option Operation) :=
  match op with
  | OpMeasure _ | OpNewQubit _ => Val None
  | OpRz a =>
      match (a mod 4)%N with
      | 0%N => let* b := add_usize bd a 73 in Val (Some (OpTeleportedX a b))
      | 1%N => let* b := add_usize bd a 73 in Val (Some (OpTeleportedY a b))
      | 2%N => let* b := add_usize bd a 73 in Val (Some (OpTeleportedZ a b))
      | _ => Val None
      end
  | other => Val (Some other)
  end.

(** roundtrip.rs:52-66. *)
Definition prepare_operations (bd : build) (ops : list Operation) : out (list Operation) :=
  ofold (λ l op, let* o := prepare_operation bd op in Val (l ++ option_list o)) ops [].

(** roundtrip.rs:52-79: the stacks of all qubits and where has been measured. *)
Definition test_circuit (bd : build) (ops : list Operation) (num_nodes : nat) : out (Stacks * list nat) :=
  let* ops := prepare_operations bd ops in
  let* s := instructor_apply frames_circuit bd ops (instructor_new num_nodes (frames_init num_nodes)) in
  Val (frames_measure_and_store_all (i_circuit s), map fst (i_measurements s)).

(** [roundtrip], roundtrip.rs:46-291; [get_order] is [induced_order::get_order]. *)
Definition whole_test (bd : build) (fuel : nat) (get_order : Stacks → list nat → PartialOrderGraph)
    (ops : list Operation) (edges : list (nat * nat)) (num_nodes : nat) : option (out unit) :=
  match test_circuit bd ops num_nodes with
  | Panic => Some Panic
  | Val (storage, measurements) =>
      match measurements with
      | [] => Some (Val tt)
      | _ => roundtrip bd fuel (get_order storage measurements) edges num_nodes
      end
  end.
