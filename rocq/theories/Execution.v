(** * Model of the example program [python_lib/examples/compile_flow.py]: compiling two
      widgets, scheduling them, and executing the patterns

    The classes [Frames], [PauliStack] and [PauliTuple] of the Python package
    [pauli_tracker] are not part of the repository; what the example uses of them is
    modelled by its meaning: Pauli operators up to the phase are pairs of bits (Z, X), as
    in the comments of compile_flow.py:148-150, and gates conjugate them.

    Simplifications: frames are stored qubit after qubit (the transposed form that the
    example stores, compile_flow.py:61-66), the qubits are labelled from 0 on without
    gaps (compile_flow.py:222-223), and a gate on a qubit that does not exist changes
    nothing.  A raised exception is [None].  The lines marked "pseudo" in the example are
    what the recorded list of corrections stands for. *)
From Verif Require Export Python.

(** A [PauliTuple], Z part and X part, and its product up to the phase. *)
Notation pauli := (bool * bool)%type.
Definition pauli_mul (a b : pauli) : pauli := (xorb a.1 b.1, xorb a.2 b.2).

(** A [PauliStack] over the qubits: one operator per qubit. *)
Notation frame := (list (bool * bool)).

(** [PauliStack.zeros(n)], compile_flow.py:122 and 153. *)
Definition zeros (n : nat) : frame := replicate n (false, false).

(** [frames.get_and_add_to_stack(idx, stack)], compile_flow.py:138 and 158-164. *)
Definition get_and_add_to_stack (frames : list frame) (idx : nat) (stack : frame) : option frame :=
  f ← frames !! idx; Some (zip_with pauli_mul stack f).

(** ** Tracking *)

(** The gates of the example. *)
Inductive gate :=
| GH (a : nat)
| GCz (a b : nat)
| GCy (control target : nat)
| GISwap (a b : nat)
| GNewQubit.

(** What a gate does to one frame: conjugation. *)
Definition at_qubit (f : frame) (a : nat) : pauli := default (false, false) (f !! a).
Definition conjugate (g : gate) (f : frame) : frame :=
  match g with
  | GH a => <[a := ((at_qubit f a).2, (at_qubit f a).1)]> f
  | GCz a b =>
      let '(za, xa) := at_qubit f a in
      let '(zb, xb) := at_qubit f b in
      <[b := (xorb zb xa, xb)]> (<[a := (xorb za xb, xa)]> f)
  | GCy c t =>
      let '(zc, xc) := at_qubit f c in
      let '(zt, xt) := at_qubit f t in
      <[t := (xorb zt xc, xorb xt xc)]> (<[c := (xorb zc (xorb zt xt), xc)]> f)
  | GISwap a b =>
      let '(za, xa) := at_qubit f a in
      let '(zb, xb) := at_qubit f b in
      <[b := (xorb za (xorb xa xb), xa)]> (<[a := (xorb zb (xorb xa xb), xb)]> f)
  | GNewQubit => f ++ [(false, false)]
  end.

(** [Frames]: number of qubits and frames.  [Frames(n)], a gate, [track_z(a)],
    [track_x(a)], [track_y(a)]. *)
Record Tracker := mkTracker { tr_qubits : nat; tr_frames : list frame }.
Definition tracker_new (n : nat) : Tracker := mkTracker n [].
Definition tracker_gate (g : gate) (t : Tracker) : Tracker :=
  mkTracker (match g with GNewQubit => S (tr_qubits t) | _ => tr_qubits t end)
    (map (conjugate g) (tr_frames t)).
Definition track (p : pauli) (a : nat) (t : Tracker) : Tracker :=
  mkTracker (tr_qubits t) (tr_frames t ++ [<[a := p]> (zeros (tr_qubits t))]).
Definition track_z := track (true, false).
Definition track_x := track (false, true).
Definition track_y := track (true, true).

(** [buffer_tracker], compile_flow.py:224-229. *)
Definition buffer_tracker (len : nat) : Tracker :=
  foldl (λ t i, track_x i (track_z i t)) (tracker_new len) (seq 0 len).

(** What is stored of a compiled widget, compile_flow.py:232-241. *)
Record Storage := mkStorage {
  st_frames : list frame;
  st_frame_flags : list nat;
  st_graph : SpacialGraph;
  st_path : PyPath;
  st_buffer : list frame
}.

(** The graph of both widgets, compile_flow.py:189 and 217. *)
Definition widget_graph : SpacialGraph := [[1; 2]; [0; 2; 3]; [0; 1]; [1; 4]; [3]].

(** [compile_widget_a], compile_flow.py:171-191: tracker, frame flags and graph. *)
Definition compile_widget_a : Tracker * list nat * SpacialGraph :=
  let t := tracker_new 3 in
  let t := tracker_gate GNewQubit t in
  let t := tracker_gate (GCz 0 3) t in
  let t := track_x 3 t in
  let flags := [0] in
  let t := tracker_gate (GCz 2 3) t in
  let t := tracker_gate GNewQubit t in
  let t := tracker_gate (GCz 2 4) t in
  let t := track_z 4 t in
  let flags := flags ++ [2] in
  let t := tracker_gate (GH 4) t in
  let t := tracker_gate (GCy 4 1) t in
  (t, flags, widget_graph).

(** The gates of [compile_widget_b], compile_flow.py:199-213; they are also applied to
    the buffer. *)
Definition widget_b_gates : list gate :=
  [GH 1; GNewQubit; GCz 2 3; GISwap 3 1; GNewQubit; GCz 1 4].

(** [compile_widget_b], compile_flow.py:194-219: tracker, frame flags, graph and buffer. *)
Definition compile_widget_b (buffer : Tracker) : Tracker * list nat * SpacialGraph * Tracker :=
  let t := tracker_new 3 in
  let t := tracker_gate (GH 1) t in
  let t := tracker_gate GNewQubit t in
  let t := tracker_gate (GCz 2 3) t in
  let t := track_x 3 t in
  let flags := [2] in
  let t := tracker_gate (GISwap 3 1) t in
  let t := tracker_gate GNewQubit t in
  let t := tracker_gate (GCz 1 4) t in
  let t := track_y 4 t in
  let flags := flags ++ [1] in
  (t, flags, widget_graph, foldl (λ t g, tracker_gate g t) buffer widget_b_gates).

(** ** Execution *)

(** [list.index]: the first position; an exception if there is none. *)
Fixpoint index_of (l : list nat) (a : nat) : option nat :=
  match l with
  | [] => None
  | b :: l => if b =? a then Some 0 else S <$> index_of l a
  end.

(** The corrections that are performed for the tuple [pauli_correction] (Z, X),
    compile_flow.py:129-132: [if … elif …]. *)
Definition performed (pauli_correction : pauli) : pauli :=
  if pauli_correction.1 then (true, false)
  else if pauli_correction.2 then (false, true)
  else (false, false).

(** What is recorded of the measurement of a qubit: the qubit, the correction read from
    the frame, the correction performed. *)
Notation record := (nat * (bool * bool) * (bool * bool))%type.

(** The body of the inner loop, compile_flow.py:125-138.  [outcome] tells what the
    measurements yield. *)
Definition execute_node (st : Storage) (outcome : nat → bool)
    (s : option (frame * list record)) (node : nat) : option (frame * list record) :=
  '(correction_frame, log) ← s;
  pauli_correction ← correction_frame !! node;
  correction_frame ←
    (if outcome node && bool_decide (node ∈ st_frame_flags st) then
       idx ← index_of (st_frame_flags st) node;
       get_and_add_to_stack (st_frames st) idx correction_frame
     else Some correction_frame);
  Some (correction_frame, log ++ [(node, pauli_correction, performed pauli_correction)]).

(** The loops, compile_flow.py:124-138, beginning with [correction_frame]. *)
Definition execute (st : Storage) (outcome : nat → bool) (correction_frame : frame)
    (steps : list (list nat)) : option (frame * list record) :=
  foldl (foldl (execute_node st outcome)) (Some (correction_frame, [])) steps.

(** Execution of the first widget, compile_flow.py:122-138. *)
Definition execute_widget_a (st : Storage) (outcome : nat → bool) : option (frame * list record) :=
  execute st outcome (zeros (length (st_graph st))) (py_steps (st_path st)).

(** Taking over the corrections of the output qubits, compile_flow.py:153-164; the
    frames of the buffer are addressed with [idx] and [idx + 1]. *)
Definition take_over_one (first second : nat → nat) (buffer : list frame)
    (s : option frame) (e : nat * pauli) : option frame :=
  let '(idx, correction) := e in
  s ← s;
  s ← (if correction.1 then get_and_add_to_stack buffer (first idx) s else Some s);
  (if correction.2 then get_and_add_to_stack buffer (second idx) s else Some s).
Definition take_over (first second : nat → nat) (buffer : list frame) (n : nat)
    (output_corrections : list pauli) : option frame :=
  foldl (take_over_one first second buffer) (Some (zeros n))
    (zip (seq 0 (length output_corrections)) output_corrections).
Definition initial_correction_frame (st : Storage) (output_corrections : list pauli) : option frame :=
  take_over (λ idx, idx) (λ idx, idx + 1) (st_buffer st) (length (st_graph st)) output_corrections.

(** Execution of the second widget, compile_flow.py:153-166. *)
Definition execute_widget_b (st : Storage) (output_corrections : list pauli)
    (outcome : nat → bool) : option (frame * list record) :=
  correction_frame ← initial_correction_frame st output_corrections;
  execute st outcome correction_frame (py_steps (st_path st)).

(** The corrections of the example, compile_flow.py:147-151. *)
Definition example_output_corrections : list pauli := [(true, false); (false, true); (true, true)].
