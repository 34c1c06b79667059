(** * Sweeping through a tree: histories of a [Sweep] and collecting its paths *)
From Verif Require Export Base Combinatoric Tree Space Time Scheduler Search.

Section sweeping.
  Context {T Item Leaf : Type} `{FocusIterator T Item Leaf}.

  (** [sweep_run s tr s']: repeated calls of [next] bring the sweep from [s] to
      [s'] and return the steps [tr]. *)
  Inductive sweep_run : Sweep T → list (Step Item (option Leaf)) → Sweep T → Prop :=
  | run_nil s : sweep_run s [] s
  | run_next s st s' tr s'' :
      sweep_next s = Val (s', Some st) → sweep_run s' tr s'' → sweep_run s (st :: tr) s''.

  (** Calls of [next] and successful calls of [skip_current], in any order;
      [d] counts the forward steps minus the backward steps and the skips. *)
  Inductive sweep_history : Sweep T → Z → Sweep T → Prop :=
  | hist_nil s : sweep_history s 0 s
  | hist_forward s d s' i s'' :
      sweep_history s d s' → sweep_next s' = Val (s'', Some (Forward i)) → sweep_history s (d + 1) s''
  | hist_backward s d s' l s'' :
      sweep_history s d s' → sweep_next s' = Val (s'', Some (Backward l)) → sweep_history s (d - 1) s''
  | hist_end s d s' s'' :
      sweep_history s d s' → sweep_next s' = Val (s'', None) → sweep_history s d s''
  | hist_skip s d s' s'' :
      sweep_history s d s' → skip_current s' = (s'', Ok tt) → sweep_history s (d - 1) s''.

  (** One round of the loop of [get_all_paths] in the tests of time.rs:390-407
      (also the protocol described in xdocs/scheduler.md): push on [Forward],
      record on [Backward(Some)], pop on [Backward].  State: sweep, path,
      results; the item of the leaf is recorded together with the path. *)
  Definition collect_body (s : Sweep T * list Item * list (list Item * Leaf))
      : out ((Sweep T * list Item * list (list Item * Leaf)) + list (list Item * Leaf)) :=
    let '(sw, path, results) := s in
    let* '(sw, st) := sweep_next sw in
    match st with
    | None => Val (inr results)
    | Some (Forward i) => Val (inl (sw, path ++ [i], results))
    | Some (Backward (Some leaf)) => Val (inl (sw, pop path, results ++ [(path, leaf)]))
    | Some (Backward None) => Val (inl (sw, pop path, results))
    end.

  (** [get_all_paths], time.rs:390-407, starting with the given path. *)
  Definition get_all_paths (fuel : nat) (path : list Item) (t : T)
      : option (out (list (list Item * Leaf))) :=
    loop collect_body fuel (sweep_new t, path, []).
End sweeping.
