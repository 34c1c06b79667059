(** * A multi threaded search that returns less if it is given more time *)
From Verif Require Export ThreadedWitness.

Definition longer : spacial := [[8]; [2]; [1]; [6]; []; []; [3]; []; [0]; []].
Definition longer_order : order :=
  [[(0, []); (1, [])];
   [(2, [0]); (3, [0]); (4, [1]); (5, [0]); (6, [1]); (7, [1]); (8, [0]); (9, [1])]].

Lemma longer_wf : wf_input longer longer_order.
Proof. by apply wf_input_checked; vm_compute. Qed.

(** The common beginning of two executions with two workers and four tasks: task 0
    runs to its end, task 1 performs 1000 iterations. *)
Definition longer_pre : list event :=
  EStart 0 :: repeat (EIter 0 false) 291 ++ EEnd 0 :: EStart 1 :: repeat (EIter 1 false) 1000.

(** In its next iteration task 1 finds that the time is over and ends; task 2 finds
    the same after its first 1001 iterations. *)
Definition short_post : list event :=
  EEnd 1 :: EStart 2 :: repeat (EIter 2 true) 1001 ++ [EEnd 2; EStart 3; EIter 3 true; EEnd 3].

(** Without timeout: task 1 performs one more iteration, the other worker executes
    tasks 2 and 3, then task 1 runs to its end. *)
Definition long_post : list event :=
  EIter 1 false :: EStart 2 :: repeat (EIter 2 false) 2348 ++ EEnd 2 ::
  EStart 3 :: EIter 3 false :: EEnd 3 :: repeat (EIter 1 false) 1040 ++ [EEnd 1].

Definition longer_world (es : list event) : World := mkWorld 100 (λ _, false) es id (λ _ _, f64_one).

Definition short_paths : list path :=
  [MkPath 2 8 [[0; 1]; [2; 3; 5; 8; 4; 6; 7; 9]];
   MkPath 3 4 [[0; 1]; [2; 8; 7; 9]; [3; 5; 4; 6]];
   MkPath 4 3 [[0]; [1; 2; 8]; [4; 7; 9]; [3; 5; 6]];
   MkPath 6 2 [[0]; [5; 8]; [1; 2]; [7; 9]; [3; 6]; [4]]].
Definition long_paths : list path :=
  [MkPath 2 8 [[0; 1]; [2; 3; 5; 8; 4; 6; 7; 9]];
   MkPath 3 4 [[0; 1]; [2; 8; 7; 9]; [3; 5; 4; 6]];
   MkPath 4 3 [[0]; [1; 2; 8]; [4; 7; 9]; [3; 5; 6]]].

Lemma short_result :
  search Release (longer_world (longer_pre ++ EIter 1 true :: short_post)) longer longer_order 2 None 100000
  = Some (Val short_paths).
Proof. by vm_compute. Qed.

Lemma long_result :
  search Release (longer_world (longer_pre ++ EIter 1 false :: long_post)) longer longer_order 2 None 100000
  = Some (Val long_paths).
Proof. by vm_compute. Qed.

Lemma threaded_longer_worse :
  ¬ (∀ adj g nthreads bound bd w w' pre i post post' ps ps',
     wf_input adj g → 2 ≤ nthreads → (∀ l, w_hash_order w l ≡ₚ l) → (∀ l, w_hash_order w' l ≡ₚ l) →
     (* two executions that do the same until a task finds the timer finished in the first one only *)
     w_events w = pre ++ EIter i true :: post → w_events w' = pre ++ EIter i false :: post' →
     no_timeout pre → no_timeout post' →
     search bd w adj g nthreads None bound = Some (Val ps) →
     search bd w' adj g nthreads None bound = Some (Val ps') →
     ∀ p, p ∈ ps → ∃ p', p' ∈ ps' ∧ time p' ≤ time p ∧ (space p' <= space p)%N).
Proof.
  intros H.
  destruct (H longer longer_order 2 100000%Z Release (longer_world (longer_pre ++ EIter 1 true :: short_post))
      (longer_world (longer_pre ++ EIter 1 false :: long_post)) longer_pre 1 short_post long_post
      short_paths long_paths) with (MkPath 6 2 [[0]; [5; 8]; [1; 2]; [7; 9]; [3; 6]; [4]]) as (p' & Hp' & _ & Hs).
  - exact longer_wf.
  - done.
  - done.
  - done.
  - done.
  - done.
  - apply no_timeout_checked. by vm_compute.
  - apply no_timeout_checked. by vm_compute.
  - exact short_result.
  - exact long_result.
  - unfold short_paths. do 3 right. left.
  - simpl in Hs. unfold long_paths in Hp'.
    repeat (apply elem_of_cons in Hp' as [->|Hp']; [simpl in Hs; lia|]). by apply elem_of_nil in Hp'.
Qed.
