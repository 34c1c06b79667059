(** * Concrete executions of the multi threaded search *)
From Verif Require Export MainThreaded Check.
From Verif Require Export Spec.

(** ** A lost optimum *)

Definition lossy : spacial := [[8]; [2]; [1]; []; []; []; []; []; [0]].
Definition lossy_order : order :=
  [[(0, []); (1, [])];
   [(2, [0]); (3, [0]); (4, [1]); (5, [0]); (6, [1]); (7, [1]); (8, [0])]].

Lemma lossy_wf : wf_input lossy lossy_order.
Proof. by apply wf_input_checked; vm_compute. Qed.

(** Two workers, four tasks.  Task 0 runs to its end; task 1 performs 846
    iterations; the other worker executes tasks 2 and 3; task 1 performs its
    exchange after its 1001st iteration, runs to its end and overwrites the
    better result of task 2. *)
Definition lossy_events : list event :=
  EStart 0 :: repeat (EIter 0 false) 146 ++ EEnd 0 ::
  EStart 1 :: repeat (EIter 1 false) 846 ++
  EStart 2 :: repeat (EIter 2 false) 594 ++ EEnd 2 ::
  EStart 3 :: EIter 3 false :: EEnd 3 ::
  repeat (EIter 1 false) 180 ++ [EEnd 1].

Definition lossy_world : World :=
  mkWorld 100 (λ _, false) lossy_events id (λ _ _, f64_one).

Definition no_timeout_check (es : list event) : bool :=
  forallb (λ e, match e with EIter _ fin => negb fin | _ => true end) es.

Lemma no_timeout_checked es : no_timeout_check es = true → no_timeout es.
Proof.
  unfold no_timeout_check. rewrite forallb_forall. intros H i fin Hi%elem_of_list_In.
  specialize (H _ Hi). simpl in H. by destruct fin.
Qed.

Definition lossy_paths : list path :=
  [MkPath 2 7 [[0; 1]; [2; 3; 5; 8; 4; 6; 7]];
   MkPath 3 4 [[0; 1]; [2; 8; 6; 7]; [3; 5; 4]];
   MkPath 4 3 [[0]; [3; 5; 8]; [1; 2]; [4; 6; 7]]].

Lemma lossy_result bd :
  search bd lossy_world lossy lossy_order 2 None 100000 = Some (Val lossy_paths).
Proof. destruct bd; by vm_compute. Qed.

(** The schedule that the execution has found and lost. *)
Definition lost : schedule := [[0]; [5; 8]; [1; 2]; [6; 7]; [3; 4]].

Lemma lost_valid : valid_schedule lossy_order lost.
Proof. by apply valid_checked; vm_compute. Qed.

Lemma lossy_not_covers : ¬ covers lossy lossy_order lossy_paths.
Proof.
  intros H. destruct (H lost lost_valid) as (p & Hp & Ht & Hs).
  vm_compute in Ht, Hs.
  apply elem_of_list_In in Hp. simpl in Hp. destruct Hp as [<-|[<-|[<-|[]]]]; simpl in *; by destruct Hs.
Qed.

Lemma lossy_listed : ∃ b, listed lossy_order b.
Proof. exists 0, [(0, []); (1, [])], []. split; left. Qed.

Lemma threaded_not_optimal :
  ¬ (∀ adj g nthreads bound bd w o,
     wf_input adj g → 2 ≤ nthreads → (∀ l, w_hash_order w l ≡ₚ l) → (∃ b, listed g b) →
     no_timeout (w_events w) →
     search bd w adj g nthreads None bound = Some o →
     ∃ ps, o = Val ps ∧ pareto_front adj g ps).
Proof.
  intros H.
  destruct (H lossy lossy_order 2 100000%Z Debug lossy_world (Val lossy_paths) lossy_wf) as (ps & Hps & _ & _ & Hc).
  - done.
  - done.
  - apply lossy_listed.
  - apply no_timeout_checked. by vm_compute.
  - apply lossy_result.
  - injection Hps as <-. by apply lossy_not_covers.
Qed.

(** ** After the timeout *)

Definition lossy_jobs : list Job :=
  match search_scheduler lossy lossy_order with
  | Val root =>
      match spawn Debug 100 100000 root with Some (Val jobs) => jobs | _ => [] end
  | Panic => []
  end.

Lemma lossy_submitted : submitted Debug lossy lossy_order 100000 lossy_jobs.
Proof.
  destruct (submitted_core lossy lossy_order 100000%Z lossy_wf)
    as (root & cs & rest & E & _ & _ & _ & Hr & Hdet & _).
  exists root. split; [done|]. unfold lossy_jobs. rewrite E.
  assert (spawn Debug 100 100000 root ≠ None) as Hne.
  { vm_compute in E. injection E as <-. by vm_compute. }
  destruct (spawn Debug 100 100000 root) as [o|] eqn:Es; [|done].
  rewrite (Hdet _ _ _ Es) in *. apply Hr.
Qed.

Definition running_tasks (o : option (out System)) : list bool :=
  match o with
  | Some (Val sys) => map (λ st, match st with Running _ => true | _ => false end) (sys_tasks sys)
  | _ => []
  end.

(** The timer has finished before the first iteration; task 1 is started
    nevertheless, is still running after 1000 iterations and leaves its loop
    with the 1001st. *)
Lemma late_bound_sharp :
  running_tasks (run_events Debug 2 None (system_init 9 lossy_jobs)
    (EStart 0 :: EIter 0 true :: EStart 1 :: repeat (EIter 1 true) 1000))
  = [true; true; false; false] ∧
  running_tasks (run_events Debug 2 None (system_init 9 lossy_jobs)
    (EStart 0 :: EIter 0 true :: EStart 1 :: repeat (EIter 1 true) 1001))
  = [true; false; false; false].
Proof. by split; vm_compute. Qed.

Lemma late_start :
  ¬ (∀ adj g nthreads bound bd jobs es es' i sys,
     wf_input adj g → submitted bd adj g bound jobs →
     run_events bd nthreads None (system_init (length adj) jobs) (es ++ es') = Some (Val sys) →
     (* the timer had finished when task [i] performed an iteration *)
     EIter i true ∈ es →
     ∀ k, EStart k ∉ es').
Proof.
  intros H.
  set (es := EStart 0 :: [EIter 0 true]). set (es' := [EStart 1]).
  destruct (run_events Debug 2 None (system_init 9 lossy_jobs) (es ++ es')) as [[sys|]|] eqn:E;
    [|by vm_compute in E..].
  eapply (H lossy lossy_order 2 100000%Z Debug lossy_jobs es es' 0 sys lossy_wf lossy_submitted E).
  - right. left.
  - left.
Qed.
