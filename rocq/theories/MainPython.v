(** * The Python bindings: facts *)
From stdpp Require Import strings.
From Verif Require Export Python MainInterface.
From Verif Require Import Spec.

(** The accept function is a Python callback. *)
Definition is_callback (p : option (AcceptFuncBase * option N)) : Prop :=
  ∃ f seed, p = Some (PyCustom f, seed).

(** The time ordering [time_order] stands for: an instance of the class of this
    library, or another object, which is asked for the graph after a warning. *)
Definition denotes (warn : result unit PyErr) (o : PyAny) (g : order) : Prop :=
  (is_partial_order_graph o = true ∧ extract_by_ref o = Ok g) ∨
  (is_partial_order_graph o = false ∧ (∃ u, warn = Ok u) ∧ call_into_py_graph o = Ok g).

Lemma denotes_spec warn o g : get_time_order warn o = Ok g ↔ denotes warn o g.
Proof.
  unfold get_time_order, denotes. destruct (is_partial_order_graph o).
  - split; [by left|]. by intros [[_ ?]|[? _]].
  - destruct warn as [u|e].
    + split; [right; eauto|]. by intros [[? _]|(_ & _ & ?)].
    + split; [done|]. by intros [[? _]|(_ & [u ?] & _)].
Qed.

(** A callback together with several threads is refused, before anything else
    happens. *)
Lemma py_run_callback_threads :
  ∀ bd fuel env warn adj o do_search timeout nthreads prob bound,
  is_callback prob → 2 ≤ nthreads →
  py_run bd fuel env warn adj o do_search timeout nthreads prob bound
  = Some (Val (Err (PyValueError "multi-threading with a custom Python callback is not supported"))).
Proof.
  intros bd fuel env warn adj o do_search timeout nthreads prob bound (f & seed & ->) Hn.
  unfold py_run. by assert (1 <? nthreads = true) as -> by (apply Nat.ltb_lt; lia).
Qed.

Lemma py_run_passes bd fuel env warn adj o do_search timeout nthreads prob bound :
  ¬ (is_callback prob ∧ 2 ≤ nthreads) →
  py_run bd fuel env warn adj o do_search timeout nthreads prob bound =
  match get_time_order warn o with
  | Err e => Some (Val (Err e))
  | Ok g => option_map (λ r, match r with Val ps => Val (Ok ps) | Panic => Panic end)
      (run bd fuel env adj g do_search (option_map from_secs timeout) nthreads bound
         (option_map (λ '(f, seed), (to_real f, seed)) prob))
  end.
Proof.
  intros H. unfold py_run.
  assert (match prob with
    | Some (PyCustom _, _) =>
        if 1 <? nthreads
        then Some (PyValueError "multi-threading with a custom Python callback is not supported")
        else None
    | _ => None end = None) as ->.
  { destruct prob as [[[| |f] seed]|]; try done. destruct (Nat.ltb_spec 1 nthreads); [|done].
    destruct H. split; [by exists f, seed|lia]. }
  destruct (get_time_order warn o) as [g|e]; [|done].
  by destruct (run _ _ _ _ _ _ _ _ _ _) as [[ps|]|].
Qed.

(** Otherwise, if the time ordering can be obtained, the result is that of the
    Rust function, with the timeout in seconds. *)
Lemma py_run_is_run :
  ∀ bd fuel env warn adj o g do_search timeout nthreads prob bound,
  ¬ (is_callback prob ∧ 2 ≤ nthreads) → denotes warn o g →
  py_run bd fuel env warn adj o do_search timeout nthreads prob bound =
  option_map (λ r, match r with Val ps => Val (Ok ps) | Panic => Panic end)
    (run bd fuel env adj g do_search (option_map (λ s, N.to_nat (s * 1000000000)) timeout) nthreads bound
       (option_map (λ '(f, seed), (to_real f, seed)) prob)).
Proof.
  intros bd fuel env warn adj o g do_search timeout nthreads prob bound H Ho%denotes_spec.
  rewrite py_run_passes by done. by rewrite Ho.
Qed.

(** If the time ordering cannot be obtained, the exception is passed on, without
    any search. *)
Lemma py_run_no_order :
  ∀ bd fuel env warn adj o do_search timeout nthreads prob bound,
  ¬ (is_callback prob ∧ 2 ≤ nthreads) → (∀ g, ¬ denotes warn o g) →
  ∃ e, py_run bd fuel env warn adj o do_search timeout nthreads prob bound = Some (Val (Err e)) ∧
    (extract_by_ref o = Err e ∨ warn = Err e ∨ call_into_py_graph o = Err e).
Proof.
  intros bd fuel env warn adj o do_search timeout nthreads prob bound H Ho.
  rewrite py_run_passes by done. destruct (get_time_order warn o) as [g|e] eqn:E.
  - apply denotes_spec, Ho in E. done.
  - exists e. split; [done|]. unfold get_time_order in E.
    destruct (is_partial_order_graph o); [by left|]. destruct warn; [by right; right|]. right. left. congruence.
Qed.

(** Raised exceptions: exactly the callback with several threads and the
    exceptions of the time ordering. *)
Lemma py_run_raises :
  ∀ bd fuel env warn adj o do_search timeout nthreads prob bound e,
  py_run bd fuel env warn adj o do_search timeout nthreads prob bound = Some (Val (Err e)) →
  (is_callback prob ∧ 2 ≤ nthreads) ∨ ∀ g, ¬ denotes warn o g.
Proof.
  intros bd fuel env warn adj o do_search timeout nthreads prob bound e H.
  assert (Decision (is_callback prob ∧ 2 ≤ nthreads)) as Hd.
  { apply and_dec; [|apply _]. destruct prob as [[[| |f] seed]|];
      [right; by intros (? & ? & ?)|right; by intros (? & ? & ?)|left; by exists f, seed|right; by intros (? & ? & ?)]. }
  destruct Hd as [Hc|Hc]; [by left|]. right. intros g Hg.
  rewrite (py_run_is_run _ _ _ _ _ _ g) in H by done.
  by destruct (run _ _ _ _ _ _ _ _ _ _) as [[ps|]|].
Qed.

(** While several threads are running no Python code is called. *)
Lemma py_run_threads_no_callback :
  ∀ bd fuel env warn adj o do_search timeout nthreads prob bound ps f seed,
  py_run bd fuel env warn adj o do_search timeout nthreads prob bound = Some (Val (Ok ps)) →
  2 ≤ nthreads → prob ≠ Some (PyCustom f, seed).
Proof.
  intros bd fuel env warn adj o do_search timeout nthreads prob bound ps f seed H Hn ->.
  rewrite py_run_callback_threads in H; [done| |done]. by exists f, seed.
Qed.

(** A path as seen by Python. *)
Definition py_path_ok (adj : spacial) (g : order) (p : PyPath) : Prop :=
  valid_schedule g (py_steps p) ∧ py_time p = time_cost (py_steps p) ∧
  py_space p = N.of_nat (space_cost adj (py_steps p)).

Lemma py_run_valid :
  ∀ bd fuel env warn adj o g do_search timeout nthreads prob bound r,
  wf_input adj g → (∀ l, e_hash_order env l ≡ₚ l) → denotes warn o g →
  ¬ (is_callback prob ∧ 2 ≤ nthreads) →
  py_run bd fuel env warn adj o do_search timeout nthreads prob bound = Some r →
  (∃ ps, r = Val (Ok ps) ∧ Forall (py_path_ok adj g) (into_py_paths ps) ∧ tradeoff ps) ∨
  (* a callback raised an exception *)
  r = Panic ∧ do_search = true ∧
    ∃ f seed, prob = Some (PyCustom f, seed) ∧ ¬ ∀ k a b c d e r n, ∃ x, f k a b c d e r n = Ok x.
Proof.
  intros bd fuel env warn adj o g do_search timeout nthreads prob bound r Hin Hho Ho Hc H.
  rewrite (py_run_is_run _ _ _ _ _ _ g) in H by done.
  destruct (run _ _ _ _ _ _ _ _ _ _) as [q|] eqn:E; [|done].
  destruct (run_valid _ _ _ _ _ _ _ _ _ _ _ Hin Hho E)
    as [(ps & -> & Hps & Ht)|(-> & -> & f & seed & Ef & Hf)].
  2:{ simpl in H. injection H as <-. right. split; [done|]. split; [done|].
      destruct prob as [[[| |f'] seed']|]; try done. exists f', seed'. split; [done|]. intros Hall. apply Hf.
      simpl in Ef. injection Ef as <- _. intros i k a b c d e r n.
      by destruct (Hall k a b c d e r n) as (x & ->). }
  simpl in H. injection H as <-. left. exists ps. split; [done|]. split; [|done].
  unfold into_py_paths, transformation. apply Forall_map. eapply Forall_impl; [exact Hps|].
  intros p (H1 & H2 & H3). split; [done|]. split; done.
Qed.

(** The default call returns one schedule with the fewest possible steps. *)
Lemma py_run_default_optimal :
  ∀ adj g, wf_input adj g →
  ∃ p, py_path_ok adj g p ∧ (∀ σ, valid_schedule g σ → py_time p ≤ time_cost σ) ∧
    ∀ bd env warn, ∃ fuel0, ∀ fuel, fuel0 ≤ fuel → ∃ ps,
      py_run_default bd fuel env warn adj (partial_order_graph g) = Some (Val (Ok ps)) ∧
      into_py_paths ps = [p].
Proof.
  intros adj g Hin. destruct (run_time_optimal adj g Hin) as (p & Hp & Hmin & Hr).
  exists (mkPyPath (time p) (space p) (steps p)). split; [destruct Hp as (H1 & H2 & H3); split; [done|by split]|].
  split; [done|]. intros bd env warn. destruct (Hr bd env None 1 None None) as (f0 & Hf).
  exists f0. intros fuel Hfu. exists [p]. split; [|done].
  unfold py_run_default. rewrite (py_run_is_run _ _ _ _ _ _ g); [|by intros [(? & ? & ?) _]|by left].
  cbn [option_map]. by rewrite Hf.
Qed.

(** ** Conversions *)

Lemma paths_to_python_and_back :
  (∀ ps : Paths, py_paths_new (into_py_paths ps) = ps) ∧
  (∀ qs : list PyPath, into_py_paths (py_paths_new qs) = qs) ∧
  (∀ ps : Paths, take_into_py_paths ps = (into_py_paths ps, [])) ∧
  (∀ adj : spacial, into_py_graph (py_spacial_new adj) = adj ∧
     take_into_py_graph (py_spacial_new adj) = (adj, [])).
Proof.
  repeat split.
  - intros ps. unfold py_paths_new, into_py_paths, transformation. rewrite map_map.
    rewrite <- (map_id ps) at 2. apply map_ext. by intros [].
  - intros ps. unfold py_paths_new, into_py_paths, transformation. rewrite map_map.
    rewrite <- (map_id ps) at 2. apply map_ext. by intros [].
Qed.

(** ** Construction of accept functions *)

Lemma py_accept_func_constructed :
  ∀ kind params func f,
  py_accept_func_new kind params func = Ok f ↔
  (kind = "BuiltinHeavyside"%string ∧ f = PyBuiltinHeavyside) ∨
  (kind = "ParametrizedHeavyside"%string ∧ ∃ p, params = Some p ∧ f = PyParametrizedHeavyside p) ∨
  (kind = "Custom"%string ∧ ∃ c, func = Some c ∧ f = PyCustom c).
Proof.
  intros kind params func f. unfold py_accept_func_new.
  destruct (String.eqb_spec kind "BuiltinHeavyside") as [->|H1].
  { split; [intros [= <-]; by left|]. by intros [[_ ->]|[[? _]|[? _]]]. }
  destruct (String.eqb_spec kind "ParametrizedHeavyside") as [->|H2].
  { destruct params as [p|].
    - split; [intros [= <-]; right; left; eauto|]. by intros [[? _]|[(_ & q & [= <-] & ->)|[? _]]].
    - split; [done|]. by intros [[? _]|[(_ & q & ? & ->)|[? _]]]. }
  destruct (String.eqb_spec kind "Custom") as [->|H3].
  { destruct func as [c|].
    - split; [intros [= <-]; right; right; eauto|]. by intros [[? _]|[[? _]|(_ & q & [= <-] & ->)]].
    - split; [done|]. by intros [[? _]|[[? _]|(_ & q & ? & ->)]]. }
  split; [done|]. by intros [[? _]|[[? _]|[? _]]].
Qed.

Lemma py_accept_func_rejected :
  ∀ kind params func e,
  py_accept_func_new kind params func = Err e → ∃ msg, e = PyValueError msg.
Proof.
  intros kind params func e. unfold py_accept_func_new.
  destruct (String.eqb kind "BuiltinHeavyside"); [done|].
  destruct (String.eqb kind "ParametrizedHeavyside"); [destruct params; [done|]; intros [= <-]; eauto|].
  destruct (String.eqb kind "Custom"); [destruct func; [done|]; intros [= <-]; eauto|].
  intros [= <-]; eauto.
Qed.

(** [AcceptFunc()] is the accept function that the Rust library calls default. *)
Lemma py_accept_func_default_real :
  ∃ f, py_accept_func_default = Ok f ∧ to_real f = accept_func_default.
Proof. by exists PyBuiltinHeavyside. Qed.

(** The documentation, lib.rs:174: "If `nthreads` is below 3, it will not multithread". *)
Lemma py_run_two_threads :
  ¬ ∀ bd fuel env warn adj o g nthreads bound ps ps',
    wf_input adj g → (∀ l, e_hash_order env l ≡ₚ l) → denotes warn o g → nthreads < 3 →
    py_run bd fuel env warn adj o true None nthreads None bound = Some (Val (Ok ps)) →
    returns (λ fuel, py_run bd fuel env warn adj o true None 1 None bound) (Ok ps') →
    ps = ps'.
Proof.
  intros H. set (env := lossy_env lossy_events).
  assert (denotes (Ok tt) (partial_order_graph lossy_order) lossy_order) as Hd by (by apply denotes_spec).
  assert (∀ n, ¬ (is_callback None ∧ 2 ≤ n)) as Hc by (intros n [(? & ? & ?) _]; done).
  destruct (run_optimal lossy lossy_order env None 1 None lossy_wf) as (ps' & (_ & _ & Hcov) & Hr);
    [done|apply lossy_listed|lia|done|].
  assert (run Debug 100 env lossy lossy_order true None 2 None None = Some (Val lossy_paths)) as E
    by (by vm_compute).
  apply (lossy_not_covers). rewrite (H Debug 100 env (Ok tt) lossy (partial_order_graph lossy_order)
    lossy_order 2 None lossy_paths ps'); [exact Hcov|apply lossy_wf|done|done|lia| |].
  - rewrite (py_run_is_run _ _ _ _ _ _ lossy_order) by done. simpl option_map. by rewrite E.
  - destruct (Hr Debug) as (f0 & Hf). exists f0. intros fuel Hfu.
    rewrite (py_run_is_run _ _ _ _ _ _ lossy_order) by done. simpl option_map. by rewrite Hf.
Qed.
