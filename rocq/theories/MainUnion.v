(** * Final statements about the merging of the results of the tasks *)
From Verif Require Export MainThreaded ThreadedUnion.
From Verif Require Export Spec.

Lemma submitted_cover bd adj g bound jobs :
  wf_input adj g → submitted bd adj g bound jobs →
  sys_inv adj g (system_init (length adj) jobs) ∧
  ((∃ b, listed g b) → ∀ σ, valid_schedule g σ → gcov adj (system_init (length adj) jobs) σ).
Proof.
  intros Hin (root & E & f0 & Hj).
  destruct (submitted_core adj g bound Hin)
    as (root' & cs & rest & E' & Hn & Hf & _ & _ & Hdet & Hbd & Hcs & Hrest & Hpend & _).
  assert (root' = root) as -> by congruence.
  specialize (Hj f0 (le_n _)). apply Hdet in Hj. injection Hj as ->. split.
  { apply (system_init_inv adj g). apply (spawned_ok adj g); done. }
  intros [b0 Hb0] σ Hσ.
  assert (pending σ [] [root]) as Hp.
  { destruct σ as [|B τ].
    { apply (vs_complete _ _ Hσ) in Hb0. simpl in Hb0. by apply elem_of_nil in Hb0. }
    assert (legal_prefix g ([] ++ [B])) as Hl.
    { apply (legal_prefix_app g _ τ). apply Hσ. }
    destruct (fresh_item adj g [] root B Hn Hf Hl) as (a & b & Hi & Hpm).
    apply (pend_here (B :: τ) _ _ _ a b τ); [done| |].
    - intros ->. apply Permutation_nil in Hpm. subst B. apply legal_snoc in Hl as (_ & ? & _). done.
    - simpl. constructor; [done|apply same_schedule_refl]. }
  destruct (Hpend σ Hσ Hp) as [(c & Hc & Hcov)|Hr].
  - apply elem_of_list_lookup in Hc as [i Hi]. exists i, (Waiting (mkJob c.1 (Some c.2))).
    split.
    + unfold system_init, spawned. cbn [sys_tasks]. rewrite map_app.
      rewrite lookup_app_l by (rewrite !map_length; by eapply lookup_lt_Some).
      rewrite !list_lookup_fmap, Hi. done.
    + simpl. destruct Hcov as [?|[? ?]]; [by left|right]. done.
  - exists (length cs), (Waiting (mkJob rest None)). split.
    + unfold system_init, spawned. cbn [sys_tasks]. rewrite map_app.
      rewrite lookup_app_r by (rewrite !map_length; lia). rewrite !map_length, Nat.sub_diag. done.
    + simpl. by left.
Qed.

(** ** Nothing is lost before the merging *)

Lemma threaded_collected :
  ∀ adj g nthreads bound bd jobs es sys,
  wf_input adj g → (∃ b, listed g b) → no_timeout es → submitted bd adj g bound jobs →
  run_events bd nthreads None (system_init (length adj) jobs) es = Some (Val sys) →
  all_finished sys = true →
  let fs := collected bd nthreads None (system_init (length adj) jobs) es in
  (* the results of the tasks are schedules ... *)
  (∀ r t m q, r ∈ fs → r !! t = Some (m, q) →
     valid_schedule g q ∧ time_cost q = t ∧ cost adj q = m) ∧
  (* ... and for every schedule some task has one that is at least as good *)
  (∀ σ, valid_schedule g σ →
     ∃ r t m q, r ∈ fs ∧ r !! t = Some (m, q) ∧ t ≤ time_cost σ ∧ (m <= cost adj σ)%N).
Proof.
  intros adj g nthreads bound bd jobs es sys Hin Hl Hto Hsub Hrun Hf fs.
  destruct (submitted_cover bd adj g bound jobs Hin Hsub) as [Hs Hcov].
  pose proof (uinv_run adj g Hin bd nthreads _ es sys [] Hs (uinv_init adj g jobs) Hrun) as Hu.
  rewrite app_nil_l in Hu. fold fs in Hu.
  destruct (run_events_ssteps adj g Hin _ _ _ _ _ _ Hs Hrun) as (_ & [(sys' & [= <-] & Hst)|[? _]]); [|done].
  simpl in Hst. split.
  - intros r t m q Hr Hrt. destruct (u_sound _ _ _ _ Hu r Hr t m q Hrt) as (? & ? & ?). done.
  - intros σ Hσ. pose proof (ssteps_inv adj g Hin _ _ _ _ Hs Hst) as Hs'.
    pose proof (gcov_steps adj g Hin _ _ _ _ Hs Hσ Hto Hst (Hcov Hl σ Hσ)) as Hc.
    apply gcov_finished in Hc; [|done].
    pose proof (valid_length adj g Hin σ Hσ) as Hlen.
    destruct (lookup_lt_is_Some_2 (sys_best sys) (length σ)) as [a Ha].
    { rewrite (si_length _ _ _ (sy_shared _ _ _ Hs')). lia. }
    specialize (Hc a Ha). pose proof (cost_lt_max adj g Hin σ) as Hmax.
    destruct (uinv_finished adj g sys fs _ _ Hf Hu Ha) as (r & t & m & q & Hr & Ht & Hm & Hrt); [lia|].
    exists r, t, m, q. split; [done|]. split; [done|]. split; [done|lia].
Qed.

(** ** Merging by comparing the results *)

Lemma keep_better_lookup a b t :
  keep_better a b !! t =
    match a !! t, b !! t with
    | Some x, Some y => Some (if (y.1 <? x.1)%N then y else x)
    | Some x, None => Some x
    | None, o => o
    end.
Proof. unfold keep_better. rewrite lookup_union_with. by destruct (a !! t), (b !! t). Qed.

Lemma keep_better_all fs acc :
  (∀ t x, foldl keep_better acc fs !! t = Some x → acc !! t = Some x ∨ ∃ r, r ∈ fs ∧ r !! t = Some x) ∧
  (∀ t x, acc !! t = Some x → ∃ y, foldl keep_better acc fs !! t = Some y ∧ (y.1 <= x.1)%N) ∧
  (∀ r t x, r ∈ fs → r !! t = Some x → ∃ y, foldl keep_better acc fs !! t = Some y ∧ (y.1 <= x.1)%N).
Proof.
  revert acc. induction fs as [|f fs IH]; intros acc; simpl.
  - split; [by left|]. split.
    + intros t x Hx. exists x. split; [done|lia].
    + intros r t x Hr. by apply elem_of_nil in Hr.
  - destruct (IH (keep_better acc f)) as (I1 & I2 & I3).
    assert (∀ t x, acc !! t = Some x ∨ f !! t = Some x →
      ∃ y, keep_better acc f !! t = Some y ∧ (y.1 <= x.1)%N) as Hk.
    { intros t x Hx. rewrite keep_better_lookup.
      destruct (acc !! t) as [a|], (f !! t) as [b|]; destruct Hx as [Hx|Hx]; try done;
        injection Hx as ->; (eexists; split; [reflexivity|]); try lia;
        destruct (N.ltb_spec b.1 x.1) || destruct (N.ltb_spec x.1 a.1); simpl; lia. }
    assert (∀ t x, acc !! t = Some x ∨ f !! t = Some x →
      ∃ y, foldl keep_better (keep_better acc f) fs !! t = Some y ∧ (y.1 <= x.1)%N) as Hk2.
    { intros t x Hx. destruct (Hk t x Hx) as (y & Hy & ?). destruct (I2 t y Hy) as (z & Hz & ?).
      exists z. split; [done|lia]. }
    split; [|split].
    + intros t x Hx. destruct (I1 t x Hx) as [H|(r & Hr & Hrt)].
      * rewrite keep_better_lookup in H.
        destruct (acc !! t) as [a|]; [|right; exists f; split; [left|done]].
        destruct (f !! t) as [b|] eqn:Ef; [|by left].
        destruct (b.1 <? a.1)%N; injection H as <-; [right; exists f; split; [left|done]|by left].
      * right. exists r. split; [by right|done].
    + intros t x Hx. apply Hk2. by left.
    + intros r t x [->|Hr]%elem_of_cons Hrt; [apply Hk2; by right|by eapply I3].
Qed.

Lemma threaded_keep_better :
  ∀ adj g nthreads bound bd jobs es sys hash_order,
  wf_input adj g → (∃ b, listed g b) → no_timeout es → submitted bd adj g bound jobs →
  run_events bd nthreads None (system_init (length adj) jobs) es = Some (Val sys) →
  all_finished sys = true → (∀ l, hash_order l ≡ₚ l) →
  ∃ ps, finish hash_order (length adj)
          (foldl keep_better ∅ (collected bd nthreads None (system_init (length adj) jobs) es)) = Val ps ∧
    pareto_front adj g ps.
Proof.
  intros adj g nthreads bound bd jobs es sys ho Hin Hl Hto Hsub Hrun Hf Hho.
  destruct (threaded_collected _ _ _ _ _ _ _ _ Hin Hl Hto Hsub Hrun Hf) as [Hsd Hcov].
  set (fs := collected bd nthreads None (system_init (length adj) jobs) es) in *.
  destruct (keep_better_all fs ∅) as (K1 & _ & K3).
  assert (sound adj g (foldl keep_better ∅ fs)) as Hs.
  { intros t m q Hr. destruct (K1 _ _ Hr) as [H|(r & Hr' & Hrt)]; [by rewrite lookup_empty in H|].
    destruct (Hsd r t m q Hr' Hrt) as (? & ? & ?). done. }
  destruct (finish_spec ho Hho (length adj) (foldl keep_better ∅ fs)) as (ps & Eps & _ & _ & Hps).
  exists ps. split; [done|]. split; [|split].
  - apply Forall_forall. intros p Hp. apply Hps in Hp as (_ & Hp & _).
    apply Hs in Hp as (Hv & Ht & Hc). by split.
  - by eapply finish_tradeoff.
  - intros σ Hσ. destruct (Hcov σ Hσ) as (r & t & m & q & Hr & Hrt & Ht & Hm).
    destruct (K3 r t _ Hr Hrt) as ([m' q'] & Hy & Hle). simpl in Hle.
    pose proof (valid_length adj g Hin σ Hσ) as Hlen. unfold time_cost in Ht.
    pose proof (cost_lt_max adj g Hin σ) as Hmax.
    destruct (finish_matches _ Hho _ _ _ t m' q' Eps Hy) as (p & Hp & Hp1 & Hp2); [lia|lia|].
    exists p. split; [done|]. split; [unfold time_cost; lia|]. etrans; [exact Hp2|]. etrans; [exact Hle|]. exact Hm.
Qed.

(** ** Undisturbed executions *)

Lemma threaded_undisturbed :
  ∀ adj g nthreads bound bd w o,
  wf_input adj g → 2 ≤ nthreads → (∀ l, w_hash_order w l ≡ₚ l) → (∃ b, listed g b) →
  no_timeout (w_events w) → undisturbed (w_events w) →
  search bd w adj g nthreads None bound = Some o →
  ∃ ps, o = Val ps ∧ pareto_front adj g ps.
Proof.
  intros adj g nthreads bound bd w o Hin Hnt Hho Hl Hto Hun H.
  destruct (threaded_valid _ _ _ _ _ _ _ _ Hin Hnt Hho H) as [_ [(ps & -> & Hvalid & Htr)|[_ Hc]]]; [|by exfalso; apply Hc].
  destruct (threaded_core _ _ _ _ _ _ _ _ Hin Hnt H) as [_ [[_ Hc]|(jobs & sys & Hs & Hst & Hf & Eo & Hcov)]]; [by exfalso; apply Hc|].
  symmetry in Eo. simpl in Hst.
  exists ps. split; [done|]. split; [done|]. split; [done|]. intros σ Hσ.
  pose proof (ssteps_inv adj g Hin _ _ _ _ Hs Hst) as Hs'.
  pose proof (gcov_steps adj g Hin _ _ _ _ Hs Hσ Hto Hst (Hcov Hl σ Hσ)) as Hc.
  apply gcov_finished in Hc; [|done].
  destruct (vinv_steps adj g Hin (w_events w) _ (w_events w) None _ _ [] Hun eq_refl ltac:(done) Hs
    (vinv_init adj g (w_events w) jobs) Hst) as [cur Hv].
  destruct (vinv_finished adj g _ _ _ Hf Hv) as [Hw _].
  pose proof (valid_length adj g Hin σ Hσ) as Hlen.
  destruct (lookup_lt_is_Some_2 (sys_best sys) (length σ)) as [a Ha].
  { rewrite (si_length _ _ _ (sy_shared _ _ _ Hs')). lia. }
  specialize (Hc a Ha). pose proof (cost_lt_max adj g Hin σ) as Hmax.
  destruct (Hw _ _ Ha) as (t & q & Ht & Hr); [lia|].
  destruct (finish_matches _ Hho _ _ _ t a q Eo Hr) as (p & Hp & Hp1 & Hp2); [lia|lia|].
  exists p. split; [done|]. split; [unfold time_cost; lia|]. unfold cost in Hc. lia.
Qed.

(** Tasks that run one after the other are undisturbed. *)
Fixpoint one_at_a_time (cur : option nat) (es : list event) : bool :=
  match es with
  | [] => true
  | EStart i :: es => match cur with None => one_at_a_time (Some i) es | Some _ => false end
  | EIter i _ :: es => match cur with Some k => (k =? i) && one_at_a_time cur es | None => false end
  | EEnd i :: es => match cur with Some k => (k =? i) && one_at_a_time None es | None => false end
  end%bool.

Lemma one_at_a_time_inside i between e after :
  one_at_a_time (Some i) (between ++ e :: after) = true → EEnd i ∉ between → task_of e = i.
Proof.
  induction between as [|x between IH]; simpl.
  - destruct e as [k|k f|k]; simpl; [done| |]; intros [Hk%Nat.eqb_eq _]%andb_true_iff; done.
  - rewrite not_elem_of_cons. destruct x as [k|k f|k]; [done| |]; intros [Hk%Nat.eqb_eq H]%andb_true_iff [Hx Hno].
    + by apply IH.
    + by subst k.
Qed.

Lemma one_at_a_time_undisturbed es cur : one_at_a_time cur es = true → undisturbed es.
Proof.
  intros H before i between e after Hes _ Hno. left.
  assert (one_at_a_time (Some i) (between ++ e :: after) = true) as H'; [|by eapply one_at_a_time_inside].
  subst es. clear Hno. revert cur H. induction before as [|x before IH]; intros cur; simpl.
  - by destruct cur.
  - destruct x as [k|k f|k], cur as [c|]; try done; try apply IH; intros [_ H]%andb_true_iff; by eapply IH.
Qed.
