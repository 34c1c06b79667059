(** * The tasks submitted to the thread pool *)
From Verif Require Export ThreadedFacts SweepFacts.

(** ** Termination, for every input *)

Lemma spawn_terminates bd bound s fuel :
  nitems s.1.1 < fuel → ∃ o, loop (spawn_body bd bound) fuel s = Some o.
Proof.
  intros Hf. apply (loop_terminates _ (λ s : Scheduler Partitioner * list Job * Z, nitems s.1.1)); [|done].
  intros [[sch jobs] k] s'. unfold spawn_body. simpl.
  destruct (scheduler_next_and_focus bd sch) as [[sch' r]|] eqn:E; [|done]. cbn [obind].
  apply scheduler_next_measure in E as (_ & Hr & _).
  destruct r as [[c M]|]; [|done]. destruct (_ =? _)%Z; [done|]. intros [= <-]. simpl. lia.
Qed.

Lemma filter_all {A} (P : A → Prop) `{∀ x, Decision (P x)} (l : list A) :
  (∀ x, x ∈ l → P x) → filter P l = l.
Proof.
  induction l as [|x l IH]; intros Hl; [done|]. rewrite filter_cons_True by (apply Hl; left).
  f_equal. apply IH. intros y Hy. apply Hl. by right.
Qed.

Definition spawned (cs : list (Scheduler (Partition nat) * list nat)) (rest : Scheduler (Partition nat))
    : list Job :=
  map (λ c, mkJob c.1 (Some c.2)) cs ++ [mkJob rest None].

Section spawn.
  Context (adj : spacial) (g : order) (Hin : wf_input adj g).
  Notation n := (length adj).
  Notation node := (node adj g).
  Let Hg : wf_order n g := proj2 Hin.

  (** The children a node still has to yield. *)
  Definition children (s : Scheduler (Partition nat)) : nat :=
    length (filter (λ it : list nat * list nat, it.2 ≠ []) (items s)).

  Lemma children_none s : no_more s → children s = 0.
  Proof.
    intros Hno. unfold children. apply length_zero_iff_nil.
    destruct (filter _ _) as [|[a b] l] eqn:E; [done|]. exfalso.
    assert ((a, b) ∈ filter (λ it : list nat * list nat, it.2 ≠ []) (items s)) as Hi by (rewrite E; left).
    apply elem_of_list_filter in Hi as [Hb Hi]. simpl in Hb. destruct Hb. by eapply Hno.
  Qed.

  Lemma children_some s a b l :
    items s = (a, b) :: l → b ≠ [] → children s = S (children (advance s)).
  Proof.
    intros E Hb. unfold children. rewrite advance_items, E. by rewrite filter_cons_True.
  Qed.

  Lemma children_fresh s : SchedulerFacts.fresh s → children s = 2 ^ length (mset s) - 1.
  Proof.
    intros Hf. unfold children. rewrite Hf. rewrite <- (splits_count (mset s)), all_splits_last.
    rewrite filter_app, !app_length, filter_cons_False by (simpl; tauto). rewrite filter_nil. simpl.
    rewrite Nat.add_0_r, Nat.add_sub. f_equal. apply filter_all. intros [a b] Hi.
    apply elem_of_list_In, in_concat in Hi as (x & Hx & Hi). apply in_map_iff in Hx as (k & <- & Hk).
    apply in_seq in Hk. apply elem_of_list_In, splits_shuffle in Hi as [Hs Ha].
    apply shuffle_length in Hs. simpl in *. intros ->. simpl in *. lia.
  Qed.

  Lemma spawn_loop fuel bound sch jobs k :
    node [] sch → children sch < fuel →
    ∃ cs rest,
      (∀ bd, loop (spawn_body bd bound) fuel (sch, jobs, k) = Some (Val (jobs ++ spawned cs rest))) ∧
      Forall (λ c, node [c.2] c.1 ∧ SchedulerFacts.fresh c.1) cs ∧ node [] rest ∧
      (∀ σ, valid_schedule g σ → pending σ [] [sch] →
         (∃ c, c ∈ cs ∧ (pending σ [c.2] [c.1] ∨ mset c.1 = [] ∧ same_schedule [c.2] σ)) ∨
         pending σ [] [rest]) ∧
      (∀ bd ps, visits_root (FI := scheduler_focus_iterator bd) [] sch ps →
         ∃ pss qs, Forall2 (λ c ps, visits (FI := scheduler_focus_iterator bd) [c.2] c.1 ps) cs pss ∧
           visits_root (FI := scheduler_focus_iterator bd) [] rest qs ∧ ps = concat pss ++ qs) ∧
      length cs = (if (k <? bound)%Z then min (Z.to_nat (bound - k)) (children sch) else children sch).
  Proof.
    revert sch jobs k. induction fuel as [|fuel IH]; intros sch jobs k Hn Hf; [lia|].
    destruct (items_cases adj g Hin [] sch Hn) as [[Hno E]|(a & b & l & child & Ei & Hbne & Hcn & Hcf & E)].
    - exists [], (advance sch). split; [|split; [constructor|split; [by apply advance_node|split; [|split]]]].
      + intros bd. simpl. unfold spawn_body. by rewrite E.
      + intros σ Hσ Hp. exfalso. inversion Hp as [? ? ? a b τ Hab Hb _|? M ? ? Hup]; subst.
        * destruct Hb. by eapply Hno.
        * inversion Hup.
      + intros bd ps Hps. exists [], []. split; [constructor|].
        inversion Hps as [? t' E'|? t' c i ps' qs E' _ _]; subst; simpl in E'; rewrite E in E'; simplify_eq.
        split; [|done].
        destruct (items_cases adj g Hin [] (advance sch)) as [[_ E2]|(a & b & l & child & Ei & Hbne & _)].
        { by apply advance_node. }
        { apply (root_end (FI := scheduler_focus_iterator bd) [] _ (advance (advance sch))), E2. }
        exfalso. apply Hbne, (Hno a). rewrite advance_items in Ei.
        destruct (items sch) as [|? ?]; [done|]. simpl in Ei. subst. right. left.
      + rewrite children_none by done. simpl. case_match; lia.
    - pose proof (children_some _ _ _ _ Ei Hbne) as Hc.
      assert (∀ σ, valid_schedule g σ → pending σ [] [sch] →
        (pending σ [b] [child] ∨ mset child = [] ∧ same_schedule [b] σ) ∨ pending σ [] [advance sch]) as Hpend.
      { intros σ Hσ Hp. destruct (pending_advance _ _ _ _ _ _ _ Ei Hp) as [Hp'|[τ Hs]]; [by right|left].
        by apply (pending_push adj g σ [] b child [] τ). }
      destruct (decide (k + 1 = bound)%Z) as [Heq|Hne].
      + exists [(child, b)], (advance sch). split; [|split; [|split; [by apply advance_node|split; [|split]]]].
        * intros bd. simpl. unfold spawn_body. rewrite E. cbn [obind].
          destruct (Z.eqb_spec (k + 1) bound); [|done]. rewrite <- app_assoc. done.
        * constructor; [done|constructor].
        * intros σ Hσ Hp. destruct (Hpend σ Hσ Hp) as [?|?]; [left|by right].
          exists (child, b). split; [left|done].
        * intros bd ps Hps.
          inversion Hps as [? t' E'|? t' c i ps' qs E' Hv Hr]; subst; simpl in E'; rewrite E in E'; simplify_eq.
          exists [ps'], qs. split; [by constructor|]. split; [done|]. simpl. by rewrite app_nil_r.
        * rewrite Hc. destruct (Z.ltb_spec k bound); [|lia]. simpl.
          replace (Z.to_nat (bound - k)) with 1 by lia. done.
      + destruct (IH (advance sch) (jobs ++ [mkJob child (Some b)]) (k + 1)%Z)
          as (cs & rest & H1 & H2 & H3 & H4 & H5 & H6).
        { by apply advance_node. } { lia. }
        exists ((child, b) :: cs), rest. split; [|split; [|split; [done|split; [|split]]]].
        * intros bd. cbn [loop]. unfold spawn_body at 1. rewrite E. cbn [obind].
          destruct (Z.eqb_spec (k + 1) bound); [done|]. rewrite H1. rewrite <- app_assoc. done.
        * by constructor.
        * intros σ Hσ Hp. destruct (Hpend σ Hσ Hp) as [?|Hp'].
          -- left. exists (child, b). split; [left|done].
          -- destruct (H4 σ Hσ Hp') as [(c & Hc1 & Hc2)|?]; [left|by right].
             exists c. split; [by right|done].
        * intros bd ps Hps.
          inversion Hps as [? t' E'|? t' c i ps' qs E' Hv Hr]; subst; simpl in E'; rewrite E in E'; simplify_eq.
          destruct (H5 bd qs Hr) as (pss & qs' & Hf2 & Hr' & ->).
          exists (ps' :: pss), qs'. split; [by constructor|]. split; [done|]. simpl. by rewrite app_assoc.
        * simpl. rewrite H6, Hc.
          destruct (Z.ltb_spec k bound), (Z.ltb_spec (k + 1) bound); try lia.
  Qed.

  Lemma spawned_ok cs rest :
    Forall (λ c, node [c.2] c.1 ∧ SchedulerFacts.fresh c.1) cs → node [] rest →
    ∀ j, j ∈ spawned cs rest → job_ok adj g j.
  Proof.
    intros Hcs Hr j Hj. unfold spawned in Hj. apply elem_of_app in Hj as [Hj|Hj].
    - apply elem_of_list_fmap in Hj as (c & -> & Hc). rewrite Forall_forall in Hcs.
      destruct (Hcs c Hc). by split.
    - apply elem_of_list_singleton in Hj as ->. split; [done|]. by intros [? ?].
  Qed.

  Lemma system_init_inv jobs :
    (∀ j, j ∈ jobs → job_ok adj g j) → sys_inv adj g (system_init n jobs).
  Proof.
    intros Hj. split; simpl.
    - split.
      + apply replicate_length.
      + apply antitone_replicate.
      + intros t a [-> _]%lookup_replicate. by left.
    - apply sound_empty.
    - intros i st Hi. rewrite list_lookup_fmap in Hi.
      destruct (jobs !! i) as [j|] eqn:E; [|done]. injection Hi as <-. simpl.
      apply Hj. by eapply elem_of_list_lookup_2.
  Qed.
End spawn.
