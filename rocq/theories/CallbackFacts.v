(** * Replacing the panics of an accept function *)
From Verif Require Export Callbacks.

Lemma calmed_never_panics acc : never_panics (calmed acc).
Proof. intros k a b c d e r n. unfold calmed. by destruct (acc _ _ _ _ _ _ _ _). Qed.

Definition calm_single {S} (prob : option (Accept * S)) : option (Accept * S) :=
  match prob with Some (acc, smp) => Some (calmed acc, smp) | None => None end.

Lemma calm_single_calm {S} (prob : option (Accept * S)) : calm (calm_single prob).
Proof. destruct prob as [[acc smp]|]; [|done]. apply calmed_never_panics. Qed.

Lemma calmed_extends acc : extends acc (calmed acc).
Proof. intros k a b c d e r n x H. unfold calmed. by rewrite H. Qed.

(** As long as no call panics, a function with more answers behaves in the same way. *)
Lemma probabilistic_iteration_extends bd acc acc' smp s :
  extends acc acc' →
  probabilistic_iteration bd acc smp s = Panic ∨
  probabilistic_iteration bd acc smp s = probabilistic_iteration bd acc' smp s.
Proof.
  intros Hx. destruct s as [drawn s]. unfold probabilistic_iteration.
  destruct (sweep_next _) as [[sw [[M|leaf]|]]|]; cbn [obind]; [|by right..].
  unfold probabilistic_forward. destruct (index _ _) as [m|]; [|by left]. cbn [obind].
  destruct (m <=? _)%N; [by right|]. destruct (last _) as [lb|]; [|by left]. cbn [obind].
  destruct (acc _ _ _ _ _ _ _ _) eqn:E; [|by left]. right. by rewrite (Hx _ _ _ _ _ _ _ _ _ E).
Qed.

Lemma loop_calmed {S R} (f f' : S → out (S + R)) :
  (∀ s, f s = Panic ∨ f s = f' s) → ∀ fuel s,
  loop f fuel s = Some Panic ∨ loop f fuel s = loop f' fuel s.
Proof.
  intros H fuel. induction fuel as [|fuel IH]; intros s; [by right|]. simpl.
  destruct (H s) as [->|E]; [by left|]. rewrite <- E.
  destruct (f s) as [[s'|r]|]; [apply IH|by right|by left].
Qed.

Lemma search_single_extends bd fuel timer ho adj g acc acc' smp :
  extends acc acc' →
  search_single bd fuel timer ho adj g (Some (acc, smp)) = Some Panic ∨
  search_single bd fuel timer ho adj g (Some (acc, smp)) =
    search_single bd fuel timer ho adj g (Some (acc', smp)).
Proof.
  intros Hx. unfold search_single.
  destruct (search_scheduler adj g) as [root|]; [|by left].
  unfold do_probabilistic_search.
  destruct (loop_calmed (do_probabilistic_search_body bd timer acc smp)
    (do_probabilistic_search_body bd timer acc' smp)) with (fuel := fuel)
    (s := (0, ((0, 0), search_init (sweep_new root) (length adj)))) as [-> | ->]; [|by left|by right].
  intros [k s]. unfold do_probabilistic_search_body. cbn [fst snd].
  destruct (probabilistic_iteration_extends bd acc acc' smp s Hx) as [-> | ->]; [by left|by right].
Qed.

Lemma search_single_calmed bd fuel timer ho adj g prob :
  search_single bd fuel timer ho adj g prob = Some Panic ∨
  search_single bd fuel timer ho adj g prob =
    search_single bd fuel timer ho adj g (calm_single prob).
Proof.
  destruct prob as [[acc smp]|]; [|by right]. apply search_single_extends, calmed_extends.
Qed.
