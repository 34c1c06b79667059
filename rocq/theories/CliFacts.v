(** * Facts about the parser of command lines *)
From Coq Require Import Ascii String.
From stdpp Require Import list.
From Verif Require Import Cli FormatSpec CliSpec.
Local Open Scope string_scope.
Local Notation length := List.length.

Local Arguments append : simpl nomatch.

(** ** Options *)

Record wf_opts (opts : list Opt) : Prop := {
  wo_short : NoDup (map o_short opts);
  wo_long : NoDup (map o_long opts);
  wo_hyphen : ∀ o, o ∈ opts → o_short o ≠ "-"%char;
  wo_name : ∀ o, o ∈ opts → o_long o ≠ "" ∧ split_eq (o_long o) = (o_long o, None)
}.

Lemma search_opts_wf : wf_opts search_opts.
Proof.
  split.
  - apply (bool_decide_unpack _). by vm_compute.
  - apply (bool_decide_unpack _). by vm_compute.
  - intros o Ho. unfold search_opts in Ho. rewrite !elem_of_cons, elem_of_nil in Ho.
    destruct Ho as [->|[->|[->|[->|[->|[]]]]]]; done.
  - intros o Ho. unfold search_opts in Ho. rewrite !elem_of_cons, elem_of_nil in Ho.
    destruct Ho as [->|[->|[->|[->|[->|[]]]]]]; done.
Qed.

Lemma no_opts_wf : wf_opts [].
Proof. split; [constructor|constructor|..]; intros o Ho; by apply elem_of_nil in Ho. Qed.

Lemma nodup_map {A B} (f : A → B) l x y : NoDup (map f l) → x ∈ l → y ∈ l → f x = f y → x = y.
Proof.
  induction l as [|z l IH]; intros Hn Hx Hy E; [by apply elem_of_nil in Hx|].
  simpl in Hn. apply NoDup_cons in Hn as [Hz Hn].
  apply elem_of_cons in Hx as [->|Hx]; apply elem_of_cons in Hy as [->|Hy]; [done|..].
  - destruct Hz. rewrite E. by apply elem_of_list_fmap_1.
  - destruct Hz. rewrite <- E. by apply elem_of_list_fmap_1.
  - by apply IH.
Qed.

Lemma find_short_spec opts c o : wf_opts opts → find_short opts c = Some o ↔ o ∈ opts ∧ o_short o = c.
Proof.
  intros Hw. unfold find_short. split.
  - intros H. apply List.find_some in H as [Hin H]. split; [by apply elem_of_list_In|]. by apply Ascii.eqb_eq.
  - intros [Hin <-]. destruct (List.find _ opts) as [o'|] eqn:E.
    + apply List.find_some in E as [Hin' E]. apply Ascii.eqb_eq in E. f_equal.
      apply (nodup_map o_short opts); [apply Hw|by apply elem_of_list_In|done|done].
    + eapply List.find_none in E; [|by apply elem_of_list_In]. simpl in E. by rewrite Ascii.eqb_refl in E.
Qed.

Lemma find_long_spec opts s o : wf_opts opts → find_long opts s = Some o ↔ o ∈ opts ∧ o_long o = s.
Proof.
  intros Hw. unfold find_long. split.
  - intros H. apply List.find_some in H as [Hin H]. split; [by apply elem_of_list_In|]. by apply String.eqb_eq.
  - intros [Hin <-]. destruct (List.find _ opts) as [o'|] eqn:E.
    + apply List.find_some in E as [Hin' E]. apply String.eqb_eq in E. f_equal.
      apply (nodup_map o_long opts); [apply Hw|by apply elem_of_list_In|done|done].
    + eapply List.find_none in E; [|by apply elem_of_list_In]. simpl in E. by rewrite String.eqb_refl in E.
Qed.

(** ** Arguments *)

Lemma split_eq_sound s n v : split_eq s = (n, v) →
  match v with None => s = n | Some v => s = n ++ "=" ++ v end.
Proof.
  revert n v. induction s as [|c s IH]; intros n v H; simpl in H.
  - by injection H as <- <-.
  - destruct (Ascii.eqb_spec c "=") as [->|Hc].
    + by injection H as <- <-.
    + destruct (split_eq s) as [n' v'] eqn:E. injection H as <- <-. specialize (IH n' v' eq_refl).
      destruct v'; by rewrite IH.
Qed.

Lemma split_eq_complete n v : split_eq n = (n, None) → split_eq (n ++ "=" ++ v) = (n, Some v).
Proof.
  change ("=" ++ v) with (String "=" v).
  induction n as [|c n IH]; intros H; [done|]. simpl in H |- *.
  destruct (Ascii.eqb_spec c "=") as [->|Hc]; [discriminate H|].
  destruct (split_eq n) as [n' v'] eqn:E. injection H as -> ->. by rewrite IH.
Qed.

Lemma classify_sound arg :
  match classify arg with
  | Escape => arg = "--"
  | LongArg s => arg = "--" ++ s ∧ s ≠ ""
  | ShortArg s => arg = "-" ++ s ∧ s ≠ "" ∧ ∀ r, s ≠ String "-" r
  | PlainArg => plain arg
  end.
Proof.
  unfold classify. destruct arg as [|c r]; [by right|].
  destruct (Ascii.eqb_spec c "-") as [->|Hc]; simpl; [|right; intros r' [= ? ?]; done].
  destruct r as [|d s]; [by left|].
  destruct (Ascii.eqb_spec d "-") as [->|Hd]; simpl; [|split; [done|]; split; [done|]; intros r' [= ? ?]; done].
  destruct s as [|e s]; [done|]. done.
Qed.

Lemma classify_plain s : plain s → classify s = PlainArg.
Proof.
  intros [->|H]; [done|]. destruct s as [|c r]; [done|]. simpl.
  destruct (Ascii.eqb_spec c "-") as [->|Hc]; [by destruct (H r)|done].
Qed.

Lemma classify_long s : s ≠ "" → classify ("--" ++ s) = LongArg s.
Proof. by destruct s. Qed.

Lemma classify_short c s : c ≠ "-"%char → classify ("-" ++ String c s) = ShortArg (String c s).
Proof. intros Hc. simpl. by destruct (Ascii.eqb_spec c "-"). Qed.

(** ** Groups of short options *)

Section opts.
Context (opts : list Opt) (Hw : wf_opts opts).

Let flag (o : Opt) : Prop := o ∈ opts ∧ o_takes o = false.
Let valued (o : Opt) : Prop := o ∈ opts ∧ o_takes o = true.

Lemma cluster_sound s es pending : cluster opts s = Some (es, pending) →
  ∃ fs, Forall flag fs ∧
    ((s = letters fs "" ∧ es = flags_events fs ∧ pending = None) ∨
     ∃ o, valued o ∧
       ((s = letters (fs ++ [o])%list "" ∧ es = flags_events fs ∧ pending = Some o) ∨
        ∃ v, es = (flags_events fs ++ [Given (o_id o) v])%list ∧ pending = None ∧
          ((s = letters (fs ++ [o])%list v ∧ v ≠ "" ∧ ∀ r, v ≠ String "=" r) ∨
           s = letters (fs ++ [o])%list ("=" ++ v)))).
Proof.
  revert es pending. induction s as [|c s IH]; intros es pending H; simpl in H.
  - injection H as <- <-. exists []. split; [constructor|]. by left.
  - destruct (find_short opts c) as [o|] eqn:E; [|discriminate H].
    apply (find_short_spec opts c o Hw) in E as [Ho <-].
    destruct (o_takes o) eqn:Et.
    + exists []. split; [constructor|]. right. exists o. split; [done|].
      destruct s as [|d v].
      * injection H as <- <-. by left.
      * right. destruct (Ascii.eqb_spec d "=") as [->|Hd]; injection H as <- <-.
        -- exists v. split; [done|]. split; [done|]. by right.
        -- exists (String d v). split; [done|]. split; [done|]. left. split; [done|]. split; [done|].
           intros r [= ? ?]; done.
    + destruct (cluster opts s) as [[es' pending']|] eqn:E'; [|discriminate H]. injection H as <- <-.
      destruct (IH es' pending' eq_refl) as (fs & Hfs & Hs).
      exists (o :: fs). split; [by constructor|].
      destruct Hs as [(-> & -> & ->)|(o' & Ho' & Hs)]; [by left|]. right. exists o'. split; [done|].
      destruct Hs as [(-> & -> & ->)|(v & -> & -> & Hs)]; [by left|]. right. exists v.
      split; [done|]. split; [done|]. destruct Hs as [(-> & Hv)| ->]; [by left|by right].
Qed.

Lemma cluster_flags fs s : Forall flag fs →
  cluster opts (letters fs s) =
  match cluster opts s with Some (es, p) => Some ((flags_events fs ++ es)%list, p) | None => None end.
Proof.
  induction 1 as [|o fs [Ho Ht] Hfs IH]; simpl; [by destruct (cluster opts s) as [[]|]|].
  rewrite (proj2 (find_short_spec opts (o_short o) o Hw)) by done. rewrite Ht, IH.
  by destruct (cluster opts s) as [[]|].
Qed.

Lemma letters_app fs gs s : letters (fs ++ gs)%list s = letters fs (letters gs s).
Proof. induction fs as [|o fs IH]; [done|]. simpl. by rewrite IH. Qed.

Lemma cluster_value o s : valued o → s ≠ "" →
  cluster opts (letters [o] s) =
  Some ([Given (o_id o) (match s with String d v => if Ascii.eqb d "=" then v else s | _ => s end)], None).
Proof.
  intros [Ho Ht] Hs. simpl. rewrite (proj2 (find_short_spec opts (o_short o) o Hw)) by done. rewrite Ht.
  by destruct s.
Qed.

Lemma cluster_pending o : valued o → cluster opts (letters [o] "") = Some ([], Some o).
Proof.
  intros [Ho Ht]. simpl. rewrite (proj2 (find_short_spec opts (o_short o) o Hw)) by done. by rewrite Ht.
Qed.

(** ** Whole command lines *)

Lemma trailing_events argv : events opts true None argv = Some (map Operand argv).
Proof. induction argv as [|s argv IH]; [done|]. simpl. by rewrite IH. Qed.

Lemma trailing_pending o argv : events opts true (Some o) argv = None.
Proof. by destruct argv. Qed.

Lemma says_piece p argv es :
  piece_ok opts p → says opts argv es → says opts (piece_args p ++ argv)%list (piece_events p ++ es)%list.
Proof.
  intros Hp (ps & tail & Hps & -> & ->). exists (p :: ps), tail. split; [by constructor|].
  simpl. by rewrite <- !app_assoc.
Qed.

Lemma fmap_cons_some {A} (x : A) o l : cons x <$> o = Some l → ∃ l', o = Some l' ∧ l = x :: l'.
Proof. destruct o as [l'|]; simpl; [|done]. intros [= <-]. by exists l'. Qed.
Lemma fmap_app_some {A} (x : list A) o l : app x <$> o = Some l → ∃ l', o = Some l' ∧ l = (x ++ l')%list.
Proof. destruct o as [l'|]; simpl; [|done]. intros [= <-]. by exists l'. Qed.

Lemma events_sound argv :
  (∀ es, events opts false None argv = Some es → says opts argv es) ∧
  (∀ o es, events opts false (Some o) argv = Some es →
     ∃ v rest es', argv = v :: rest ∧ plain v ∧ es = Given (o_id o) v :: es' ∧ says opts rest es').
Proof.
  induction argv as [|arg argv [IH1 IH2]].
  - split; [|done]. intros es [= <-]. exists [], None. done.
  - pose proof (classify_sound arg) as Hc. split.
    + intros es H. cbn [events] in H. destruct (classify arg) as [|s|s|].
      * subst arg. rewrite trailing_events in H. injection H as <-. exists [], (Some argv). done.
      * destruct Hc as [-> Hs]. destruct (split_eq s) as [name value] eqn:Es. apply split_eq_sound in Es.
        destruct (find_long opts name) as [o|] eqn:Ef; [|done].
        apply (find_long_spec opts name o Hw) in Ef as [Ho <-].
        destruct (o_takes o) eqn:Et; destruct value as [v|].
        -- apply fmap_cons_some in H as (es' & H & ->). subst s.
           apply (says_piece (LongEq o v) argv es'); [done|]. by apply IH1.
        -- subst s. destruct (IH2 o es H) as (v & rest & es' & -> & Hv & -> & Hr).
           apply (says_piece (LongNext o v) rest es'); done.
        -- done.
        -- apply fmap_cons_some in H as (es' & H & ->). subst s.
           apply (says_piece (Long o) argv es'); [done|]. by apply IH1.
      * destruct Hc as (-> & Hs & Hs'). destruct (cluster opts s) as [[es1 pending]|] eqn:Ec; [|done].
        apply fmap_app_some in H as (es2 & H & ->).
        apply cluster_sound in Ec as (fs & Hfs & [(-> & -> & ->)|(o & Ho & Hcase)]).
        { apply (says_piece (Shorts fs) argv es2); [|by apply IH1]. split; [by destruct fs|done]. }
        destruct Hcase as [(-> & -> & ->)|(v & -> & -> & Hcase)].
        { destruct (IH2 o es2 H) as (v & rest & es' & -> & Hv & -> & Hr).
          pose proof (says_piece (ShortsNext fs o v) rest es') as Hp. simpl in Hp. rewrite <- app_assoc in Hp.
          by apply Hp. }
        destruct Hcase as [(-> & Hv)| ->].
        { by apply (says_piece (ShortsAttached fs o v) argv es2); [|apply IH1]. }
        { by apply (says_piece (ShortsEq fs o v) argv es2); [|apply IH1]. }
      * apply fmap_cons_some in H as (es' & H & ->).
        apply (says_piece (Plain arg) argv es'); [done|]. by apply IH1.
    + intros o es H. cbn [events] in H. destruct (classify arg) as [|s|s|].
      * by rewrite trailing_pending in H.
      * by destruct (split_eq s).
      * done.
      * apply fmap_cons_some in H as (es' & H & ->). exists arg, argv, es'. split_and!; [done|done|done|].
        by apply IH1.
Qed.

Lemma short_letters fs o s : (∃ x, x ∈ opts ∧ ∃ r, letters fs (letters o s) = String (o_short x) r) →
  classify ("-" ++ letters fs (letters o s)) = ShortArg (letters fs (letters o s)).
Proof. intros (x & Hx & r & ->). apply classify_short. by apply (wo_hyphen _ Hw). Qed.

Lemma letters_head fs o s : Forall flag fs → valued o →
  ∃ x, x ∈ opts ∧ ∃ r, letters fs (letters [o] s) = String (o_short x) r.
Proof.
  intros Hfs [Ho _]. destruct Hfs as [|x fs [Hx _] _].
  - exists o. split; [done|]. by eexists.
  - exists x. split; [done|]. by eexists.
Qed.

Lemma piece_read p argv : piece_ok opts p →
  events opts false None (piece_args p ++ argv)%list =
  app (piece_events p) <$> events opts false None argv.
Proof.
  intros Hp.
  assert (∀ (x : list said) o v, cons (Given (o_id o) v) <$> events opts false None argv =
    app [Given (o_id o) v] <$> events opts false None argv) as Hca by done.
  destruct p as [s|o|o v|o v|fs|fs o v|fs o v|fs o v]; cbn [piece_ok piece_args piece_events] in *;
    cbn [app].
  - cbn [events]. by rewrite (classify_plain s Hp).
  - destruct Hp as [Ho Ht]. destruct (wo_name _ Hw o Ho) as [Hne Hsp]. cbn [events].
    rewrite (classify_long _ Hne), Hsp, (proj2 (find_long_spec opts (o_long o) o Hw)) by done. by rewrite Ht.
  - destruct Hp as [[Ho Ht] Hv]. destruct (wo_name _ Hw o Ho) as [Hne Hsp]. cbn [events].
    rewrite (classify_long _ Hne), Hsp, (proj2 (find_long_spec opts (o_long o) o Hw)) by done. rewrite Ht.
    by rewrite (classify_plain v Hv).
  - destruct Hp as [Ho Ht]. destruct (wo_name _ Hw o Ho) as [Hne Hsp]. cbn [events].
    rewrite classify_long by by destruct (o_long o).
    rewrite (split_eq_complete _ v Hsp), (proj2 (find_long_spec opts (o_long o) o Hw)) by done. by rewrite Ht.
  - destruct Hp as [Hne Hfs]. cbn [events].
    change (letters fs "") with (letters fs (letters [] "")). rewrite (short_letters fs [] "").
    2:{ destruct Hfs as [|x fs [Hx _] _]; [done|]. exists x. split; [done|]. by eexists. }
    change (letters [] "") with "". rewrite (cluster_flags fs "" Hfs). simpl. by rewrite app_nil_r.
  - destruct Hp as (Hfs & Ho & Hv). rewrite letters_app. cbn [events].
    rewrite (short_letters fs [o] "" (letters_head fs o "" Hfs Ho)).
    rewrite (cluster_flags fs _ Hfs), (cluster_pending o Ho), app_nil_r.
    rewrite (classify_plain v Hv). destruct (events opts false None argv) as [es|]; [|done]. simpl.
    by rewrite <- app_assoc.
  - destruct Hp as (Hfs & Ho & Hv & Hv'). rewrite letters_app. cbn [events].
    rewrite (short_letters fs [o] v (letters_head fs o v Hfs Ho)).
    rewrite (cluster_flags fs _ Hfs), (cluster_value o v Ho Hv).
    destruct v as [|d v]; [done|]. destruct (Ascii.eqb_spec d "=") as [->|Hd]; [by destruct (Hv' v)|done].
  - destruct Hp as (Hfs & Ho). rewrite letters_app. cbn [events].
    rewrite (short_letters fs [o] _ (letters_head fs o _ Hfs Ho)).
    by rewrite (cluster_flags fs _ Hfs), (cluster_value o ("=" ++ v) Ho).
Qed.

Lemma events_complete argv es : says opts argv es → events opts false None argv = Some es.
Proof.
  intros (ps & tail & Hps & -> & ->). induction Hps as [|p ps Hp Hps IH]; simpl.
  - destruct tail as [l|]; [|done]. simpl. apply trailing_events.
  - rewrite <- app_assoc, (piece_read p _ Hp), IH. simpl. by rewrite <- app_assoc.
Qed.

Lemma events_says argv es : events opts false None argv = Some es ↔ says opts argv es.
Proof. split; [apply events_sound|apply events_complete]. Qed.
End opts.

(** ** Numbers *)

Lemma digits_string_cons d ds : digits_string (d :: ds) = String (ascii_of_N (48 + d)) (digits_string ds).
Proof. done. Qed.

Lemma digit_char c (d := Z.of_nat (nat_of_ascii c)) :
  (48 <= d <= 57)%Z → c = ascii_of_N (48 + Z.to_N (d - 48)) ∧ (Z.to_N (d - 48) < 10)%N.
Proof.
  intros H. split; [|lia]. subst d.
  replace (48 + Z.to_N (Z.of_nat (nat_of_ascii c) - 48))%N with (N_of_ascii c).
  - by rewrite ascii_N_embedding.
  - unfold nat_of_ascii in *. lia.
Qed.

Lemma char_digit d : (d < 10)%N → Z.of_nat (nat_of_ascii (ascii_of_N (48 + d))) = (48 + Z.of_N d)%Z.
Proof.
  intros H. unfold nat_of_ascii. rewrite N_ascii_embedding by lia. lia.
Qed.

Lemma parse_digits_spec acc s z :
  parse_digits acc s = Some z ↔
  ∃ ds, s = digits_string ds ∧ Forall (λ d, (d < 10)%N) ds ∧ z = foldl (λ n d, 10 * n + Z.of_N d)%Z acc ds.
Proof.
  revert acc. induction s as [|c s IH]; intros acc; cbn [parse_digits].
  - split; [intros [= <-]; by exists []|]. intros (ds & Hs & _ & ->). by destruct ds.
  - set (d := Z.of_nat (nat_of_ascii c)). destruct ((48 <=? d) && (d <=? 57))%Z eqn:E.
    + apply andb_true_iff in E as [E1%Z.leb_le E2%Z.leb_le]. destruct (digit_char c (conj E1 E2)) as [Hc Hd].
      fold d in Hc, Hd. rewrite IH. split.
      * intros (ds & -> & Hds & ->). exists (Z.to_N (d - 48) :: ds).
        split; [rewrite digits_string_cons; by f_equal|]. split; [by constructor|]. simpl. f_equal. lia.
      * intros (ds & Hs & Hds & ->). destruct ds as [|d' ds]; [discriminate Hs|].
        rewrite digits_string_cons in Hs. injection Hs as Hc' ->. apply Forall_cons in Hds as [Hd' Hds'].
        exists ds. split; [done|]. split; [done|]. simpl. f_equal.
        unfold d. rewrite Hc', (char_digit d' Hd'). lia.
    + split; [done|]. intros (ds & Hs & Hds & ->). destruct ds as [|d' ds]; [discriminate Hs|].
      rewrite digits_string_cons in Hs. injection Hs as Hc' ->. apply Forall_cons in Hds as [Hd' Hds'].
      unfold d in E. rewrite Hc', (char_digit d' Hd') in E. apply andb_false_iff in E as [E|E].
      * apply Z.leb_gt in E. lia.
      * apply Z.leb_gt in E. lia.
Qed.

Lemma digits_value_Z ds acc :
  foldl (λ n d, 10 * n + Z.of_N d)%Z (Z.of_N acc) ds = Z.of_N (foldl (λ n d, 10 * n + d)%N acc ds).
Proof.
  revert acc. induction ds as [|d ds IH]; intros acc; [done|]. cbn [foldl].
  replace (10 * Z.of_N acc + Z.of_N d)%Z with (Z.of_N (10 * acc + d)) by lia. apply IH.
Qed.

(** What follows a sign. *)
Definition digits_part (s : string) : option Z := match s with "" => None | _ => parse_digits 0 s end.

Lemma digits_part_spec s z : digits_part s = Some z ↔
  ∃ ds, s = digits_string ds ∧ ds ≠ [] ∧ Forall (λ d, (d < 10)%N) ds ∧ z = Z.of_N (digits_value ds).
Proof.
  assert (digits_part s = Some z ↔ s ≠ "" ∧ parse_digits 0 s = Some z) as ->.
  { destruct s; simpl; [|naive_solver]. split; [done|]. by intros [? _]. }
  rewrite parse_digits_spec. unfold digits_value. rewrite <- (digits_value_Z _ 0) || idtac.
  split.
  - intros (Hs & ds & -> & Hds & ->). exists ds. split; [done|]. split; [by intros ->|]. split; [done|].
    symmetry. rewrite <- digits_value_Z. done.
  - intros (ds & -> & Hne & Hds & ->). split; [by destruct ds|]. exists ds. split; [done|]. split; [done|].
    rewrite <- digits_value_Z. done.
Qed.

Lemma digit_not_sign d : (d < 10)%N → ascii_of_N (48 + d) ≠ "-"%char ∧ ascii_of_N (48 + d) ≠ "+"%char.
Proof.
  intros Hd. split; intros E; apply (f_equal (λ c, Z.of_nat (nat_of_ascii c))) in E; rewrite char_digit in E by done;
    vm_compute (nat_of_ascii _) in E; lia.
Qed.

Lemma parse_ranged_spec bits s n : (0 <= bits <= 62)%Z →
  parse_ranged bits s = Some n ↔ number_text (2 ^ Z.to_N bits) s n.
Proof.
  intros Hb.
  assert (2 ^ bits < 2 ^ 63)%Z as Hlt by (apply Z.pow_lt_mono_r; lia).
  assert (Z.of_N (2 ^ Z.to_N bits) = 2 ^ bits)%Z as Hpow by (rewrite N2Z.inj_pow, Z2N.id by lia; done).
  assert (parse_ranged bits s = Some n ↔ ∃ z,
    match s with
    | "" => None
    | String c r => if Ascii.eqb c "-" then Z.opp <$> digits_part r
                    else if Ascii.eqb c "+" then digits_part r else digits_part s
    end = Some z ∧ (0 <= z < 2 ^ bits)%Z ∧ n = Z.to_N z) as ->.
  { unfold parse_ranged, parse_i64. fold digits_part. destruct (match s with "" => None | _ => _ end) as [z|].
    - destruct ((- 2 ^ 63 <=? z) && (z <? 2 ^ 63))%Z eqn:E.
      + destruct ((0 <=? z) && (z <? 2 ^ bits))%Z eqn:E'.
        * split; [intros [= <-]; exists z; split; [done|]; split; [lia|done]|]. by intros (? & [= <-] & _ & ->).
        * split; [done|]. intros (? & [= <-] & ? & ->). lia.
      + split; [done|]. intros (? & [= <-] & ? & ->). lia.
    - split; [done|]. by intros (? & ? & _). }
  split.
  - intros (z & Hz & Hr & ->). destruct s as [|c r]; [done|].
    destruct (Ascii.eqb_spec c "-") as [->|H1]; [|destruct (Ascii.eqb_spec c "+") as [->|H2]].
    + destruct (digits_part r) as [z'|] eqn:E; [|done]. simpl in Hz. injection Hz as <-.
      apply digits_part_spec in E as (ds & -> & Hne & Hds & ->). exists "-", ds.
      split; [done|]. split; [done|]. split; [done|]. split; [lia|]. split; [lia|]. right. right. split; [done|lia].
    + apply digits_part_spec in Hz as (ds & -> & Hne & Hds & ->). exists "+", ds.
      split; [done|]. split; [done|]. split; [done|]. split; [lia|]. split; [lia|]. by right; left.
    + apply digits_part_spec in Hz as (ds & -> & Hne & Hds & ->). exists "", ds.
      split; [done|]. split; [done|]. split; [done|]. split; [lia|]. split; [lia|]. by left.
  - intros (sign & ds & -> & Hne & Hds & -> & Hlim & Hsign).
    assert (digits_part (digits_string ds) = Some (Z.of_N (digits_value ds))) as Hd
      by (apply digits_part_spec; by exists ds).
    exists (Z.of_N (digits_value ds)). split; [|split; [lia|by rewrite N2Z.id]].
    destruct Hsign as [->|[->|[-> H0]]].
    + destruct ds as [|d ds]; [done|]. apply Forall_cons in Hds as [Hd1 _].
      destruct (digit_not_sign d Hd1) as [H1 H2].
      change ("" ++ digits_string (d :: ds)) with (digits_string (d :: ds)).
      rewrite digits_string_cons in Hd |- *.
      destruct (Ascii.eqb_spec (ascii_of_N (48 + d)) "-"); [done|].
      destruct (Ascii.eqb_spec (ascii_of_N (48 + d)) "+"); [done|]. exact Hd.
    + change ("+" ++ ?x) with (String "+" x). exact Hd.
    + change ("-" ++ ?x) with (String "-" x). cbn [Ascii.eqb]. simpl Ascii.eqb. cbn iota. rewrite Hd, H0. done.
Qed.

(** ** What the command line says about an option *)

Lemma settings_elem es i v : (i, v) ∈ settings es ↔ Given i v ∈ es.
Proof.
  unfold settings. rewrite elem_of_list_omap. split.
  - intros ([i' v'|s] & He & E); [|done]. by injection E as -> ->.
  - intros H. by exists (Given i v).
Qed.

Lemma settings_ids es :
  map fst (settings es) = omap (λ e, match e with Given i _ => Some i | Operand _ => None end) es.
Proof. induction es as [|[i v|s] es IH]; simpl; [done|by f_equal|done]. Qed.

Lemma setting_some es i v : NoDup (map fst (settings es)) → setting es i = Some v ↔ Given i v ∈ es.
Proof.
  intros Hn. rewrite <- settings_elem. unfold setting. split.
  - destruct (List.find _ (settings es)) as [[i' v']|] eqn:E; [|done]. simpl. intros [= ->].
    apply List.find_some in E as [Hin E]. simpl in E. apply String.eqb_eq in E as ->. by apply elem_of_list_In.
  - intros Hin. destruct (List.find _ (settings es)) as [[i' v']|] eqn:E.
    + apply List.find_some in E as [Hin' E]. simpl in E. apply String.eqb_eq in E as ->. simpl. f_equal.
      apply elem_of_list_In in Hin'.
      by injection (nodup_map fst (settings es) (i, v') (i, v) Hn Hin' Hin eq_refl) as ->.
    + eapply List.find_none in E; [|by apply elem_of_list_In]. simpl in E. by rewrite String.eqb_refl in E.
Qed.

Lemma setting_none es i : NoDup (map fst (settings es)) → setting es i = None ↔ ∀ v, Given i v ∉ es.
Proof.
  intros Hn. destruct (setting es i) as [v|] eqn:E.
  - apply setting_some in E; [|done]. split; [done|]. intros H. by destruct (H v).
  - split; [|done]. intros _ v Hv. apply setting_some in Hv; [|done]. by rewrite E in Hv.
Qed.

(** ** [parse] *)

Lemma number_cases bits es id l : NoDup (map fst (settings es)) → (0 <= bits <= 62)%Z →
  number bits es id = Some l ↔
  ∃ n, says_number (2 ^ Z.to_N bits) es id n ∧ l = match n with Some n => [(id, n)] | None => [] end.
Proof.
  intros Hn Hb. unfold number, says_number. destruct (setting es id) as [v|] eqn:E.
  - apply setting_some in E; [|done]. split.
    + destruct (parse_ranged bits v) as [n|] eqn:Ep; [|done]. intros [= <-].
      apply parse_ranged_spec in Ep; [|done]. exists (Some n). split; [by exists v|done].
    + intros ([n|] & H & ->); [|by destruct (H v)]. destruct H as (v' & Hv' & Ht).
      apply setting_some in E, Hv'; [|done..]. rewrite E in Hv'. injection Hv' as <-.
      apply parse_ranged_spec in Ht; [|done]. by rewrite Ht.
  - pose proof (proj1 (setting_none es id Hn) E) as Hnone. split.
    + intros [= <-]. by exists None.
    + intros ([n|] & H & ->); [|done]. destruct H as (v & Hv & _). by destruct (Hnone v).
Qed.

Lemma parse_matches o1 o2 o3 o4 o5 o6 s p t n b :
  parse_args (mkMatches (zip search_operands [o1; o2; o3; o4; o5; o6]) [("search", s); ("accept_func", p)]
    ((match t with Some t => [("timeout", t)] | None => [] end) ++
     (match (match n with Some n => [("nthreads", n)] | None => [] end) with
      | [] => [("nthreads", 1%N)] | n => n end) ++
     (match b with Some b => [("task_bound", b)] | None => [] end))%list)
  = Val (mkArgs o1 o2 o3 o4 o5 o6 s t (match n with Some n => N.to_nat n | None => 1 end) p b).
Proof. by destruct t, n, b. Qed.

Lemma operands_six es : length (operands es) = length search_operands →
  ∃ o1 o2 o3 o4 o5 o6, operands es = [o1; o2; o3; o4; o5; o6].
Proof.
  destruct (operands es) as [|o1 [|o2 [|o3 [|o4 [|o5 [|o6 [|o7 l]]]]]]]; intros H; try discriminate H.
  by exists o1, o2, o3, o4, o5, o6.
Qed.

(** What is accepted, and with which result. *)
Lemma get_matches_cases argv m : get_matches argv = Some m ↔
  ∃ es o1 o2 o3 o4 o5 o6 t n b,
    says search_opts argv es ∧ NoDup (map fst (settings es)) ∧ operands es = [o1; o2; o3; o4; o5; o6] ∧
    says_number (2 ^ 32) es "timeout" t ∧ says_number (2 ^ 16) es "nthreads" n ∧
    says_number (2 ^ 32) es "task_bound" b ∧
    m = mkMatches (zip search_operands [o1; o2; o3; o4; o5; o6]) [flag es "search"; flag es "accept_func"]
      ((match t with Some t => [("timeout", t)] | None => [] end) ++
       (match (match n with Some n => [("nthreads", n)] | None => [] end) with
        | [] => [("nthreads", 1%N)] | n => n end) ++
       (match b with Some b => [("task_bound", b)] | None => [] end))%list.
Proof.
  unfold get_matches. split.
  - intros H. apply bind_Some in H as (es & He & H). apply events_says in He; [|apply search_opts_wf].
    destruct (decide _) as [[Hn Hl]|]; [|done]. apply operands_six in Hl as (o1 & o2 & o3 & o4 & o5 & o6 & Ho).
    apply bind_Some in H as (t & Ht & H). apply number_cases in Ht as (t' & Ht & ->); [|done|lia].
    apply bind_Some in H as (n & Hn' & H). apply number_cases in Hn' as (n' & Hn' & ->); [|done|lia].
    apply bind_Some in H as (b & Hb & H). apply number_cases in Hb as (b' & Hb & ->); [|done|lia].
    injection H as <-. exists es, o1, o2, o3, o4, o5, o6, t', n', b'. rewrite Ho.
    split; [exact He|]. split; [exact Hn|]. split; [done|]. split; [exact Ht|]. split; [exact Hn'|].
    split; [exact Hb|]. by destruct n'.
  - intros (es & o1 & o2 & o3 & o4 & o5 & o6 & t & n & b & Hs & Hn & Ho & Ht & Hn' & Hb & ->).
    apply bind_Some. exists es. split; [by apply events_says; [apply search_opts_wf|]|].
    rewrite decide_True by (split; [done|]; by rewrite Ho).
    apply bind_Some. eexists. split; [apply number_cases; [done|lia|]; by exists t|].
    apply bind_Some. eexists. split; [apply number_cases; [done|lia|]; by exists n|].
    apply bind_Some. eexists. split; [apply number_cases; [done|lia|]; by exists b|].
    rewrite Ho. by destruct n.
Qed.
