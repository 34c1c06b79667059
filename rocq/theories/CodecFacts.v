(** * Facts about the model of the file formats *)
From Coq Require Import Decimal DecimalN.
From stdpp Require Import strings.
From Verif Require Import Codec FormatSpec.

(** ** Blanks *)

Lemma blank_nil : blank [].
Proof. constructor. Qed.
Local Hint Resolve blank_nil : core.

Lemma is_blank_spec c :
  is_blank c = true ↔ (Byte.to_N c = 32 ∨ Byte.to_N c = 9 ∨ Byte.to_N c = 10 ∨ Byte.to_N c = 13)%N.
Proof. destruct c; vm_compute; intuition congruence. Qed.

Lemma skip_blanks_app w r : blank w → skip_blanks (w ++ r) = skip_blanks r.
Proof.
  intros Hw. induction Hw as [|c w Hc Hw IH]; [done|]. simpl.
  by rewrite (proj2 (is_blank_spec c) Hc).
Qed.

Lemma skip_blanks_split b : ∃ w, b = w ++ skip_blanks b ∧ blank w.
Proof.
  induction b as [|c b IH]; [by exists []|]. destruct IH as (w & Hb & Hw). simpl. destruct (is_blank c) eqn:E.
  - exists (c :: w). split; [simpl; f_equal; exact Hb|]. constructor; [by apply is_blank_spec|done].
  - by exists [].
Qed.

Lemma skip_blanks_cons c b : is_blank c = false → skip_blanks (c :: b) = c :: b.
Proof. simpl. by intros ->. Qed.

Lemma skip_blanks_all b : skip_blanks b = [] ↔ blank b.
Proof.
  split.
  - intros H. destruct (skip_blanks_split b) as (w & Hb & Hw). rewrite H, app_nil_r in Hb. by subst.
  - intros H. rewrite <- (app_nil_r b). by rewrite skip_blanks_app.
Qed.

(** ** Digits *)

Fixpoint digit_list (d : uint) : list N :=
  match d with
  | Nil => []
  | D0 d => 0%N :: digit_list d | D1 d => 1%N :: digit_list d | D2 d => 2%N :: digit_list d
  | D3 d => 3%N :: digit_list d | D4 d => 4%N :: digit_list d | D5 d => 5%N :: digit_list d
  | D6 d => 6%N :: digit_list d | D7 d => 7%N :: digit_list d | D8 d => 8%N :: digit_list d
  | D9 d => 9%N :: digit_list d
  end.

Lemma digit_list_bound d : Forall (λ d, (d < 10)%N) (digit_list d).
Proof. induction d; simpl; constructor; try done; lia. Qed.

Lemma digit_list_surj ds : Forall (λ d, (d < 10)%N) ds → ∃ d, digit_list d = ds.
Proof.
  induction 1 as [|x ds Hx _ [d <-]]; [by exists Nil|].
  assert (x = 0 ∨ x = 1 ∨ x = 2 ∨ x = 3 ∨ x = 4 ∨ x = 5 ∨ x = 6 ∨ x = 7 ∨ x = 8 ∨ x = 9)%N as H by lia.
  destruct H as [->|[->|[->|[->|[->|[->|[->|[->|[->| ->]]]]]]]]].
  - by exists (D0 d). - by exists (D1 d). - by exists (D2 d). - by exists (D3 d). - by exists (D4 d).
  - by exists (D5 d). - by exists (D6 d). - by exists (D7 d). - by exists (D8 d). - by exists (D9 d).
Qed.

Lemma write_digits_list d :
  write_digits d = List.concat (map (λ d, option_list (Byte.of_N (48 + d))) (digit_list d)).
Proof. induction d; simpl; [done|..]; by f_equal. Qed.

Lemma of_uint_acc_value d p :
  Npos (Pos.of_uint_acc d p) = foldl (λ n d, 10 * n + d)%N (Npos p) (digit_list d).
Proof.
  revert p. induction d as [|d IH|d IH|d IH|d IH|d IH|d IH|d IH|d IH|d IH|d IH]; intros p;
    cbn [Pos.of_uint_acc digit_list foldl]; [done|..]; rewrite IH; f_equal; lia.
Qed.

Lemma of_uint_value d : N.of_uint d = digits_value (digit_list d).
Proof.
  unfold N.of_uint, digits_value.
  induction d as [|d IH|d IH|d IH|d IH|d IH|d IH|d IH|d IH|d IH|d IH];
    cbn [Pos.of_uint digit_list foldl]; [done|exact IH|..]; by rewrite of_uint_acc_value.
Qed.

Definition is_digit (c : Byte.byte) : bool := ((48 <=? Byte.to_N c) && (Byte.to_N c <=? 57))%N.

(** The text does not go on with a digit. *)
Definition no_digit (r : bytes) : Prop := match r with c :: _ => is_digit c = false | [] => True end.

Lemma take_digits_write d r : no_digit r → take_digits (write_digits d ++ r) = (d, r).
Proof.
  intros Hr. induction d as [|d IH|d IH|d IH|d IH|d IH|d IH|d IH|d IH|d IH|d IH];
    cbn [write_digits app take_digits]; try by rewrite IH.
  destruct r as [|c r]; [done|]. simpl in Hr |- *. destruct c; try done.
Qed.

Lemma take_digits_split b d r : take_digits b = (d, r) → b = write_digits d ++ r ∧ no_digit r.
Proof.
  revert d r. induction b as [|c b IH]; intros d r H.
  - simpl in H. by injection H as <- <-.
  - destruct (is_digit c) eqn:Ec.
    + cbn [take_digits] in H. destruct (take_digits b) as [d' r']. destruct (IH d' r' eq_refl) as [-> Hr].
      destruct c; try discriminate Ec; cbn beta iota in H; injection H as <- <-; done.
    + assert (take_digits (c :: b) = (Nil, c :: b)) as E by (destruct c; first [discriminate Ec|reflexivity]).
      rewrite E in H. injection H as <- <-. done.
Qed.

(** ** Parsers and what they accept *)

Definition sound {A} (p : parser A) (R : A → bytes → Prop) : Prop :=
  ∀ b a r, p b = Some (a, r) → ∃ t, b = t ++ r ∧ R a t.
Definition complete {A} (p : parser A) (R : A → bytes → Prop) : Prop :=
  ∀ a t r, R a t → no_digit r → p (t ++ r) = Some (a, r).

(** *** Numbers *)

Lemma number_sound : sound json_read_usize json_number.
Proof.
  intros b n r. unfold json_read_usize.
  destruct (skip_blanks_split b) as (w & Hb & Hw). set (b' := skip_blanks b) in *. clearbody b'. subst b.
  destruct (take_digits b') as [d r'] eqn:E. apply take_digits_split in E as [-> Hr'].
  intros H.
  assert (r' = r ∧ n = N.of_uint d ∧ fits n ∧ d ≠ Nil ∧ (∀ d', d = D0 d' → d' = Nil)) as (-> & -> & Hf & Hd & Hz).
  { destruct d as [|d|d|d|d|d|d|d|d|d|d]; cbn iota zeta in H; [discriminate H| |..].
    - destruct d; try discriminate H. injection H as <- <-. split_and!; try done. by intros d' [= <-].
    - case_match eqn:El; [|discriminate H]. injection H as <- <-. apply N.ltb_lt in El. split_and!; done.
    - case_match eqn:El; [|discriminate H]. injection H as <- <-. apply N.ltb_lt in El. split_and!; done.
    - case_match eqn:El; [|discriminate H]. injection H as <- <-. apply N.ltb_lt in El. split_and!; done.
    - case_match eqn:El; [|discriminate H]. injection H as <- <-. apply N.ltb_lt in El. split_and!; done.
    - case_match eqn:El; [|discriminate H]. injection H as <- <-. apply N.ltb_lt in El. split_and!; done.
    - case_match eqn:El; [|discriminate H]. injection H as <- <-. apply N.ltb_lt in El. split_and!; done.
    - case_match eqn:El; [|discriminate H]. injection H as <- <-. apply N.ltb_lt in El. split_and!; done.
    - case_match eqn:El; [|discriminate H]. injection H as <- <-. apply N.ltb_lt in El. split_and!; done.
    - case_match eqn:El; [|discriminate H]. injection H as <- <-. apply N.ltb_lt in El. split_and!; done. }
  exists (w ++ write_digits d). split; [by rewrite <- app_assoc|].
  exists w, (digit_list d). split; [done|]. split; [by rewrite write_digits_list|].
  split; [apply digit_list_bound|]. split; [by destruct d|].
  split.
  - destruct d as [|d|d|d|d|d|d|d|d|d|d]; simpl; intros E; try discriminate E. by rewrite (Hz d eq_refl).
  - split; [apply of_uint_value|done].
Qed.

Lemma number_complete : complete json_read_usize json_number.
Proof.
  intros n t r (w & ds & Hw & -> & Hds & Hne & Hz & -> & Hf) Hr.
  destruct (digit_list_surj ds Hds) as [d <-]. rewrite <- write_digits_list, <- of_uint_value in *.
  unfold json_read_usize. rewrite <- app_assoc, (skip_blanks_app w _ Hw).
  assert (skip_blanks (write_digits d ++ r) = write_digits d ++ r) as ->.
  { destruct d; try done. }
  rewrite (take_digits_write d r Hr).
  assert ((N.of_uint d <? usize_limit)%N = true) as El by by apply N.ltb_lt.
  destruct d as [|d|d|d|d|d|d|d|d|d|d]; [done| |by rewrite El..].
  specialize (Hz eq_refl). simpl in Hz. injection Hz as Hz. destruct d; try discriminate Hz. done.
Qed.

Lemma nat_sound : sound json_read_nat json_nat.
Proof.
  intros b n r. unfold json_read_nat. destruct (json_read_usize b) as [[m r']|] eqn:E; [|done].
  intros [= <- <-]. apply number_sound in E as (t & -> & H). exists t. split; [done|].
  unfold json_nat. by rewrite N2Nat.id.
Qed.

Lemma nat_complete : complete json_read_nat json_nat.
Proof.
  intros n t r H Hr. unfold json_read_nat. rewrite (number_complete (N.of_nat n) t r H Hr).
  by rewrite Nat2N.id.
Qed.

(** *** Arrays *)

Lemma no_digit_blank w r : blank w → no_digit r → no_digit (w ++ r).
Proof.
  intros Hw Hr. destruct Hw as [|c w Hc Hw]; [done|]. simpl. unfold is_digit.
  destruct Hc as [->|[->|[->| ->]]]; done.
Qed.

Lemma items_sound {A} (p : parser A) R fuel : sound p R → ∀ b l r,
  json_read_items p fuel b = Some (l, r) → ∃ t, b = t ++ char "]" ++ r ∧ json_items R l t.
Proof.
  intros Hp. induction fuel as [|fuel IH]; intros b l r H; [done|]. cbn [json_read_items] in H.
  destruct (p b) as [[a b1]|] eqn:E; [|done]. apply Hp in E as (t & -> & Ht).
  destruct (skip_blanks_split b1) as (w & Hb1 & Hw). set (b2 := skip_blanks b1) in *. clearbody b2. subst b1.
  destruct b2 as [|c b2]; [done|].
  destruct (Byte.eqb c Byte.x2c) eqn:Ec; [apply Byte.byte_dec_bl in Ec as ->|].
  { destruct (json_read_items p fuel b2) as [[l' r']|] eqn:E'; [|done]. injection H as <- <-.
    apply IH in E' as (t' & -> & Ht'). exists (t ++ w ++ char "," ++ t').
    split; [by rewrite <- !app_assoc|]. by constructor. }
  destruct (Byte.eqb c Byte.x5d) eqn:Ec'; [apply Byte.byte_dec_bl in Ec' as ->|].
  { injection H as <- <-. exists (t ++ w). split; [by rewrite <- !app_assoc|]. by constructor. }
  destruct c; first [discriminate Ec|discriminate Ec'|discriminate H].
Qed.

Lemma items_complete {A} (p : parser A) R : complete p R → (∀ a t, R a t → t ≠ []) →
  ∀ l t r fuel, json_items R l t → length (t ++ char "]" ++ r) ≤ fuel →
  json_read_items p fuel (t ++ char "]" ++ r) = Some (l, r).
Proof.
  change (char "]") with [Byte.x5d].
  intros Hp Hne l t r fuel H. revert fuel. induction H as [a t w Ht Hw|a l t w t' Ht Hw Hl IH]; intros fuel Hf.
  - destruct fuel as [|fuel]; [rewrite !app_length in Hf; simpl in Hf; lia|]. cbn [json_read_items].
    rewrite <- !app_assoc. rewrite (Hp a t _ Ht); [|by apply no_digit_blank].
    by rewrite (skip_blanks_app w _ Hw).
  - pose proof (Hne a t Ht) as Hnt.
    destruct fuel as [|fuel]; [rewrite !app_length in Hf; simpl in Hf; lia|]. cbn [json_read_items].
    rewrite <- !app_assoc. rewrite (Hp a t _ Ht); [|by apply no_digit_blank].
    rewrite (skip_blanks_app w _ Hw). change (char "," ++ ?x) with (Byte.x2c :: x). cbn [skip_blanks is_blank].
    rewrite IH; [done|]. revert Hf. change (char ",") with [Byte.x2c]. rewrite !app_length. simpl. lia.
Qed.

Lemma array_sound {A} (p : parser A) R : sound p R → sound (json_read_seq p) (json_array R).
Proof.
  intros Hp b l r. unfold json_read_seq.
  destruct (skip_blanks_split b) as (w & Hb & Hw). set (b1 := skip_blanks b) in *. clearbody b1. subst b.
  destruct b1 as [|c b1]; [done|].
  destruct (Byte.eqb c Byte.x5b) eqn:Ec; [apply Byte.byte_dec_bl in Ec as ->|by destruct c; try discriminate Ec].
  destruct (skip_blanks_split b1) as (w' & Hb & Hw'). set (b2 := skip_blanks b1) in *. clearbody b2.
  intros H.
  assert ((∃ b3, b2 = Byte.x5d :: b3 ∧ Some ([], b3) = Some (l, r)) ∨
          json_read_items p (length b1) b1 = Some (l, r)) as [(b3 & -> & H3)|H3].
  { destruct b2 as [|c b2]; [by right|].
    destruct (Byte.eqb c Byte.x5d) eqn:Ec; [apply Byte.byte_dec_bl in Ec as ->|].
    - left. by exists b2.
    - right. destruct c; first [discriminate Ec|exact H]. }
  - injection H3 as <- <-. subst b1. exists (w ++ char "[" ++ w' ++ char "]").
    split; [by rewrite <- !app_assoc; simpl; rewrite <- ?app_assoc|]. by constructor.
  - apply (items_sound p R _ Hp) in H3 as (t & -> & Ht). exists (w ++ char "[" ++ t ++ char "]").
    split; [by rewrite <- !app_assoc; simpl; rewrite <- ?app_assoc|]. by constructor.
Qed.

(** A value starts with something that is neither blank nor a closing bracket. *)
Definition opens {A} (R : A → bytes → Prop) : Prop :=
  ∀ a t, R a t → ∃ w c t', t = w ++ c :: t' ∧ blank w ∧ is_blank c = false ∧ Byte.eqb c Byte.x5d = false.

Lemma array_complete {A} (p : parser A) R : complete p R → opens R → complete (json_read_seq p) (json_array R).
Proof.
  intros Hp Ho l t r H Hr. unfold json_read_seq. destruct H as [w w' Hw Hw'|l w t Hw Ht].
  - rewrite <- ?app_assoc, (skip_blanks_app w _ Hw). simpl. rewrite <- ?app_assoc.
    by rewrite (skip_blanks_app w' _ Hw').
  - rewrite <- ?app_assoc, (skip_blanks_app w _ Hw).
    change (char "[" ++ ?x) with (Byte.x5b :: x). cbn [skip_blanks is_blank].
    assert (∃ w1 c t1, t = w1 ++ c :: t1 ∧ blank w1 ∧ is_blank c = false ∧ Byte.eqb c Byte.x5d = false)
      as (w1 & c & t1 & Et & Hw1 & Hc & Hc').
    { destruct Ht as [a t1 w1 Ht Hw1|a l t1 w1 t' Ht Hw1 Hl];
        destruct (Ho a t1 Ht) as (w2 & c & t2 & -> & Hw2 & Hc); exists w2, c; eexists; split;
        first [rewrite <- ?app_assoc; reflexivity|done]. }
    assert (json_read_items p (length (t ++ char "]" ++ r)) (t ++ char "]" ++ r) = Some (l, r)) as Hi.
    { apply (items_complete p R Hp); [|done|lia]. intros a t' Ha ->.
      destruct (Ho a [] Ha) as (w2 & c2 & t2 & E & _). by destruct w2. }
    assert (skip_blanks (t ++ char "]" ++ r) = c :: t1 ++ char "]" ++ r) as Hs.
    { rewrite Et, <- app_assoc, (skip_blanks_app w1 _ Hw1). by rewrite <- app_comm_cons, skip_blanks_cons. }
    rewrite Hs. destruct c; first [discriminate Hc'|exact Hi].
Qed.

Lemma array_opens {A} (R : A → bytes → Prop) : opens (json_array R).
Proof.
  intros l t [w w' Hw Hw'|l' w t' Hw Ht]; exists w, Byte.x5b; eexists; split; try done.
Qed.

Lemma number_opens : opens json_nat.
Proof.
  intros n t (w & ds & Hw & -> & Hds & Hne & _). destruct ds as [|d ds]; [done|].
  inversion Hds as [|? ? Hd _]; subst.
  assert (d = 0 ∨ d = 1 ∨ d = 2 ∨ d = 3 ∨ d = 4 ∨ d = 5 ∨ d = 6 ∨ d = 7 ∨ d = 8 ∨ d = 9)%N as H by lia.
  exists w. destruct H as [->|[->|[->|[->|[->|[->|[->|[->|[->| ->]]]]]]]]]; simpl; eexists _, _; done.
Qed.

(** *** Pairs *)

Lemma expect_sound c b b' : expect c b = Some b' → ∃ w, b = w ++ c :: b' ∧ blank w.
Proof.
  unfold expect. destruct (skip_blanks_split b) as (w & Hb & Hw).
  set (b1 := skip_blanks b) in *. clearbody b1. subst b. destruct b1 as [|d b1]; [done|].
  destruct (Byte.eqb c d) eqn:E; [|done]. apply Byte.byte_dec_bl in E as ->. intros [= ->]. by exists w.
Qed.

Lemma expect_complete c w b : blank w → is_blank c = false → expect c (w ++ c :: b) = Some b.
Proof.
  intros Hw Hc. unfold expect. rewrite (skip_blanks_app w _ Hw), (skip_blanks_cons c b Hc).
  by rewrite (Byte.byte_dec_lb eq_refl).
Qed.

Lemma pair_sound {A B} (p : parser A) (q : parser B) R Q :
  sound p R → sound q Q → sound (json_read_pair p q) (json_pair R Q).
Proof.
  intros Hp Hq b [x y] r H. unfold json_read_pair in H.
  apply bind_Some in H as (b1 & E1 & H). apply expect_sound in E1 as (w & -> & Hw).
  apply bind_Some in H as ([x' b2] & E2 & H). apply Hp in E2 as (tx & -> & Hx).
  apply bind_Some in H as (b3 & E3 & H). apply expect_sound in E3 as (wx & -> & Hwx).
  apply bind_Some in H as ([y' b4] & E4 & H). apply Hq in E4 as (ty & -> & Hy).
  apply bind_Some in H as (b5 & E5 & H). apply expect_sound in E5 as (wy & -> & Hwy).
  injection H as -> -> ->. exists (w ++ char "[" ++ tx ++ wx ++ char "," ++ ty ++ wy ++ char "]").
  split; [rewrite <- ?app_assoc; simpl; by rewrite <- ?app_assoc|].
  exists w, tx, wx, ty, wy. done.
Qed.

Lemma pair_complete {A B} (p : parser A) (q : parser B) R Q :
  complete p R → complete q Q → complete (json_read_pair p q) (json_pair R Q).
Proof.
  intros Hp Hq [x y] t r (w & tx & wx & ty & wy & Hw & Hwx & Hwy & Hx & Hy & ->) Hr.
  unfold json_read_pair. simpl in Hx, Hy. rewrite <- ?app_assoc. simpl.
  rewrite (expect_complete Byte.x5b w _ Hw eq_refl). simpl.
  rewrite (Hp x tx _ Hx); [|by apply no_digit_blank]. simpl.
  rewrite (expect_complete Byte.x2c wx _ Hwx eq_refl). simpl.
  rewrite (Hq y ty _ Hy); [|by apply no_digit_blank]. simpl.
  by rewrite (expect_complete Byte.x5d wy _ Hwy eq_refl).
Qed.

Lemma pair_opens {A B} (R : A → bytes → Prop) (Q : B → bytes → Prop) : opens (json_pair R Q).
Proof.
  intros p t (w & tx & wx & ty & wy & Hw & _ & _ & _ & _ & ->). exists w, Byte.x5b. by eexists.
Qed.

(** *** Whole files *)

Lemma file_reader {A} (p : parser A) R : sound p R → complete p R → ∀ b a,
  json_from_reader p b = Some a ↔ json_file R a b.
Proof.
  intros Hs Hc b a. unfold json_from_reader. split.
  - destruct (p b) as [[a' r]|] eqn:E; [|done]. apply Hs in E as (t & -> & Ht).
    destruct (skip_blanks r) eqn:Er; [|done]. intros [= ->]. apply skip_blanks_all in Er. by exists t, r.
  - intros (t & w & -> & Ht & Hw). rewrite (Hc a t w Ht); [|by rewrite <- (app_nil_r w); apply no_digit_blank].
    by rewrite (proj2 (skip_blanks_all w) Hw).
Qed.

Lemma spacial_sound : sound json_spacial_reader json_spacial_text.
Proof. apply array_sound, array_sound, nat_sound. Qed.
Lemma spacial_complete : complete json_spacial_reader json_spacial_text.
Proof. apply array_complete; [apply array_complete; [apply nat_complete|apply number_opens]|apply array_opens]. Qed.
Lemma order_sound : sound json_order_reader json_order_text.
Proof. apply array_sound, array_sound, pair_sound; [apply nat_sound|apply array_sound, nat_sound]. Qed.
Lemma order_complete : complete json_order_reader json_order_text.
Proof.
  apply array_complete; [|apply array_opens]. apply array_complete; [|apply pair_opens].
  apply pair_complete; [apply nat_complete|]. apply array_complete; [apply nat_complete|apply number_opens].
Qed.

(** ** Writing JSON *)

Lemma to_uint_normal n d : N.to_uint n = D0 d → d = Nil.
Proof.
  intros H. pose proof (DecimalN.Unsigned.to_of (N.to_uint n)) as Hn.
  rewrite DecimalN.Unsigned.of_to in Hn. rewrite H in Hn.
  unfold unorm in Hn. cbn [nzhead] in Hn.
  assert (∀ e d', nzhead e ≠ D0 d') as Hz by (intros e; induction e; intros d' E; cbn [nzhead] in E; try discriminate E; by apply IHe in E).
  destruct (nzhead d) as [|d'|d'|d'|d'|d'|d'|d'|d'|d'|d'] eqn:E; try discriminate Hn.
  - by injection Hn as ->.
  - by apply Hz in E.
Qed.

Lemma write_number n : fits n → json_number n (json_write_usize n).
Proof.
  intros Hf. exists [], (digit_list (N.to_uint n)). split; [done|]. split; [apply write_digits_list|].
  split; [apply digit_list_bound|]. split.
  - destruct (N.to_uint n) eqn:E; try done.
    pose proof (DecimalN.Unsigned.to_of (N.to_uint n)) as Hn. rewrite DecimalN.Unsigned.of_to, E in Hn. done.
  - split.
    + destruct (N.to_uint n) as [|d|d|d|d|d|d|d|d|d|d] eqn:E; simpl; intros E'; try discriminate E'.
      by rewrite (to_uint_normal n d E).
    + split; [|done]. rewrite <- of_uint_value. symmetry. apply DecimalN.Unsigned.of_to.
Qed.

Lemma write_items {A} (f : A → bytes) (R : A → bytes → Prop) l :
  l ≠ [] → (∀ a, a ∈ l → R a (f a)) → json_items R l (json_write_items f l).
Proof.
  induction l as [|a l IH]; [done|]. intros _ H.
  assert (R a (f a)) as Ha by by apply H, elem_of_list_here.
  destruct l as [|a' l].
  - cbn [json_write_items]. rewrite <- (app_nil_r (f a)). by constructor.
  - change (json_write_items f (a :: a' :: l)) with (f a ++ [] ++ char "," ++ json_write_items f (a' :: l)).
    constructor; [done|done|]. apply IH; [done|]. intros x Hx. apply H. by constructor.
Qed.

Lemma write_array {A} (f : A → bytes) (R : A → bytes → Prop) l :
  (∀ a, a ∈ l → R a (f a)) → json_array R l (json_write_seq f l).
Proof.
  intros H. unfold json_write_seq. destruct l as [|a l].
  - by apply (array_empty R [] []).
  - apply (array_items R (a :: l) [] (json_write_items f (a :: l))); [done|]. by apply write_items.
Qed.

Lemma write_pair {A B} (f : A → bytes) (g : B → bytes) (R : A → bytes → Prop) (Q : B → bytes → Prop) p :
  R p.1 (f p.1) → Q p.2 (g p.2) → json_pair R Q p (json_write_pair f g p).
Proof. intros H1 H2. exists [], (f p.1), [], (g p.2), []. done. Qed.

Lemma json_spacial_written adj : spacial_fits adj → json_spacial_text adj (json_spacial_writer adj).
Proof. intros H. apply write_array. intros l Hl. apply write_array. intros v Hv. by eapply write_number, H. Qed.

Lemma json_order_written g : order_fits g → json_order_text g (json_order_writer g).
Proof.
  intros H. apply write_array. intros l Hl. apply write_array. intros [v ds] Hv.
  destruct (H l v ds Hl Hv) as [Hf Hfs]. apply write_pair; [by apply write_number|].
  apply write_array. intros d Hd. by apply write_number, Hfs.
Qed.

Lemma steps_written s : spacial_fits s → json_spacial_text s (json_write_seq (json_write_seq json_write_nat) s).
Proof. apply json_spacial_written. Qed.

Lemma strip_app a b : strip a (a ++ b) = Some b.
Proof. induction a as [|c a IH]; [done|]. simpl. by rewrite (Byte.byte_dec_lb eq_refl). Qed.

Lemma expect_next c b : is_blank c = false → expect c (c :: b) = Some b.
Proof. intros Hc. by apply (expect_complete c [] b). Qed.

Lemma field_time b :
  json_read_field (text """time"":" ++ b) = ('(n, b) ← json_read_nat b; Some (FTime n, b)).
Proof. done. Qed.
Lemma field_space b :
  json_read_field (text """space"":" ++ b) = ('(n, b) ← json_read_usize b; Some (FSpace n, b)).
Proof. done. Qed.
Lemma field_steps b :
  json_read_field (text """steps"":" ++ b)
  = ('(s, b) ← json_read_seq (json_read_seq json_read_nat) b; Some (FSteps s, b)).
Proof. done. Qed.

Lemma path_object b : json_read_path (Byte.x7b :: b) =
  ('(f1, b) ← json_read_field b; b ← expect Byte.x2c b;
   '(f2, b) ← json_read_field b; b ← expect Byte.x2c b;
   '(f3, b) ← json_read_field b; b ← expect Byte.x7d b;
   p ← path_of_fields f1 f2 f3; Some (p, b)).
Proof. done. Qed.

Lemma read_path_written p r : path_fits p → no_digit r → json_read_path (json_write_path p ++ r) = Some (p, r).
Proof.
  intros (Ht & Hm & Hs) Hr. destruct p as [t m s]. unfold json_write_path. cbn [time space steps] in *.
  rewrite <- !app_assoc.
  change (text "{""time"":" ++ ?x) with (Byte.x7b :: text """time"":" ++ x).
  change (text ",""space"":" ++ ?x) with (Byte.x2c :: text """space"":" ++ x).
  change (text ",""steps"":" ++ ?x) with (Byte.x2c :: text """steps"":" ++ x).
  change ([Byte.x7d] ++ r) with (Byte.x7d :: r).
  rewrite path_object, field_time.
  rewrite (nat_complete t (json_write_nat t)); [|by apply write_number|done]. cbn [mbind option_bind].
  rewrite expect_next by done. cbn [mbind option_bind]. rewrite field_space.
  rewrite (number_complete m (json_write_usize m)); [|by apply write_number|done]. cbn [mbind option_bind].
  rewrite expect_next by done. cbn [mbind option_bind]. rewrite field_steps.
  rewrite (spacial_complete s (json_write_seq (json_write_seq json_write_nat) s)); [|by apply steps_written|done].
  cbn [mbind option_bind]. by rewrite expect_next by done.
Qed.

Lemma written_opens p : ∃ c t, json_write_path p = c :: t ∧ is_blank c = false ∧ Byte.eqb c Byte.x5d = false.
Proof. by eexists _, _. Qed.

Definition path_text (p : path) (t : bytes) : Prop := path_fits p ∧ t = json_write_path p.

Lemma json_paths_read_back ps : Forall path_fits ps → json_read_paths (json_write_seq json_write_path ps) = Some ps.
Proof.
  intros H. unfold json_read_paths, json_from_reader.
  rewrite <- (app_nil_r (json_write_seq json_write_path ps)).
  rewrite (array_complete json_read_path path_text) with (a := ps); [done| | | |done].
  - intros p t r [Hp ->] Hr. by apply read_path_written.
  - intros p t [Hp ->]. destruct (written_opens p) as (c & t & -> & Hc). by exists [], c, t.
  - apply write_array. intros p Hp. split; [|done]. by eapply Forall_forall in H.
Qed.

Lemma json_spacial_read adj b :
  json_from_reader json_spacial_reader b = Some adj ↔ json_file json_spacial_text adj b.
Proof. apply file_reader; [apply spacial_sound|apply spacial_complete]. Qed.

Lemma json_order_read g b :
  json_from_reader json_order_reader b = Some g ↔ json_file json_order_text g b.
Proof. apply file_reader; [apply order_sound|apply order_complete]. Qed.

(** ** bincode *)

(** What is read is exactly the text of the value, whatever follows. *)
Definition exact_reader {A} (p : parser A) (R : A → bytes → Prop) : Prop :=
  ∀ b a r, p b = Some (a, r) ↔ ∃ t, b = t ++ r ∧ R a t.

Lemma read_bytes_exact k b n r :
  bin_read_bytes k b = Some (n, r) ↔
  ∃ t, b = t ++ r ∧ length t = k ∧ n = foldr (λ c n, Byte.to_N c + 256 * n)%N 0%N t.
Proof.
  revert b n r. induction k as [|k IH]; intros b n r; cbn [bin_read_bytes].
  - split; [intros [= <- <-]; by exists []|]. intros (t & -> & Ht & ->). by destruct t.
  - destruct b as [|c b].
    + split; [done|]. intros (t & Hb & Ht & _). destruct t; [done|]. discriminate Hb.
    + split.
      * intros H. apply bind_Some in H as ([m b'] & E & H). injection H as <- <-.
        apply IH in E as (t & -> & <- & ->). by exists (c :: t).
      * intros (t & Hb & Ht & ->). destruct t as [|c' t]; [discriminate Ht|]. injection Hb as -> ->.
        injection Ht as Ht. erewrite (proj2 (IH (t ++ r) _ r)); [|by exists t]. done.
Qed.

Lemma u64_exact : exact_reader bin_read_u64 bin_u64.
Proof. intros b n r. apply read_bytes_exact. Qed.

Lemma bin_nat_exact : exact_reader bin_read_nat bin_nat.
Proof.
  intros b n r. unfold bin_read_nat. split.
  - intros H. apply bind_Some in H as ([m b'] & E & H). injection H as <- <-.
    apply u64_exact in E as (t & -> & Ht). exists t. split; [done|]. unfold bin_nat. by rewrite N2Nat.id.
  - intros (t & -> & Ht). rewrite (proj2 (u64_exact (t ++ r) (N.of_nat n) r)); [|by exists t].
    simpl. by rewrite Nat2N.id.
Qed.

Lemma bin_items_exact {A} (p : parser A) R : exact_reader p R → ∀ n b l r,
  bin_read_items p n b = Some (l, r) ↔ ∃ ts, b = List.concat ts ++ r ∧ length l = n ∧ Forall2 R l ts.
Proof.
  intros Hp n. induction n as [|n IH]; intros b l r; cbn [bin_read_items].
  - split; [intros [= <- <-]; by exists []|]. intros (ts & -> & Hl & H). destruct l; [|done].
    by inversion H.
  - split.
    + intros H. apply bind_Some in H as ([a b1] & E1 & H). apply bind_Some in H as ([l' b2] & E2 & H).
      injection H as <- <-. apply Hp in E1 as (t & -> & Ht). apply IH in E2 as (ts & -> & <- & Hts).
      exists (t :: ts). split; [simpl; by rewrite app_assoc|]. split; [done|]. by constructor.
    + intros (ts & -> & Hl & H). destruct H as [|a t l ts Ht H]; [discriminate Hl|]. injection Hl as Hl.
      rewrite (proj2 (Hp (List.concat (t :: ts) ++ r) a (List.concat ts ++ r))).
      2:{ exists t. split; [simpl; by rewrite app_assoc|done]. }
      simpl. rewrite (proj2 (IH (List.concat ts ++ r) l r)); [done|]. by exists ts.
Qed.

Lemma concat_long {A} (R : A → bytes → Prop) l ts :
  (∀ a t, R a t → t ≠ []) → Forall2 R l ts → length l ≤ length (List.concat ts).
Proof.
  intros Hne H. induction H as [|a t l ts Ht H IH]; [done|]. simpl. rewrite app_length.
  pose proof (Hne a t Ht). destruct t; [done|]. simpl. lia.
Qed.

Lemma bin_vec_exact {A} (p : parser A) R :
  exact_reader p R → (∀ a t, R a t → t ≠ []) → exact_reader (bin_read_seq p) (bin_vec R).
Proof.
  intros Hp Hne b l r. unfold bin_read_seq. split.
  - intros H. apply bind_Some in H as ([n b1] & E & H). apply u64_exact in E as (t0 & -> & Ht0).
    destruct (_ <? _)%N eqn:El; [done|]. apply (bin_items_exact p R Hp) in H as (ts & -> & Hl & Hts).
    exists (t0 ++ List.concat ts). split; [by rewrite app_assoc|]. exists t0, ts. split; [done|].
    split; [|done]. unfold bin_nat. rewrite Hl, N2Nat.id. done.
  - intros (t & -> & t0 & ts & -> & Ht0 & Hts).
    rewrite (proj2 (u64_exact ((t0 ++ List.concat ts) ++ r) (N.of_nat (length l)) (List.concat ts ++ r))).
    2:{ exists t0. split; [by rewrite app_assoc|done]. }
    cbn [mbind option_bind].
    assert ((N.of_nat (length (List.concat ts ++ r)) <? N.of_nat (length l))%N = false) as ->.
    { apply N.ltb_ge. rewrite app_length. pose proof (concat_long R l ts Hne Hts). lia. }
    rewrite Nat2N.id. apply (bin_items_exact p R Hp). by exists ts.
Qed.

Lemma bin_pair_exact {A B} (p : parser A) (q : parser B) R Q :
  exact_reader p R → exact_reader q Q → exact_reader (bin_read_pair p q) (bin_pair R Q).
Proof.
  intros Hp Hq b [x y] r. unfold bin_read_pair. split.
  - intros H. apply bind_Some in H as ([x' b1] & E1 & H). apply bind_Some in H as ([y' b2] & E2 & H).
    injection H as -> -> ->. apply Hp in E1 as (tx & -> & Hx). apply Hq in E2 as (ty & -> & Hy).
    exists (tx ++ ty). split; [by rewrite app_assoc|]. by exists tx, ty.
  - intros (t & -> & tx & ty & -> & Hx & Hy).
    rewrite (proj2 (Hp ((tx ++ ty) ++ r) x (ty ++ r))); [|exists tx; by rewrite app_assoc].
    simpl. rewrite (proj2 (Hq (ty ++ r) y r)); [done|]. by exists ty.
Qed.

Lemma bin_u64_nonempty n t : bin_u64 n t → t ≠ [].
Proof. intros [H _] ->. discriminate H. Qed.
Lemma bin_vec_nonempty {A} (R : A → bytes → Prop) l t : bin_vec R l t → t ≠ [].
Proof. intros (t0 & ts & -> & [H _] & _) E. apply app_eq_nil in E as [-> _]. discriminate H. Qed.
Lemma bin_pair_nonempty {B} (Q : B → bytes → Prop) p t : bin_pair bin_nat Q p t → t ≠ [].
Proof. intros (tx & ty & -> & [H _] & _) E. apply app_eq_nil in E as [-> _]. discriminate H. Qed.

Lemma bin_vecs_exact : exact_reader (bin_read_seq (bin_read_seq bin_read_nat)) (bin_vec (bin_vec bin_nat)).
Proof.
  apply bin_vec_exact; [|intros ? ?; apply bin_vec_nonempty].
  apply bin_vec_exact; [apply bin_nat_exact|]. intros n t. apply bin_u64_nonempty.
Qed.

Lemma bin_spacial_exact : exact_reader bin_spacial_reader bin_spacial_text.
Proof. apply bin_vecs_exact. Qed.

Lemma bin_order_exact : exact_reader bin_order_reader bin_order_text.
Proof.
  apply bin_vec_exact; [|intros ? ?; apply bin_vec_nonempty].
  apply bin_vec_exact; [|intros ? ?; apply bin_pair_nonempty].
  apply bin_pair_exact; [apply bin_nat_exact|].
  apply bin_vec_exact; [apply bin_nat_exact|]. intros n t. apply bin_u64_nonempty.
Qed.

Lemma bin_path_exact : exact_reader bin_read_path bin_path_text.
Proof.
  intros b [t m s] r. unfold bin_read_path. split.
  - intros H. apply bind_Some in H as ([t' b1] & E1 & H). apply bind_Some in H as ([m' b2] & E2 & H).
    apply bind_Some in H as ([s' b3] & E3 & H). injection H as -> -> -> ->.
    apply bin_nat_exact in E1 as (t1 & -> & H1). apply u64_exact in E2 as (t2 & -> & H2).
    apply bin_vecs_exact in E3 as (t3 & -> & H3).
    exists (t1 ++ t2 ++ t3). split; [by rewrite <- !app_assoc|]. by exists t1, t2, t3.
  - intros (x & -> & t1 & t2 & t3 & -> & H1 & H2 & H3). rewrite <- !app_assoc. simpl in H1, H2, H3.
    rewrite (proj2 (bin_nat_exact (t1 ++ t2 ++ t3 ++ r) t (t2 ++ t3 ++ r))); [|by exists t1]. simpl.
    rewrite (proj2 (u64_exact (t2 ++ t3 ++ r) m (t3 ++ r))); [|by exists t2]. simpl.
    rewrite (proj2 (bin_vecs_exact (t3 ++ r) s r)); [done|by exists t3].
Qed.

Lemma bin_reader {A} (p : parser A) R : exact_reader p R → ∀ b a,
  bin_from_reader p b = Some a ↔ bin_file R a b.
Proof.
  intros Hp b a. unfold bin_from_reader. split.
  - destruct (p b) as [[a' r]|] eqn:E; [|done]. intros [= ->]. apply Hp in E as (t & -> & Ht). by exists t, r.
  - intros (t & r & -> & Ht). by rewrite (proj2 (Hp (t ++ r) a r)) by by exists t.
Qed.

(** *** Writing *)

Lemma of_N_mod n : ∃ c, Byte.of_N (n mod 256) = Some c ∧ Byte.to_N c = (n mod 256)%N.
Proof.
  destruct (Byte.of_N (n mod 256)) as [c|] eqn:E.
  - exists c. split; [done|]. by apply Byte.to_of_N.
  - apply Byte.of_N_None_iff in E. pose proof (N.mod_lt n 256). lia.
Qed.

Lemma little_endian_value k n : (n < 256 ^ N.of_nat k)%N →
  length (little_endian k n) = k ∧ n = foldr (λ c n, Byte.to_N c + 256 * n)%N 0%N (little_endian k n).
Proof.
  revert n. induction k as [|k IH]; intros n Hn.
  - change (256 ^ N.of_nat 0)%N with 1%N in Hn. simpl. split; [done|]. lia.
  - cbn [little_endian length foldr].
    assert (n / 256 < 256 ^ N.of_nat k)%N as Hn'.
    { apply N.div_lt_upper_bound; [done|]. rewrite Nat2N.inj_succ, N.pow_succ_r' in Hn. done. }
    destruct (IH _ Hn') as [Hl Hv]. split; [by rewrite Hl|]. rewrite <- Hv.
    destruct (of_N_mod n) as (c & E & Ec). rewrite E. unfold default, from_option, id. rewrite Ec.
    rewrite N.add_comm. by apply N.div_mod.
Qed.

Lemma u64_written n : fits n → bin_u64 n (bin_write_u64 n).
Proof. intros Hn. apply little_endian_value. exact Hn. Qed.

Lemma vec_written {A} (f : A → bytes) (R : A → bytes → Prop) l :
  fits (N.of_nat (length l)) → (∀ a, a ∈ l → R a (f a)) → bin_vec R l (bin_write_seq f l).
Proof.
  intros Hl H. exists (bin_write_nat (length l)), (map f l). split; [done|]. split; [by apply u64_written|].
  clear Hl. induction l as [|a l IH]; [constructor|]. constructor; [apply H; constructor|].
  apply IH. intros x Hx. apply H. by constructor.
Qed.

Lemma vecs_written adj : spacial_fits adj → spacial_lengths adj →
  bin_vec (bin_vec bin_nat) adj (bin_write_seq (bin_write_seq bin_write_nat) adj).
Proof.
  intros H [Hl Hls]. apply vec_written; [done|]. intros l Hin. apply vec_written; [by apply Hls|].
  intros v Hv. apply u64_written. by eapply H.
Qed.

Lemma bin_order_written g : order_fits g → order_lengths g → bin_order_text g (bin_order_writer g).
Proof.
  intros H [Hl Hls]. apply vec_written; [done|]. intros l Hin. destruct (Hls l Hin) as [Hll Hds].
  apply vec_written; [done|]. intros [v ds] Hv. destruct (H l v ds Hin Hv) as [Hfv Hfd].
  exists (bin_write_nat v), (bin_write_seq bin_write_nat ds). split; [done|]. split; [by apply u64_written|].
  apply vec_written; [by eapply Hds|]. intros d Hd. by apply u64_written, Hfd.
Qed.

Lemma bin_path_written p : path_fits p → spacial_lengths (steps p) → bin_path_text p (bin_write_path p).
Proof.
  intros (Ht & Hm & Hs) Hl. eexists _, _, _. split; [done|]. split; [by apply u64_written|].
  split; [by apply u64_written|]. by apply vecs_written.
Qed.

Lemma bin_paths_read_back ps r :
  fits (N.of_nat (length ps)) → Forall (λ p, path_fits p ∧ spacial_lengths (steps p)) ps →
  bin_read_paths (bin_write_seq bin_write_path ps ++ r) = Some ps.
Proof.
  intros Hl H. unfold bin_read_paths.
  apply (bin_reader _ (bin_vec bin_path_text)).
  - apply bin_vec_exact; [apply bin_path_exact|]. intros p t (t1 & t2 & t3 & -> & [H1 _] & _) E.
    apply app_eq_nil in E as [-> _]. discriminate H1.
  - exists (bin_write_seq bin_write_path ps), r. split; [done|]. apply vec_written; [done|].
    intros p Hp. eapply Forall_forall in H; [|done]. destruct H as [H1 H2]. by apply bin_path_written.
Qed.
