(** * Facts about the JSON documents: reading and writing *)
From stdpp Require Import strings.
From Verif Require Import Codec CodecFacts JsonSpec Output Plotting.

Local Hint Resolve blank_nil : core.

(** ** Numbers *)

Lemma digit_byte d : (d < 10)%N → ∃ c, Byte.of_N (48 + d) = Some c ∧ digit_of c = Some d ∧
  is_number_char c = true ∧ is_digit c = true.
Proof.
  intros Hd.
  assert (d = 0 ∨ d = 1 ∨ d = 2 ∨ d = 3 ∨ d = 4 ∨ d = 5 ∨ d = 6 ∨ d = 7 ∨ d = 8 ∨ d = 9)%N as H by lia.
  destruct H as [->|[->|[->|[->|[->|[->|[->|[->|[->| ->]]]]]]]]]; eexists; split_and!; reflexivity.
Qed.

Lemma digit_of_none c : is_digit c = false → digit_of c = None.
Proof. unfold is_digit, digit_of. by intros ->. Qed.

Lemma span_digits_app ds r : Forall (λ d, (d < 10)%N) ds → no_digit r → span_digits (digits_text ds ++ r) = (ds, r).
Proof.
  intros Hds Hr. induction Hds as [|d ds Hd Hds IH].
  - destruct r as [|c r]; [done|]. cbn [app span_digits digits_text map List.concat]. by rewrite (digit_of_none c Hr).
  - destruct (digit_byte d Hd) as (c & Hc & Hdc & _). unfold digits_text in *. cbn [map List.concat].
    rewrite Hc. change (option_list (Some c)) with [c]. cbn [app span_digits]. by rewrite Hdc, IH.
Qed.

Lemma read_digits_app ds r : Forall (λ d, (d < 10)%N) ds → ds ≠ [] → no_digit r →
  read_digits (digits_text ds ++ r) = Some (ds, r).
Proof. intros Hds Hn Hr. unfold read_digits. rewrite span_digits_app by done. by destruct ds. Qed.

Lemma digits_first ds : Forall (λ d, (d < 10)%N) ds → ds ≠ [] →
  ∃ c t, digits_text ds = c :: t ∧ is_digit c = true ∧ is_number_char c = true.
Proof.
  intros Hds Hn. destruct ds as [|d ds]; [done|]. inversion_clear Hds as [|?? Hd _].
  destruct (digit_byte d Hd) as (c & Hc & _ & Hn' & Hdig). unfold digits_text. cbn [map List.concat].
  rewrite Hc. change (option_list (Some c)) with [c]. cbn [app]. by eauto.
Qed.

Lemma digits_number_chars ds : Forall (λ d, (d < 10)%N) ds → Forall (λ c, is_number_char c = true) (digits_text ds).
Proof.
  induction 1 as [|d ds Hd _ IH]; [constructor|]. destruct (digit_byte d Hd) as (c & Hc & _ & Hn' & _).
  unfold digits_text in *. cbn [map List.concat]. rewrite Hc. change (option_list (Some c)) with [c]. cbn [app]. by constructor.
Qed.

Lemma digit_bytes c : is_digit c = true →
  c = Byte.x30 ∨ c = Byte.x31 ∨ c = Byte.x32 ∨ c = Byte.x33 ∨ c = Byte.x34 ∨ c = Byte.x35 ∨ c = Byte.x36 ∨
  c = Byte.x37 ∨ c = Byte.x38 ∨ c = Byte.x39.
Proof. destruct c; intros H; first [discriminate H|tauto]. Qed.

Lemma read_sign_digit c t : is_digit c = true → read_sign (c :: t) = (false, c :: t).
Proof. intros H. by destruct (digit_bytes c H) as [->|[->|[->|[->|[->|[->|[->|[->|[->| ->]]]]]]]]]. Qed.

Definition number_value (l : literal) (n : bool) (m : N) (k : Z) : Prop :=
  lit_negative l = n ∧ digits_value (lit_int l ++ lit_frac l) = m ∧
  (default 0 (lit_exp l) - Z.of_nat (length (lit_frac l)))%Z = k.

Lemma number_read_parts n ip fp s tip tfp ex tex :
  sign_text n s → digits_as ip tip → (head ip = Some 0%N → ip = [0%N]) →
  fraction_text fp tfp → exponent_text ex tex →
  ∃ l, read_literal (s ++ tip ++ tfp ++ tex) = Some l ∧ json_literal l = true ∧
    number_value l n (digits_value (ip ++ fp)) (ex - Z.of_nat (length fp)) ∧
    lit_int l = ip ∧ lit_frac l = fp ∧ (lit_exp l = None → tex = []).
Proof.
  intros Hs (Hip & Hipn & ->) Hz Hfp Hex.
  fold (digits_text ip).
  assert (Hsg : read_sign (s ++ digits_text ip ++ tfp ++ tex) = (n, digits_text ip ++ tfp ++ tex)).
  { destruct Hs; [|done]. cbn [app]. destruct (digits_first ip) as (c & t & -> & Hc & _); [done..|].
    by apply read_sign_digit. }
  assert (Hnex : no_digit tex) by (destruct Hex as [|? ? ? ? ? [-> | ->]]; done).
  assert (Hnfp : no_digit (tfp ++ tex)) by (destruct Hfp; done).
  assert (Hfr : read_fraction (tfp ++ tex) = Some (fp, tex)).
  { destruct Hfp as [|fp t (Hf & Hfn & ->)].
    - destruct Hex as [|? ? ? ? ? [-> | ->]]; done.
    - change (char ".") with [Byte.x2e]. cbn [app read_fraction]. by apply read_digits_app. }
  assert (∃ e, read_exponent tex = Some (e, []) ∧ default 0%Z e = ex ∧ (e = None → tex = [])) as (e & He & Hd & Hnone).
  { destruct Hex as [|c sg n' ds t Hc Hsg' (Hd & Hdn & ->)]; [by exists None|].
    fold (digits_text ds). pose proof (read_digits_app ds [] Hd Hdn I) as Hrd. rewrite app_nil_r in Hrd.
    eexists (Some _). split; [|split; [reflexivity|discriminate]].
    assert (match (sg ++ digits_text ds) with Byte.x2b :: b => (false, b) | _ => read_sign (sg ++ digits_text ds) end
      = (n', digits_text ds)) as Hsig.
    { destruct Hsg' as [Hsg'|[-> ->]]; [|done]. destruct Hsg'; [|done]. cbn [app].
      destruct (digits_first ds) as (c' & t' & -> & Hc' & _); [done..|].
      by destruct (digit_bytes c' Hc') as [->|[->|[->|[->|[->|[->|[->|[->|[->| ->]]]]]]]]]. }
    destruct Hc as [-> | ->];
      (change (char "e") with [Byte.x65] || change (char "E") with [Byte.x45]); cbn [app read_exponent];
      rewrite Hsig, Hrd; reflexivity. }
  exists (mkLiteral n ip fp e). split_and!; [| | |done..].
  - unfold read_literal. rewrite Hsg, read_digits_app by done. cbn [mbind option_bind].
    rewrite Hfr. cbn [mbind option_bind]. by rewrite He.
  - unfold json_literal. cbn [lit_int]. destruct ip as [|d ip]; [done|]. destruct d; [|done].
    by injection (Hz eq_refl) as ->.
  - unfold number_value. cbn [lit_negative lit_int lit_frac lit_exp]. split_and!; [done..|by rewrite Hd].
Qed.

Lemma number_read n m k t : number_text n m k t →
  ∃ l, read_literal t = Some l ∧ json_literal l = true ∧ number_value l n m k.
Proof.
  intros (ip & fp & s & tip & tfp & ex & tex & Hs & Hip & Hz & Hfp & Hex & -> & -> & ->).
  destruct (number_read_parts n ip fp s tip tfp ex tex Hs Hip Hz Hfp Hex) as (l & ? & ? & ? & _). by eauto.
Qed.

Lemma number_chars n m k t : number_text n m k t → Forall (λ c, is_number_char c = true) t.
Proof.
  intros (ip & fp & s & tip & tfp & ex & tex & Hs & (Hip & Hipn & ->) & Hz & Hfp & Hex & -> & -> & ->).
  apply Forall_app_2; [|apply Forall_app_2; [|apply Forall_app_2]].
  - destruct Hs; repeat constructor.
  - by apply digits_number_chars.
  - destruct Hfp as [|? ? (? & ? & ->)]; [constructor|]. constructor; [done|]. by apply digits_number_chars.
  - destruct Hex as [|? ? ? ? ? [-> | ->] Hsg (? & ? & ->)]; [constructor|..];
      (constructor; [done|]; apply Forall_app_2; [|by apply digits_number_chars]);
      (destruct Hsg as [Hsg|[_ ->]]; [destruct Hsg|]; repeat constructor).
Qed.

Lemma number_first n m k t : number_text n m k t →
  ∃ c t', t = c :: t' ∧ (c = Byte.x2d ∨ is_digit c = true).
Proof.
  intros (ip & fp & s & tip & tfp & ex & tex & Hs & (Hip & Hipn & ->) & Hz & Hfp & Hex & -> & -> & ->).
  destruct Hs; [|by eauto]. fold (digits_text ip).
  destruct (digits_first ip) as (c & t & -> & Hc & _); [done..|]. cbn [app]. by eauto.
Qed.

(** What may follow a number. *)
Definition ends (r : bytes) : Prop := match r with c :: _ => is_number_char c = false | [] => True end.

Lemma span_number_app t r : Forall (λ c, is_number_char c = true) t → ends r → span_number (t ++ r) = (t, r).
Proof.
  intros Ht Hr. induction Ht as [|c t Hc _ IH].
  - destruct r as [|c r]; [done|]. simpl in Hr |- *. by rewrite Hr.
  - simpl. by rewrite Hc, IH.
Qed.

Lemma py_number_complete n m k t r : number_text n m k t → ends r → py_number (t ++ r) = Some (JNumber t, r).
Proof.
  intros Ht Hr. unfold py_number. rewrite span_number_app by (try done; by eapply number_chars).
  destruct (number_read n m k t Ht) as (l & Hl & Hj & _). rewrite Hl. cbn. by rewrite Hj.
Qed.

(** ** Strings *)

Lemma py_string_complete s r : plain s → py_string (s ++ Byte.x22 :: r) = Some (s, r).
Proof.
  induction 1 as [|c s (H1 & H2 & H3) _ IH]; [done|]. cbn [app py_string].
  assert (Byte.eqb c Byte.x5c || (Byte.to_N c <? 32)%N = false) as E.
  { apply orb_false_iff. split; [|by apply N.ltb_ge].
    destruct c; first [reflexivity|exfalso; by apply H3]. }
  rewrite E, IH. destruct c; first [reflexivity|exfalso; by apply H2].
Qed.

(** ** Documents *)

Lemma text_first v t : json_text v t →
  ∃ c t', t = c :: t' ∧ is_blank c = false ∧ c ≠ Byte.x5d ∧ c ≠ Byte.x7d ∧ c ≠ Byte.x2c.
Proof.
  destruct 1 as [| | |n m k t Ht|s Hs| | | |];
    try (eexists _, _; split; [reflexivity|split_and!; done]).
  destruct (number_first n m k t Ht) as (c & t' & -> & Hc). eexists _, _. split; [reflexivity|].
  destruct Hc as [-> | Hc]; [done|].
  destruct (digit_bytes c Hc) as [->|[->|[->|[->|[->|[->|[->|[->|[->| ->]]]]]]]]]; done.
Qed.

Scheme json_text_min := Minimality for json_text Sort Prop
  with json_elements_min := Minimality for json_elements Sort Prop
  with json_members_min := Minimality for json_members Sort Prop.
Combined Scheme json_text_mutind from json_text_min, json_elements_min, json_members_min.

Lemma skip_blanks_idem w b : blank w → skip_blanks (w ++ b) = skip_blanks b.
Proof. apply skip_blanks_app. Qed.

Lemma py_value_blank fuel w b : blank w → py_value fuel (w ++ b) = py_value fuel b.
Proof. intros Hw. destruct fuel; [done|]. cbn [py_value]. by rewrite skip_blanks_app. Qed.

Lemma expect_at c w b : blank w → is_blank c = false → expect c (w ++ c :: b) = Some b.
Proof. apply expect_complete. Qed.

Lemma blank_ends w c r : blank w → is_number_char c = false → ends (w ++ c :: r).
Proof.
  intros Hw Hc. destruct w as [|d w]; [done|]. inversion_clear Hw as [|?? Hd _].
  apply is_blank_spec in Hd. simpl. destruct d; first [discriminate Hd|reflexivity].
Qed.

Lemma elements_length l t : json_elements l t → length l ≤ length t.
Proof.
  induction 1 as [v w t w' Hw Ht Hw'|v l w t w' t' Hw Ht Hw' _ IH];
    destruct (text_first v t Ht) as (c & u & -> & _); rewrite !app_length; simpl; rewrite ?app_length; simpl; lia.
Qed.
Lemma members_length l t : json_members l t → length l ≤ length t.
Proof.
  induction 1 as [k v w w1 w2 t w'|k v l w w1 w2 t w' t' ? ? ? ? ? ? _ IH];
    unfold quoted; rewrite !app_length; simpl; rewrite ?app_length; simpl; rewrite ?app_length; simpl;
    rewrite ?app_length; simpl; lia.
Qed.

Lemma list_start {A} close (p : parser A) b c r :
  skip_blanks b = c :: r → c ≠ close → py_list close p b = py_items close p (length b) b.
Proof.
  intros E Hc. unfold py_list. rewrite E. destruct (Byte.eqb c close) eqn:Eq; [|done].
  by apply Byte.byte_dec_bl in Eq.
Qed.

Lemma text_start v w t r : blank w → json_text v t → ∃ c u, skip_blanks (w ++ t ++ r) = c :: u ∧
  c ≠ Byte.x5d ∧ c ≠ Byte.x7d.
Proof.
  intros Hw Ht. rewrite skip_blanks_app by done.
  destruct (text_first v t Ht) as (c & t' & -> & Hb & H1 & H2 & _).
  cbn [app]. rewrite skip_blanks_cons by done. by eauto.
Qed.

Lemma elements_start l t r : json_elements l t → ∃ c u, skip_blanks (t ++ r) = c :: u ∧ c ≠ Byte.x5d.
Proof.
  destruct 1 as [v w t w' Hw Ht Hw'|v l w t w' t' Hw Ht Hw' _]; rewrite <- !app_assoc.
  - destruct (text_start v w t (w' ++ r) Hw Ht) as (c & u & -> & ? & _). by eauto.
  - destruct (text_start v w t (w' ++ char "," ++ t' ++ r) Hw Ht) as (c & u & -> & ? & _). by eauto.
Qed.
Lemma members_start l t r : json_members l t → ∃ c u, skip_blanks (t ++ r) = c :: u ∧ c ≠ Byte.x7d.
Proof.
  destruct 1 as [k v w w1 w2 t w' Hw|k v l w w1 w2 t w' t' Hw]; rewrite <- !app_assoc;
    rewrite skip_blanks_app by done; by eexists _, _.
Qed.

Lemma member_read p k v w w1 w2 t r :
  blank w → plain k → blank w1 → blank w2 → p (w2 ++ t ++ r) = Some (v, r) →
  py_member p (w ++ quoted k ++ w1 ++ char ":" ++ w2 ++ t ++ r) = Some ((k, v), r).
Proof.
  intros Hw Hk Hw1 Hw2 Hp. unfold py_member, quoted. change (char """") with [Byte.x22].
  change (char ":") with [Byte.x3a]. rewrite <- !app_assoc. cbn [app].
  rewrite expect_at by done. cbn [mbind option_bind]. rewrite py_string_complete by done.
  cbn [mbind option_bind]. rewrite expect_at by done. cbn [mbind option_bind]. by rewrite Hp.
Qed.

Lemma value_complete :
  (∀ v t, json_text v t → ∀ fuel r, length t < fuel → ends r → py_value fuel (t ++ r) = Some (v, r)) ∧
  (∀ l t, json_elements l t → ∀ fuel n r, length t < fuel → length l ≤ n →
    py_items Byte.x5d (py_value fuel) n (t ++ Byte.x5d :: r) = Some (l, r)) ∧
  (∀ l t, json_members l t → ∀ fuel n r, length t < fuel → length l ≤ n →
    py_items Byte.x7d (py_member (py_value fuel)) n (t ++ Byte.x7d :: r) = Some (l, r)).
Proof.
  apply json_text_mutind.
  - by intros [|fuel] r Hf Hr; [simpl in Hf; lia|].
  - by intros [|fuel] r Hf Hr; [simpl in Hf; lia|].
  - by intros [|fuel] r Hf Hr; [simpl in Hf; lia|].
  - intros n m k t Ht [|fuel] r Hf Hr; [lia|]. cbn [py_value].
    rewrite <- (py_number_complete n m k t r Ht Hr).
    destruct (number_first n m k t Ht) as (c & t' & -> & Hc). cbn [app].
    destruct Hc as [-> | Hc]; [done|].
    destruct (digit_bytes c Hc) as [->|[->|[->|[->|[->|[->|[->|[->|[->| ->]]]]]]]]]; done.
  - intros s Hs [|fuel] r Hf Hr; [lia|]. unfold quoted. change (char """") with [Byte.x22].
    rewrite <- !app_assoc. cbn [app py_value skip_blanks is_blank].
    by rewrite py_string_complete.
  - intros w Hw [|fuel] r Hf Hr; [lia|]. rewrite <- !app_assoc.
    change (char "[") with [Byte.x5b]. change (char "]") with [Byte.x5d].
    cbn [app py_value skip_blanks is_blank]. unfold py_list. by rewrite skip_blanks_app.
  - intros l t Hl IH [|fuel] r Hf Hr; [lia|]. rewrite <- !app_assoc.
    change (char "[") with [Byte.x5b] in *. change (char "]") with [Byte.x5d] in *.
    cbn [app py_value skip_blanks is_blank].
    destruct (elements_start l t (Byte.x5d :: r) Hl) as (c & u & E & Hc).
    rewrite (list_start _ _ _ c u E Hc), IH; [done|..].
    + rewrite !app_length in Hf. simpl in Hf. lia.
    + rewrite app_length. pose proof (elements_length l t Hl). lia.
  - intros w Hw [|fuel] r Hf Hr; [lia|]. rewrite <- !app_assoc.
    change (char "{") with [Byte.x7b]. change (char "}") with [Byte.x7d].
    cbn [app py_value skip_blanks is_blank]. unfold py_list. by rewrite skip_blanks_app.
  - intros l t Hl IH [|fuel] r Hf Hr; [lia|]. rewrite <- !app_assoc.
    change (char "{") with [Byte.x7b] in *. change (char "}") with [Byte.x7d] in *.
    cbn [app py_value skip_blanks is_blank].
    destruct (members_start l t (Byte.x7d :: r) Hl) as (c & u & E & Hc).
    rewrite (list_start _ _ _ c u E Hc), IH; [done|..].
    + rewrite !app_length in Hf. simpl in Hf. lia.
    + rewrite app_length. pose proof (members_length l t Hl). lia.
  - intros v w t w' Hw Ht IH Hw' fuel [|n] r Hf Hn; [simpl in Hn; lia|]. rewrite <- !app_assoc. cbn [py_items].
    rewrite py_value_blank, IH; [| |by apply blank_ends|done].
    2: { rewrite !app_length in Hf. lia. }
    cbn [mbind option_bind]. by rewrite skip_blanks_app.
  - intros v l w t w' t' Hw Ht IH Hw' Hl IHl fuel [|n] r Hf Hn; [simpl in Hn; lia|].
    rewrite <- !app_assoc. change (char ",") with [Byte.x2c] in *. cbn [py_items].
    rewrite !app_length in Hf. simpl in Hf, Hn.
    rewrite py_value_blank, IH; [|lia|by apply blank_ends|done].
    cbn [mbind option_bind app]. rewrite skip_blanks_app by done. cbn [skip_blanks is_blank Byte.eqb].
    by rewrite IHl by lia.
  - intros k v w w1 w2 t w' Hw Hk Hw1 Hw2 Ht IH Hw' fuel [|n] r Hf Hn; [simpl in Hn; lia|].
    rewrite !app_length in Hf. simpl in Hf. rewrite !app_length in Hf.
    rewrite <- !app_assoc. cbn [py_items].
    rewrite (member_read (py_value fuel) k v w w1 w2 t (w' ++ Byte.x7d :: r)); [|done..|].
    2: { rewrite py_value_blank, IH; [done| |by apply blank_ends|done]. lia. }
    cbn [mbind option_bind]. by rewrite skip_blanks_app.
  - intros k v l w w1 w2 t w' t' Hw Hk Hw1 Hw2 Ht IH Hw' Hl IHl fuel [|n] r Hf Hn; [simpl in Hn; lia|].
    rewrite !app_length in Hf. simpl in Hf, Hn. rewrite !app_length in Hf. simpl in Hf.
    rewrite <- !app_assoc. change (char ",") with [Byte.x2c]. cbn [py_items].
    rewrite (member_read (py_value fuel) k v w w1 w2 t (w' ++ [Byte.x2c] ++ t' ++ Byte.x7d :: r)); [|done..|].
    2: { rewrite py_value_blank, IH; [done| |by apply blank_ends|done]. lia. }
    cbn [mbind option_bind app]. rewrite skip_blanks_app by done. cbn [skip_blanks is_blank Byte.eqb].
    rewrite IHl by lia. done.
Qed.

Lemma load_complete v b : json_document v b → json_load b = Some v.
Proof.
  intros (w & t & w' & Hw & Hw' & Ht & ->). unfold json_load. rewrite py_value_blank by done.
  assert (ends w') as He.
  { destruct Hw' as [|c w' Hc _]; [done|]. apply is_blank_spec in Hc. simpl.
    destruct c; first [discriminate Hc|reflexivity]. }
  rewrite (proj1 value_complete v t Ht); [|rewrite !app_length; lia|done].
  by rewrite (proj2 (skip_blanks_all w') Hw').
Qed.

Lemma document_unique v v' b : json_document v b → json_document v' b → v = v'.
Proof. intros H H'. apply load_complete in H, H'. congruence. Qed.

(** ** Writing *)

Inductive printable : json → Prop :=
| printable_null : printable JNull
| printable_bool b : printable (JBool b)
| printable_number n m k t : number_text n m k t → printable (JNumber t)
| printable_string s : plain s → printable (JString s)
| printable_array l : Forall printable l → printable (JArray l)
| printable_object l : Forall (λ e, plain e.1 ∧ printable e.2) l → printable (JObject l).

Section ind.
  Context (P : json → Prop) (Hnull : P JNull) (Hbool : ∀ b, P (JBool b)) (Hnum : ∀ t, P (JNumber t))
    (Hstr : ∀ s, P (JString s)) (Harr : ∀ l, Forall P l → P (JArray l))
    (Hobj : ∀ l, Forall (λ e, P e.2) l → P (JObject l)).
  Fixpoint json_nested (v : json) : P v :=
    match v with
    | JNull => Hnull
    | JBool b => Hbool b
    | JNumber t => Hnum t
    | JString s => Hstr s
    | JArray l =>
        Harr l ((fix go (l : list json) : Forall P l :=
          match l with [] => Forall_nil_2 P | a :: l => Forall_cons_2 P a l (json_nested a) (go l) end) l)
    | JObject l =>
        Hobj l ((fix go (l : list (bytes * json)) : Forall (λ e, P e.2) l :=
          match l with
          | [] => Forall_nil_2 _
          | e :: l => Forall_cons_2 _ e l (json_nested e.2) (go l)
          end) l)
    end.
End ind.

Lemma print_text v : printable v → json_text v (json_print v).
Proof.
  induction v as [|b|t|s|l IH|l IH] using json_nested; intros Hv; inversion Hv; subst.
  - constructor.
  - destruct b; constructor.
  - by econstructor.
  - cbn [json_print]. by apply (text_string s).
  - destruct l as [|a l]; [by apply (text_array_empty [])|]. cbn [json_print].
    apply (text_array (a :: l) _). revert a IH Hv H0. induction l as [|a' l IHl]; intros a IH Hv H0.
    + inversion_clear IH. inversion_clear H0. rewrite <- (app_nil_r (json_print a)).
      by apply (elements_one a [] _ []); eauto.
    + inversion_clear IH as [|?? Ha Hl]. inversion_clear H0 as [|?? Hpa Hpl].
      apply (elements_more a (a' :: l) [] (json_print a) []); eauto.
      apply IHl; [done| |done]. by constructor.
  - destruct l as [|[k a] l]; [by apply (text_object_empty [])|]. cbn [json_print].
    apply (text_object ((k, a) :: l) _). revert k a IH Hv H0. induction l as [|[k' a'] l IHl]; intros k a IH Hv H0.
    + inversion_clear IH as [|?? Ha Hl]. inversion_clear H0 as [|?? [Hk Hpa] _]. cbn [fst snd] in *.
      pose proof (members_one k a [] [] [] (json_print a) [] blank_nil Hk blank_nil blank_nil (Ha Hpa) blank_nil) as M.
      unfold quoted in M. rewrite <- !app_assoc in M. rewrite app_nil_r in M. exact M.
    + inversion_clear IH as [|?? Ha Hl]. inversion_clear H0 as [|?? [Hk Hpa] Hpl]. cbn [fst snd] in *.
      assert (json_members ((k', a') :: l) ((fix members (l : list (bytes * json)) : bytes :=
         match l with
         | [] => []
         | [(k, a)] => Byte.x22 :: k ++ Byte.x22 :: Byte.x3a :: json_print a
         | (k, a) :: l => Byte.x22 :: k ++ Byte.x22 :: Byte.x3a :: json_print a ++ Byte.x2c :: members l
         end) ((k', a') :: l))) as M'.
      { apply IHl; [done| |done]. by constructor. }
      pose proof (members_more k a ((k', a') :: l) [] [] [] (json_print a) [] _ blank_nil Hk blank_nil blank_nil
        (Ha Hpa) blank_nil M') as M.
      unfold quoted in M. rewrite <- !app_assoc in M. exact M.
Qed.

Lemma print_document v : printable v → json_document v (json_print v).
Proof. intros Hv. exists [], (json_print v), []. split_and!; [done..|by apply print_text|by rewrite app_nil_r]. Qed.

Lemma print_load v : printable v → json_load (json_print v) = Some v.
Proof. intros Hv. by apply load_complete, print_document. Qed.
