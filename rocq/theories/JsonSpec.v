(** * JSON documents (RFC 8259) and the numbers in them

    Independent of the models: which texts stand for which document, and which
    decimal number a number text stands for.  Documents here have no strings with
    escapes or control characters. *)
From stdpp Require Import strings.
From Verif Require Export FormatSpec.

(** A number is its text. *)
Inductive json :=
| JNull
| JBool (b : bool)
| JNumber (t : bytes)
| JString (t : bytes)
| JArray (l : list json)
| JObject (l : list (bytes * json)).

(** ** Numbers *)

Definition digits_as (ds : list N) (t : bytes) : Prop :=
  Forall (λ d, (d < 10)%N) ds ∧ ds ≠ [] ∧ t = List.concat (map (λ d, option_list (Byte.of_N (48 + d))) ds).

Inductive sign_text : bool → bytes → Prop :=
| sign_none : sign_text false []
| sign_minus : sign_text true (char "-").
Inductive fraction_text : list N → bytes → Prop :=
| fraction_none : fraction_text [] []
| fraction_some ds t : digits_as ds t → fraction_text ds (char "." ++ t).
Inductive exponent_text : Z → bytes → Prop :=
| exponent_none : exponent_text 0 []
| exponent_some (e s : bytes) (n : bool) ds t :
    e = char "e" ∨ e = char "E" → sign_text n s ∨ (n = false ∧ s = char "+") → digits_as ds t →
    exponent_text (if n then - Z.of_N (digits_value ds) else Z.of_N (digits_value ds))%Z (e ++ s ++ t).

(** The text stands for the number [m * 10 ^ k], with a minus sign if [n]. *)
Definition number_text (n : bool) (m : N) (k : Z) (t : bytes) : Prop :=
  ∃ ip fp s tip tfp ex tex,
    sign_text n s ∧ digits_as ip tip ∧ (head ip = Some 0%N → ip = [0%N]) ∧
    fraction_text fp tfp ∧ exponent_text ex tex ∧ t = s ++ tip ++ tfp ++ tex ∧
    m = digits_value (ip ++ fp) ∧ k = (ex - Z.of_nat (length fp))%Z.

(** ** Documents *)

Definition plain (s : bytes) : Prop :=
  Forall (λ c, 32 ≤ Byte.to_N c ∧ Byte.to_N c ≠ 34 ∧ Byte.to_N c ≠ 92)%N s.
Definition quoted (s : bytes) : bytes := char """" ++ s ++ char """".

Inductive json_text : json → bytes → Prop :=
| text_null : json_text JNull (char "null")
| text_true : json_text (JBool true) (char "true")
| text_false : json_text (JBool false) (char "false")
| text_number n m k t : number_text n m k t → json_text (JNumber t) t
| text_string s : plain s → json_text (JString s) (quoted s)
| text_array_empty w : blank w → json_text (JArray []) (char "[" ++ w ++ char "]")
| text_array l t : json_elements l t → json_text (JArray l) (char "[" ++ t ++ char "]")
| text_object_empty w : blank w → json_text (JObject []) (char "{" ++ w ++ char "}")
| text_object l t : json_members l t → json_text (JObject l) (char "{" ++ t ++ char "}")
with json_elements : list json → bytes → Prop :=
| elements_one v w t w' : blank w → json_text v t → blank w' → json_elements [v] (w ++ t ++ w')
| elements_more v l w t w' t' : blank w → json_text v t → blank w' → json_elements l t' →
    json_elements (v :: l) (w ++ t ++ w' ++ char "," ++ t')
with json_members : list (bytes * json) → bytes → Prop :=
| members_one k v w w1 w2 t w' : blank w → plain k → blank w1 → blank w2 → json_text v t → blank w' →
    json_members [(k, v)] (w ++ quoted k ++ w1 ++ char ":" ++ w2 ++ t ++ w')
| members_more k v l w w1 w2 t w' t' :
    blank w → plain k → blank w1 → blank w2 → json_text v t → blank w' → json_members l t' →
    json_members ((k, v) :: l) (w ++ quoted k ++ w1 ++ char ":" ++ w2 ++ t ++ w' ++ char "," ++ t').

Definition json_document (v : json) (b : bytes) : Prop :=
  ∃ w t w', blank w ∧ blank w' ∧ json_text v t ∧ b = w ++ t ++ w'.
