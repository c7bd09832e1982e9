(* RFC 8259: the texts of a JSON value. Left out: fractions, exponents and "-0" (floats), and integers of more than 64 bits. *)
From Coq Require Import String.
From Coq Require Import List.
From Verif Require Import LspMessage SpecLspFrame SpecLspString.
Open Scope N_scope.
Open Scope list_scope.

Definition blank (w : text) : Prop := Forall (fun c => In c [32; 9; 10; 13]) w.
(* no leading zero *)
Definition integer_digits (ds : text) : Prop := digits ds /\ (ds = [48] \/ hd 48 ds <> 48).
(* [d] bounds the depth of the arrays and objects *)
Inductive json_spelled : nat -> text -> json -> Prop :=
  | js_null : forall d, json_spelled d (chars "null"%string) JNull
  | js_true : forall d, json_spelled d (chars "true"%string) (JBool true)
  | js_false : forall d, json_spelled d (chars "false"%string) (JBool false)
  | js_positive : forall d ds, integer_digits ds -> value_of ds < 2 ^ 64 -> json_spelled d ds (JInt (Z.of_N (value_of ds)))
  | js_negative : forall d ds, integer_digits ds -> 0 < value_of ds <= 2 ^ 63 -> json_spelled d (45 :: ds) (JInt (- Z.of_N (value_of ds)))
  | js_string : forall d t s, string_spelled t s -> json_spelled d (34 :: t ++ [34]) (JStr s)
  | js_empty_array : forall d w, blank w -> json_spelled (S d) (91 :: w ++ [93]) (JArr [])
  | js_array : forall d t l, elements_spelled d t l -> json_spelled (S d) (91 :: t ++ [93]) (JArr l)
  | js_empty_object : forall d w, blank w -> json_spelled (S d) (123 :: w ++ [125]) (JObj [])
  | js_object : forall d t l, members_spelled d t l -> json_spelled (S d) (123 :: t ++ [125]) (JObj l)
with elements_spelled : nat -> text -> list json -> Prop :=
  | es_one : forall d w t w' v, blank w -> json_spelled d t v -> blank w' -> elements_spelled d (w ++ t ++ w') [v]
  | es_more : forall d w t w' v ts vs, blank w -> json_spelled d t v -> blank w' -> elements_spelled d ts vs -> elements_spelled d (w ++ t ++ w' ++ 44 :: ts) (v :: vs)
with members_spelled : nat -> text -> list (text * json) -> Prop :=
  | ms_one : forall d w k s w1 w2 t w3 v, blank w -> string_spelled k s -> blank w1 -> blank w2 -> json_spelled d t v -> blank w3 ->
      members_spelled d (w ++ 34 :: k ++ 34 :: w1 ++ 58 :: w2 ++ t ++ w3) [(s, v)]
  | ms_more : forall d w k s w1 w2 t w3 v ts vs, blank w -> string_spelled k s -> blank w1 -> blank w2 -> json_spelled d t v -> blank w3 -> members_spelled d ts vs ->
      members_spelled d (w ++ 34 :: k ++ 34 :: w1 ++ 58 :: w2 ++ t ++ w3 ++ 44 :: ts) ((s, v) :: vs).
Scheme json_spelled_m := Induction for json_spelled Sort Prop
  with elements_spelled_m := Induction for elements_spelled Sort Prop
  with members_spelled_m := Induction for members_spelled Sort Prop.
Combined Scheme spelled_ind from json_spelled_m, elements_spelled_m, members_spelled_m.
