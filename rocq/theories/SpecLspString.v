(* RFC 8259, section 7: how the characters of a JSON string may be spelled. *)
From Coq Require Import List.
From Verif Require Import Chars.
Open Scope N_scope.
Open Scope list_scope.

(* a hexadecimal digit, in either case, and its value *)
Inductive hex_digit : char -> N -> Prop :=
  | hx_digit : forall n, n < 10 -> hex_digit (48 + n) n
  | hx_lower : forall n, 10 <= n < 16 -> hex_digit (97 + (n - 10)) n
  | hx_upper : forall n, 10 <= n < 16 -> hex_digit (65 + (n - 10)) n.
(* \uXXXX: one UTF-16 code unit *)
Inductive unit_spelled : text -> N -> Prop :=
  | us_unit : forall a b c d h i j k, hex_digit a h -> hex_digit b i -> hex_digit c j -> hex_digit d k -> unit_spelled [92; 117; a; b; c; d] (((h * 16 + i) * 16 + j) * 16 + k).
(* RFC 2781: the UTF-16 code units of a character *)
Definition surrogate (n : N) : Prop := 55296 <= n < 57344.
Definition utf16_pair (c hi lo : N) : Prop := 65536 <= c < 1114112 /\ hi = 55296 + (c - 65536) / 1024 /\ lo = 56320 + (c - 65536) mod 1024.
Inductive char_spelled : text -> char -> Prop :=
  | cs_self : forall c, 32 <= c -> c <> 34 -> c <> 92 -> char_spelled [c] c
  | cs_short : forall e c, In (e, c) [(34, 34); (92, 92); (47, 47); (98, 8); (102, 12); (110, 10); (114, 13); (116, 9)] -> char_spelled [92; e] c
  | cs_unit : forall p c, unit_spelled p c -> ~ surrogate c -> char_spelled p c
  | cs_pair : forall p q hi lo c, unit_spelled p hi -> unit_spelled q lo -> utf16_pair c hi lo -> char_spelled (p ++ q) c.
Inductive string_spelled : text -> text -> Prop :=
  | ss_nil : string_spelled [] []
  | ss_cons : forall p c ps cs, char_spelled p c -> string_spelled ps cs -> string_spelled (p ++ ps) (c :: cs).
