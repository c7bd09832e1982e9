(* Specification of the text a token stands for (CSS Syntax 3: 3.3, 4.3.4 - 4.3.7), independent of cursor.rs. *)
From Verif Require Import Chars Token SpecLex.
Open Scope N_scope.
Open Scope list_scope.

(* 3.3: NUL becomes U+FFFD *)
Definition nul_fixed (c : char) : char := if c =? 0 then 65533 else c.

(* 4.3.7: value of the hex digits, most significant first *)
Inductive hex_value_of : char -> N -> Prop :=
  | hv_digit : forall c, digit c -> hex_value_of c (c - 48)
  | hv_upper : forall c, 65 <= c <= 70 -> hex_value_of c (10 + (c - 65))
  | hv_lower : forall c, 97 <= c <= 102 -> hex_value_of c (10 + (c - 97)).
Inductive hex_number : text -> N -> Prop :=
  | hn_nil : hex_number [] 0
  | hn_snoc : forall hs c n v, hex_number hs n -> hex_value_of c v -> hex_number (hs ++ [c]) (16 * n + v).
Definition surrogate (n : N) : Prop := 55296 <= n <= 57343.
Inductive code_point_of : N -> char -> Prop :=
  | cp_bad : forall n, n = 0 \/ surrogate n \/ 1114111 < n -> code_point_of n 65533
  | cp_good : forall n, n <> 0 -> ~ surrogate n -> n <= 1114111 -> code_point_of n n.
(* [escape_value e c]: the whole escape e, backslash included, stands for c *)
Inductive escape_value : text -> char -> Prop :=
  | ev_eof : escape_value [92] 65533
  | ev_char : forall c, ~ hex c -> escape_value [92; c] (nul_fixed c)
  | ev_hex : forall hs ws n c, Forall hex hs -> hs <> [] -> Forall white ws -> hex_number hs n -> code_point_of n c ->
      escape_value (92 :: hs ++ ws) c.

(* [css_value is_string p r v]: the text p, followed in the source by r, stands for v. In a string a backslash followed by a
   newline stands for nothing, and so does one at the end of the source (4.3.5). *)
Inductive css_value (is_string : bool) : text -> text -> text -> Prop :=
  | va_nil : forall r, css_value is_string [] r []
  | va_char : forall c p r v, c <> 92 -> (is_string = true -> ~ newline c) -> css_value is_string p r v -> css_value is_string (c :: p) r (nul_fixed c :: v)
  | va_newline : forall n p r v, is_string = true -> one_newline (n ++ p ++ r) n (p ++ r) -> css_value is_string p r v ->
      css_value is_string (92 :: n ++ p) r v
  | va_end : is_string = true -> css_value is_string [92] [] []
  | va_escape : forall e p r c v, (is_string = true -> e <> [92]) -> escape_at (e ++ p ++ r) e (p ++ r) -> escape_value e c ->
      css_value is_string p r v -> css_value is_string (e ++ p) r (c :: v).

(* Where a token's own text lies: [inner l k lead content trail r]: at l there is a token of kind k spelt lead ++ content ++
   trail, followed by r; content is what stands for its value. *)
Inductive inner : text -> kind -> text -> text -> text -> text -> Prop :=
  | in_ident : forall l ps r, ident_pieces l ps r -> inner l K_Ident [] (pieces_text ps) [] r
  | in_function : forall l ps r, ident_pieces l ps (40 :: r) -> inner l K_Function [] (pieces_text ps) [40] r
  | in_at : forall l ps r, ident_pieces l ps r -> inner (64 :: l) K_AtKeyword [64] (pieces_text ps) [] r
  | in_hash : forall l ps r, ident_pieces l ps r -> inner (35 :: l) K_Hash [35] (pieces_text ps) [] r
  | in_string : forall q l p r, quote q -> string_body q l (p ++ [q]) Closed r -> inner (q :: l) K_String [q] p [q] r
  | in_open_string : forall q l p r, quote q -> string_body q l p AtEnd r -> inner (q :: l) K_String [q] p [] r
  | in_url : forall l ps r1 w x c t e r, ident_pieces l ps (40 :: r1) -> run white r1 w x -> url_body x c t e r -> e <> UMalformed ->
      inner l K_Url (pieces_text ps ++ 40 :: w) c t r.
Definition texty : list kind := [K_Ident; K_Function; K_AtKeyword; K_Hash; K_String; K_Url].
(* the documented size limit of the two packed url lengths *)
Definition url_limits (l : text) : Prop := forall lead c t r, inner l K_Url lead c t r -> blen lead < 4096 /\ blen t < 4096.
(* [stands_for l k v]: the token of kind k at the start of l stands for the text v *)
Definition stands_for (l : text) (k : kind) (v : text) : Prop :=
  exists lead content trail r is_string, inner l k lead content trail r /\ (is_string = true <-> k = K_String) /\ css_value is_string content (trail ++ r) v.
