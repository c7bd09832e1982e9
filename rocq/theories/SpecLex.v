(* Specification of CSS tokens, written from CSS Syntax Level 3 (section 4) and the crate's documentation, as relations
   between the text at a position [l], the text of the token [p] and what follows it [r]. It shares with the model only
   the notions of character, text, UTF-8 length ([Chars.v]) and the enumerations of [Token.v]. *)
From Verif Require Import Chars Token SpecToken.
Open Scope N_scope.

(* ---- code point classes (CSS Syntax 4.2) ---- *)
Definition newline (c : char) : Prop := c = 10 \/ c = 13 \/ c = 12.
Definition white (c : char) : Prop := newline c \/ c = 9 \/ c = 32.
Definition digit (c : char) : Prop := 48 <= c <= 57.
Definition hex (c : char) : Prop := digit c \/ 65 <= c <= 70 \/ 97 <= c <= 102.
Definition upper (c : char) : Prop := 65 <= c <= 90.
Definition lower (c : char) : Prop := 97 <= c <= 122.
Definition letter (c : char) : Prop := upper c \/ lower c.
Definition non_ascii_ident (c : char) : Prop :=
  c = 183 \/ 192 <= c <= 214 \/ 216 <= c <= 246 \/ 248 <= c <= 893 \/ 895 <= c <= 8191 \/ c = 8204 \/ c = 8205 \/
  c = 8255 \/ c = 8256 \/ 8304 <= c <= 8591 \/ 11264 <= c <= 12271 \/ 12289 <= c <= 55295 \/ 63744 <= c <= 64975 \/
  65008 <= c <= 65533 \/ 65536 <= c.
(* NUL is replaced by U+FFFD, an ident code point, before tokenizing (3.3) *)
Definition ident_start_cp (c : char) : Prop := letter c \/ non_ascii_ident c \/ c = 95 \/ c = 0.
Definition ident_cp (c : char) : Prop := ident_start_cp c \/ digit c \/ c = 45.
Definition quote (c : char) : Prop := c = 34 \/ c = 39.
Definition sign (c : char) : Prop := c = 43 \/ c = 45.
Definition non_printable (c : char) : Prop := 1 <= c <= 8 \/ c = 11 \/ 14 <= c <= 31 \/ c = 127.

Definition starts (P : char -> Prop) (l : text) : Prop := exists c r, l = c :: r /\ P c.

(* ---- maximal runs ---- *)
Definition run (P : char -> Prop) (l p r : text) : Prop := l = p ++ r /\ Forall P p /\ ~ starts P r.

(* ---- escapes (4.3.7, 4.3.8) ---- *)
(* the optional single whitespace after a hex escape, CRLF counting as one *)
Inductive opt_space : text -> text -> Prop :=
  | os_none : forall r, ~ starts white r -> opt_space [] r
  | os_crlf : forall r, opt_space [13; 10] r
  | os_one : forall w r, white w -> ~ (w = 13 /\ starts (eq 10) r) -> opt_space [w] r.
Inductive escape_at : text -> text -> text -> Prop :=
  | esc_eof : escape_at [92] [92] []
  | esc_char : forall c r, ~ hex c -> ~ newline c -> escape_at (92 :: c :: r) [92; c] r
  | esc_hex : forall hs ws r, (1 <= length hs <= 6)%nat -> Forall hex hs ->
      length hs = 6%nat \/ ~ starts hex (ws ++ r) -> opt_space ws r ->
      escape_at (92 :: hs ++ ws ++ r) (92 :: hs ++ ws) r.
Definition starts_escape (l : text) : Prop := l = [92] \/ exists c r, l = 92 :: c :: r /\ ~ newline c.

(* ---- ident sequences (4.3.11): the pieces are kept so that flags can be stated ---- *)
Inductive piece : Set := Plain (c : char) | Esc (e : text).
Definition piece_text (x : piece) : text := match x with Plain c => [c] | Esc e => e end.
Definition pieces_text (ps : list piece) : text := flat_map piece_text ps.
Inductive ident_pieces : text -> list piece -> text -> Prop :=
  | ip_stop : forall l, ~ starts ident_cp l -> ~ starts_escape l -> ident_pieces l [] l
  | ip_char : forall c l ps r, ident_cp c -> ident_pieces l ps r -> ident_pieces (c :: l) (Plain c :: ps) r
  | ip_esc : forall l e l' ps r, escape_at l e l' -> ident_pieces l' ps r -> ident_pieces l (Esc e :: ps) r.
(* 4.3.9 *)
Definition would_start_ident (l : text) : Prop :=
  starts ident_start_cp l \/ starts_escape l \/
  exists r, l = 45 :: r /\ (starts ident_start_cp r \/ starts (eq 45) r \/ starts_escape r).

(* ---- numbers (4.3.12): [+-]? ([0-9]* . )? [0-9]+ ([eE][+-]?[0-9]+)? ---- *)
Definition digits (l : text) : Prop := Forall digit l.
Definition digits1 (l : text) : Prop := l <> [] /\ Forall digit l.
Definition opt_sign (s : text) : Prop := s = [] \/ s = [43] \/ s = [45].
Definition mantissa (m : text) : Prop := digits1 m \/ exists i f, m = i ++ 46 :: f /\ digits i /\ digits1 f.
Definition exponent (x : text) : Prop := exists e s d, x = e :: s ++ d /\ (e = 101 \/ e = 69) /\ opt_sign s /\ digits1 d.
Definition css_number (p : text) : Prop :=
  exists s m x, p = s ++ m ++ x /\ opt_sign s /\ mantissa m /\ (x = [] \/ exponent x).
Definition longest_number (l p r : text) : Prop :=
  l = p ++ r /\ css_number p /\
  forall p' r', l = p' ++ r' -> css_number p' -> (length p' <= length p)%nat.
(* a number whose spelling has a '.' or an exponent *)
Definition float_text (p : text) : Prop := In 46 p \/ In 101 p \/ In 69 p.
(* 4.3.10 *)
Definition would_start_number (l : text) : Prop :=
  exists s, opt_sign s /\ exists r, l = s ++ r /\ (starts digit r \/ exists r', r = 46 :: r' /\ starts digit r').

(* ---- strings (4.3.5) ---- *)
Inductive string_end : Set := Closed | AtEnd | AtNewline.
Inductive one_newline : text -> text -> text -> Prop :=
  | nl_crlf : forall r, one_newline (13 :: 10 :: r) [13; 10] r
  | nl_one : forall c r, newline c -> ~ (c = 13 /\ starts (eq 10) r) -> one_newline (c :: r) [c] r.
Inductive string_body (q : char) : text -> text -> string_end -> text -> Prop :=
  | sb_close : forall r, string_body q (q :: r) [q] Closed r
  | sb_end : string_body q [] [] AtEnd []
  | sb_newline : forall c r, newline c -> string_body q (c :: r) [] AtNewline (c :: r)
  | sb_char : forall c l p e r, c <> q -> c <> 92 -> ~ newline c -> string_body q l p e r -> string_body q (c :: l) (c :: p) e r
  | sb_esc_newline : forall l n l' p e r, one_newline l n l' -> string_body q l' p e r ->
      string_body q (92 :: l) (92 :: n ++ p) e r
  | sb_escape : forall l x l' p e r, escape_at l x l' -> string_body q l' p e r -> string_body q l (x ++ p) e r.

(* ---- urls (4.3.6) ---- *)
Inductive url_end : Set := UClosed | UAtEnd | UMalformed.
(* [url_body l c tail e r]: after the leading whitespace: content c, then the whitespace/parenthesis tail *)
Inductive url_body : text -> text -> text -> url_end -> text -> Prop :=
  | ub_close : forall w r, Forall white w -> url_body (w ++ 41 :: r) [] (w ++ [41]) UClosed r
  | ub_end : forall w, Forall white w -> url_body w [] w UAtEnd []
  | ub_bad_space : forall w l, w <> [] -> run white (w ++ l) w l -> l <> [] -> ~ starts (eq 41) l -> url_body (w ++ l) [] w UMalformed l
  | ub_bad_char : forall c l, quote c \/ c = 40 \/ non_printable c -> url_body (c :: l) [] [] UMalformed (c :: l)
  | ub_bad_escape : forall c l, newline c -> url_body (92 :: c :: l) [] [] UMalformed (92 :: c :: l)
  | ub_char : forall c l p t e r, c <> 41 -> ~ white c -> ~ quote c -> c <> 40 -> ~ non_printable c -> c <> 92 ->
      url_body l p t e r -> url_body (c :: l) (c :: p) t e r
  | ub_escape : forall l x l' p t e r, escape_at l x l' -> url_body l' p t e r -> url_body l (x ++ p) t e r.
(* 4.3.14 *)
Inductive bad_url_remnants : text -> text -> text -> Prop :=
  | br_close : forall r, bad_url_remnants (41 :: r) [41] r
  | br_end : bad_url_remnants [] [] []
  | br_char : forall c l p r, c <> 41 -> ~ starts_escape (c :: l) -> bad_url_remnants l p r -> bad_url_remnants (c :: l) (c :: p) r
  | br_escape : forall l x l' p r, escape_at l x l' -> bad_url_remnants l' p r -> bad_url_remnants l (x ++ p) r.

(* ---- comments (4.3.2) ---- *)
Definition contains (needle hay : text) : Prop := exists a b, hay = a ++ needle ++ b.
Inductive block_comment : text -> text -> text -> Prop :=
  | bc_closed : forall b r, ~ contains [42; 47] (b ++ [42]) -> block_comment (47 :: 42 :: b ++ 42 :: 47 :: r) (47 :: 42 :: b ++ [42; 47]) r
  | bc_open : forall b, ~ contains [42; 47] b -> block_comment (47 :: 42 :: b) (47 :: 42 :: b) [].
Definition line_comment (l p r : text) : Prop :=
  exists b, p = 47 :: 47 :: b /\ l = p ++ r /\ run (fun c => ~ newline c) (b ++ r) b r.

(* ---- sources on which the lexer is expected to follow the grammar ---- *)
Definition lower_text (p : text) : text := map to_ascii_lowercase p.
Definition suffix_of (l src : text) : Prop := exists pre, src = pre ++ l.
(* The documented size limits (lib.rs:131-136): numbers below 16,777,216 bytes, the two parts of a dimension below 4,096 *)
Definition within_limits (src : text) : Prop := forall l p r, suffix_of l src -> longest_number l p r ->
  blen p < 16777216 /\ (starts (eq 37) r -> blen p < 4096) /\ (forall ps r', would_start_ident r -> ident_pieces r ps r' -> blen p < 4096 /\ blen (pieces_text ps) < 4096).
(* Known defects, excluded by hypothesis and exhibited by the _refuted theorems *)
(* (1) no backslash directly before a non-ASCII character *)
Definition esc_ok (l : text) : Prop := forall a c b, l = a ++ 92 :: c :: b -> c < 128.
(* (2) no number directly followed by exactly sv, svm, svma or svmi *)
Definition sv_fragments : list text := [[115; 118]; [115; 118; 109]; [115; 118; 109; 97]; [115; 118; 109; 105]].
Definition no_sv_unit (src : text) : Prop := forall l p r q r', suffix_of l src -> longest_number l p r ->
  ident_pieces r (map Plain q) r' -> ~ In (lower_text q) sv_fragments.
(* (3) with single-line comments on, their text is ASCII without NUL *)
Definition plain_line_comments (src : text) : Prop := forall pre p r, src = pre ++ 47 :: 47 :: p ++ r ->
  Forall (fun c => ~ newline c) p -> Forall (fun c => 0 < c < 128) p.
Definition well_behaved (f : bool) (src : text) : Prop :=
  esc_ok src /\ within_limits src /\ no_sv_unit src /\ (f = true -> plain_line_comments src).
