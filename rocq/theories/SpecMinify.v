(* Vocabulary for the statement that a minified stylesheet has the tokens of the stylesheet. *)
From Coq Require Import List.
From Verif Require Import Lexer Span Cursor Write SpecToken SpecLex SpecTrace SpecCursor SpecWrite SpecSyntax.
Open Scope N_scope.
Open Scope list_scope.

(* the text of a cursor in the source *)
Definition source_text (src : text) (c : cursor) : option text := slice src (coff c) (coff c + tlen (ctok c)).
Definition is_white (c : cursor) : Prop := kind_of c = K_Whitespace.

(* [same_token a b]: the token, once written and read again. Numbers and dimensions keep kind, value, unit and sign (they may be
   spelled otherwise); other tokens are the same *)
Definition same_token (a b : token) : Prop :=
  (tkind a = K_Number \/ tkind a = K_Dimension) /\ tkind b = tkind a /\ tvalue b = tvalue a /\ dimension_unit b = dimension_unit a /\ has_sign b = has_sign a
  \/ b = a.
(* the cursor c of the source src is the cursor c' of the text out *)
Definition carried (src out : text) (c c' : cursor) : Prop :=
  same_token (ctok c) (ctok c') /\ (verbatim (ctok c) -> exists s, write_str c src = Some s /\ source_text out c' = Some s).
(* [rendered src out prev cs cs']: the cursors cs (of src), written after the token prev, are the tokens cs' of out: one for one, but
   that a space comes before a token where needs_separator_for asks for one, and that whitespace is joined with the whitespace next to it *)
Inductive rendered (src out : text) : option token -> list cursor -> list cursor -> Prop :=
  | rn_nil : forall prev, rendered src out prev [] []
  | rn_token : forall prev c r c' r' sep, ~ is_white c -> map ctok sep = map (fun _ => space_token) (separator_before prev (ctok c)) -> carried src out c c' ->
      rendered src out (Some (ctok c)) r r' -> rendered src out prev (c :: r) (sep ++ c' :: r')
  | rn_white : forall prev ws r c' r' texts w, Forall is_white (w :: ws) -> ~ (exists x y, r = x :: y /\ is_white x) ->
      Forall2 (fun c s => write_str c src = Some s) (w :: ws) texts -> is_white c' -> source_text out c' = Some (concat texts) ->
      rendered src out (Some (ctok w)) r r' -> rendered src out prev (w :: ws ++ r) (c' :: r').

(* ---- what minifying does not preserve, excluded by hypothesis and exhibited by the _refuted theorems ---- *)
(* a written token: not cut off by the end of the source, no broken string; a number that is finite; a dimension of a known unit that
   is finite, of no unit whose name is written wrong, and without a + sign *)
Record sound (src : text) (c : cursor) : Prop := {
  so_closed : In (kind_of c) [K_String; K_Url; K_BadUrl; K_Comment] -> coff c + tlen (ctok c) < blen src;
  so_string : kind_of c <> K_BadString;
  so_number : kind_of c = K_Number -> finite_f32 (tvalue (ctok c));
  so_dimension : kind_of c = K_Dimension -> dimension_unit (ctok c) <> U_Unknown ->
    finite_f32 (tvalue (ctok c)) /\ dimension_unit (ctok c) <> U_Svmin /\ dimension_unit (ctok c) <> U_Svmax /\ (has_sign (ctok c) = true -> N.testbit (tvalue (ctok c)) 31 = true) }.
Definition name_like (c : cursor) : Prop := In (kind_of c) [K_Ident; K_AtKeyword; K_Hash] \/ kind_of c = K_Dimension /\ dimension_unit (ctok c) <> U_Percent.
Definition written_starts (src : text) (c : cursor) (ch : char) : Prop := exists r, write_str c src = Some (ch :: r).
(* c2 is written directly after c1, without a separator: what needs_separator_for overlooks (see C23) *)
Record clear (src : text) (c1 c2 : cursor) : Prop := {
  cl_dash : name_like c1 -> ~ written_starts src c2 45;
  cl_exponent : (exists n e, write_str c1 src = Some (n ++ [e]) /\ css_number n /\ (e = 101 \/ e = 69)) -> ~ written_starts src c2 43;
  cl_cdc : write_str c1 src = Some [45; 45] -> ~ written_starts src c2 62;
  cl_cdo : write_str c1 src = Some [60] -> ~ written_starts src c2 33;
  cl_url : forall s, kind_of c1 = K_Function -> write_str c1 src = Some s -> (exists t, token_at no_features [] s t /\ tkind t = K_Url) -> kind_of c2 = K_String }.
Definition separable (src : text) (cs : list cursor) : Prop :=
  (forall a c1 c2 b, cs = a ++ c1 :: c2 :: b -> needs_separator_for (ctok c1) (ctok c2) = false -> clear src c1 c2) /\
  (forall a c, cs = a ++ [c] -> kind_of c <> K_Function).
