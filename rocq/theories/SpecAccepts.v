(* The values that the properties of hdx accept: where a value stands in a text, and the properties for which the values of the
   definition (SpecConforms.v) without functions are not all accepted. *)
From Coq Require Import String.
From Coq Require Import List.
From Verif Require Import Values SpecSyntax SpecFeatures SpecSelectorText SpecConforms.
Open Scope N_scope.
Open Scope list_scope.

(* a token without escapes: its text has no backslash and no NUL, and it is not marked as one with escapes (of dimensions the mark
   means something else) *)
Definition unescaped (src : text) (c : cursor) : Prop :=
  (kind_of c <> K_Dimension -> contains_escape_chars (ctok c) = false) /\
  forall en s, text_end c = Some en -> slice src (text_start c) en = Some s -> ~ In 92 s /\ ~ In 0 s.
Definition functionless (cs : list cursor) : Prop := Forall (fun c => kind_of c <> K_Function) cs.
(* the last of the tokens is neither whitespace nor a comment *)
Definition trimmed (u : list cursor) : Prop := forall v c, u = v ++ [c] -> ~ trivia_token c.
(* after the value, whitespace and comments aside, the text ends, or there is a semicolon, a closing brace or a ! *)
Definition ended (rest : list cursor) : Prop :=
  exists g r, rest = g ++ r /\ gap g /\ match r with [] => True | c :: _ => kind_of c = K_Semicolon \/ kind_of c = K_RightCurly \/ kind_of c = K_Delim /\ tok_is_char (ctok c) 33 = true end.
(* the properties outside of the theorem:
   - a || b: the parts are tried in the order of the definition, and all words are taken for the first that begins with a word
   - a | b with two types that are no functions
   - a | <b>#, a | <b>{2}
   - the hand-written types position-area and repeat-style *)
Definition UNREACHED : list text := map chars
  ["anchor-name"; "anchor-scope"; "position-area"; "background-repeat"; "border-top"; "border-right"; "border-bottom"; "border-left"; "border-block-start"; "border-block-end"; "border-inline-start"; "border-inline-end"; "border-block"; "border-inline"; "flex-flow"; "masonry-flow"; "line-height";
   "columns"; "column-rule"; "overflow-clip-margin-top"; "overflow-clip-margin-right"; "overflow-clip-margin-bottom"; "overflow-clip-margin-left";
   "overflow-clip-margin-block-start"; "overflow-clip-margin-inline-start"; "overflow-clip-margin-block-end"; "overflow-clip-margin-inline-end";
   "overflow-clip-margin-inline"; "overflow-clip-margin-block"; "block-step"; "scrollbar-color"; "text-wrap"; "caret"; "appearance"; "zoom"; "will-change"]%string.
Definition reached (name : text) : bool := negb (existsb (text_eqb name) UNREACHED).
