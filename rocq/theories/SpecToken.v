(* Specification tables for the token properties, written from the CSS specifications and the crate's documentation,
   not from the code. *)
From Coq Require Import String.
From Verif Require Import Token.
Open Scope N_scope.
Local Open Scope string_scope.

(* CSS Values 4/5, CSS Conditional 5 (container units), CSS Grid (fr): every unit's own spelling in lower case *)
Definition css_unit_names : list (unit_t * string) := [
  (U_Cap,"cap"); (U_Ch,"ch"); (U_Em,"em"); (U_Ex,"ex"); (U_Ic,"ic"); (U_Lh,"lh");
  (U_Rcap,"rcap"); (U_Rch,"rch"); (U_Rem,"rem"); (U_Rex,"rex"); (U_Ric,"ric"); (U_Rlh,"rlh");
  (U_Vw,"vw"); (U_Vh,"vh"); (U_Vi,"vi"); (U_Vb,"vb"); (U_Vmin,"vmin"); (U_Vmax,"vmax");
  (U_Svw,"svw"); (U_Svh,"svh"); (U_Svi,"svi"); (U_Svb,"svb"); (U_Svmin,"svmin"); (U_Svmax,"svmax");
  (U_Lvw,"lvw"); (U_Lvh,"lvh"); (U_Lvi,"lvi"); (U_Lvb,"lvb"); (U_Lvmin,"lvmin"); (U_Lvmax,"lvmax");
  (U_Dvw,"dvw"); (U_Dvh,"dvh"); (U_Dvi,"dvi"); (U_Dvb,"dvb"); (U_Dvmin,"dvmin"); (U_Dvmax,"dvmax");
  (U_Cqw,"cqw"); (U_Cqh,"cqh"); (U_Cqi,"cqi"); (U_Cqb,"cqb"); (U_Cqmin,"cqmin"); (U_Cqmax,"cqmax");
  (U_Cm,"cm"); (U_Mm,"mm"); (U_Q,"q"); (U_In,"in"); (U_Pc,"pc"); (U_Pt,"pt"); (U_Px,"px");
  (U_Deg,"deg"); (U_Grad,"grad"); (U_Rad,"rad"); (U_Turn,"turn");
  (U_S,"s"); (U_Ms,"ms"); (U_Hz,"hz"); (U_Khz,"khz");
  (U_Dpi,"dpi"); (U_Dpcm,"dpcm"); (U_Dppx,"dppx"); (U_X,"x"); (U_Fr,"fr"); (U_Percent,"%")].

(* token.rs documentation of the class predicates *)
Definition doc_ident_like : list kind := [K_Ident; K_AtKeyword; K_Function; K_Hash].
Definition doc_delim_like : list kind :=
  [K_Delim; K_Colon; K_Semicolon; K_Comma; K_LeftSquare; K_RightSquare; K_LeftParen; K_RightParen;
   K_LeftCurly; K_RightCurly].
Definition doc_bad : list kind := [K_BadString; K_BadUrl].
Definition doc_trivia : list kind := [K_Comment; K_Whitespace; K_Eof].
Definition doc_numeric : list kind := [K_Number; K_Dimension].

(* a token whose kind bits are one of the codes the enum has: every token a constructor or constant makes *)
Definition well_formed (t : token) : Prop := In (kind_bits t) (map kind_code all_kinds).

(* the ASCII punctuation characters and the public constant for each (token.rs:262-349) *)
Definition punctuation_constants : list (char * token) := [
  (58, T_COLON); (59, T_SEMICOLON); (44, T_COMMA); (91, T_LEFT_SQUARE); (93, T_RIGHT_SQUARE); (40, T_LEFT_PAREN);
  (41, T_RIGHT_PAREN); (123, T_LEFT_CURLY); (125, T_RIGHT_CURLY); (33, T_BANG); (35, T_HASH); (36, T_DOLLAR);
  (37, T_PERCENT); (38, T_AMPERSAND); (42, T_ASTERISK); (43, T_PLUS); (45, T_DASH); (46, T_PERIOD); (47, T_SLASH);
  (60, T_LESS_THAN); (61, T_EQUALS); (62, T_GREATER_THAN); (63, T_QUESTION); (64, T_AT); (92, T_BACKSLASH);
  (94, T_CARET); (95, T_UNDERSCORE); (96, T_BACKTICK); (124, T_PIPE); (126, T_TILDE)]%N.

(* the three bracket pairs: opening character, closing character, and the kinds that belong to the pair *)
Definition bracket_table : list (pairwise * (char * char) * list kind) := [
  (PW_Paren, (40, 41), [K_LeftParen; K_RightParen; K_Function]);
  (PW_Curly, (123, 125), [K_LeftCurly; K_RightCurly]);
  (PW_Square, (91, 93), [K_LeftSquare; K_RightSquare])]%N.
