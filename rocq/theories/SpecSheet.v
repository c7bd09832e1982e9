(* What is asked of a stylesheet's text, and of the grammar of property values, for the parser to come back with an answer. *)
From Coq Require Import String.
From Coq Require Import List.
From Verif Require Import AstSheet SpecLex SpecCursor SpecParser SpecSyntax SpecTraits.
Open Scope N_scope.
Open Scope list_scope.

(* the tokens whose text is a word, which the parser compares with words that it knows *)
Inductive wordy : kind -> Prop :=
| wordy_ident : wordy K_Ident | wordy_function : wordy K_Function | wordy_at : wordy K_AtKeyword
| wordy_hash : wordy K_Hash | wordy_number : wordy K_Number | wordy_dimension : wordy K_Dimension.
(* the text of a token can be read, that of a word without regard to case, and the character of a delimiter *)
Definition text_readable (src : text) (c : cursor) : Prop :=
  (wordy (kind_of c) -> (forall w, eq_ignore_ascii_case c src w <> None) /\ parse_str_lower c src <> None) /\ parse_str c src <> None /\ str_slice c src <> None /\
  (kind_of c = K_Delim -> tchar (ctok c) <> None).
(* a comment that begins with slash-star also ends *)
Definition closed_comment (src : text) (c : cursor) : Prop :=
  exists w, str_slice c src = Some w /\ ((exists b, w = 47 :: 47 :: b) \/ (exists b, w = 47 :: 42 :: b ++ [42; 47])).
(* the constructs that hdx does not parse: the functions "font-tech(" and "font-format(" *)
Definition unfinished (src : text) (c : cursor) : Prop :=
  kind_of c = K_Function /\ (parse_str_lower c src = Some (chars "font-tech") \/ parse_str_lower c src = Some (chars "font-format")).
(* no function stands between "@container" and the next '{' *)
Definition plain_containers (src : text) (cs : list cursor) : Prop := forall before at_ between c after,
  cs = before ++ at_ :: between ++ c :: after -> kind_of at_ = K_AtKeyword -> eq_ignore_ascii_case at_ src (chars "container") = Some true ->
  Forall (fun d => kind_of d <> K_LeftCurly) between -> kind_of c <> K_Function.
(* "@page" is followed by names, colons and commas without spaces or comments, and then a brace *)
Definition plain_pages (src : text) (cs : list cursor) : Prop := forall before at_ after,
  cs = before ++ at_ :: after -> kind_of at_ = K_AtKeyword -> eq_ignore_ascii_case at_ src (chars "page") = Some true ->
  exists between open rest, after = between ++ open :: rest /\ kind_of open = K_LeftCurly /\ Forall (fun d => In (kind_of d) [K_Ident; K_Colon; K_Comma]) between.
(* whether texts with the constructs that hdx does not parse are left out (they are where a whole stylesheet is parsed, whatever it is;
   they need not be where what is written is known) *)
Class mode : Set := strict : bool.
Definition supported {M : mode} (src : text) (cs : list cursor) : Prop :=
  Forall (fun c => text_readable src c /\ (strict = true -> ~ unfinished src c)) cs /\ (strict = true -> plain_containers src cs /\ plain_pages src cs).

(* a parser of [src] (with the lexer's settings [f]) that has the tokens cs ahead; it skips whitespace, comments or nothing *)
Definition stands {M : mode} (src : text) (f : feature) (p : parser) (cs : list cursor) : Prop :=
  lsrc (plex p) = src /\ lfeat (plex p) = f /\ ahead (plex p) cs /\ supported src cs /\
  forall k, kindset_contains (pskip p) k = true -> k = K_Whitespace \/ k = K_Comment.
Notation stands_finished := (stands (M := true)).
(* the parser of a value returns and only moves forwards *)
Definition sensible (m : P (list cursor)) : Prop := forall (M : mode) src f p cs, stands src f p cs ->
  exists r q used rest, m p = Some (r, q) /\ cs = used ++ rest /\ stands src f q rest.
(* a URL's spaces and quotes fit the 12 bits that its token has for their number *)
Definition urls_fit (src : text) : Prop := forall a b, src = a ++ b -> url_limits b.
(* a text within the lexer's limits, whose comments are closed; [cs] are its tokens *)
Definition readable_text (src : text) (f : feature) (cs : list cursor) : Prop :=
  well_behaved (single_line_comments f) src /\ ~ In 0 src /\ Forall (fun c => valid_char c = true) src /\ blen src < 4294967296 /\ urls_fit src /\
  lex src f = Some cs /\ Forall (fun c => kind_of c = K_Comment -> closed_comment src c) cs.
(* the texts on which the parser is shown to come back: [cs] are the tokens of [src] *)
Definition acceptable (src : text) (f : feature) (cs : list cursor) : Prop :=
  well_behaved (single_line_comments f) src /\ ~ In 0 src /\ Forall (fun c => valid_char c = true) src /\ blen src < 4294967296 /\ urls_fit src /\
  lex src f = Some cs /\ Forall (fun c => kind_of c = K_Comment -> closed_comment src c) cs /\ Forall (fun c => ~ unfinished src c) cs /\ plain_containers src cs /\ plain_pages src cs.
