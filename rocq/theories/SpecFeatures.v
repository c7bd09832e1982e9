(* What it means for a parser to read exactly the phrases of a grammar. *)
From Verif Require Import Features SpecParser SpecSyntax SpecTraits.
Open Scope N_scope.
Open Scope list_scope.

(* a parser as it is between two parses: default skip set, on a token boundary, the text of the names ahead readable *)
Definition usual (p : parser) : Prop := pskip p = KS_TRIVIA /\ usable p /\ exists cs, ahead (plex p) cs.
(* the tokens ahead, whitespace and comments (more generally the skipped kinds) left out *)
Definition sees (p : parser) (l : list cursor) : Prop :=
  exists cs, ahead (plex p) cs /\ l = filter (fun c => negb (kindset_contains (pskip p) (kind_of c))) cs.

(* [m] reads exactly the phrases x with [ok x]: what it returns is a phrase, spelled by the tokens [cur x] in that order, and
   those tokens (with trivia) are what it consumed; and wherever such a phrase comes next, followed by tokens that [follow]
   admits, it returns that phrase. [ok] may look at the source text. *)
Definition reads_phrases {A} (m : P A) (ok : text -> A -> Prop) (cur : A -> list cursor) (follow : A -> list cursor -> Prop) : Prop :=
  forall p, usual p ->
  (forall a q, m p = Some (Ok a, q) -> ok (lsrc (plex p)) a /\ took p q (cur a)) /\
  (forall a rest, ok (lsrc (plex p)) a -> follow a rest -> sees p (cur a ++ rest) -> exists q, m p = Some (Ok a, q) /\ took p q (cur a)).
Definition anything {A} : A -> list cursor -> Prop := fun _ _ => True.
(* a Peek implementation that says whether a phrase comes next *)
Definition peeks_phrases {A} (k : peeker) (ok : text -> A -> Prop) (cur : A -> list cursor) : Prop :=
  forall p, usual p -> exists b, peek k p = Some b /\ (b = true <-> exists a rest, ok (lsrc (plex p)) a /\ sees p (cur a ++ rest)).

(* ---- words ---- *)
(* the token c is of kind k and its text, lower-cased, is the word the set has for v *)
Definition is_word {V} (k : kind) (m : list (text * V)) (src : text) (v : V) (c : cursor) : Prop :=
  kind_of c = k /\ exists w, parse_str_lower c src = Some w /\ In (w, v) m.
Definition word_phrase {V} (k : kind) (m : list (text * V)) (src : text) (x : V * cursor) : Prop := is_word k m src (fst x) (snd x).
Definition word_cursors {V} (x : V * cursor) : list cursor := [snd x].
(* ':' and a word, nothing between *)
Definition class_phrase {V} (m : list (text * V)) (src : text) (x : V * (cursor * cursor)) : Prop :=
  let '(v, (colon, ident)) := x in kind_of colon = K_Colon /\ is_word K_Ident m src v ident /\ adjacent colon ident.
Definition class_cursors {V} (x : V * (cursor * cursor)) : list cursor := let '(_, (colon, ident)) := x in [colon; ident].
(* '::' and a word, nothing between *)
Definition element_phrase {V} (m : list (text * V)) (src : text) (x : V * ((cursor * cursor) * cursor)) : Prop :=
  let '(v, ((c1, c2), ident)) := x in
  kind_of c1 = K_Colon /\ kind_of c2 = K_Colon /\ is_word K_Ident m src v ident /\ adjacent c1 c2 /\ adjacent c2 ident.
Definition element_cursors {V} (x : V * ((cursor * cursor) * cursor)) : list cursor := let '(_, ((c1, c2), ident)) := x in [c1; c2; ident].

(* ---- features ---- *)
(* "(" name ")" or "(" name ":" value ")" *)
Definition feature_phrase {V} (name : text) (okv : text -> V -> Prop) (src : text) (f : plain_feature V) : Prop :=
  kind_of (fopen f) = K_LeftParen /\ kind_of (fname f) = K_Ident /\ eq_ignore_ascii_case (fname f) src name = Some true /\
  match fvalue f with None => True | Some (colon, v) => kind_of colon = K_Colon /\ okv src v end /\ kind_of (fclose f) = K_RightParen.
Definition any_token (src : text) (c : cursor) : Prop := kind_of c <> K_Eof.

(* the four forms of a ranged feature; a name such as "min-width" is for the form with a colon only *)
Definition ranged_phrase {F V} (okn : text -> F -> Prop) (legacy : F -> bool) (okv : text -> V -> Prop) (src : text) (f : ranged_feature F V) : Prop :=
  match f with
  | RLeft open name cmp value close =>
      kind_of open = K_LeftParen /\ okn src name /\ legacy name = false /\ comparison_spelled cmp /\ okv src value /\ kind_of close = K_RightParen
  | RRight open value cmp name close =>
      kind_of open = K_LeftParen /\ okv src value /\ comparison_spelled cmp /\ okn src name /\ legacy name = false /\ kind_of close = K_RightParen
  | RRange open lv lcmp name rcmp rv close =>
      kind_of open = K_LeftParen /\ okv src lv /\ comparison_spelled lcmp /\ okn src name /\ legacy name = false /\ comparison_spelled rcmp /\ okv src rv /\ kind_of close = K_RightParen
  | RLegacy open name colon value close =>
      kind_of open = K_LeftParen /\ okn src name /\ kind_of colon = K_Colon /\ okv src value /\ kind_of close = K_RightParen
  end.
(* '<' and '>' are not followed by '=': then they would be '<=' and '>=', or an error *)
Definition no_equals (l : list cursor) : Prop := match l with [] => True | c :: _ => tchar (ctok c) <> Some 61 end.
Definition comparison_follow (x : comparison_t) (rest : list cursor) : Prop :=
  match x with CmpLt _ | CmpGt _ => no_equals rest | _ => True end.
(* phrases that do not begin with '=' (and are not empty) *)
Definition no_equals_first {A} (ok : text -> A -> Prop) (cur : A -> list cursor) : Prop := forall src a rest, ok src a -> no_equals (cur a ++ rest).
(* no text begins both ways *)
Definition told_apart {A B} (ok : text -> A -> Prop) (cur : A -> list cursor) (ok' : text -> B -> Prop) (cur' : B -> list cursor) : Prop :=
  forall src a b r r', ok src a -> ok' src b -> cur a ++ r <> cur' b ++ r'.

(* ---- conditions ---- *)
Definition keyword_at (src : text) (kw : condition_keyword) (c : cursor) : Prop := is_word K_Ident CONDITION_KEYWORDS src kw c.
Definition begins_with (ok : cursor -> Prop) (l : list cursor) : Prop := match l with [] => False | c :: _ => ok c end.
(* no feature is empty or begins with one of the words "and", "or", "not" *)
Definition no_keyword_first {F} (okf : text -> F -> Prop) (fc : F -> list cursor) : Prop :=
  forall src f, okf src f -> match fc f with [] => False | c :: _ => forall kw, ~ keyword_at src kw c end.
(* The documented conditions (feature_condition_list.rs:60-69) and their tokens:
   "not" <feature>  |  <feature> [ "and" <feature> ]*  |  <feature> [ "or" <feature> ]* *)
Inductive chain {F} (okf : text -> F -> Prop) (fc : F -> list cursor) (src : text) (kw : condition_keyword) : list (F * option condition_kw) -> list cursor -> Prop :=
  | chain_last : forall f, okf src f -> chain okf fc src kw [(f, None)] (fc f)
  | chain_more : forall f k l u, okf src f -> keyword_at src kw k -> chain okf fc src kw l u -> chain okf fc src kw ((f, Some (kw, k)) :: l) (fc f ++ k :: u).
Inductive documented {F} (okf : text -> F -> Prop) (fc : F -> list cursor) (src : text) : condition F -> list cursor -> Prop :=
  | doc_is : forall f, okf src f -> documented okf fc src (CIs f) (fc f)
  | doc_not : forall k f, keyword_at src KwNot k -> okf src f -> documented okf fc src (CNot (KwNot, k) f) (k :: fc f)
  | doc_and : forall l u, chain okf fc src KwAnd l u -> (2 <= List.length l)%nat -> documented okf fc src (CAnd l) u
  | doc_or : forall l u, chain okf fc src KwOr l u -> (2 <= List.length l)%nat -> documented okf fc src (COr l) u.
(* what is accepted, the tokens used for it and the tokens left *)
Definition accepted {F} (okf : text -> F -> Prop) (fc : F -> list cursor) (src : text) (x : condition F) (used rest : list cursor) : Prop :=
  match x with
  | CIs f => okf src f /\ used = fc f /\ (forall kw, ~ begins_with (keyword_at src kw) rest)
  | CNot (kw, k) f => kw = KwNot /\ keyword_at src KwNot k /\ okf src f /\ exists f0, okf src f0 /\ used = fc f0 ++ k :: fc f
  | CAnd l => exists f k f2, l = [(f, Some (KwAnd, k)); (f2, None)] /\ okf src f /\ keyword_at src KwAnd k /\ okf src f2 /\
      used = fc f ++ k :: fc f2 /\ ~ begins_with (keyword_at src KwAnd) rest
  | COr l => exists f k f2, l = [(f, Some (KwOr, k)); (f2, None)] /\ okf src f /\ keyword_at src KwOr k /\ okf src f2 /\
      used = fc f ++ k :: fc f2 /\ ~ begins_with (keyword_at src KwAnd) rest
  end.
(* phrases without whitespace or comments inside *)
Definition solid {F} (okf : text -> F -> Prop) (fc : F -> list cursor) : Prop :=
  forall src f c, okf src f -> In c (fc f) -> kind_of c <> K_Whitespace /\ kind_of c <> K_Comment.
