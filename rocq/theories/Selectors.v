(* css_parse/src/traits/selectors.rs with the implementor's types as parameters, and css_ast/src/selector: the types that
   implement it. The word enums are in SelectorWords.v, An+B in Nth.v.
   - [None] is a panic or a loop that outlives its fuel, as in Parser.v.
   - a variant of a word enum stands for its word; bumpalo vectors are lists. *)
From Coq Require Import String.
From Coq Require Import List.
From Verif Require Export SelectorWords Nth.
Open Scope N_scope.
Open Scope list_scope.

(* codes of [D_Other] *)
Definition E_UNEXPECTED_TAG : N := 20.
Definition E_UNEXPECTED_ID : N := 21.
Definition E_EXPECTED_IDENT : N := 22.
Definition E_UNEXPECTED_PSEUDO_CLASS : N := 23.
Definition E_UNEXPECTED_PSEUDO_ELEMENT : N := 24.
Definition E_UNEXPECTED_FUNCTION : N := 25.

(* [p.parse_str_lower(c)], for a message *)
Definition fail_lower {A} (code : N) (c : cursor) : P A := fun p =>
  match parse_str_lower c (lsrc (plex p)) with None => None | Some _ => Some (Err (D_Other code c), p) end.

(* ---- css_parse/src/traits/selectors.rs ---- *)
(* selectors.rs:60-87: the associated types; a Peek + Build type is its peek and its build, a Parse type its parse. The
   build_* methods are included. *)
Record selector_parts (C : Type) : Type := Parts
  { sp_type_peek : peeker; sp_type : parser -> cursor -> option C; sp_id_peek : peeker; sp_id : parser -> cursor -> option C;
    sp_wildcard : parser -> cursor -> option C; sp_class : P C; sp_ns_type : P C; sp_combinator : P C; sp_attribute : P C;
    sp_legacy_peek : peeker; sp_legacy : P C; sp_pseudo_class : P C; sp_pseudo_element : P C;
    sp_functional_class : P C; sp_functional_element : P C }.
Arguments Parts {C}. Arguments sp_type_peek {C}. Arguments sp_type {C}. Arguments sp_id_peek {C}. Arguments sp_id {C}.
Arguments sp_wildcard {C}. Arguments sp_class {C}. Arguments sp_ns_type {C}. Arguments sp_combinator {C}. Arguments sp_attribute {C}.
Arguments sp_legacy_peek {C}. Arguments sp_legacy {C}. Arguments sp_pseudo_class {C}. Arguments sp_pseudo_element {C}.
Arguments sp_functional_class {C}. Arguments sp_functional_element {C}.

(* [let c = p.next(); p.set_skip(skip); if T::peek(p, c) { Ok(T::build(p, c)) } else { Err(..)? }], selectors.rs:99-107 and 110-118 *)
Definition take_component {C} (skip : kindset) (pk : peeker) (build : parser -> cursor -> option C) (code : N) : P C := fun p =>
  match next p with
  | None => None
  | Some (c, q) =>
      let q := set_skip q skip in
      match pk q c with
      | None => None
      | Some true => match build q c with None => None | Some x => Some (Ok x, q) end
      | Some false => fail_lower code c q
      end
  end.
(* selectors.rs:89-182; [set_skip p ...] of the parser before, so that the settings are put back where the code does so *)
Definition component_t {C} (s : selector_parts C) : P C := fun p =>
  let p1 := set_skip p KS_COMMENTS in
  match peek_n p1 1 with
  | None => None
  | Some c =>
      let t := ctok c in
      let delim :=
        match tchar t with
        | None => None
        | Some ch =>
            if ch =? 46 then
              match peek_n p1 2 with
              | None => None
              | Some c2 => match tkind (ctok c2) with K_Ident => sp_class s p | _ => Some (Err (D_Other E_EXPECTED_IDENT c2), p) end
              end
            else if ch =? 42 then
              match peek_n p1 2 with
              | None => None
              | Some c2 =>
                  if tok_is_char (ctok c2) 124 then sp_ns_type s p else
                  match next p with
                  | None => None
                  | Some (c, q) => match sp_wildcard s q c with None => None | Some x => Some (Ok x, q) end
                  end
              end
            else sp_combinator s p
        end in
      let colon :=
        match peek_n p1 2 with
        | None => None
        | Some c2 =>
            match tkind (ctok c2) with
            | K_Colon =>
                match peek_n p1 3 with
                | None => None
                | Some c3 =>
                    match tkind (ctok c3) with
                    | K_Ident => sp_pseudo_element s p
                    | K_Function => sp_functional_element s p
                    | _ => Some (Err (D_Unexpected c3), p)
                    end
                end
            | K_Ident =>
                match sp_legacy_peek s p c with None => None | Some true => sp_legacy s p | Some false => sp_pseudo_class s p end
            | K_Function => sp_functional_class s p
            | _ => Some (Err (D_Unexpected c2), p1)
            end
        end in
      let other :=
        match sp_combinator s p1 with
        | None => None
        | Some (r, q) =>
            match consume_trivia (set_skip q KS_WHITESPACE) with None => None | Some q => Some (r, set_skip q (pskip p)) end
        end in
      match tkind t with
      | K_Ident =>
          match peek_n p1 2 with
          | None => None
          | Some c2 =>
              if tok_is_char (ctok c2) 124 then sp_ns_type s p
              else take_component (pskip p) (sp_type_peek s) (sp_type s) E_UNEXPECTED_TAG p1
          end
      | K_Hash => if hash_is_id_like t then take_component (pskip p) (sp_id_peek s) (sp_id s) E_UNEXPECTED_ID p1 else other
      | K_LeftSquare => sp_attribute s p
      | K_Delim => delim
      | K_Colon => colon
      | _ => other
      end
  end.
(* [p.at_end() || p.peek_n(1) == stop] *)
Definition at_stop (stop : kindset) (p : parser) : option bool :=
  if p_at_end p then Some true else match peek_n p 1 with None => None | Some c => Some (tok_in (ctok c) stop) end.
(* selectors.rs:47-59 *)
Fixpoint compound_loop {C} (component_p : P C) (n : nat) : P (list C) :=
  match n with
  | O => fun _ => None
  | S n' => fun p =>
      match at_stop KS_LEFT_CURLY_RIGHT_PAREN_COMMA_OR_SEMICOLON p with
      | None => None
      | Some true => Some (Ok [], p)
      | Some false => bind component_p (fun c => pmap (cons c) (compound_loop component_p n')) p
      end
  end.
Definition compound_t {C} (component_p : P C) : P (list C) := fun p =>
  match consume_trivia p with None => None | Some q => compound_loop component_p (sfuel q) q end.
(* selectors.rs:25-36 *)
Fixpoint selector_loop {S} (compound_p : P S) (n : nat) : P (list (S * option cursor)) :=
  match n with
  | O => fun _ => None
  | S n' => fun p =>
      match at_stop KS_LEFT_CURLY_RIGHT_PAREN_OR_SEMICOLON p with
      | None => None
      | Some true => Some (Ok [], p)
      | Some false =>
          bind compound_p (fun s => bind (if_kind K_Comma) (fun comma => pmap (cons (s, comma)) (selector_loop compound_p n'))) p
      end
  end.
Definition selector_list_t {S} (compound_p : P S) : P (list (S * option cursor)) := fun p => selector_loop compound_p (sfuel p) p.

(* ---- css_ast/src/selector ---- *)
(* a word enum: the variant is the word *)
Definition words (l : list text) : list (text * text) := map (fun w => (w, w)) l.
Definition word : Type := text * cursor.

(* tag.rs:8-19 *)
Inductive tag_t : Type :=
  | THtml (w : word) | THtmlNonConforming (w : word) | THtmlNonStandard (w : word) | TSvg (w : word) | TMathml (w : word)
  | TCustomElement (c : cursor) | TUnknown (c : cursor).
(* tag.rs:87-98 *)
Definition CUSTOM_INVALID : list text := map chars
  ["annotation-xml"; "color-profile"; "font-face"; "font-face-src"; "font-face-uri"; "font-face-format"; "font-face-name"; "missing-glyph"]%string.
(* tag.rs:117-135 *)
Definition in_range (lo hi c : N) : bool := (lo <=? c) && (c <=? hi).
Definition custom_char (c : char) : bool :=
  (c =? 46) || (c =? 95) || in_range 48 57 c || in_range 97 122 c || (c =? 183) || in_range 192 214 c || in_range 216 246 c ||
  in_range 248 893 c || in_range 895 8191 c || in_range 8204 8205 c || in_range 8255 8256 c || in_range 8304 8591 c ||
  in_range 11264 12271 c || in_range 12289 55295 c || in_range 63744 64975 c || in_range 65008 65533 c || in_range 65536 983039 c.
(* tag.rs:110-139 *)
Fixpoint custom_loop (l : text) (has_dash : bool) : bool :=
  match l with
  | [] => has_dash
  | c :: r => if c =? 45 then custom_loop r true else if custom_char c then custom_loop r has_dash else false
  end.
(* tag.rs:100-140 *)
Definition peek_custom : peeker := fun p c =>
  match parse_str_lower c (lsrc (plex p)) with
  | None => None
  | Some str =>
      if existsb (text_eqb str) CUSTOM_INVALID then Some false else
      match str with
      | ch :: r => if in_range 97 122 ch then Some (custom_loop r false) else Some false
      | [] => Some false
      end
  end.
(* [if E::peek(p, c) { X(E::build(p, c)) } else { .. }] of a word enum E *)
Definition or_build {A} (l : list text) (f : word -> A) (e : option A) (p : parser) (c : cursor) : option A :=
  match peek_set K_Ident (words l) p c with
  | None => None
  | Some true => option_map f (build_set (words l) p c)
  | Some false => e
  end.
(* tag.rs:20-44 *)
Definition peek_tag : peeker := peek_kind K_Ident.
Definition build_tag (p : parser) (c : cursor) : option tag_t :=
  or_build HTML_TAGS THtml
    (or_build SVG_TAGS TSvg
      (or_build MATHML_TAGS TMathml
        (match peek_custom p c with
         | None => None
         | Some true => Some (TCustomElement c)
         | Some false =>
             or_build HTML_NON_CONFORMING_TAGS THtmlNonConforming
               (or_build HTML_NON_STANDARD_TAGS THtmlNonStandard (Some (TUnknown c)) p c) p c
         end) p c) p c) p c.
(* tag.rs:46-58 *)
Definition tag_cursor (t : tag_t) : cursor :=
  match t with
  | THtml w | THtmlNonConforming w | THtmlNonStandard w | TSvg w | TMathml w => snd w
  | TCustomElement c | TUnknown c => c
  end.

(* class.rs:10-28 *)
Definition parse_class : P (cursor * cursor) := bind (parse_delim 46) (fun dot => pmap (pair dot) (parse_kind K_Ident)).

(* combinator.rs:8-37 *)
Inductive combinator_t : Set :=
  | CChild (c : cursor) | CNextSibling (c : cursor) | CSubsequentSibling (c : cursor) | CColumn (a b : cursor) | CNesting (c : cursor)
  | CDescendant (c : cursor).
Definition parse_combinator : P combinator_t :=
  or_peek (peek_delim 62) (pmap CChild (parse_delim 62))
  (or_peek (peek_delim 43) (pmap CNextSibling (parse_delim 43))
  (or_peek (peek_delim 126) (pmap CSubsequentSibling (parse_delim 126))
  (or_peek (peek_delim 38) (pmap CNesting (parse_delim 38))
  (or_peek (peek_double 124 124) (pmap (fun x => CColumn (fst x) (snd x)) (parse_double 124 124))
  (pmap CDescendant parse_whitespace))))).
(* combinator.rs:39-50 *)
Definition combinator_cursors (x : combinator_t) : list cursor :=
  match x with CChild c | CNextSibling c | CSubsequentSibling c | CNesting c | CDescendant c => [c] | CColumn a b => [a; b] end.

(* namespace.rs:73-105 *)
Inductive ns_prefix : Set := PNone (pipe : cursor) | PName (ident pipe : cursor) | PWildcard (star pipe : cursor).
Definition parse_prefix : P ns_prefix :=
  or_peek (peek_delim 124) (pmap PNone (parse_delim 124))
  (or_peek (peek_delim 42) (bind (parse_delim 42) (fun star => pmap (PWildcard star) (unskipped (parse_delim 124))))
  (bind (parse_kind K_Ident) (fun ident => pmap (PName ident) (unskipped (parse_delim 124))))).
(* namespace.rs:107-124 *)
Definition prefix_cursors (x : ns_prefix) : list cursor :=
  match x with PNone p => [p] | PName i p => [i; p] | PWildcard s p => [s; p] end.
(* namespace.rs:136-158 *)
Inductive ns_tag : Type := NTag (t : tag_t) | NWildcard (c : cursor).
Definition peek_ns_tag : peeker := fun p c =>
  match peek_delim 42 p c with None => None | Some true => Some true | Some false => peek_tag p c end.
Definition build_ns_tag (p : parser) (c : cursor) : option ns_tag :=
  match peek_delim 42 p c with None => None | Some true => Some (NWildcard c) | Some false => option_map NTag (build_tag p c) end.
Definition ns_tag_cursor (x : ns_tag) : cursor := match x with NTag t => tag_cursor t | NWildcard c => c end.
(* traits/parse.rs:27-40 with a build that may panic *)
Definition parse_built {A} (k : peeker) (build : parser -> cursor -> option A) : P A := fun p =>
  match peek k p with
  | None => None
  | Some b =>
      match next p with
      | None => None
      | Some (c, q) => if b then match build q c with None => None | Some x => Some (Ok x, q) end else Some (Err (D_Unexpected c), q)
      end
  end.
Definition parse_ns_tag : P ns_tag := parse_built peek_ns_tag build_ns_tag.
(* namespace.rs:13-45; the last parse leaves the skip set empty *)
Definition namespace_t : Type := option ns_prefix * ns_tag.
Definition parse_namespace : P namespace_t :=
  let prefixed := bind parse_prefix (fun x => pmap (pair (Some x)) parse_ns_tag) in
  or_peek (peek_double 42 124) prefixed
  (or_peek (peek_delim 124) prefixed
  (bind (parse_kind K_Ident) (fun ident p =>
    let p1 := set_skip p KS_NONE in
    match peek (peek_delim 124) p1, peek (peek_double 124 61) p1 with
    | Some true, None => None
    | Some true, Some false =>
        match parse_delim 124 p1 with
        | None => None
        | Some (pipe, p2) =>
            match parse_ns_tag p2 with
            | None => None
            | Some (tag, p3) =>
                let p3 := set_skip p3 (pskip p) in
                match pipe, tag with
                | Err e, _ => Some (Err e, p3)
                | _, Err e => Some (Err e, p3)
                | Ok pipe, Ok tag => Some (Ok (Some (PName ident pipe), tag), p3)
                end
            end
        end
    | None, _ => None
    | _, _ => pmap (pair None) parse_ns_tag p1
    end))).
(* namespace.rs:47-54 *)
Definition namespace_cursors (x : namespace_t) : list cursor :=
  (match fst x with Some y => prefix_cursors y | None => [] end) ++ [ns_tag_cursor (snd x)].

(* attribute.rs:77-115 *)
Inductive attr_operator : Set :=
  | AExact (c : cursor) | ASpaceList (a b : cursor) | ALangPrefix (a b : cursor) | APrefix (a b : cursor) | ASuffix (a b : cursor) | AContains (a b : cursor).
(* [a || b || ..] *)
Fixpoint any_peek (l : list peeker) : peeker := fun p c =>
  match l with
  | [] => Some false
  | k :: r => match k p c with None => None | Some true => Some true | Some false => any_peek r p c end
  end.
Definition peek_operator : peeker :=
  any_peek [peek_delim 61; peek_double 126 61; peek_double 124 61; peek_double 94 61; peek_double 36 61; peek_double 42 61].
Definition parse_operator : P attr_operator := fun p =>
  match peek_n p 1 with
  | None => None
  | Some c =>
      let try (k : peeker) (m e : P attr_operator) : P attr_operator := fun p => match k p c with None => None | Some true => m p | Some false => e p end in
      let pair f := fun x : cursor * cursor => f (fst x) (snd x) in
      try (peek_delim 61) (pmap AExact (parse_delim 61))
      (try (peek_double 126 61) (pmap (pair ASpaceList) (parse_double 126 61))
      (try (peek_double 124 61) (pmap (pair ALangPrefix) (parse_double 124 61))
      (try (peek_double 94 61) (pmap (pair APrefix) (parse_double 94 61))
      (try (peek_double 36 61) (pmap (pair ASuffix) (parse_double 36 61))
      (pmap (pair AContains) (parse_double 42 61)))))) p
  end.
(* attribute.rs:117-127 *)
Definition operator_cursors (x : attr_operator) : list cursor :=
  match x with AExact c => [c] | ASpaceList a b | ALangPrefix a b | APrefix a b | ASuffix a b | AContains a b => [a; b] end.
(* attribute.rs:129-160: the variant is the kind of the token *)
Definition parse_attr_value : P cursor := parse_single (any_peek [peek_kind K_Ident; peek_kind K_String]) (fun c => c).
(* attribute.rs:162-189 *)
Inductive attr_modifier : Set := MSensitive (c : cursor) | MInsensitive (c : cursor).
Definition peek_modifier : peeker := fun p c =>
  if tok_is (ctok c) K_Ident then
    match parse_str c (lsrc (plex p)) with
    | None => None
    | Some w => Some (existsb (text_eqb w) (map chars ["i"; "s"; "I"; "S"]%string))
    end
  else Some false.
Definition build_modifier (p : parser) (c : cursor) : option attr_modifier :=
  match parse_str c (lsrc (plex p)) with
  | None => None
  | Some w => Some (if existsb (text_eqb w) (map chars ["s"; "S"]%string) then MSensitive c else MInsensitive c)
  end.
Definition modifier_cursor (x : attr_modifier) : cursor := match x with MSensitive c | MInsensitive c => c end.
(* attribute.rs:9-49 *)
Record attribute_t : Set := Attribute
  { aopen : cursor; aprefix : option ns_prefix; aname : cursor; aoperator : option attr_operator; avalue : option cursor;
    amodifier : option attr_modifier; aclose : option cursor }.
Definition parse_attribute_rest (open : cursor) (prefix : option ns_prefix) (name : cursor) : P attribute_t :=
  bind (parse_if_peek peek_operator parse_operator) (fun operator =>
  bind (match operator with Some _ => pmap Some parse_attr_value | None => ret None end) (fun value =>
  bind (match value with Some _ => parse_if_peek peek_modifier (parse_built peek_modifier build_modifier) | None => ret None end) (fun modifier =>
  bind (if_kind K_RightSquare) (fun close => ret (Attribute open prefix name operator value modifier close))))).
Definition parse_attribute : P attribute_t :=
  bind (parse_kind K_LeftSquare) (fun open =>
  bind (parse_if_peek (peek_double 42 124) parse_prefix) (fun prefix =>
  bind (parse_kind K_Ident) (fun name p =>
    let p1 := set_skip p KS_NONE in
    match prefix with
    | Some _ => parse_attribute_rest open prefix name p
    | None =>
        match peek (peek_delim 124) p1, peek (peek_double 124 61) p1 with
        | Some true, None => None
        | Some true, Some false =>
            match parse_delim 124 p1 with
            | None => None
            | Some (pipe, p2) =>
                match parse_kind K_Ident p2 with
                | None => None
                | Some (ident, p3) =>
                    let p3 := set_skip p3 (pskip p) in
                    match pipe, ident with
                    | Err e, _ => Some (Err e, p3)
                    | _, Err e => Some (Err e, p3)
                    | Ok pipe, Ok ident => parse_attribute_rest open (Some (PName name pipe)) ident p3
                    end
                end
            end
        | None, _ => None
        | _, _ => parse_attribute_rest open None name p
        end
    end))).
(* attribute.rs:51-75 *)
Definition opt_list {A} (o : option A) : list A := match o with Some a => [a] | None => [] end.
Definition attribute_cursors (a : attribute_t) : list cursor :=
  aopen a :: (match aprefix a with Some x => prefix_cursors x | None => [] end) ++
  aname a :: (match aoperator a with Some x => operator_cursors x | None => [] end) ++ opt_list (avalue a) ++
  (match amodifier a with Some x => [modifier_cursor x] | None => [] end) ++ opt_list (aclose a).

(* pseudo_class.rs:66-123; the five enums in the order they are tried *)
Inductive vendor : Set := VStandard | VWebkit | VMoz | VMs | VO.
Definition pseudo_class_t : Type := vendor * (text * (cursor * cursor)).
(* [if let Ok(x) = p.try_parse::<T>() { return Ok(X(x)) }] *)
Definition or_try {A B} (m : P A) (f : A -> B) (e : P B) : P B := fun p =>
  match try_parse m p with None => None | Some (Ok a, q) => Some (Ok (f a), q) | Some (Err _, q) => e q end.
Definition parse_pseudo_class_ast : P pseudo_class_t := fun p =>
  match parse_pseudo_class (words PSEUDO_CLASSES) p with
  | None => None
  | Some (Ok x, q) => Some (Ok (VStandard, x), q)
  | Some (Err _, q) =>
      let q := rewind q (checkpoint p) in
      match peek_n q 2 with
      | None => None
      | Some c =>
          or_try (parse_pseudo_class (words WEBKIT_PSEUDO_CLASSES)) (pair VWebkit)
          (or_try (parse_pseudo_class (words MOZ_PSEUDO_CLASSES)) (pair VMoz)
          (or_try (parse_pseudo_class (words MS_PSEUDO_CLASSES)) (pair VMs)
          (or_try (parse_pseudo_class (words O_PSEUDO_CLASSES)) (pair VO)
          (fail_text E_UNEXPECTED_PSEUDO_CLASS c)))) q
      end
  end.
Definition pseudo_class_cursors (x : pseudo_class_t) : list cursor := let '(_, (_, (colon, ident))) := x in [colon; ident].

(* pseudo_element.rs:34-93 *)
Definition pseudo_element_t : Type := vendor * (text * ((cursor * cursor) * cursor)).
Definition parse_pseudo_element_ast : P pseudo_element_t := fun p =>
  match parse_colon_colon (set_skip p KS_NONE) with
  | None => None
  | Some (colons, p1) =>
      match parse_set K_Ident (words PSEUDO_ELEMENTS) p1 with
      | None => None
      | Some (keyword, p2) =>
          let p2 := set_skip p2 (pskip p) in
          match colons, keyword with
          | Err e, _ => Some (Err e, p2)
          | Ok colons, Ok (w, ident) => Some (Ok (VStandard, (w, (colons, ident))), p2)
          | Ok _, Err _ =>
              let q := rewind p2 (checkpoint p) in
              match peek_n q 2 with
              | None => None
              | Some c =>
                  or_try (parse_pseudo_element (words WEBKIT_PSEUDO_ELEMENTS)) (pair VWebkit)
                  (or_try (parse_pseudo_element (words MOZ_PSEUDO_ELEMENTS)) (pair VMoz)
                  (or_try (parse_pseudo_element (words MS_PSEUDO_ELEMENTS)) (pair VMs)
                  (or_try (parse_pseudo_element (words O_PSEUDO_ELEMENTS)) (pair VO)
                  (fail_text E_UNEXPECTED_PSEUDO_ELEMENT c)))) q
              end
          end
      end
  end.
Definition pseudo_element_cursors (x : pseudo_element_t) : list cursor := let '(_, (_, ((c1, c2), ident))) := x in [c1; c2; ident].

(* functional_pseudo_class.rs:10-30: the functions and the types of their values *)
Inductive value_type : Set := TyDir | TySelectors | TyLang | TyNth | TyIdent.
Definition FUNCTIONAL_CLASSES : list (text * value_type) :=
  [(chars "dir", TyDir); (chars "has", TySelectors); (chars "host", TySelectors); (chars "host-context", TySelectors);
   (chars "is", TySelectors); (chars "lang", TyLang); (chars "not", TySelectors); (chars "nth-child", TyNth); (chars "nth-col", TyNth);
   (chars "nth-last-child", TyNth); (chars "nth-last-col", TyNth); (chars "nth-last-of-type", TyNth); (chars "nth-of-type", TyNth);
   (chars "state", TyIdent); (chars "where", TySelectors)].
Definition DIR_VALUES : list text := map chars ["rtl"; "ltr"]%string.
(* functional_pseudo_class.rs:274-292: the variant of a LangValue is the kind of its token *)
Definition parse_lang_value : P (cursor * option cursor) :=
  bind (or_peek (peek_kind K_Ident) (parse_kind K_Ident) (parse_kind K_String)) (fun value => pmap (pair value) (if_kind K_Comma)).
(* functional_pseudo_class.rs:245-256 *)
Fixpoint lang_loop (n : nat) : P (list (cursor * option cursor)) :=
  match n with
  | O => fun _ => None
  | S n' => bind parse_lang_value (fun v => or_peek (peek_kind K_RightParen) (ret [v]) (pmap (cons v) (lang_loop n')))
  end.
Definition parse_lang_values : P (list (cursor * option cursor)) := fun p => lang_loop (sfuel p) p.
(* functional_pseudo_element.rs:32-39, the loop of "part" *)
Fixpoint part_loop (n : nat) : P (list cursor) :=
  match n with
  | O => fun _ => None
  | S n' => or_peek (peek_kind K_RightParen) (ret []) (bind (parse_kind K_Ident) (fun c => pmap (cons c) (part_loop n')))
  end.

(* mod.rs:171-184, functional_pseudo_class.rs, functional_pseudo_element.rs:10-20 *)
Inductive component_ast : Type :=
  | SId (c : cursor) | SClass (dot name : cursor) | STag (t : tag_t) | SWildcard (c : cursor) | SCombinator (x : combinator_t)
  | SAttribute (a : attribute_t) | SPseudoClass (x : pseudo_class_t) | SPseudoElement (x : pseudo_element_t)
  | SLegacy (x : text * (cursor * cursor)) | SNamespace (x : namespace_t)
  | SFunctionalClass (name : text) (colon function : cursor) (value : class_value) (close : option cursor)
  | SFunctionalElement (colons : cursor * cursor) (function : cursor) (value : element_value) (close : option cursor)
with class_value : Type :=
  | VDir (w : word) | VSelectors (l : list (list component_ast * option cursor)) | VLang (l : list (cursor * option cursor)) | VNth (x : nth_t) | VIdent (c : cursor)
with element_value : Type :=
  | VHighlight (c : cursor) | VPart (l : list cursor) | VSlotted (l : list component_ast).

(* functional_pseudo_class.rs:57-84; [list_p] parses a SelectorList *)
Definition parse_class_value (list_p : P (list (list component_ast * option cursor))) (ty : value_type) : P class_value :=
  match ty with
  | TyDir => pmap VDir (parse_set K_Ident (words DIR_VALUES))
  | TySelectors => pmap VSelectors list_p
  | TyLang => pmap VLang parse_lang_values
  | TyNth => pmap VNth parse_nth
  | TyIdent => pmap VIdent (parse_kind K_Ident)
  end.
Definition named_classes : list (text * (text * value_type)) := map (fun x => (fst x, x)) FUNCTIONAL_CLASSES.
Definition parse_functional_class (list_p : P (list (list component_ast * option cursor))) : P component_ast := fun p =>
  match parse_kind K_Colon (set_skip p KS_NONE) with
  | None => None
  | Some (colon, p1) =>
      match parse_set K_Function named_classes p1 with
      | None => None
      | Some (keyword, p2) =>
          let p2 := set_skip p2 (pskip p) in
          match colon, keyword with
          | Err e, _ => Some (Err e, p2)
          | _, Err e => Some (Err e, p2)
          | Ok colon, Ok ((name, ty), function) =>
              bind (parse_class_value list_p ty) (fun value =>
              bind (if_kind K_RightParen) (fun close => ret (SFunctionalClass name colon function value close))) p2
          end
      end
  end.
(* functional_pseudo_element.rs:22-54; [compound_p] parses a CompoundSelector *)
Definition parse_functional_element (compound_p : P (list component_ast)) : P component_ast :=
  bind parse_colon_colon (fun colons =>
  bind (parse_kind K_Function) (fun function =>
  bind (p_str_lower function) (fun name =>
  bind (if text_eqb name (chars "highlight") then pmap VHighlight (parse_kind K_Ident)
        else if text_eqb name (chars "part") then pmap VPart (fun p => part_loop (sfuel p) p)
        else if text_eqb name (chars "slotted") then pmap VSlotted compound_p
        else fail (D_Other E_UNEXPECTED_FUNCTION function)) (fun value =>
  bind (if_kind K_RightParen) (fun close => ret (SFunctionalElement colons function value close)))))).

(* mod.rs:111-165, 228-300: the associated types of the implementation; [component_p] parses the components of nested selectors *)
Definition css_parts (component_p : P component_ast) : selector_parts component_ast :=
  let list_p := selector_list_t (compound_t component_p) in
  Parts peek_tag (fun p c => option_map STag (build_tag p c)) (peek_kind K_Hash) (fun _ c => Some (SId c)) (fun _ c => Some (SWildcard c))
    (pmap (fun x => SClass (fst x) (snd x)) parse_class) (pmap SNamespace parse_namespace) (pmap SCombinator parse_combinator)
    (pmap SAttribute parse_attribute) (peek_pseudo_class (words LEGACY_PSEUDO_ELEMENTS)) (pmap SLegacy (parse_pseudo_class (words LEGACY_PSEUDO_ELEMENTS)))
    (pmap SPseudoClass parse_pseudo_class_ast) (pmap SPseudoElement parse_pseudo_element_ast)
    (parse_functional_class list_p) (parse_functional_element (compound_t component_p)).
(* mod.rs:186-190; nesting takes fuel *)
Fixpoint component_n (n : nat) : P component_ast :=
  match n with O => fun _ => None | S n' => component_t (css_parts (component_n n')) end.
Definition parse_component : P component_ast := fun p => component_n (sfuel p) p.
(* mod.rs:92-96, 57-61 *)
Definition parse_compound : P (list component_ast) := fun p => compound_t (component_n (sfuel p)) p.
Definition parse_selectors : P (list (list component_ast * option cursor)) := fun p => selector_list_t (compound_t (component_n (sfuel p))) p.

(* the ToCursors implementations: mod.rs:63-72, 98-104, 192-209; functional_pseudo_class.rs; functional_pseudo_element.rs *)
Definition nth_cursors (x : nth_t) : list cursor := match x with NthOdd c | NthEven c | NthInteger c => [c] | NthAnb _ _ cs => cs end.
Definition with_comma (v : list cursor) (comma : option cursor) : list cursor := v ++ opt_list comma.
Fixpoint component_cursors (x : component_ast) : list cursor :=
  match x with
  | SId c | SWildcard c => [c]
  | SClass dot name => [dot; name]
  | STag t => [tag_cursor t]
  | SCombinator x => combinator_cursors x
  | SAttribute a => attribute_cursors a
  | SPseudoClass x => pseudo_class_cursors x
  | SPseudoElement x => pseudo_element_cursors x
  | SLegacy (_, (colon, ident)) => [colon; ident]
  | SNamespace x => namespace_cursors x
  | SFunctionalClass _ colon function value close => colon :: function :: class_value_cursors value ++ opt_list close
  | SFunctionalElement (c1, c2) function value close => c1 :: c2 :: function :: element_value_cursors value ++ opt_list close
  end
with class_value_cursors (v : class_value) : list cursor :=
  match v with
  | VDir w => [snd w]
  | VSelectors l => flat_map (fun s => with_comma (flat_map component_cursors (fst s)) (snd s)) l
  | VLang l => flat_map (fun s => with_comma [fst s] (snd s)) l
  | VNth x => nth_cursors x
  | VIdent c => [c]
  end
with element_value_cursors (v : element_value) : list cursor :=
  match v with VHighlight c => [c] | VPart l => l | VSlotted l => flat_map component_cursors l end.
Definition compound_cursors (l : list component_ast) : list cursor := flat_map component_cursors l.
Definition selectors_cursors (l : list (list component_ast * option cursor)) : list cursor :=
  flat_map (fun s => with_comma (compound_cursors (fst s)) (snd s)) l.
