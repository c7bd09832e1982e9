(* css_parse: the word-set macros (token_macros.rs: keyword_set, function_set, atkeyword_set, custom_dimension; macros/pseudo_class.rs,
   macros/pseudo_element.rs), the media-feature traits (traits/boolean_feature.rs, discrete_feature.rs, ranged_feature.rs) and
   traits/lists/feature_condition_list.rs.
   - a macro's enum is the type V of its variants with the cursors they hold; its MAP (a phf::Map, which cannot hold a key twice)
     is an association list.
   - the trait methods that build a result are those of the feature macros: constructors. *)
From Coq Require Import String.
From Coq Require Import List.
From Verif Require Export Traits.
Open Scope N_scope.
Open Scope list_scope.

(* [MAP.get] *)
Fixpoint map_get {V} (m : list (text * V)) (w : text) : option V :=
  match m with [] => None | (k, v) :: r => if text_eqb k w then Some v else map_get r w end.
(* [MAP.get(&p.parse_str_lower(c))]; the outer None is a panic *)
Definition look_up {V} (m : list (text * V)) (p : parser) (c : cursor) : option (option V) :=
  match parse_str_lower c (lsrc (plex p)) with None => None | Some w => Some (map_get m w) end.
(* token_macros.rs:419-423, 525-529, 631-635; [k] is Ident, Function or AtKeyword *)
Definition peek_set {V} (k : kind) (m : list (text * V)) : peeker := fun p c =>
  if tok_is (ctok c) k then match look_up m p c with None => None | Some o => Some (match o with Some _ => true | None => false end) end
  else Some false.
(* token_macros.rs:424-431, 530-537, 636-643: [unwrap] *)
Definition build_set {V} (m : list (text * V)) (p : parser) (c : cursor) : option (V * cursor) :=
  match look_up m p c with Some (Some v) => Some (v, c) | _ => None end.
(* traits/parse.rs:27-40, with a build that may panic *)
Definition parse_set {V} (k : kind) (m : list (text * V)) : P (V * cursor) := fun p =>
  match peek (peek_set k m) p with
  | None => None
  | Some b =>
      match next p with
      | None => None
      | Some (c, q) => if b then match build_set m q c with None => None | Some x => Some (Ok x, q) end else Some (Err (D_Unexpected c), q)
      end
  end.
(* token_macros.rs:268-279 (custom_dimension) *)
Definition peek_dimension (u : unit_t) (w : text) : peeker := fun p c =>
  if tok_is (ctok c) K_Dimension then
    if unit_eqb (dimension_unit (ctok c)) u then Some true else eq_ignore_ascii_case c (lsrc (plex p)) w
  else Some false.

(* [let skip = p.set_skip(KindSet::NONE); let r = m(p); p.set_skip(skip); r] *)
Definition unskipped {A} (m : P A) : P A := fun p =>
  match m (set_skip p KS_NONE) with None => None | Some (r, q) => Some (r, set_skip q (pskip p)) end.
(* [p.parse_str(c)], for a message *)
Definition fail_text {A} (code : N) (c : cursor) : P A := fun p =>
  match parse_str c (lsrc (plex p)) with None => None | Some _ => Some (Err (D_Other code c), p) end.
(* macros/pseudo_class.rs:47-52 *)
Definition peek_pseudo_class {V} (m : list (text * V)) : peeker := fun p c =>
  match peek_n p 2 with
  | None => None
  | Some c2 => if tok_is (ctok c) K_Colon then peek_set K_Ident m p c2 else Some false
  end.
(* macros/pseudo_class.rs:54-69 *)
Definition parse_pseudo_class {V} (m : list (text * V)) : P (V * (cursor * cursor)) :=
  bind (parse_kind K_Colon) (fun colon =>
  bind (unskipped (parse_kind K_Ident)) (fun ident p =>
  match look_up m p ident with
  | None => None
  | Some (Some v) => Some (Ok (v, (colon, ident)), p)
  | Some None => fail_text E_UNEXPECTED_IDENT ident p
  end)).
(* macros/pseudo_element.rs:41-50 *)
Definition peek_pseudo_element {V} (m : list (text * V)) : peeker := fun p c =>
  match peek_n p 2, peek_n p 3 with
  | Some c2, Some c3 => if tok_is (ctok c) K_Colon && tok_is (ctok c2) K_Colon then peek_set K_Ident m p c3 else Some false
  | _, _ => None
  end.
(* macros/pseudo_element.rs:52-67 *)
Definition parse_pseudo_element {V} (m : list (text * V)) : P (V * ((cursor * cursor) * cursor)) :=
  bind parse_colon_colon (fun colons =>
  bind (unskipped (parse_kind K_Ident)) (fun ident p =>
  match look_up m p ident with
  | None => None
  | Some (Some v) => Some (Ok (v, (colons, ident)), p)
  | Some None => fail_text E_UNEXPECTED_IDENT ident p
  end)).

(* token_macros.rs:1589-1600 (Any) *)
Definition parse_any : P cursor := parse_single (fun _ _ => Some true) (fun c => c).
(* [if !p.eq_ignore_ascii_case(c, name) { Err(ExpectedIdentOf(name, p.parse_str(c).into(), c.into()))? }] *)
Definition check_name (c : cursor) (name : text) : P unit := fun p =>
  match eq_ignore_ascii_case c (lsrc (plex p)) name with
  | None => None
  | Some true => Some (Ok tt, p)
  | Some false => fail_text E_EXPECTED_IDENT_OF c p
  end.

(* traits/discrete_feature.rs:51-70; the enum of discrete_feature! (WithValue, Bare) is the option *)
Record plain_feature (V : Type) : Type := Plain { fopen : cursor; fname : cursor; fvalue : option (cursor * V); fclose : cursor }.
Arguments Plain {V}. Arguments fopen {V}. Arguments fname {V}. Arguments fvalue {V}. Arguments fclose {V}.
Definition discrete_feature_t {V} (name : text) (value_p : P V) : P (plain_feature V) :=
  bind (parse_kind K_LeftParen) (fun open =>
  bind (parse_kind K_Ident) (fun ident =>
  bind (check_name ident name) (fun _ =>
  or_peek (peek_kind K_Colon)
    (bind (parse_kind K_Colon) (fun colon =>
     bind value_p (fun value =>
     bind (parse_kind K_RightParen) (fun close => ret (Plain open ident (Some (colon, value)) close)))))
    (bind (parse_kind K_RightParen) (fun close => ret (Plain open ident None close)))))).
(* traits/boolean_feature.rs:49-69: the same with T![Any] *)
Definition boolean_feature_t (name : text) : P (plain_feature cursor) := discrete_feature_t name parse_any.
(* the ToCursors of the two macros: boolean_feature.rs:119-139, discrete_feature.rs:134-151 *)
Definition plain_cursors {V} (vc : V -> list cursor) (f : plain_feature V) : list cursor :=
  fopen f :: fname f :: (match fvalue f with Some (c, v) => c :: vc v | None => [] end) ++ [fclose f].

(* traits/ranged_feature.rs:202-207 *)
Inductive ranged_feature (F V : Type) : Type :=
  | RLeft (open : cursor) (name : F) (cmp : comparison_t) (value : V) (close : cursor)
  | RRight (open : cursor) (value : V) (cmp : comparison_t) (name : F) (close : cursor)
  | RRange (open : cursor) (left : V) (lcmp : comparison_t) (name : F) (rcmp : comparison_t) (right : V) (close : cursor)
  | RLegacy (open : cursor) (name : F) (colon : cursor) (value : V) (close : cursor).
Arguments RLeft {F V}. Arguments RRight {F V}. Arguments RRange {F V}. Arguments RLegacy {F V}.
(* traits/ranged_feature.rs:127-161 *)
Definition ranged_feature_t {F V} (peek_name : peeker) (name_p : P F) (legacy : F -> bool) (value_p : P V) : P (ranged_feature F V) :=
  bind (parse_kind K_LeftParen) (fun open p =>
  match peek_next p with
  | None => None
  | Some c =>
      bind (parse_if_peek peek_name name_p) (fun o =>
      match o with
      | Some name =>
          or_peek (peek_kind K_Colon)
            (bind (parse_kind K_Colon) (fun colon =>
             bind value_p (fun value =>
             bind (parse_kind K_RightParen) (fun close => ret (RLegacy open name colon value close)))))
            (if legacy name then fail_text E_UNEXPECTED_IDENT c else
             bind parse_comparison (fun cmp =>
             bind value_p (fun value =>
             bind (parse_kind K_RightParen) (fun close => ret (RLeft open name cmp value close)))))
      | None =>
          bind value_p (fun lv =>
          bind parse_comparison (fun lcmp p =>
          match peek_next p with
          | None => None
          | Some c =>
              bind name_p (fun name =>
              if legacy name then fail (D_Unexpected c) else
              or_peek (peek_kind K_Delim)
                (bind parse_comparison (fun rcmp =>
                 bind value_p (fun rv =>
                 bind (parse_kind K_RightParen) (fun close => ret (RRange open lv lcmp name rcmp rv close)))))
                (bind (parse_kind K_RightParen) (fun close => ret (RRight open lv lcmp name close)))) p
          end))
      end) p
  end).
(* traits/ranged_feature.rs:255-296 *)
Definition ranged_cursors {F V} (fc : F -> list cursor) (vc : V -> list cursor) (f : ranged_feature F V) : list cursor :=
  match f with
  | RLeft open name cmp value close => open :: fc name ++ comparison_cursors cmp ++ vc value ++ [close]
  | RRight open value cmp name close => open :: vc value ++ comparison_cursors cmp ++ fc name ++ [close]
  | RRange open lv lcmp name rcmp rv close =>
      open :: vc lv ++ comparison_cursors lcmp ++ fc name ++ comparison_cursors rcmp ++ vc rv ++ [close]
  | RLegacy open name colon value close => open :: fc name ++ colon :: vc value ++ [close]
  end.

(* traits/lists/feature_condition_list.rs:4 *)
Inductive condition_keyword : Set := KwAnd | KwNot | KwOr.
Definition CONDITION_KEYWORDS : list (text * condition_keyword) := [(chars "and", KwAnd); (chars "not", KwNot); (chars "or", KwOr)].
Definition condition_kw : Type := condition_keyword * cursor.
(* the results of the build_* methods, as in the implementors *)
Inductive condition (F : Type) : Type :=
  | CIs (f : F) | CNot (kw : condition_kw) (f : F)
  | CAnd (l : list (F * option condition_kw)) | COr (l : list (F * option condition_kw)).
Arguments CIs {F}. Arguments CNot {F}. Arguments CAnd {F}. Arguments COr {F}.
(* feature_condition_list.rs:101-112 and 117-128: the loops of the two arms are the same text (both look for "and") *)
Fixpoint condition_loop {F} (feature_p : P F) (n : nat) (feature : F) (kw : condition_kw) : P (list (F * option condition_kw)) :=
  match n with
  | O => fun _ => None
  | S n' => bind feature_p (fun f2 p =>
      match peek_next p with
      | None => None
      | Some c =>
          match peek_set K_Ident CONDITION_KEYWORDS p c with
          | None => None
          | Some false => Some (Ok [(feature, Some kw); (f2, None)], p)
          | Some true =>
              match build_set CONDITION_KEYWORDS p c with
              | None => None
              | Some (KwAnd, c2) => pmap (cons (feature, Some kw)) (condition_loop feature_p n' f2 (KwAnd, c2)) p
              | Some _ => Some (Ok [(feature, Some kw); (f2, None)], p)
              end
          end
      end)
  end.
(* feature_condition_list.rs:85-136 *)
Definition condition_t {F} (feature_p : P F) : P (condition F) := fun p =>
  match peek_next p with
  | None => None
  | Some c =>
      match peek_set K_Ident CONDITION_KEYWORDS p c with
      | None => None
      | Some true =>
          match build_set CONDITION_KEYWORDS p c with
          | None => None
          | Some (KwNot, _) => pmap CIs feature_p p
          | Some _ => fail_text E_UNEXPECTED_IDENT c p
          end
      | Some false =>
          bind feature_p (fun feature =>
          bind (parse_if_peek (peek_set K_Ident CONDITION_KEYWORDS) (parse_set K_Ident CONDITION_KEYWORDS)) (fun kw =>
          match kw with
          | None => ret (CIs feature)
          | Some (KwNot, k) => pmap (CNot (KwNot, k)) feature_p
          | Some (KwAnd, k) => fun p => pmap CAnd (condition_loop feature_p (sfuel p) feature (KwAnd, k)) p
          | Some (KwOr, k) => fun p => pmap COr (condition_loop feature_p (sfuel p) feature (KwOr, k)) p
          end)) p
      end
  end.
(* the ToCursors of the implementors, e.g. css_ast/src/rules/supports.rs *)
Definition condition_cursors {F} (fc : F -> list cursor) (x : condition F) : list cursor :=
  let part := fun '(f, o) => fc f ++ match o with Some (_, c) => [c] | None => [] end in
  match x with
  | CIs f => fc f
  | CNot (_, c) f => c :: fc f
  | CAnd l | COr l => flat_map part l
  end.
