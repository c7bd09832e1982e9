(* css_parse/src/syntax/*.rs, by instantiating the traits of Traits.v.
   - recursion and loops take fuel; [None] is a panic or a call that outlives its fuel ([*_fuel] steps). That the fuel
     given at the entry points is enough is a theorem (SyntaxTotal.v). The depth of the Rust stack is not modelled.
   - a T![x] field is the cursor it keeps; PairWiseStart / PairWiseEnd fields are tokens (they keep no offset). *)
From Verif Require Export Traits.
Open Scope N_scope.
Open Scope list_scope.

(* component_value.rs:13-28. [CvToken k c] is the variant named after the token kind k; FunctionBlock and SimpleBlock are
   inlined: function_block.rs:6-10, simple_block.rs:6-11, ComponentValues (component_values.rs:9-11) is the list. *)
Inductive cval : Set :=
  | CvBlock (start : N) (opening : token) (values : list cval) (closing : option token)
  | CvFunction (name : cursor) (values : list cval) (closing : option cursor)
  | CvToken (k : kind) (c : cursor).

(* component_value.rs:32-49 *)
Definition KS_COMPONENT : kindset :=
  kindset_new [K_Whitespace; K_Number; K_Dimension; K_Ident; K_AtKeyword; K_Hash; K_String; K_Url; K_Delim; K_Colon; K_Semicolon;
    K_Comma; K_Function; K_LeftCurly; K_LeftParen; K_LeftSquare].
(* component_value.rs:64-85: the branches for single tokens, in order *)
Definition CV_KINDS : list kind :=
  [K_Number; K_Dimension; K_Ident; K_AtKeyword; K_Hash; K_String; K_Url; K_Delim; K_Colon; K_Semicolon; K_Comma].
Definition cv_tokens : P cval :=
  fold_right (fun k e => or_peek (peek_kind k) (pmap (CvToken k) (parse_kind k)) e) unexpected_next CV_KINDS.

(* simple_block.rs:14-28, given ComponentValues::parse *)
Definition block_with (values : P (list cval)) : P cval := fun p =>
  bind parse_pair_start (fun opening =>
  bind (in_stop (kindset_new [pair_start_end opening]) values) (fun vs =>
  or_peek (peek_kindset KS_PAIR_END)
    (bind (opt_ok parse_pair_end) (fun close => ret (CvBlock (poffset p) opening vs close)))
    (ret (CvBlock (poffset p) opening vs None)))) p.
(* function_block.rs:13-27, given its loop *)
Definition function_with (args : P (list cval)) : P cval :=
  bind (parse_kind K_Function) (fun name =>
  bind args (fun values =>
  bind (opt_ok (parse_kind K_RightParen)) (fun close => ret (CvFunction name values close)))).

(* component_value.rs:55-92, component_values.rs:15-33, and the loop of function_block.rs:17-25 *)
Fixpoint cv_fuel (n : nat) : P cval :=
  match n with
  | O => fun _ => None
  | S n' =>
      or_peek peek_whitespace (pmap (CvToken K_Whitespace) parse_whitespace)
      (or_peek (peek_kindset KS_PAIR_START) (in_state ST_NESTED (block_with (values_fuel n')))
      (or_peek (peek_kind K_Function) (function_with (args_fuel n'))
      cv_tokens))
  end
with values_fuel (n : nat) : P (list cval) :=
  match n with
  | O => fun _ => None
  | S n' => fun p =>
      if p_at_end p then Some (Ok [], p) else
      match next_is_stop p with
      | None => None
      | Some true => Some (Ok [], p)
      | Some false =>
          or_peek (peek_kindset KS_COMPONENT) (bind (cv_fuel n') (fun v => pmap (cons v) (values_fuel n'))) (ret []) p
      end
  end
with args_fuel (n : nat) : P (list cval) :=
  match n with
  | O => fun _ => None
  | S n' => fun p =>
      if p_at_end p then Some (Ok [], p) else
      or_peek (peek_kind K_RightParen) (ret []) (bind (cv_fuel n') (fun v => pmap (cons v) (args_fuel n'))) p
  end.
(* the entry points, with fuel for every token of the source twice *)
Definition parse_component_value : P cval := fun p => cv_fuel (sfuel p) p.
Definition parse_component_values : P (list cval) := fun p => values_fuel (sfuel p) p.
Definition parse_simple_block : P cval := fun p => block_with (values_fuel (sfuel p)) p.
Definition parse_function_block : P cval := fun p => function_with (args_fuel (sfuel p)) p.

(* ToCursors: simple_block.rs:30-38 (Token::with_cursor puts the token at [start]), function_block.rs:29-39,
   component_value.rs:94-113, component_values.rs:41-47 *)
Fixpoint cv_cursors (v : cval) : list cursor :=
  match v with
  | CvBlock start opening vs close =>
      Cursor start opening :: flat_map cv_cursors vs ++ match close with Some t => [dummy_cursor t] | None => [] end
  | CvFunction name vs close => name :: flat_map cv_cursors vs ++ match close with Some c => [c] | None => [] end
  | CvToken _ c => [c]
  end.
Definition cvs_cursors (vs : list cval) : list cursor := flat_map cv_cursors vs.

(* ---- declarations ---- *)
(* syntax/declaration.rs:24-46 with traits/declaration.rs:39-51; valid_property is the default (true) *)
Record declaration : Set := Declaration { dname : cursor; dcolon : cursor; dvalue : list cval; dimportant : option (cursor * cursor) }.
Definition peek_declaration : peeker := fun p c =>
  if tok_is (ctok c) K_Ident then match peek_n p 2 with None => None | Some c2 => Some (tok_is (ctok c2) K_Colon) end else Some false.
Definition parse_declaration : P declaration :=
  pmap (fun x => let '(name, colon, value, important) := x in Declaration name colon value important)
    (declaration_t (fun _ _ => Some true) (fun _ => parse_component_values)).
(* declaration.rs:48-57, bang_important.rs:51-56 *)
Definition decl_cursors (d : declaration) : list cursor :=
  dname d :: dcolon d :: cvs_cursors (dvalue d) ++ match dimportant d with Some (a, b) => [a; b] | None => [] end.

(* bad_declaration.rs:9-46. In the last step a '}' seen at the top level has been parsed and dropped. *)
Fixpoint bad_fuel (n : nat) : P (list cval) :=
  match n with
  | O => fun _ => None
  | S n' => fun p =>
      if p_at_end p then Some (Ok [], p) else
      let more := bind parse_component_value (fun v => pmap (cons v) (bad_fuel n')) in
      or_peek (peek_kind K_Semicolon) (bind parse_component_value (fun v => ret [v]))
      (or_peek (peek_kind K_RightCurly)
        (fun p => if is_nested p then Some (Ok [], p) else bind (parse_kind K_RightCurly) (fun _ => more) p)
        more) p
  end.
Definition parse_bad_declaration : P (list cval) := fun p => bad_fuel (sfuel p) p.

(* ---- blocks and rules ---- *)
(* syntax/block.rs:9-15, at_rule.rs:23-27 and 57-60, qualified_rule.rs:8-11, rule.rs:7-10 *)
Inductive block : Set :=
  | Block (start : N) (opening : cursor) (decls : list (declaration * option cursor)) (rules : list rule) (closing : option cursor)
with rule : Set :=
  | AtRule (name : cursor) (prelude : option (list cval)) (body : block + option cursor)
  | QualifiedRule (prelude : list cval) (body : block).

(* syntax/block.rs:17-33 *)
Definition block_of (rule_p : P rule) : P block := fun p =>
  pmap (fun x => let '(opening, decls, rules, close) := x in Block (poffset p) opening decls rules close)
    (block_t peek_declaration parse_declaration rule_p) p.
(* at_rule.rs:57-71 *)
Definition optional_block (block_p : P block) : P (block + option cursor) :=
  bind (parse_if_peek (peek_kindset (kindset_new [K_LeftCurly])) block_p) (fun b =>
  match b with Some b => ret (inl b) | None => pmap inr (if_kind K_Semicolon) end).
(* at_rule.rs:29-43; the last semicolon is parsed and dropped *)
Definition at_rule_of (block_p : P block) : P rule :=
  bind (in_stop KS_LEFT_CURLY_OR_SEMICOLON (at_rule_t None parse_component_values (optional_block block_p))) (fun x =>
  bind (if_kind K_Semicolon) (fun _ => let '(name, prelude, body) := x in ret (AtRule name prelude body))).
(* qualified_rule.rs:14-25 *)
Definition qualified_rule_of (block_p : P block) : P rule :=
  pmap (fun x => QualifiedRule (fst x) (snd x)) (qualified_rule_t parse_component_values block_p parse_bad_declaration).

(* rule.rs:12-19 *)
Fixpoint rule_fuel (n : nat) : P rule :=
  match n with
  | O => fun _ => None
  | S n' => let b := block_of (rule_fuel n') in or_peek (peek_kind K_AtKeyword) (at_rule_of b) (qualified_rule_of b)
  end.
Definition parse_rule : P rule := fun p => rule_fuel (sfuel p) p.
Definition parse_block : P block := fun p => block_of (rule_fuel (sfuel p)) p.

(* traits/style_sheet.rs, instantiated with syntax::Rule *)
Definition parse_stylesheet : P (list rule) := sheet_t parse_rule.

(* ToCursors: block.rs:34-50, at_rule.rs:45-53 and 73-84, qualified_rule.rs:27-32, rule.rs:21-28 *)
Definition opt_cursor (o : option cursor) : list cursor := match o with Some c => [c] | None => [] end.
Fixpoint block_cursors (b : block) : list cursor :=
  match b with
  | Block start opening decls rules close =>
      Cursor start (ctok opening) :: flat_map (fun d => decl_cursors (fst d) ++ opt_cursor (snd d)) decls ++
      flat_map rule_cursors rules ++ opt_cursor close
  end
with rule_cursors (r : rule) : list cursor :=
  match r with
  | AtRule name prelude body =>
      name :: match prelude with Some vs => cvs_cursors vs | None => [] end ++ match body with inl b => block_cursors b | inr s => opt_cursor s end
  | QualifiedRule prelude body => cvs_cursors prelude ++ block_cursors body
  end.
