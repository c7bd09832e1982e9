(* The provided methods of css_parse/src/traits/*.rs (blocks, declarations, rules, stylesheets, the lists of traits/lists),
   with the associated types of the implementor as parameters: an associated type T is the parser [P T] of its Parse
   implementation (and the [peeker] of its Peek implementation where the trait asks for one).
   - loops take fuel ([sfuel], more steps than the source has tokens); [None] is a panic or a loop that outlives its fuel.
   - vectors are lists, tuples are tuples. *)
From Verif Require Export Parser.
Open Scope N_scope.
Open Scope list_scope.

(* [if p.peek::<K>() { m } else { e }] *)
Definition or_peek {A} (k : peeker) (m e : P A) : P A := fun p =>
  match peek k p with None => None | Some true => m p | Some false => e p end.
(* [let c = p.next(); Err(diagnostics::Unexpected(c.into(), c.into()))] *)
Definition unexpected_next {A} : P A := fun p => match next p with None => None | Some (c, q) => Some (Err (D_Unexpected c), q) end.
(* [let c = p.peek_next(); Err(diagnostics::Unexpected(c.into(), c.into()))] *)
Definition unexpected_peek {A} : P A := fun p => match peek_next p with None => None | Some c => Some (Err (D_Unexpected c), p) end.
(* [p.parse::<T>().ok()] *)
Definition opt_ok {A} (m : P A) : P (option A) := fun p =>
  match m p with None => None | Some (Ok a, q) => Some (Ok (Some a), q) | Some (Err _, q) => Some (Ok None, q) end.
(* [let old = p.set_state(s); let r = m(p); p.set_state(old); r], and the same with set_stop *)
Definition in_state {A} (s : N) (m : P A) : P A := fun p =>
  match m (set_state p s) with None => None | Some (r, q) => Some (r, set_state q (pstate p)) end.
Definition in_stop {A} (s : kindset) (m : P A) : P A := fun p =>
  match m (set_stop p s) with None => None | Some (r, q) => Some (r, set_stop q (pstop p)) end.
(* [p.is(State::Nested)], parser.rs:76-79 *)
Definition is_nested (p : parser) : bool := N.land (pstate p) ST_NESTED =? ST_NESTED.
(* fuel: every token of the source twice *)
Definition sfuel (p : parser) : nat := (2 * pfuel p + 2)%nat.
(* [p.parse_if_peek::<T![;]>()] and the like *)
Definition if_kind (k : kind) : P (option cursor) := parse_if_peek (peek_kind k) (parse_kind k).
Definition if_whitespace : P (option cursor) := parse_if_peek peek_whitespace parse_whitespace.

(* codes of [D_Other] *)
Definition E_UNEXPECTED_END : N := 1.
Definition E_UNEXPECTED_CLOSE_CURLY : N := 2.
Definition E_BAD_DECLARATION : N := 3.
Definition E_EXPECTED_IDENT_OF : N := 4.
Definition E_UNKNOWN_DECLARATION : N := 5.
Definition E_UNEXPECTED_AT_RULE : N := 6.
Definition E_UNEXPECTED_IDENT : N := 7.

(* syntax/bang_important.rs:29-49 *)
Definition IMPORTANT : text := [105; 109; 112; 111; 114; 116; 97; 110; 116].
Definition peek_important : peeker := fun p c =>
  if tok_is (ctok c) K_Delim && tok_is_char (ctok c) 33 then
    match peek_n p 2 with
    | None => None
    | Some c2 => if tok_is (ctok c2) K_Ident then eq_ignore_ascii_case c2 (lsrc (plex p)) IMPORTANT else Some false
    end
  else Some false.
Definition parse_important : P (cursor * cursor) :=
  bind (parse_delim 33) (fun bang =>
  bind (parse_kind K_Ident) (fun ident p =>
  match eq_ignore_ascii_case ident (lsrc (plex p)) IMPORTANT with
  | None => None
  | Some true => Some (Ok (bang, ident), p)
  | Some false => Some (Err (D_Other E_EXPECTED_IDENT_OF ident), p)
  end)).

(* traits/declaration.rs:36-53: valid_property is a method, the value parser gets the name *)
Definition declaration_t {V} (valid : parser -> cursor -> option bool) (value_p : cursor -> P V) : P (cursor * cursor * V * option (cursor * cursor)) :=
  bind (parse_kind K_Ident) (fun name p =>
  match valid p name with
  | None => None
  | Some false => Some (Err (D_Other E_UNKNOWN_DECLARATION name), p)
  | Some true =>
      bind (parse_kind K_Colon) (fun colon =>
      bind (value_p name) (fun value =>
      bind (parse_if_peek peek_important parse_important) (fun important => ret (name, colon, value, important)))) p
  end).

(* traits/block.rs:28-54, one turn of the loop: what it adds, or [None] at a break *)
Inductive item (D R : Type) : Type := ISkip | IDecl (d : D) (semi : option cursor) | IRule (r : R).
Arguments ISkip {D R}. Arguments IDecl {D R}. Arguments IRule {D R}.
Definition block_turn {D R} (peek_d : peeker) (decl_p : P D) (rule_p : P R) : P (option (item D R)) :=
  bind if_whitespace (fun w =>
  match w with Some _ => ret (Some ISkip) | None =>
  bind (if_kind K_Semicolon) (fun s =>
  match s with Some _ => ret (Some ISkip) | None => fun p =>
  if p_at_end p then Some (Ok None, p) else
  or_peek (peek_kind K_RightCurly) (ret None)
  (fun p =>
    match peek (peek_kind K_AtKeyword) (set_state p ST_NESTED) with
    | None => None
    | Some true => pmap (fun r => Some (IRule r)) (in_state ST_NESTED rule_p) p
    | Some false =>
        match try_parse_if_peek peek_d decl_p (set_state p ST_NESTED) with
        | None => None
        | Some (Ok (Some d), q) => pmap (fun semi => Some (IDecl d semi)) (if_kind K_Semicolon) (set_state q (pstate p))
        | Some (_, q) =>
            match rule_p q with
            | None => None
            | Some (Ok r, q') => Some (Ok (Some (IRule r)), set_state q' (pstate p))
            | Some (Err e, q') => Some (Err e, set_state q' (pstate p))
            end
        end
    end) p
  end) end).
Fixpoint block_loop {D R} (peek_d : peeker) (decl_p : P D) (rule_p : P R) (n : nat) : P (list (item D R)) :=
  match n with
  | O => fun _ => None
  | S n' => bind (block_turn peek_d decl_p rule_p) (fun i => match i with None => ret [] | Some i => pmap (cons i) (block_loop peek_d decl_p rule_p n') end)
  end.
Definition item_decls {D R} (l : list (item D R)) : list (D * option cursor) :=
  flat_map (fun i => match i with IDecl d s => [(d, s)] | _ => [] end) l.
Definition item_rules {D R} (l : list (item D R)) : list R := flat_map (fun i => match i with IRule r => [r] | _ => [] end) l.
(* traits/block.rs:22-56 *)
Definition block_t {D R} (peek_d : peeker) (decl_p : P D) (rule_p : P R) : P (cursor * list (D * option cursor) * list R * option cursor) :=
  bind (parse_kind K_LeftCurly) (fun opening =>
  bind (fun q => block_loop peek_d decl_p rule_p (sfuel q) q) (fun items =>
  bind (if_kind K_RightCurly) (fun close => ret (opening, item_decls items, item_rules items, close)))).

(* traits/rules/at_rule.rs:93-106; [name] is the constant NAME *)
Definition at_rule_t {Pr B} (name : option text) (prelude_p : P Pr) (block_p : P B) : P (cursor * option Pr * B) :=
  bind (parse_kind K_AtKeyword) (fun at_ =>
  bind (fun p => match name with
                 | None => Some (Ok tt, p)
                 | Some n => match eq_ignore_ascii_case at_ (lsrc (plex p)) n with
                             | None => None
                             | Some true => Some (Ok tt, p)
                             | Some false => Some (Err (D_Other E_UNEXPECTED_AT_RULE at_), p)
                             end
                 end) (fun _ p =>
  match peek_next p with
  | None => None
  | Some c =>
      bind (if p_at_end p || tok_in (ctok c) KS_LEFT_CURLY_OR_SEMICOLON then ret None else pmap Some prelude_p) (fun prelude =>
      bind block_p (fun b => ret (at_, prelude, b))) p
  end)).
(* traits/rules/no_block_allowed.rs:9-21, no_prelude_allowed.rs:9-18 *)
Definition no_block_allowed : P (option cursor) := fun p =>
  if p_at_end p then Some (Ok None, p) else
  bind (if_kind K_Semicolon) (fun s => match s with Some c => ret (Some c) | None => unexpected_peek end) p.
Definition no_prelude_allowed : P unit :=
  or_peek (peek_kind K_LeftCurly) (ret tt) (or_peek (peek_kind K_Semicolon) (ret tt) unexpected_peek).

(* traits/rules/qualified_rule.rs:27-79; [consume_block] is the default method (qualified_rule.rs:22-24) *)
Definition qualified_rule_t {Pr B X} (prelude_p : P Pr) (block_p : P B) (bad_p : P X) : P (Pr * B) := fun p =>
  if p_at_end p then Some (Err (D_Other E_UNEXPECTED_END (dummy_cursor T_EOF)), p) else
  let rest : P (Pr * B) :=
    bind (in_stop (kindset_new [K_LeftCurly]) prelude_p) (fun prelude => pmap (fun b => (prelude, b)) block_p) in
  let ck := checkpoint p in
  let dashed : P (Pr * B) :=
    or_peek peek_dashed_ident
      (fun p =>
        match parse_dashed_ident p with
        | None => None
        | Some (_, p1) =>
            match peek (peek_kind K_Colon) p1 with
            | None => None
            | Some false => rest (rewind p1 ck)
            | Some true =>
                if is_nested p1 then bind bad_p (fun _ => fail (D_Other E_BAD_DECLARATION (ckcursor ck))) (rewind p1 ck)
                else match block_p p1 with None => None | Some (_, p2) => Some (Err (D_Other E_BAD_DECLARATION (ckcursor ck)), p2) end
            end
        end)
      rest in
  if is_nested p then
    or_peek (peek_kind K_RightCurly)
      (fun p => match peek_n p 1 with None => None | Some c => Some (Err (D_Other E_UNEXPECTED_CLOSE_CURLY c), p) end)
      dashed p
  else dashed p.

(* traits/style_sheet.rs:27-44 *)
Fixpoint sheet_loop {R} (rule_p : P R) (n : nat) : P (list R) :=
  match n with
  | O => fun _ => None
  | S n' =>
      bind if_whitespace (fun w =>
      match w with Some _ => sheet_loop rule_p n' | None =>
      bind (if_kind K_CdcOrCdo) (fun s =>
      match s with Some _ => sheet_loop rule_p n' | None => fun p =>
      if p_at_end p then Some (Ok [], p) else
      match peek_next p with
      | None => None
      | Some c => if tok_is (ctok c) K_Eof then Some (Ok [], p) else bind rule_p (fun r => pmap (cons r) (sheet_loop rule_p n')) p
      end
      end) end)
  end.
Definition sheet_t {R} (rule_p : P R) : P (list R) := fun p => sheet_loop rule_p (sfuel p) p.

(* ---- traits/lists ---- *)
(* at_rule_list.rs:24-38, qualified_rule_list.rs:23-39, rule_list.rs:32-46: the three loops are the same text *)
Fixpoint rules_loop {R} (rule_p : P R) (n : nat) : P (list R * option cursor) :=
  match n with
  | O => fun _ => None
  | S n' =>
      bind (opt_ok (if_kind K_Semicolon)) (fun _ p =>
      if p_at_end p then Some (Ok ([], None), p) else
      or_peek (peek_kind K_RightCurly) (pmap (fun c => ([], Some c)) (parse_kind K_RightCurly))
        (bind rule_p (fun r => pmap (fun l => (r :: fst l, snd l)) (rules_loop rule_p n'))) p)
  end.
Definition rule_list_t {R} (rule_p : P R) : P (cursor * list R * option cursor) :=
  bind (parse_kind K_LeftCurly) (fun left => pmap (fun l => (left, fst l, snd l)) (fun q => rules_loop rule_p (sfuel q) q)).
(* declaration_list.rs:23-40 *)
Fixpoint decls_loop {D} (decl_p : P D) (n : nat) : P (list (D * option cursor) * option cursor) :=
  match n with
  | O => fun _ => None
  | S n' => fun p =>
      if p_at_end p then Some (Ok ([], None), p) else
      or_peek (peek_kind K_RightCurly) (pmap (fun c => ([], Some c)) (parse_kind K_RightCurly))
        (bind decl_p (fun d => bind (if_kind K_Semicolon) (fun s => pmap (fun l => ((d, s) :: fst l, snd l)) (decls_loop decl_p n')))) p
  end.
Definition declaration_list_t {D} (decl_p : P D) : P (cursor * list (D * option cursor) * option cursor) :=
  bind (parse_kind K_LeftCurly) (fun left => pmap (fun l => (left, fst l, snd l)) (fun q => decls_loop decl_p (sfuel q) q)).
(* declaration_rule_list.rs:27-52 *)
Fixpoint decl_rules_loop {D R} (decl_p : P D) (rule_p : P R) (n : nat) : P (list (item D R) * option cursor) :=
  match n with
  | O => fun _ => None
  | S n' => fun p =>
      let more i := pmap (fun l => (i :: fst l, snd l)) (decl_rules_loop decl_p rule_p n') in
      if p_at_end p then Some (Ok ([], None), p) else
      or_peek (peek_kind K_RightCurly) (pmap (fun c => ([], Some c)) (parse_kind K_RightCurly))
      (or_peek (peek_kind K_AtKeyword) (bind rule_p (fun r => more (IRule r)))
      (or_peek (peek_kind K_Ident) (bind decl_p (fun d => bind (if_kind K_Semicolon) (fun s => more (IDecl d s))))
      (fun p => match peek_n p 1 with None => None | Some c => Some (Err (D_Unexpected c), p) end))) p
  end.
Definition declaration_rule_list_t {D R} (decl_p : P D) (rule_p : P R) : P (cursor * list (D * option cursor) * list R * option cursor) :=
  bind (parse_kind K_LeftCurly) (fun left =>
  pmap (fun l => (left, item_decls (fst l), item_rules (fst l), snd l)) (fun q => decl_rules_loop decl_p rule_p (sfuel q) q)).
(* prelude_list.rs:9-18, comma_separated_prelude_list.rs:27-38; [stop] is STOP_TOKENS *)
Fixpoint prelude_loop {I} (stop : kindset) (item_p : P I) (n : nat) : P (list I) :=
  match n with
  | O => fun _ => None
  | S n' => bind item_p (fun i p =>
      match peek_next p with
      | None => None
      | Some c => if tok_in (ctok c) stop then Some (Ok [i], p) else pmap (cons i) (prelude_loop stop item_p n') p
      end)
  end.
Definition prelude_list_t {I} (stop : kindset) (item_p : P I) : P (list I) := fun p => prelude_loop stop item_p (sfuel p) p.
Fixpoint comma_loop {I} (stop : kindset) (item_p : P I) (n : nat) : P (list (I * option cursor)) :=
  match n with
  | O => fun _ => None
  | S n' => bind item_p (fun i => bind (if_kind K_Comma) (fun comma p =>
      match peek_next p with
      | None => None
      | Some c => if tok_in (ctok c) stop then Some (Ok [(i, comma)], p) else pmap (cons (i, comma)) (comma_loop stop item_p n') p
      end))
  end.
Definition comma_list_t {I} (stop : kindset) (item_p : P I) : P (list (I * option cursor)) := fun p => comma_loop stop item_p (sfuel p) p.
