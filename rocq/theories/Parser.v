(* css_parse/src/parser.rs, parser_checkpoint.rs, traits/parse.rs, traits/peek.rs and the single-token parsers of
   token_macros.rs.
   - [None] is a panic or a loop that does not end: every loop takes one more step of fuel than the source has bytes
     ([pfuel]) and each step advances the lexer, so a loop that outlives its fuel never ends (or the lexer stands still).
   - the source text and the features live in the lexer (they never change after Parser::new); the arena, the dead_code
     [features] field and the debug_assertions-only [last_cursor] field are left out.
   - a miette::Error is [diag]: the diagnostic and the span / cursor it was built from.
   - a Parse implementation is a function [parser -> option (res A * parser)]. *)
From Verif Require Export Cursor.
Open Scope N_scope.
Open Scope list_scope.

(* css_parse/src/diagnostics.rs, the diagnostics raised by the modelled code *)
Inductive diag : Set :=
  | D_Unexpected (c : cursor) | D_UnexpectedDelim (ch : char) (c : cursor) | D_ExpectedDelim (c : cursor)
  | D_ExpectedEnd (s : span) | D_Other (name : N) (c : cursor).

(* parser.rs:12-34 *)
Record parser : Set := Parser
  { plex : lexer; perrs : list diag; ptrivia : list cursor; pstate : N; pskip : kindset; pstop : kindset }.

(* parser.rs:44-64 *)
Definition parser_new (src : text) (f : feature) : parser :=
  Parser (lexer_new src f) [] [] 0 KS_TRIVIA KS_NONE.

Inductive res (A : Type) : Type := Ok (a : A) | Err (e : diag).
Arguments Ok {A}. Arguments Err {A}.
Definition P (A : Type) : Type := parser -> option (res A * parser).

(* the [?] operator and [Result::map] *)
Definition bind {A B} (m : P A) (k : A -> P B) : P B := fun p =>
  match m p with
  | None => None
  | Some (Err e, p') => Some (Err e, p')
  | Some (Ok a, p') => k a p'
  end.
Definition ret {A} (a : A) : P A := fun p => Some (Ok a, p).
Definition pmap {A B} (f : A -> B) (m : P A) : P B := bind m (fun a => ret (f a)).
Definition fail {A} (e : diag) : P A := fun p => Some (Err e, p).

(* record updates *)
Definition with_lex (p : parser) (x : lexer) : parser := Parser x (perrs p) (ptrivia p) (pstate p) (pskip p) (pstop p).
Definition with_lex_trivia (p : parser) (x : lexer) (t : list cursor) : parser :=
  Parser x (perrs p) t (pstate p) (pskip p) (pstop p).
Definition with_errs (p : parser) (e : list diag) : parser := Parser (plex p) e (ptrivia p) (pstate p) (pskip p) (pstop p).
(* parser.rs:81-100; the old value is [pstate p] etc. of the parser before *)
Definition set_state (p : parser) (s : N) : parser := Parser (plex p) (perrs p) (ptrivia p) s (pskip p) (pstop p).
Definition set_skip (p : parser) (s : kindset) : parser := Parser (plex p) (perrs p) (ptrivia p) (pstate p) s (pstop p).
Definition set_stop (p : parser) (s : kindset) : parser := Parser (plex p) (perrs p) (ptrivia p) (pstate p) (pskip p) s.

(* parser.rs:36-41 *)
Definition ST_NESTED : N := 1.

Definition pfuel (p : parser) : nat := S (N.to_nat (blen (lsrc (plex p)))).
(* parser.rs:174-182 *)
Definition poffset (p : parser) : N := loff (plex p).
Definition p_at_end (p : parser) : bool := lexer_at_end (plex p).

(* parser.rs:215-225: [t == Kind::Eof || t != self.skip] *)
Fixpoint peek_loop (n : nat) (skip : kindset) (x : lexer) : option cursor :=
  match n with
  | O => None
  | S n' =>
      match lexer_advance x with
      | None => None
      | Some (t, y) => if tok_is t K_Eof || negb (tok_in t skip) then Some (Cursor (loff x) t) else peek_loop n' skip y
      end
  end.
Definition peek_next (p : parser) : option cursor := peek_loop (pfuel p) (pskip p) (plex p).

(* parser.rs:227-237 *)
Fixpoint peek_ws_loop (n : nat) (skip : kindset) (x : lexer) : option cursor :=
  match n with
  | O => None
  | S n' =>
      match lexer_advance x with
      | None => None
      | Some (t, y) =>
          if tok_is t K_Eof || tok_is t K_Whitespace || negb (tok_in t skip) then Some (Cursor (loff x) t)
          else peek_ws_loop n' skip y
      end
  end.
Definition peek_next_including_whitespace (p : parser) : option cursor := peek_ws_loop (pfuel p) (pskip p) (plex p).

(* parser.rs:239-255; [remaining -= 1] on a u8 that is 0 panics *)
Fixpoint peek_n_loop (n : nat) (skip : kindset) (x : lexer) (remaining : N) : option cursor :=
  match n with
  | O => None
  | S n' =>
      match lexer_advance x with
      | None => None
      | Some (t, y) =>
          if tok_is t K_Eof then Some (Cursor (loff x) t)
          else if negb (tok_in t skip) then
            if remaining =? 0 then None
            else if remaining - 1 =? 0 then Some (Cursor (loff x) t)
            else peek_n_loop n' skip y (remaining - 1)
          else peek_n_loop n' skip y remaining
      end
  end.
Definition peek_n (p : parser) (n : N) : option cursor := peek_n_loop (pfuel p) (pskip p) (plex p) n.

(* parser.rs:204-213: there is no Eof test. The Eof token repeats for ever, so running out of fuel is an endless loop. *)
Fixpoint next_is_stop_loop (n : nat) (skip stop : kindset) (x : lexer) : option bool :=
  match n with
  | O => None
  | S n' =>
      match lexer_advance x with
      | None => None
      | Some (t, y) => if negb (kindset_contains skip (tkind t)) then Some (kindset_contains stop (tkind t)) else next_is_stop_loop n' skip stop y
      end
  end.
Definition next_is_stop (p : parser) : option bool := next_is_stop_loop (pfuel p) (pskip p) (pstop p) (plex p).

(* parser.rs:257-270 *)
Fixpoint consume_trivia_loop (n : nat) (skip : kindset) (x : lexer) (trivia : list cursor) : option (lexer * list cursor) :=
  match n with
  | O => None
  | S n' =>
      match lexer_advance x with
      | None => None
      | Some (t, y) =>
          if tok_is t K_Eof then Some (y, trivia)
          else if tok_in t skip then consume_trivia_loop n' skip y (trivia ++ [Cursor (loff x) t])
          else Some (lexer_rewind y (Cursor (loff x) t), trivia)
      end
  end.
Definition consume_trivia (p : parser) : option parser :=
  match consume_trivia_loop (pfuel p) (pskip p) (plex p) (ptrivia p) with
  | None => None
  | Some (x, t) => Some (with_lex_trivia p x t)
  end.

(* parser.rs:272-298 *)
Fixpoint next_loop (n : nat) (skip : kindset) (x : lexer) (trivia : list cursor) : option (cursor * lexer * list cursor) :=
  match n with
  | O => None
  | S n' =>
      match lexer_advance x with
      | None => None
      | Some (t, y) =>
          if tok_is t K_Eof || negb (tok_in t skip) then Some (Cursor (loff x) t, y, trivia)
          else next_loop n' skip y (trivia ++ [Cursor (loff x) t])
      end
  end.
Definition next (p : parser) : option (cursor * parser) :=
  match next_loop (pfuel p) (pskip p) (plex p) (ptrivia p) with
  | None => None
  | Some (c, x, t) => Some (c, with_lex_trivia p x t)
  end.

(* parser_checkpoint.rs:8-12: errors_pos is a u8, trivia_pos a u16 *)
Record checkpoint_t : Set := Checkpoint { ckcursor : cursor; ckerrs : N; cktrivia : N }.
(* parser.rs:195-202: [as u8], [as u16] keep the low bits *)
Definition checkpoint (p : parser) : checkpoint_t :=
  Checkpoint (lexer_checkpoint (plex p)) (N.of_nat (length (perrs p)) mod 256) (N.of_nat (length (ptrivia p)) mod 65536).
(* parser.rs:184-193 *)
Definition rewind (p : parser) (ck : checkpoint_t) : parser :=
  Parser (lexer_rewind (plex p) (ckcursor ck)) (firstn (N.to_nat (ckerrs ck)) (perrs p))
    (firstn (N.to_nat (cktrivia ck)) (ptrivia p)) (pstate p) (pskip p) (pstop p).

(* traits/parse.rs:21-24 *)
Definition try_parse {A} (m : P A) : P A := fun p =>
  let ck := checkpoint p in
  match m p with
  | None => None
  | Some (Err e, p') => Some (Err e, rewind p' ck)
  | Some (Ok a, p') => Some (Ok a, p')
  end.

(* Peek::peek takes the parser and the next cursor; parser.rs:130-132 *)
Definition peeker : Type := parser -> cursor -> option bool.
Definition peek (k : peeker) (p : parser) : option bool := match peek_next p with None => None | Some c => k p c end.
(* parser.rs:134-152 *)
Definition parse_if_peek {A} (k : peeker) (m : P A) : P (option A) := fun p =>
  match peek k p with None => None | Some true => pmap Some m p | Some false => Some (Ok None, p) end.
Definition try_parse_if_peek {A} (k : peeker) (m : P A) : P (option A) := fun p =>
  match peek k p with None => None | Some true => pmap Some (try_parse m) p | Some false => Some (Ok None, p) end.

(* traits/parse.rs:27-40: the Parse implementation of every Peek + Build type; [build] is total in the macros below *)
Definition parse_single {A} (k : peeker) (build : cursor -> A) : P A := fun p =>
  match peek k p with
  | None => None
  | Some b =>
      match next p with
      | None => None
      | Some (c, p') => if b then Some (Ok (build c), p') else Some (Err (D_Unexpected c), p')
      end
  end.

(* token_macros.rs:53-64 and 112-123 (define_kinds, define_kind_idents), 872-882, 988-998: every token type whose peek
   compares the kind and whose build keeps the cursor *)
Definition peek_kind (k : kind) : peeker := fun _ c => Some (tok_is (ctok c) k).
Definition parse_kind (k : kind) : P cursor := parse_single (peek_kind k) (fun c => c).
(* traits/peek.rs:32-38, the default peek *)
Definition peek_kindset (s : kindset) : peeker := fun _ c => Some (tok_in (ctok c) s).
(* token_macros.rs:191-201 (custom_delim) *)
Definition peek_delim (ch : char) : peeker := fun _ c => Some (tok_is (ctok c) K_Delim && tok_is_char (ctok c) ch).
Definition parse_delim (ch : char) : P cursor := parse_single (peek_delim ch) (fun c => c).
(* token_macros.rs:815-836: Whitespace *)
Definition peek_whitespace : peeker := fun p _ =>
  match peek_next_including_whitespace p with None => None | Some c => Some (tok_is (ctok c) K_Whitespace) end.
Definition parse_whitespace : P cursor := fun p =>
  match next (set_skip p KS_COMMENTS) with
  | None => None
  | Some (c, p') =>
      let p' := set_skip p' (pskip p) in
      if negb (tok_is (ctok c) K_Whitespace) then Some (Err (D_Unexpected c), p') else Some (Ok c, p')
  end.
(* token_macros.rs:872-884: DashedIdent *)
Definition peek_dashed_ident : peeker := fun _ c => Some (tok_is (ctok c) K_Ident && is_dashed_ident (ctok c)).
Definition parse_dashed_ident : P cursor := parse_single peek_dashed_ident (fun c => c).

(* token_macros.rs:1605-1705: PairWiseStart and PairWiseEnd keep the token only; as cursors they are Cursor::dummy *)
Definition KS_PAIR_START : kindset := kindset_new [K_LeftCurly; K_LeftSquare; K_LeftParen].
Definition KS_PAIR_END : kindset := kindset_new [K_RightCurly; K_RightSquare; K_RightParen].
Definition parse_pair_start : P token := parse_single (peek_kindset KS_PAIR_START) ctok.
Definition parse_pair_end : P token := parse_single (peek_kindset KS_PAIR_END) ctok.
Definition pair_start_end (t : token) : kind :=
  match tkind t with
  | K_LeftCurly => K_RightCurly
  | K_LeftParen => K_RightParen
  | K_LeftSquare => K_RightSquare
  | k => k
  end.
(* cursor.rs: Cursor::dummy *)
Definition dummy_cursor (t : token) : cursor := Cursor DUMMY_OFFSET t.

(* token_macros.rs:315-350 (custom_double_delim); [first != $first] compares a Delim with a char *)
Definition peek_double (a b : char) : peeker := fun p c =>
  if tok_is_char (ctok c) a then match peek_n p 2 with None => None | Some c2 => Some (tok_is_char (ctok c2) b) end
  else Some false.
Definition parse_double (a b : char) : P (cursor * cursor) :=
  bind (parse_kind K_Delim) (fun first =>
  if negb (tok_is_char (ctok first) a) then fail (D_ExpectedDelim first) else fun p =>
  match parse_kind K_Delim (set_skip p KS_NONE) with
  | None => None
  | Some (r, p') =>
      let p' := set_skip p' (pskip p) in
      match r with
      | Err e => Some (Err e, p')
      | Ok second =>
          if negb (tok_is_char (ctok second) b) then Some (Err (D_ExpectedDelim second), p') else Some (Ok (first, second), p')
      end
  end).
(* token_macros.rs:1156-1186 (ColonColon) *)
Definition peek_colon_colon : peeker := fun p c =>
  if tok_is (ctok c) K_Colon then match peek_n p 2 with None => None | Some c2 => Some (tok_is (ctok c2) K_Colon) end
  else Some false.
Definition parse_colon_colon : P (cursor * cursor) :=
  bind (parse_kind K_Colon) (fun first p =>
  match parse_kind K_Colon (set_skip p KS_NONE) with
  | None => None
  | Some (r, p') =>
      let p' := set_skip p' (pskip p) in
      match r with Err e => Some (Err e, p') | Ok second => Some (Ok (first, second), p') end
  end).

(* comparison.rs:19-50 *)
Inductive comparison_t : Set :=
  | CmpLt (c : cursor) | CmpGt (c : cursor) | CmpGe (a b : cursor) | CmpLe (a b : cursor) | CmpEq (c : cursor).
Definition parse_comparison : P comparison_t := fun p =>
  match peek_next p with
  | None => None
  | Some c =>
      match tchar (ctok c) with
      | None => Some (Err (D_Unexpected c), p)
      | Some ch =>
          if ch =? 61 then pmap CmpEq (parse_delim 61) p
          else if ch =? 62 then
            match peek (peek_double 62 61) p with
            | None => None
            | Some true => pmap (fun x => CmpGe (fst x) (snd x)) (parse_double 62 61) p
            | Some false => pmap CmpGt (parse_delim 62) p
            end
          else if ch =? 60 then
            match peek (peek_double 60 61) p with
            | None => None
            | Some true => pmap (fun x => CmpLe (fst x) (snd x)) (parse_double 60 61) p
            | Some false => pmap CmpLt (parse_delim 60) p
            end
          else Some (Err (D_UnexpectedDelim ch c), p)
      end
  end.
(* comparison.rs:53-63; token_macros.rs:353-358 *)
Definition comparison_cursors (x : comparison_t) : list cursor :=
  match x with CmpLt c | CmpGt c | CmpEq c => [c] | CmpGe a b | CmpLe a b => [a; b] end.

(* parser_return.rs:5-15; parser.rs:102-124. The loop pushes every cursor, the final Eof included. *)
Record parser_return (A : Type) : Type := ParserReturn { routput : option A; rerrors : list diag; rtrivia : list cursor }.
Arguments ParserReturn {A}. Arguments routput {A}. Arguments rerrors {A}. Arguments rtrivia {A}.
Fixpoint drain_loop (n : nat) (p : parser) : option parser :=
  match n with
  | O => None
  | S n' =>
      match next p with
      | None => None
      | Some (c, p') =>
          let p' := with_lex_trivia p' (plex p') (ptrivia p' ++ [c]) in
          if tok_is (ctok c) K_Eof then Some p' else drain_loop n' p'
      end
  end.
Definition parse_entirely {A} (m : P A) (p : parser) : option (parser_return A * parser) :=
  match m p with
  | None => None
  | Some (r, p1) =>
      let '(output, p1) := match r with Ok a => (Some a, p1) | Err e => (None, with_errs p1 (perrs p1 ++ [e])) end in
      let finish p2 := Some (ParserReturn output (perrs p2) (ptrivia p2), with_lex_trivia (with_errs p2 []) (plex p2) []) in
      if p_at_end p1 then finish p1 else
      match peek_next p1 with
      | None => None
      | Some c =>
          if tok_is (ctok c) K_Eof then finish p1 else
          match drain_loop (pfuel p1) p1 with
          | None => None
          | Some p2 => finish (with_errs p2 (perrs p2 ++ [D_ExpectedEnd (span_new (poffset p1) (poffset p2))]))
          end
      end
  end.
