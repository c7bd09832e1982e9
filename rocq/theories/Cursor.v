(* css_lexer/src/cursor.rs (text-reading methods) and css_lexer/src/syntax/parse_escape.rs.
   Conventions as in Lexer.v: a [&str] is its list of chars, slicing at byte offsets is partial, None is a panic.
   Loops take fuel (callers pass one more than the number of characters left, which every iteration decreases). *)
From Verif Require Export Span.
Open Scope N_scope.

(* core: char::to_digit(16) *)
Definition to_digit16 (c : char) : option N :=
  if is_ascii_digit c then Some (c - 48)
  else if (97 <=? c) && (c <=? 102) then Some (c - 87)
  else if (65 <=? c) && (c <=? 70) then Some (c - 55)
  else None.

(* parse_escape.rs:18-25: the while loop. Returns value, i, the pending c, the iterator.
   [k] is how many more iterations the [i > 5] test allows. *)
Fixpoint hex_loop (k : nat) (c : char) (l : text) (value i : N) : N * N * char * text :=
  match k with
  | O => (value, i, c, l)
  | S k' =>
      match to_digit16 c with
      | None => (value, i, c, l)
      | Some v =>
          let value := N.lor (N.shiftl value 4) v in
          match l with
          | [] => hex_loop k' REPLACEMENT [] value (i + 1)
          | c' :: l' => hex_loop k' c' l' value (i + 1)
          end
      end
  end.

(* core: char::from_u32 *)
Definition char_from_u32 (v : N) : option char := if valid_char v then Some v else None.

(* syntax/mod.rs:7: SURROGATE_RANGE = 0xd800..=0xdfff; parse_escape.rs:9-38. The u8 count is at most 8. *)
Definition parse_escape_sequence (l : text) : char * N :=
  match l with
  | [] => (REPLACEMENT, 0)
  | c :: r =>
      if negb (is_ascii_hexdigit c) then (c, len_utf8 c)
      else
        let '(value, i, c', r') := hex_loop 6 c r 0 0 in
        let i := if is_whitespace c' then
                   (if (c' =? CR) && (match r' with x :: _ => x =? LF | [] => false end) then i + 1 + 1 else i + 1)
                 else i in
        if (value =? 0) || in_range 55296 57343 value then (REPLACEMENT, i)
        else (match char_from_u32 value with Some x => x | None => REPLACEMENT end, i)
  end.

(* cursor.rs:190-191 and the same two lines in the other methods; end_offset - trailing_len underflow is a panic *)
Definition text_start (c : cursor) : N := coff c + leading_len (ctok c).
Definition text_end (c : cursor) : option N :=
  if cend c <? trailing_len (ctok c) then None else Some (cend c - trailing_len (ctok c)).

Definition is_string_tok (t : token) : bool := kind_bits t =? kind_code K_String.

(* What one iteration over a backslash does to the position, shared by the three loops (cursor.rs:216-241, 278-302,
   156-176): [i] is the position of the backslash, [rest] what follows it in source[start..end]. *)
Inductive esc_step : Set := EsNewline (i : N) (rest : text) | EsBreak | EsChar (ch : char) (i : N) (rest : text).
Definition escape_step (is_string : bool) (src : text) (start en i : N) (rest : text) : option esc_step :=
  let decode :=
    let i := i + 1 in
    match drop_bytes (start + i) src with
    | None => None
    | Some tail =>
        let (ch, n) := parse_escape_sequence tail in
        let i := i + n in
        match slice src (start + i) en with None => None | Some l => Some (EsChar ch i l) end
    end in
  if is_string then
    match rest with
    | [] => Some EsBreak
    | c :: rest' =>
        if is_newline c then
          let i := (if (match rest' with x :: _ => x =? LF | [] => false end) then i + 1 else i) + 2 in
          match slice src (start + i) en with None => None | Some l => Some (EsNewline i l) end
        else decode
    end
  else decode.

(* cursor.rs:197-254 *)
Fixpoint parse_str_loop (fuel : nat) (is_string : bool) (src : text) (start en i : N) (l : text) (str : option text)
  : option text :=
  match fuel with
  | O => None
  | S f =>
      let finish := match str with Some s => Some s | None => slice src start (start + i) end in
      let ensure := match str with
                    | Some s => Some s
                    | None => if i =? 0 then Some [] else slice src start (start + i)
                    end in
      match l with
      | [] => finish
      | c :: r =>
          if c =? 0 then
            match ensure with
            | None => None
            | Some s => parse_str_loop f is_string src start en (i + 1) r (Some (s ++ [REPLACEMENT]))
            end
          else if c =? 92 then
            match ensure with
            | None => None
            | Some s =>
                match escape_step is_string src start en i r with
                | None => None
                | Some EsBreak => Some s
                | Some (EsNewline i' l') => parse_str_loop f is_string src start en i' l' (Some s)
                | Some (EsChar ch i' l') =>
                    parse_str_loop f is_string src start en i' l' (Some (s ++ [if ch =? 0 then REPLACEMENT else ch]))
                end
            end
          else
            parse_str_loop f is_string src start en (i + len_utf8 c) r
              (match str with Some s => Some (s ++ [c]) | None => None end)
      end
  end.

(* cursor.rs:188-255 *)
Definition parse_str (c : cursor) (src : text) : option text :=
  match text_end c with
  | None => None
  | Some en =>
      if negb (contains_escape_chars (ctok c)) then slice src (text_start c) en
      else match slice src (text_start c) en with
           | None => None
           | Some l => parse_str_loop (S (length l)) (is_string_tok (ctok c)) src (text_start c) en 0 l None
           end
  end.

(* cursor.rs:268-310 *)
Fixpoint parse_str_lower_loop (fuel : nat) (is_string : bool) (src : text) (start en i : N) (l : text) (str : text)
  : option text :=
  match fuel with
  | O => None
  | S f =>
      match l with
      | [] => Some str
      | c :: r =>
          if c =? 0 then parse_str_lower_loop f is_string src start en (i + 1) r (str ++ [REPLACEMENT])
          else if c =? 92 then
            match escape_step is_string src start en i r with
            | None => None
            | Some EsBreak => Some str
            | Some (EsNewline i' l') => parse_str_lower_loop f is_string src start en i' l' str
            | Some (EsChar ch i' l') =>
                parse_str_lower_loop f is_string src start en i' l'
                  (str ++ [if ch =? 0 then REPLACEMENT else to_ascii_lowercase ch])
            end
          else parse_str_lower_loop f is_string src start en (i + len_utf8 c) r (str ++ [to_ascii_lowercase c])
      end
  end.
(* cursor.rs:258-311; the test at 265-267 repeats the first one and is dead *)
Definition parse_str_lower (c : cursor) (src : text) : option text :=
  if is_lower_case (ctok c) then parse_str c src else
  match text_end c with
  | None => None
  | Some en =>
      match slice src (text_start c) en with
      | None => None
      | Some l => parse_str_lower_loop (S (length l)) (is_string_tok (ctok c)) src (text_start c) en 0 l []
      end
  end.

(* core: str::eq_ignore_ascii_case compares bytes; on chars it is length equality plus ASCII-insensitive equality *)
Definition eq_ignore_case_text (a b : text) : bool := text_eqb (map to_ascii_lowercase a) (map to_ascii_lowercase b).

(* cursor.rs:139-184 *)
Fixpoint eq_loop (fuel : nat) (is_string : bool) (src : text) (start en i : N) (l other : text) : option bool :=
  match fuel with
  | O => None
  | S f =>
      match l with
      | [] => Some (match other with [] => true | _ => false end)
      | c :: r =>
          match other with
          | [] => Some false
          | o :: other' =>
              if c =? 0 then
                if negb (o =? REPLACEMENT) then Some false else eq_loop f is_string src start en (i + 1) r other'
              else if c =? 92 then
                match escape_step is_string src start en i r with
                | None => None
                | Some EsBreak => Some (match other' with [] => true | _ => false end)
                | Some (EsNewline i' l') => eq_loop f is_string src start en i' l' other'
                | Some (EsChar ch i' l') =>
                    if ((ch =? 0) && negb (o =? REPLACEMENT)) || negb (ch =? o) then Some false
                    else eq_loop f is_string src start en i' l' other'
                end
              else if negb (c =? o) then Some false
              else eq_loop f is_string src start en (i + len_utf8 c) r other'
          end
      end
  end.
(* cursor.rs:124-186; [end - start] underflow is a panic *)
Definition eq_ignore_ascii_case (c : cursor) (src other : text) : option bool :=
  let start := text_start c in
  match text_end c with
  | None => None
  | Some en =>
      if negb (contains_escape_chars (ctok c)) then
        if en <? start then None
        else if negb (en - start =? blen other) then Some false
        else match slice src start en with
             | None => None
             | Some s => if is_lower_case (ctok c) then Some (text_eqb s other) else Some (eq_ignore_case_text s other)
             end
      else match slice src start en with
           | None => None
           | Some l => eq_loop (S (length l)) (is_string_tok (ctok c)) src start en 0 l other
           end
  end.
