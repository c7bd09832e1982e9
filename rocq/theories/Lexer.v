(* css_lexer/src/private.rs and lib.rs: the lexer.
   A [Chars] iterator is modelled by the list of characters it has left; a consumer method taking [&mut self] returns the
   remaining list. u32 length counters are unbounded N (documents are documented to be < 4 GB, lib.rs:120-124).
   Loops that are not structurally recursive take fuel; callers pass S (length l), which every iteration decreases by at
   least one, so fuel never runs out (proved in LexerProofs). None is a Rust panic. *)
From Coq Require Import String.
From Verif Require Export Token F32.
Open Scope N_scope.

(* css_lexer/src/feature.rs: two independent bits *)
Record feature : Set := { single_line_comments : bool; separate_whitespace : bool }.
Definition no_features : feature := {| single_line_comments := false; separate_whitespace := false |}.

(* private.rs:67-70 *)
Definition peek_nth (l : text) (n : nat) : char := nth n l EOFc.

(* private.rs:73-81 *)
Definition consume_newline (l : text) : N * text :=
  match l with
  | [] => (1, [])
  | c :: r => if (c =? CR) && (peek_nth r 0 =? LF) then (2, tl r) else (1, r)
  end.

(* private.rs:84-91; callers pass TAB or SPACE, never EOF *)
Fixpoint consume_same (ch : char) (l : text) : N * text :=
  match l with
  | [] => (0, [])
  | c :: r => if c =? ch then let (n, r') := consume_same ch r in (n + 1, r') else (0, l)
  end.

(* private.rs:99-105 *)
Definition ws_bit (c : char) : whitespace :=
  if c =? 32 then WS_Space else if c =? 9 then WS_Tab else WS_Newline.

(* private.rs:94-109 *)
Fixpoint consume_whitespace_loop (l : text) (i : N) (style : whitespace) : N * whitespace * text :=
  match l with
  | [] => (i, style, [])
  | c :: r => if is_whitespace c then consume_whitespace_loop r (i + 1) (N.lor style (ws_bit c)) else (i, style, l)
  end.
Definition consume_whitespace (l : text) : N * whitespace * text := consume_whitespace_loop l 0 WS_none.

(* private.rs:682-691: at most n further hex digits *)
Fixpoint consume_hex (n : nat) (l : text) : N * text :=
  match n, l with
  | S n', c :: r => if is_ascii_hexdigit c then let (k, r') := consume_hex n' r in (k + 1, r') else (0, l)
  | _, _ => (0, l)
  end.

(* private.rs:677-708. The iterator is positioned after the backslash; the count includes the backslash. *)
Definition consume_escape_sequence (l : text) : N * text :=
  match l with
  | [] => (1, [])
  | c :: r =>
      if is_ascii_hexdigit c then
        let (k, r1) := consume_hex 5 r in
        match r1 with
        | w :: r2 =>
            if is_whitespace w then
              if (w =? CR) && (peek_nth r2 0 =? LF) then (2 + k + 2, tl r2) else (2 + k + 1, r2)
            else (2 + k, r1)
        | [] => (2 + k, r1)
        end
      else (2, r)
  end.

Definition non_empty (l : text) : bool := match l with [] => false | _ => true end.

(* private.rs:112-147 *)
Fixpoint ident_loop (fuel : nat) (l : text) (len : N) (non_lower dashed esc : bool) : N * bool * bool * bool * text :=
  match fuel with
  | O => (len, non_lower, dashed, esc, l)
  | S f =>
      let c := peek_nth l 0 in
      if (len =? 0) && (c =? 45) then
        let l1 := tl l in
        if peek_nth l1 0 =? 45 then ident_loop f (tl l1) (len + 1 + 1) non_lower true esc
        else ident_loop f l1 (len + 1) non_lower dashed esc
      else if is_ident_ascii_lower c || (c =? 45) || is_ascii_digit c then
        ident_loop f (tl l) (len + 1) non_lower dashed esc
      else if is_ident c then ident_loop f (tl l) (len + len_utf8 c) true dashed esc
      else if is_escape_sequence c (peek_nth l 1) then
        let (n, r) := consume_escape_sequence (tl l) in ident_loop f r (len + n) non_lower dashed true
      else if (c =? EOFc) && non_empty l then ident_loop f (tl l) (len + 1) non_lower dashed true
      else (len, non_lower, dashed, esc, l)
  end.
Definition consume_ident_sequence (l : text) : N * bool * bool * bool * text :=
  ident_loop (S (length l)) l 0 false false false.

(* private.rs:150-666: the nested if/else-if decision tree, as data. [TBr alts u child next] is
   [if c is one of alts { next(); len += 1; unit = u (if any); child } else next]. Generated from the Rust text. *)
Inductive trie : Set := TLeaf | TBr (alts : list char) (u : option unit_t) (child next : trie).
Definition dim_trie : trie :=
  TBr [99; 67] None (* c/C *)
    (TBr [97; 65] None (* a/A *)
      (TBr [80; 112] (Some U_Cap) (* P/p *) TLeaf TLeaf)
    (TBr [104; 72] (Some U_Ch) (* h/H *) TLeaf
    (TBr [109; 77] (Some U_Cm) (* m/M *) TLeaf
    (TBr [113; 81] None (* q/Q *)
      (TBr [98; 66] (Some U_Cqb) (* b/B *) TLeaf
      (TBr [104; 72] (Some U_Cqh) (* h/H *) TLeaf
      (TBr [105; 73] (Some U_Cqi) (* i/I *) TLeaf
      (TBr [109; 77] None (* m/M *)
        (TBr [97; 65] None (* a/A *)
          (TBr [120; 88] (Some U_Cqmax) (* x/X *) TLeaf TLeaf)
        (TBr [105; 73] None (* i/I *)
          (TBr [110; 78] (Some U_Cqmin) (* n/N *) TLeaf TLeaf) TLeaf))
      (TBr [119; 87] (Some U_Cqw) (* w/W *) TLeaf TLeaf))))) TLeaf))))
  (TBr [100] None (* d *)
    (TBr [101; 69] None (* e/E *)
      (TBr [103; 71] (Some U_Deg) (* g/G *) TLeaf TLeaf)
    (TBr [112; 80] None (* p/P *)
      (TBr [99; 67] None (* c/C *)
        (TBr [109; 77] (Some U_Dpcm) (* m/M *) TLeaf TLeaf)
      (TBr [105; 73] (Some U_Dpi) (* i/I *) TLeaf
      (TBr [112; 80] None (* p/P *)
        (TBr [120; 88] (Some U_Dppx) (* x/X *) TLeaf TLeaf) TLeaf)))
    (TBr [118; 86] None (* v/V *)
      (TBr [98; 66] (Some U_Dvb) (* b/B *) TLeaf
      (TBr [104; 72] (Some U_Dvh) (* h/H *) TLeaf
      (TBr [105; 73] (Some U_Dvi) (* i/I *) TLeaf
      (TBr [119; 87] (Some U_Dvw) (* w/W *) TLeaf
      (TBr [109; 77] None (* m/M *)
        (TBr [97; 65] None (* a/A *)
          (TBr [120; 88] (Some U_Dvmax) (* x/X *) TLeaf TLeaf)
        (TBr [105; 73] None (* i/I *)
          (TBr [110; 78] (Some U_Dvmin) (* n/N *) TLeaf TLeaf) TLeaf)) TLeaf))))) TLeaf)))
  (TBr [101; 69] None (* e/E *)
    (TBr [109; 77] (Some U_Em) (* m/M *) TLeaf
    (TBr [120; 88] (Some U_Ex) (* x/X *) TLeaf TLeaf))
  (TBr [102; 70] None (* f/F *)
    (TBr [114; 82] (Some U_Fr) (* r/R *) TLeaf TLeaf)
  (TBr [103; 71] None (* g/G *)
    (TBr [114; 82] None (* r/R *)
      (TBr [97; 65] None (* a/A *)
        (TBr [100; 68] (Some U_Grad) (* d/D *) TLeaf TLeaf) TLeaf) TLeaf)
  (TBr [104; 72] None (* h/H *)
    (TBr [122; 90] (Some U_Hz) (* z/Z *) TLeaf TLeaf)
  (TBr [105; 73] None (* i/I *)
    (TBr [99; 67] (Some U_Ic) (* c/C *) TLeaf
    (TBr [110; 78] (Some U_In) (* n/N *) TLeaf TLeaf))
  (TBr [107; 75] None (* k/K *)
    (TBr [104; 72] None (* h/H *)
      (TBr [122; 90] (Some U_Khz) (* z/Z *) TLeaf TLeaf) TLeaf)
  (TBr [108; 76] None (* l/L *)
    (TBr [104; 72] (Some U_Lh) (* h/H *) TLeaf
    (TBr [118; 86] None (* v/V *)
      (TBr [98; 66] (Some U_Lvb) (* b/B *) TLeaf
      (TBr [104; 72] (Some U_Lvh) (* h/H *) TLeaf
      (TBr [105; 73] (Some U_Lvi) (* i/I *) TLeaf
      (TBr [119; 87] (Some U_Lvw) (* w/W *) TLeaf
      (TBr [109; 77] None (* m/M *)
        (TBr [97; 65] None (* a/A *)
          (TBr [120; 88] (Some U_Lvmax) (* x/X *) TLeaf TLeaf)
        (TBr [105; 73] None (* i/I *)
          (TBr [110; 78] (Some U_Lvmin) (* n/N *) TLeaf TLeaf) TLeaf)) TLeaf))))) TLeaf))
  (TBr [109; 77] None (* m/M *)
    (TBr [109; 77] (Some U_Mm) (* m/M *) TLeaf
    (TBr [115; 83] (Some U_Ms) (* s/S *) TLeaf TLeaf))
  (TBr [112; 80] None (* p/P *)
    (TBr [99; 67] (Some U_Pc) (* c/C *) TLeaf
    (TBr [116; 84] (Some U_Pt) (* t/T *) TLeaf
    (TBr [120; 88] (Some U_Px) (* x/X *) TLeaf TLeaf)))
  (TBr [113; 81] (Some U_Q) (* q/Q *) TLeaf
  (TBr [114; 82] None (* r/R *)
    (TBr [97; 65] None (* a/A *)
      (TBr [100; 68] (Some U_Rad) (* d/D *) TLeaf TLeaf)
    (TBr [99; 67] None (* c/C *)
      (TBr [97; 65] None (* a/A *)
        (TBr [112; 80] (Some U_Rcap) (* p/P *) TLeaf TLeaf)
      (TBr [104; 72] (Some U_Rch) (* h/H *) TLeaf TLeaf))
    (TBr [101; 69] None (* e/E *)
      (TBr [109; 77] (Some U_Rem) (* m/M *) TLeaf
      (TBr [120; 88] (Some U_Rex) (* x/X *) TLeaf TLeaf))
    (TBr [105; 73] None (* i/I *)
      (TBr [99; 67] (Some U_Ric) (* c/C *) TLeaf TLeaf)
    (TBr [108; 76] None (* l/L *)
      (TBr [104; 72] (Some U_Rlh) (* h/H *) TLeaf TLeaf) TLeaf)))))
  (TBr [115; 83] (Some U_S) (* s/S *)
    (TBr [118; 86] None (* v/V *)
      (TBr [98; 66] (Some U_Svb) (* b/B *) TLeaf
      (TBr [104; 72] (Some U_Svh) (* h/H *) TLeaf
      (TBr [105; 73] (Some U_Svi) (* i/I *) TLeaf
      (TBr [119; 87] (Some U_Svw) (* w/W *) TLeaf
      (TBr [109; 77] None (* m/M *)
        (TBr [97; 65] None (* a/A *)
          (TBr [120; 88] (Some U_Svmax) (* x/X *) TLeaf TLeaf)
        (TBr [105; 73] None (* i/I *)
          (TBr [110; 78] (Some U_Svmin) (* n/N *) TLeaf TLeaf) TLeaf)) TLeaf))))) TLeaf)
  (TBr [116; 84] None (* t/T *)
    (TBr [117; 85] None (* u/U *)
      (TBr [114; 82] None (* r/R *)
        (TBr [110; 78] (Some U_Turn) (* n/N *) TLeaf TLeaf) TLeaf) TLeaf)
  (TBr [118; 86] None (* v/V *)
    (TBr [98; 66] (Some U_Vb) (* b/B *) TLeaf
    (TBr [104; 72] (Some U_Vh) (* h/H *) TLeaf
    (TBr [105; 73] (Some U_Vi) (* i/I *) TLeaf
    (TBr [109; 77] None (* m/M *)
      (TBr [97; 65] None (* a/A *)
        (TBr [120; 88] (Some U_Vmax) (* x/X *) TLeaf TLeaf)
      (TBr [105; 73] None (* i/I *)
        (TBr [110; 78] (Some U_Vmin) (* n/N *) TLeaf TLeaf) TLeaf))
    (TBr [119; 87] (Some U_Vw) (* w/W *) TLeaf TLeaf)))))
  (TBr [120; 88] (Some U_X) (* x/X *) TLeaf TLeaf)))))))))))))))).

(* private.rs:151-666: walking the tree *)
Fixpoint trie_walk (t : trie) (unit : unit_t) (len : N) (l : text) : unit_t * N * text :=
  match t with
  | TLeaf => (unit, len, l)
  | TBr alts u child next =>
      if existsb (N.eqb (peek_nth l 0)) alts
      then trie_walk child (match u with Some v => v | None => unit end) (len + 1) (tl l)
      else trie_walk next unit len l
  end.

(* private.rs:150-674 *)
Definition consume_ident_sequence_finding_known_dimension (l : text) : unit_t * N * text :=
  let '(unit, len, l1) := trie_walk dim_trie U_Unknown 0 l in
  let '(rest_len, _, _, _, l2) := consume_ident_sequence l1 in
  if 0 <? rest_len then (U_Unknown, len + rest_len, l2) else (unit, len, l2).

(* private.rs:787-808 *)
Fixpoint bad_url_loop (fuel : nat) (l : text) (len : N) : N * text :=
  match fuel with
  | O => (len, l)
  | S f =>
      match l with
      | [] => (len, [])
      | ch :: r =>
          if ch =? 41 then (len + 1, r)
          else if ch =? 92 then
            if is_escape_sequence ch (peek_nth r 0) then
              let (n, r') := consume_escape_sequence r in bad_url_loop f r' (len + n)
            else match r with
                 | ch2 :: r' => bad_url_loop f r' (len + (len_utf8 ch2 + 1))
                 | [] => bad_url_loop f [] len
                 end
          else bad_url_loop f r (len + len_utf8 ch)
      end
  end.
Definition consume_remnants_of_bad_url (l : text) (len : N) : token * text :=
  let (n, r) := bad_url_loop (S (length l)) l len in (new_bad_url n, r).

(* private.rs:721-776: the loop of consume_url_sequence. Result of a normal exit: len, trailing_len, contains_escape,
   ends_with_paren. *)
Inductive url_exit : Set :=
  | UrlDone (len trailing_len : N) (contains_escape ends_with_paren : bool) (rest : text)
  | UrlBad (len : N) (rest : text).
Fixpoint url_loop (fuel : nat) (l : text) (len : N) (esc : bool) : url_exit :=
  match fuel with
  | O => UrlDone len 0 esc false l
  | S f =>
      let c := peek_nth l 0 in
      if c =? 41 then UrlDone (len + 1) 1 esc true (tl l)
      else if c =? EOFc then UrlDone len 0 esc false l
      else if is_whitespace c then
        let '(n, _, l1) := consume_whitespace l in
        let c1 := peek_nth l1 0 in
        if c1 =? 41 then UrlDone (len + n + 1) (n + 1) true true (tl l1)
        else if c1 =? EOFc then UrlDone (len + n) n true false l1
        else UrlBad (len + n) l1
      else if (c =? 39) || (c =? 34) || (c =? 40) then UrlBad len l
      else if is_non_printable c then UrlBad len l
      else if c =? 92 then
        if is_escape_sequence c (peek_nth l 1) then
          let (n, r) := consume_escape_sequence (tl l) in url_loop f r (len + n) true
        else UrlBad len l
      else url_loop f (tl l) (len + len_utf8 c) esc
  end.
(* private.rs:711-784 *)
Definition consume_url_sequence (l : text) (leading_len : N) (ident_escaped : bool) : token * text :=
  let '(ws, _, l1) := consume_whitespace l in
  match url_loop (S (length l1)) l1 (leading_len + ws) ident_escaped with
  | UrlDone len tr esc paren r => (new_url paren (0 <? ws) esc (leading_len + ws) tr len, r)
  | UrlBad len r => consume_remnants_of_bad_url r len
  end.

(* private.rs:817-820 and the two other digit loops *)
Fixpoint skip_digits (l : text) : N * text :=
  match l with
  | c :: r => if is_ascii_digit c then let (n, r') := skip_digits r in (n + 1, r') else (0, l)
  | [] => (0, [])
  end.

(* private.rs:812-845: extent of the number: byte length, is_float, rest *)
Definition number_extent (l : text) : N * bool * text :=
  let c := peek_nth l 0 in
  let is_float := c =? 46 in
  let (d1, l1) := skip_digits (tl l) in
  let n1 := 1 + d1 in
  let '(n2, is_float, l2) :=
    if negb is_float && (peek_nth l1 0 =? 46) && is_ascii_digit (peek_nth l1 1) then
      let (d2, l2) := skip_digits (tl l1) in (n1 + 1 + d2, true, l2)
    else (n1, is_float, l1) in
  if ((peek_nth l2 0 =? 101) || (peek_nth l2 0 =? 69))
     && (is_ascii_digit (peek_nth l2 1)
         || (((peek_nth l2 1 =? 45) || (peek_nth l2 1 =? 43)) && is_ascii_digit (peek_nth l2 2))) then
    let l3 := tl l2 in
    let '(n3, l4) := if (peek_nth l3 0 =? 45) || (peek_nth l3 0 =? 43) then (n2 + 1 + 1, tl l3) else (n2 + 1, l3) in
    let (d3, l5) := skip_digits l4 in
    (n3 + d3, true, l5)
  else (n2, is_float, l2).

(* private.rs:811-860. [self.as_str()[0..num_len]] is the first num_len bytes; every character of a number is ASCII so
   [self.nth(num_len - 1)] leaves the iterator after them. *)
Definition consume_numeric_token (l : text) : option (token * text) :=
  let has_sign := is_sign (peek_nth l 0) in
  let '(num_len, is_float, _) := number_extent l in
  match take_bytes num_len l with
  | None => None
  | Some num =>
      let value := parse_f32 num in
      let l1 := skipn (N.to_nat num_len) l in
      if peek_nth l1 0 =? 37 then Some (new_dimension is_float has_sign num_len 1 value U_Percent, tl l1)
      else if is_ident_start_sequence (peek_nth l1 0) (peek_nth l1 1) (peek_nth l1 2) then
        let '(unit, unit_len, l2) := consume_ident_sequence_finding_known_dimension l1 in
        Some (new_dimension is_float has_sign num_len unit_len value unit, l2)
      else Some (new_number is_float has_sign num_len value, l1)
  end.

(* private.rs:863-868 *)
Definition consume_hash_token (l : text) : token * text :=
  let l1 := tl l in
  let first_is_ascii := is_ident (peek_nth l1 0) in
  let '(len, non_lower, _, esc, r) := consume_ident_sequence l1 in
  (new_hash non_lower first_is_ascii esc (len + 1), r).

(* [str::trim] at the end only (the text starts with a backslash), on text whose length was counted in ASCII bytes:
   the Unicode White_Space characters below 128. *)
Fixpoint trim_end (l : text) : text :=
  match l with
  | [] => []
  | c :: r => match trim_end r with
              | [] => if in_range 9 13 c || (c =? 32) then [] else [c]
              | r' => c :: r'
              end
  end.
Definition text_eqb (a b : text) : bool := if list_eq_dec N.eq_dec a b then true else false.

(* private.rs:914-918 *)
Definition url_escape_mismatch (i : N) (str : text) : bool :=
  ((i =? 0) && negb (text_eqb str (chars "\75") || text_eqb str (chars "\55")))
  || ((i =? 1) && negb (text_eqb str (chars "\72") || text_eqb str (chars "\52")))
  || ((i =? 2) && negb (text_eqb str (chars "\6c") || text_eqb str (chars "\4c"))).

(* private.rs:871-934 *)
Fixpoint url_ident_loop (fuel : nat) (l : text) (i len : N) (non_lower dashed esc is_url : bool)
  : option (N * bool * bool * bool * bool * text) :=
  match fuel with
  | O => Some (len, non_lower, dashed, esc, is_url, l)
  | S f =>
      let c := peek_nth l 0 in
      if (i =? 0) && (c =? 45) then
        let l1 := tl l in
        if peek_nth l1 0 =? 45 then url_ident_loop f (tl l1) (i + 1 + 1) (len + 1 + 1) non_lower true esc is_url
        else url_ident_loop f l1 (i + 1) (len + 1) non_lower dashed esc is_url
      else if is_ident_ascii_lower c then
        let bad := ((i =? 0) && negb (c =? 117)) || ((i =? 1) && negb (c =? 114)) || ((i =? 2) && negb (c =? 108)) in
        url_ident_loop f (tl l) (i + 1) (len + 1) non_lower dashed esc (if bad then false else is_url)
      else if is_ident c then
        let bad := ((i =? 0) && negb (c =? 85)) || ((i =? 1) && negb (c =? 82)) || ((i =? 2) && negb (c =? 76)) in
        url_ident_loop f (tl l) (i + 1) (len + len_utf8 c) true dashed esc (if bad then false else is_url)
      else if is_url && is_escape_sequence c (peek_nth l 1) then
        let (esc_len, r) := consume_escape_sequence (tl l) in
        match take_bytes esc_len l with
        | None => None (* private.rs:913: slice not on a char boundary *)
        | Some s =>
            url_ident_loop f r (i + 1) (len + esc_len) non_lower dashed true
              (if url_escape_mismatch i (trim_end s) then false else is_url)
        end
      else if is_escape_sequence c (peek_nth l 1) then
        let (esc_len, r) := consume_escape_sequence (tl l) in
        url_ident_loop f r (i + 1) (len + esc_len) non_lower dashed true is_url
      else if (c =? EOFc) && non_empty l then url_ident_loop f (tl l) i (len + 1) non_lower dashed true false
      else Some (len, non_lower, dashed, esc, is_url, l)
  end.
Definition consume_ident_sequence_finding_url_keyword (l : text) : option (N * bool * bool * bool * bool * text) :=
  url_ident_loop (S (length l)) l 0 0 false false false true.

(* private.rs:944-951: skip at most four whitespace characters *)
Fixpoint skip_ws_upto (n : nat) (l : text) : text :=
  match n, l with
  | S n', c :: r => if is_whitespace c then skip_ws_upto n' r else l
  | _, _ => l
  end.

(* private.rs:937-959 *)
Definition consume_ident_like_token (l : text) : option (token * text) :=
  match consume_ident_sequence_finding_url_keyword l with
  | None => None
  | Some (len, non_lower, dashed, esc, is_url, r) =>
      if peek_nth r 0 =? 40 then
        let r1 := tl r in
        if is_url && negb (is_quote (peek_nth (skip_ws_upto 4 r1) 0))
        then Some (consume_url_sequence r1 (len + 1) esc)
        else Some (new_function non_lower dashed esc (len + 1), r1)
      else Some (new_ident non_lower dashed esc len, r)
  end.

(* private.rs:967-1009 *)
Fixpoint string_loop (fuel : nat) (delimiter : char) (quotes : quote_style) (l : text) (len : N) (esc : bool)
  : token * text :=
  match fuel with
  | O => (new_string quotes false esc len, l)
  | S f =>
      let c := peek_nth l 0 in
      if is_newline c then (new_bad_string len, l)
      else if c =? EOFc then
        (if non_empty l then string_loop f delimiter quotes (tl l) (len + 1) true
         else (new_string quotes false esc len, l))
      else if (c =? 34) || (c =? 39) then
        (if c =? delimiter then (new_string quotes true esc (len + 1), tl l)
         else string_loop f delimiter quotes (tl l) (len + 1) esc)
      else if c =? 92 then
        let l1 := tl l in
        let p := peek_nth l1 0 in
        if p =? EOFc then (new_string quotes false true (len + 1), l1)
        else if is_newline p then
          let (n, l2) := consume_newline l1 in string_loop f delimiter quotes l2 (len + (n + 1)) true
        else if is_escape_sequence c p then
          let (n, l2) := consume_escape_sequence l1 in string_loop f delimiter quotes l2 (len + n) true
        else (new_bad_string len, l1)
      else string_loop f delimiter quotes (tl l) (len + len_utf8 c) esc
  end.
(* private.rs:962-1011 *)
Definition consume_string_token (l : text) : token * text :=
  let delimiter := peek_nth l 0 in
  let quotes := if delimiter =? 34 then QS_Double else QS_Single in
  string_loop (S (length l)) delimiter quotes (tl l) 1 false.

(* private.rs:1014-1019 *)
Definition is_number_start (l : text) : bool :=
  is_ascii_digit (peek_nth l 0)
  || (is_sign (peek_nth l 0)
      && (is_ascii_digit (peek_nth l 1) || ((peek_nth l 1 =? 46) && is_ascii_digit (peek_nth l 2))))
  || ((peek_nth l 0 =? 46) && is_ascii_digit (peek_nth l 1)).

(* private.rs:1073-1084: newline run *)
Fixpoint consume_newline_run (l : text) : N * text :=
  match l with
  | c :: r => if is_newline c then let (n, r') := consume_newline_run r in (n + 1, r') else (0, l)
  | [] => (0, [])
  end.

(* private.rs:1147-1158: block comment body *)
Fixpoint block_comment_body (l : text) : N * text :=
  match l with
  | [] => (0, [])
  | c :: r => if (c =? 42) && (peek_nth r 0 =? 47) then (len_utf8 c + 1, tl r)
              else let (n, r') := block_comment_body r in (len_utf8 c + n, r')
  end.
(* private.rs:1140-1146 *)
Definition block_comment_style (l : text) : comment_style :=
  let c := peek_nth l 0 in
  if (c =? 42) && negb (peek_nth l 1 =? 47) then CS_BlockStar
  else if c =? 35 then CS_BlockPound
  else if c =? 33 then CS_BlockBang
  else if (c =? 45) || (c =? 61) then CS_BlockHeading
  else CS_Block.

(* private.rs:1169-1172: [len += 1] per character, whatever its UTF-8 length *)
Fixpoint single_comment_body (l : text) : N * text :=
  match l with
  | [] => (0, [])
  | c :: r => if is_newline c || (c =? EOFc) then (0, l)
              else let (n, r') := single_comment_body r in (1 + n, r')
  end.
(* private.rs:1164-1168 *)
Definition single_comment_style (l : text) : comment_style :=
  let c := peek_nth l 0 in
  if c =? 42 then CS_SingleStar else if c =? 33 then CS_SingleBang else CS_Single.

Definition ofst (x : option (token * text)) : option token :=
  match x with Some (t, _) => Some t | None => None end.

(* private.rs:1028-1199: the part of read_next_token after slicing; [l] is [source[offset..]] *)
Definition scan_token (f : feature) (l : text) : option token :=
  let c := peek_nth l 0 in
  let fast :=
    if c <? 128 then
      let token := nth (N.to_nat c) SINGLE_CHAR_TOKENS T_EOF in
      if negb (token_eqb token T_EOF) then Some (Some token)
      else if is_ident_ascii_start c then Some (ofst (consume_ident_like_token l))
      else None
    else None in
  match fast with
  | Some r => r
  | None =>
      if c =? 0 then
        if non_empty l && is_ident_start_sequence REPLACEMENT (peek_nth l 1) (peek_nth l 2)
        then ofst (consume_ident_like_token l)
        else if non_empty l then Some (new_delim REPLACEMENT) else Some T_EOF
      else if is_whitespace c && negb (separate_whitespace f) then
        let '(len, style, _) := consume_whitespace l in Some (new_whitespace style len)
      else if c =? TAB then Some (new_whitespace WS_Tab (fst (consume_same TAB l)))
      else if c =? SPACE then Some (new_whitespace WS_Space (fst (consume_same SPACE l)))
      else if is_newline c then Some (new_whitespace WS_Newline (fst (consume_newline_run l)))
      else if is_quote c then Some (fst (consume_string_token l))
      else if is_ascii_digit c then ofst (consume_numeric_token l)
      else if c =? 45 then
        if (peek_nth l 1 =? 45) && (peek_nth l 2 =? 62) then Some T_CDC
        else if is_ident_start_sequence c (peek_nth l 1) (peek_nth l 2) then ofst (consume_ident_like_token l)
        else if is_number_start l then ofst (consume_numeric_token l)
        else Some T_DASH
      else if (c =? 46) || (c =? 43) then
        if is_number_start l then ofst (consume_numeric_token l) else Some (new_delim c)
      else if c =? 60 then
        let l1 := tl l in
        if (peek_nth l1 0 =? 33) && (peek_nth l1 1 =? 45) && (peek_nth l1 2 =? 45) then Some T_CDO
        else Some T_LESS_THAN
      else if c =? 35 then
        if is_ident (peek_nth l 1) || is_escape_sequence (peek_nth l 1) (peek_nth l 2)
        then Some (fst (consume_hash_token l))
        else Some T_HASH
      else if c =? 64 then
        let l1 := tl l in
        if is_ident_start_sequence (peek_nth l1 0) (peek_nth l1 1) (peek_nth l1 2) then
          let '(len, non_lower, dashed, esc, _) := consume_ident_sequence l1 in
          Some (new_atkeyword non_lower dashed esc (len + 1))
        else Some T_AT
      else if c =? 92 then
        if is_escape_sequence c (peek_nth l 1) then ofst (consume_ident_like_token l) else Some T_BACKSLASH
      else if c =? 47 then
        if peek_nth l 1 =? 42 then
          let l2 := tl (tl l) in
          Some (new_comment (block_comment_style l2) (2 + fst (block_comment_body l2)))
        else if (peek_nth l 1 =? 47) && single_line_comments f then
          let l2 := tl (tl l) in
          Some (new_comment (single_comment_style l2) (2 + fst (single_comment_body l2)))
        else Some T_SLASH
      else if is_ident_start c then ofst (consume_ident_like_token l)
      else Some (new_delim c)
  end.

(* private.rs:1024-1028. [source.len() as u32 == offset] is exact for sources below 4 GB. *)
Definition read_next_token (src : text) (f : feature) (offset : N) : option token :=
  if blen src =? offset then Some T_EOF else
  match drop_bytes offset src with
  | None => None
  | Some l => scan_token f l
  end.

(* lib.rs:175-181 *)
Record lexer : Set := Lexer { lsrc : text; loff : N; ltok : token; lfeat : feature }.

(* lib.rs:184-192 *)
Definition lexer_new (src : text) (f : feature) : lexer := Lexer src 0 T_default f.
(* lib.rs:200-202 *)
Definition lexer_at_end (x : lexer) : bool := loff x =? blen (lsrc x).
(* lib.rs:210-213; a Cursor is (offset, token) *)
Record cursor : Set := Cursor { coff : N; ctok : token }.
Definition lexer_checkpoint (x : lexer) : cursor := Cursor (loff x) (ltok x).
(* lib.rs:216-220 *)
Definition lexer_rewind (x : lexer) (c : cursor) : lexer := Lexer (lsrc x) (coff c) (ctok c) (lfeat x).
(* lib.rs:223-227 *)
Definition lexer_hop (x : lexer) (c : cursor) : lexer := Lexer (lsrc x) (coff c) (ctok c) (lfeat x).
(* lib.rs:230-234 *)
Definition lexer_advance (x : lexer) : option (token * lexer) :=
  match read_next_token (lsrc x) (lfeat x) (loff x) with
  | None => None
  | Some t => Some (t, Lexer (lsrc x) (loff x + tlen t) t (lfeat x))
  end.

(* Repeated [advance] until EOF, collecting the cursors: how any consumer drives the lexer. Out of fuel is None. *)
Fixpoint lex_all (fuel : nat) (x : lexer) : option (list cursor) :=
  match fuel with
  | O => None
  | S n =>
      match lexer_advance x with
      | None => None
      | Some (t, x') =>
          if tok_is t K_Eof then Some [] else
          match lex_all n x' with None => None | Some cs => Some (Cursor (loff x) t :: cs) end
      end
  end.
Definition lex (src : text) (f : feature) : option (list cursor) :=
  lex_all (S (N.to_nat (blen src))) (lexer_new src f).
