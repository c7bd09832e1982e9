(* css_lexer/src/source_offset.rs and span.rs. A SourceOffset is a u32, modelled by N; sums are taken without wrap-around
   (sources are documented to be below 4 GB). debug_assert!s are not modelled. None is a panic. *)
From Verif Require Export Lexer.
Open Scope N_scope.

(* source_offset.rs:12 *)
Definition DUMMY_OFFSET : N := 4294967295.
(* span.rs:9-14 *)
Record span : Set := Span { sstart : N; send : N }.
(* span.rs:18 *)
Definition SPAN_DUMMY : span := Span DUMMY_OFFSET DUMMY_OFFSET.
(* span.rs:24-27 *)
Definition span_new (a b : N) : span := Span a b.
(* span.rs:45-48 *)
Definition with_end (s : span) (e : N) : span := Span (sstart s) e.
(* span.rs:51-53 *)
Definition span_contains (s t : span) : bool := (sstart s <=? sstart t) && (send t <=? send s).
(* span.rs:56-58 *)
Definition span_is_empty (s : span) : bool := sstart s =? send s.
(* span.rs:61-64; the u32 subtraction panics (debug) or wraps (release) when end < start: None *)
Definition span_len (s : span) : option N := if send s <? sstart s then None else Some (send s - sstart s).
(* span.rs:73-80 *)
Definition span_add (s t : span) : span :=
  Span (if sstart s <? sstart t then sstart s else sstart t) (if send t <? send s then send s else send t).
(* source_offset.rs:15-17 *)
Definition as_span (o : N) (t : token) : span := span_new o (o + tlen t).

(* span.rs:98-115: the for loop; [offset -= len] underflow is None *)
Fixpoint line_col_loop (l : text) (offset line column : N) : option (N * N) :=
  match l with
  | [] => Some (line, column)
  | c :: r =>
      if offset =? 0 then Some (line, column)
      else
        let '(line, column) := if c =? LF then (line + 1, 0) else (line, column + 1) in
        if offset <? len_utf8 c then None else line_col_loop r (offset - len_utf8 c) line column
  end.
Definition line_and_column (s : span) (src : text) : option (N * N) := line_col_loop src (sstart s) 0 0.
(* span.rs:118-120 *)
Definition span_contents (s : span) (src : text) : option text := slice src (sstart s) (send s).

(* cursor.rs:38-43 *)
Definition cend (c : cursor) : N := if coff c =? DUMMY_OFFSET then coff c else coff c + tlen (ctok c).
(* cursor.rs:56-58 *)
Definition cspan (c : cursor) : span := span_new (coff c) (cend c).
(* cursor.rs:110-118 *)
Definition str_slice (c : cursor) (src : text) : option text := span_contents (cspan c) src.
