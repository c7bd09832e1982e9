(* csskit_lsp/src/jsonrpc/message.rs:79-135 (Message::read and Message::write, the framing), and the reader loop of
   csskit_lsp/src/server.rs:111-121.
   - a byte is an N; the stream is the list of bytes still to come (a BufRead hides how they arrive). I/O errors other
     than an early end are not modelled, nor is running out of memory for a huge content-length.
   - std::io::BufRead::read_line, core::str::from_utf8, usize::from_str and httparse 1.10.1's parse_headers (default
     configuration) are library code that is not in /repo; they are modelled from their documentation and source.
   - the JSON text of the body is not decoded here: see LspMessage.v. *)
From Coq Require Import String.
From Coq Require Import List.
From Verif Require Export Chars Units.
Open Scope N_scope.
Open Scope list_scope.

Definition bytes := list N.

(* BufRead::read_line: the bytes up to and including the next LF, or all of them *)
Fixpoint take_line (r : bytes) : bytes * bytes :=
  match r with
  | [] => ([], [])
  | b :: r' => if b =? 10 then ([b], r') else (b :: fst (take_line r'), snd (take_line r'))
  end.

(* core::str::from_utf8 *)
Definition cont (b : N) : bool := (128 <=? b) && (b <=? 191).
Definition between (lo b hi : N) : bool := (lo <=? b) && (b <=? hi).
Fixpoint utf8_ok (l : bytes) : bool :=
  match l with
  | [] => true
  | b :: r =>
      if b <? 128 then utf8_ok r
      else match r with
      | c :: r =>
          if between 194 b 223 then cont c && utf8_ok r
          else match r with
          | d :: r =>
              if b =? 224 then between 160 c 191 && cont d && utf8_ok r
              else if b =? 237 then between 128 c 159 && cont d && utf8_ok r
              else if between 225 b 239 then cont c && cont d && utf8_ok r
              else match r with
              | e :: r =>
                  if b =? 240 then between 144 c 191 && cont d && cont e && utf8_ok r
                  else if b =? 244 then between 128 c 143 && cont d && cont e && utf8_ok r
                  else between 241 b 243 && cont c && cont d && cont e && utf8_ok r
              | [] => false
              end
          | [] => false
          end
      | [] => false
      end
  end.

(* str::ends_with *)
Fixpoint ends_with (suffix l : bytes) : bool :=
  if list_eq_dec N.eq_dec l suffix then true else match l with [] => false | _ :: r => ends_with suffix r end.
Definition CRLF2 : bytes := [13; 10; 13; 10].

Inductive frame_error : Set :=
  | FE_NoLength | FE_Mismatch | FE_InvalidHeader | FE_Utf8 | FE_Length | FE_Headers | FE_Eof.

(* message.rs:81-92: the header loop. [None] at the end of the stream, [inl] on text that is not UTF-8 *)
Fixpoint header_loop (n : nat) (r buf : bytes) : option (frame_error + bytes * bytes) :=
  match n with
  | O => None
  | S n' =>
      let (line, r') := take_line r in
      match line with
      | [] => None
      | _ => if negb (utf8_ok line) then Some (inl FE_Utf8)
             else if ends_with CRLF2 (buf ++ line) then Some (inr (buf ++ line, r')) else header_loop n' r' (buf ++ line)
      end
  end.

(* httparse: HEADER_NAME_MAP (tchar of RFC 9110) and HEADER_VALUE_MAP *)
Definition name_token (b : N) : bool :=
  is_ascii_digit b || between 65 b 90 || between 97 b 122 ||
  existsb (N.eqb b) [33; 35; 36; 37; 38; 39; 42; 43; 45; 46; 94; 95; 96; 124; 126].
Definition value_token (b : N) : bool := (b =? 9) || between 32 b 126 || (128 <=? b).
Fixpoint run (p : N -> bool) (l : bytes) : bytes * bytes :=
  match l with
  | [] => ([], [])
  | b :: r => if p b then (b :: fst (run p r), snd (run p r)) else ([], l)
  end.
Definition is_blank (b : N) : bool := (b =? 32) || (b =? 9).
Definition trim_end (v : bytes) : bytes := rev (snd (run is_blank (rev v))).
(* what is left after a line end, [None] if there is no line end here *)
Definition eol (l : bytes) : option bytes :=
  match l with
  | b :: r => if b =? 10 then Some r else if b =? 13 then match r with c :: r => if c =? 10 then Some r else None | [] => None end else None
  | [] => None
  end.
(* httparse::parse_headers: the headers and the bytes after the blank line; [inl] is an error. Status::Partial is an error
   here; the code ignores it, but a text that ends in CR LF CR LF cannot give it *)
Fixpoint parse_headers (slots : nat) (l : bytes) : option (list (bytes * bytes) * bytes) :=
  match eol l with
  | Some r => Some ([], r)
  | None =>
      match slots with
      | O => None
      | S slots =>
          let (name, r) := run name_token l in
          match name, r with
          | _ :: _, b :: r =>
              if b =? 58 then
                let r := snd (run is_blank r) in
                let (value, r) := run value_token r in
                match eol r with
                | None => None
                | Some r => match parse_headers slots r with None => None | Some (hs, rest) => Some ((name, trim_end value) :: hs, rest) end
                end
              else None
          | _, _ => None
          end
      end
  end.

(* str::eq_ignore_ascii_case *)
Definition same_name (a b : bytes) : bool := if list_eq_dec N.eq_dec (map to_ascii_lowercase a) b then true else false.
Definition CONTENT_LENGTH : bytes := chars "content-length"%string.
Definition CONTENT_TYPE : bytes := chars "content-type"%string.
(* str::parse::<usize> *)
Definition USIZE : N := 18446744073709551616.
Definition dec_digits (l : bytes) : option N :=
  fold_left (fun a b => match a with None => None | Some n => if is_ascii_digit b then Some (n * 10 + (b - 48)) else None end) l (Some 0).
Definition parse_usize (l : bytes) : option N :=
  let l := match l with b :: ((_ :: _) as r) => if b =? 43 then r else l | _ => l end in
  match l with
  | [] => None
  | _ => match dec_digits l with Some n => if n <? USIZE then Some n else None | None => None end
  end.
(* message.rs:99-109 *)
Fixpoint content_length (hs : list (bytes * bytes)) (n : N) : frame_error + N :=
  match hs with
  | [] => inr n
  | (name, value) :: hs =>
      if same_name name CONTENT_LENGTH then
        if negb (utf8_ok value) then inl FE_Utf8 else match parse_usize value with None => inl FE_Length | Some m => content_length hs m end
      else if same_name name CONTENT_TYPE then content_length hs n
      else inl FE_InvalidHeader
  end.

Inductive frame : Set := FEnd | FErr (e : frame_error) | FBody (body rest : bytes).
(* message.rs:79-118 up to the decoding of the body *)
Definition read_frame (r : bytes) : frame :=
  match header_loop (S (length r)) r [] with
  | None => FEnd
  | Some (inl e) => FErr e
  | Some (inr (buf, r)) =>
      match parse_headers 2 buf with
      | None => FErr FE_Headers
      | Some (hs, []) =>
          match content_length hs 0 with
          | inl e => FErr e
          | inr n =>
              if n =? 0 then FErr FE_NoLength
              else if N.of_nat (length r) <? n then FErr FE_Eof
              else FBody (firstn (N.to_nat n) r) (skipn (N.to_nat n) r)
          end
      | Some (_, _ :: _) => FErr FE_Mismatch
      end
  end.
(* server.rs:111-121: the bodies read until the stream ends or fails *)
Inductive ending : Set := Ended | Failed (e : frame_error).
Fixpoint read_stream (n : nat) (r : bytes) : list bytes * ending :=
  match n with
  | O => ([], Ended)
  | S n' => match read_frame r with
            | FEnd => ([], Ended)
            | FErr e => ([], Failed e)
            | FBody b rest => (b :: fst (read_stream n' rest), snd (read_stream n' rest))
            end
  end.
(* every frame takes at least one byte *)
Definition read_all (r : bytes) : list bytes * ending := read_stream (S (length r)) r.

(* the decimal digits of a usize (core::fmt) *)
Fixpoint dec_fuel (n : nat) (x : N) : bytes :=
  match n with O => [] | S n' => if x <? 10 then [48 + x] else dec_fuel n' (x / 10) ++ [48 + x mod 10] end.
Definition dec (x : N) : bytes := dec_fuel (S (N.to_nat (N.log2 x))) x.
(* message.rs:120-132 *)
Definition write_frame (body : bytes) : bytes := chars "Content-Length: "%string ++ dec (N.of_nat (length body)) ++ [13; 10; 13; 10] ++ body.
