(* Writing tokens back: css_lexer/src/cursor.rs (write_str), css_parse/src/cursor_fmt_sink.rs, cursor_vec_sink.rs, and the
   part of core::fmt they use (Display of f32, with and without the + flag). None is a panic, as elsewhere. *)
From Coq Require Import String.
From Verif Require Export Cursor.
Open Scope Z_scope.
Open Scope list_scope.

(* ---- core::fmt: Display for f32 without precision (core/src/fmt/float.rs: float_to_decimal_common_shortest; flt2dec:
   the shortest decimal that reads back as the same f32, the closest such, a tie going up (strategy/dragon.rs,
   format_shortest), never an exponent). External behaviour, computed here with exact integers. ---- *)

(* the decimal digits of an integer *)
Fixpoint dec_digits (fuel : nat) (x : Z) : text :=
  match fuel with
  | O => []
  | S f => if x <? 10 then [Z.to_N (48 + x)] else dec_digits f (x / 10) ++ [Z.to_N (48 + x mod 10)]
  end.
Definition dec_of (x : Z) : text := dec_digits (S (Z.to_nat (Z.log2 x))) x.
Definition zeros (n : Z) : text := repeat 48%N (Z.to_nat n).

(* the finite non-negative binary32 with pattern b is mag_units b / 2^149 (IEEE 754) *)
Definition mag_units (b : Z) : Z :=
  if b / 2 ^ 23 =? 0 then b mod 2 ^ 23 else (b mod 2 ^ 23 + 2 ^ 23) * 2 ^ (b / 2 ^ 23 - 1).

(* flt2dec::digits_to_dec_str with no minimum number of fraction digits, for the number d * 10^-p *)
Definition place_point (d p : Z) : text :=
  if p <=? 0 then dec_of d ++ zeros (- p)
  else
    let ds := dec_of d in
    let ip := Z.of_nat (List.length ds) - p in
    if ip <=? 0 then [48%N; 46%N] ++ zeros (- ip) ++ ds
    else firstn (Z.to_nat ip) ds ++ [46%N] ++ skipn (Z.to_nat ip) ds.

(* format_shortest: with p digits after the point, the decimals just below and just above the value, if they read back *)
Fixpoint shortest (fuel : nat) (b p : Z) : text :=
  match fuel with
  | O => []
  | S f =>
      (* value * 10^p = num / den *)
      let num := if 0 <=? p then mag_units b * 10 ^ p else mag_units b in
      let den := if 0 <=? p then 2 ^ 149 else 2 ^ 149 * 10 ^ (- p) in
      let lo := num / den in
      let rem := num mod den in
      let hi := lo + 1 in
      let down := f32_of_decimal lo (- p) =? b in
      let up := f32_of_decimal hi (- p) =? b in
      if up && (negb down || (den <=? 2 * rem)) then place_point hi p
      else if down then place_point lo p
      else shortest f b (p + 1)
  end.
(* magnitude: decode() tells NaN, infinity, zero and finite apart *)
Definition display_magnitude (b : Z) : text :=
  if F32_INF <? b then chars "NaN"%string
  else if b =? F32_INF then chars "inf"%string
  else if b =? 0 then [48%N]
  else shortest 200 b (-39).
(* determine_sign: Sign::Minus ({}) or Sign::MinusPlus ({:+}); NaN has no sign *)
Definition display_f32 (plus : bool) (bits : N) : text :=
  let neg := N.testbit bits 31 in
  let m := Z.of_N (N.land bits 2147483647) in
  let sign := if F32_INF <? m then [] else if neg then [45%N] else if plus then [43%N] else [] in
  sign ++ display_magnitude m.

Close Scope Z_scope.
Open Scope N_scope.

(* token.rs:249 *)
Definition T_SPACE : token := new_whitespace WS_Space 1.

(* cursor.rs:61-107, as the list of pieces handed to the writer (each [f.write_str], [f.write_char] and [write!] is one
   piece; core::fmt hands a number over in several, which is not modelled). [char().unwrap()] is None. *)
Definition write_pieces (c : cursor) (src : text) : option (list text) :=
  let t := ctok c in
  match tkind t with
  | K_Eof => Some []
  | K_CdcOrCdo => Some [if is_cdc t then chars "-->"%string else chars "<!--"%string]
  | K_Number => Some [display_f32 (has_sign t) (tvalue t)]
  | K_Dimension =>
      match dimension_unit t with
      | U_Unknown => match str_slice c src with Some s => Some [s] | None => None end
      | u => Some [display_f32 false (tvalue t); unit_str u]
      end
  | K_Comment | K_Whitespace | K_BadString | K_BadUrl | K_Ident | K_Function | K_AtKeyword | K_Hash | K_String | K_Url =>
      match str_slice c src with Some s => Some [s] | None => None end
  | K_Delim | K_Colon | K_Semicolon | K_Comma | K_LeftSquare | K_LeftParen | K_RightSquare | K_RightParen | K_LeftCurly
  | K_RightCurly => match tchar t with Some ch => Some [[ch]] | None => None end
  end.
(* what a writer that never fails receives *)
Definition write_str (c : cursor) (src : text) : option text :=
  match write_pieces c src with Some ps => Some (List.concat ps) | None => None end.

(* A writer (impl fmt::Write): the pieces it was handed so far, and whether the next one will fail. *)
Record writer : Set := Writer { handed : list text; fails_at : option nat }.
(* one call of write_str / write_char: true is Ok *)
Definition put (w : writer) (s : text) : writer * bool :=
  (Writer (handed w ++ [s]) (fails_at w),
   negb (match fails_at w with Some n => (n <=? List.length (handed w))%nat | None => false end)).
(* the ? after each piece *)
Fixpoint put_all (w : writer) (ps : list text) : writer * bool :=
  match ps with
  | [] => (w, true)
  | s :: r => let (w', ok) := put w s in if ok then put_all w' r else (w', false)
  end.

(* cursor_fmt_sink.rs:10-15 *)
Record fmt_sink : Set := FmtSink { fs_src : text; fs_writer : writer; fs_last : option token; fs_err : bool }.
(* cursor_fmt_sink.rs:17-21 *)
Definition fmt_sink_new (src : text) (w : writer) : fmt_sink := FmtSink src w None false.
(* cursor_fmt_sink.rs:24-43 *)
Definition fmt_append (s : fmt_sink) (c : cursor) : option fmt_sink :=
  if fs_err s then Some s else
  let '(w, ok) :=
    match fs_last s with
    | Some last => if needs_separator_for last (ctok c) then put (fs_writer s) [32] else (fs_writer s, true)
    | None => (fs_writer s, true)
    end in
  if negb ok then Some (FmtSink (fs_src s) w (Some (ctok c)) true)
  else match write_pieces c (fs_src s) with
       | None => None
       | Some ps => let (w', ok') := put_all w ps in Some (FmtSink (fs_src s) w' (Some (ctok c)) (negb ok'))
       end.
Fixpoint fmt_append_all (s : fmt_sink) (cs : list cursor) : option fmt_sink :=
  match cs with
  | [] => Some s
  | c :: r => match fmt_append s c with Some s' => fmt_append_all s' r | None => None end
  end.
(* what is written for a list of cursors when the writer never fails *)
Definition fmt_text (src : text) (cs : list cursor) : option text :=
  match fmt_append_all (fmt_sink_new src (Writer [] None)) cs with
  | Some s => Some (List.concat (handed (fs_writer s)))
  | None => None
  end.

(* cursor_vec_sink.rs:6 *)
Definition SEPARATOR : cursor := Cursor DUMMY_OFFSET T_SPACE.
(* cursor_vec_sink.rs:27-39; the Vec is a list *)
Definition vec_append (v : list cursor) (c : cursor) : list cursor :=
  match rev v with
  | last :: _ => if needs_separator_for (ctok last) (ctok c) then v ++ [SEPARATOR; c] else v ++ [c]
  | [] => v ++ [c]
  end.
Definition vec_append_all (v : list cursor) (cs : list cursor) : list cursor := fold_left vec_append cs v.

Example display_ex : map (fun s => display_f32 false (parse_f32 (chars s))) ["1"; "0.1"; "-0"; "16777217"; "1e20"; "1e-45"; "3.4028235e38"; "0.3333333333"; "123.456"; "1e39"]%string
  = map chars ["1"; "0.1"; "-0"; "16777216"; "100000000000000000000"; "0.000000000000000000000000000000000000000000001"; "340282350000000000000000000000000000000"; "0.33333334"; "123.456"; "inf"]%string.
Proof. vm_compute. reflexivity. Qed.
Example display_plus_ex : map (display_f32 true) [0; 1065353216; 3212836864] = map chars ["+0"; "+1"; "-1"]%string.
Proof. vm_compute. reflexivity. Qed.
