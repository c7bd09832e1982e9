(* The JSON text of a message: serde_json 1.0.140's to_string (compact) and from_slice, as message.rs:115 and 127 use them.
   Library code that is not in /repo, modelled from its documentation and source.
   - how a float is written and read is a parameter ([show_float], [read_float]).
   - the objects of a Value keep their keys in the order read (serde_json sorts them and keeps the last of equal keys). *)
From Coq Require Import String.
From Coq Require Import List.
From Verif Require Export LspMessage LspFrame.
Open Scope N_scope.
Open Scope list_scope.

(* char::encode_utf8 *)
Definition utf8_char (c : char) : bytes :=
  if c <? 128 then [c]
  else if c <? 2048 then [192 + c / 64; 128 + c mod 64]
  else if c <? 65536 then [224 + c / 4096; 128 + c / 64 mod 64; 128 + c mod 64]
  else [240 + c / 262144; 128 + c / 4096 mod 64; 128 + c / 64 mod 64; 128 + c mod 64].
Definition utf8_encode (t : text) : bytes := flat_map utf8_char t.
(* str::from_utf8 on well-formed bytes *)
Fixpoint utf8_chars (l : bytes) : text :=
  match l with
  | [] => []
  | b :: r =>
      if b <? 128 then b :: utf8_chars r
      else match r with
      | c :: r =>
          if b <? 224 then (b - 192) * 64 + (c - 128) :: utf8_chars r
          else match r with
          | d :: r =>
              if b <? 240 then (b - 224) * 4096 + (c - 128) * 64 + (d - 128) :: utf8_chars r
              else match r with
              | e :: r => (b - 240) * 262144 + (c - 128) * 4096 + (d - 128) * 64 + (e - 128) :: utf8_chars r
              | [] => []
              end
          | [] => []
          end
      | [] => []
      end
  end.
Definition utf8_decode (l : bytes) : option text := if utf8_ok l then Some (utf8_chars l) else None.

(* serde_json::ser: ESCAPE table and format_escaped_str *)
Definition hex_digit (n : N) : char := if n <? 10 then 48 + n else 87 + n.
Definition escape_char (c : char) : text :=
  if c =? 34 then [92; 34] else if c =? 92 then [92; 92]
  else if c =? 8 then [92; 98] else if c =? 12 then [92; 102] else if c =? 10 then [92; 110] else if c =? 13 then [92; 114] else if c =? 9 then [92; 116]
  else if c <? 32 then [92; 117; 48; 48; hex_digit (c / 16); hex_digit (c mod 16)]
  else [c].
Definition show_str (s : text) : text := 34 :: flat_map escape_char s ++ [34].
Definition show_int (z : Z) : text := if (z <? 0)%Z then 45 :: dec (Z.to_N (- z)) else dec (Z.to_N z).
Fixpoint join (l : list text) : text :=
  match l with [] => [] | x :: r => match r with [] => x | _ => x ++ 44 :: join r end end.
Fixpoint show (show_float : N -> text) (v : json) : text :=
  match v with
  | JNull => chars "null"%string
  | JBool b => if b then chars "true"%string else chars "false"%string
  | JInt z => show_int z
  | JFloat f => show_float f
  | JStr s => show_str s
  | JArr l => 91 :: join (map (show show_float) l) ++ [93]
  | JObj l => 123 :: join (map (fun kv => show_str (fst kv) ++ 58 :: show show_float (snd kv)) l) ++ [125]
  end.

(* serde_json::read: parse_str, parse_escape *)
Definition json_ws (c : char) : bool := (c =? 32) || (c =? 10) || (c =? 9) || (c =? 13).
Fixpoint skip_ws (l : text) : text := match l with c :: r => if json_ws c then skip_ws r else l | [] => [] end.
Definition hex_val (c : char) : option N :=
  if is_ascii_digit c then Some (c - 48) else if between 97 c 102 then Some (c - 87) else if between 65 c 70 then Some (c - 55) else None.
Definition hex4 (a b c d : char) : option N :=
  match hex_val a, hex_val b, hex_val c, hex_val d with
  | Some a, Some b, Some c, Some d => Some (a * 4096 + b * 256 + c * 16 + d)
  | _, _, _, _ => None
  end.
Definition simple_escape (c : char) : option char :=
  if c =? 34 then Some 34 else if c =? 92 then Some 92 else if c =? 47 then Some 47 else if c =? 98 then Some 8
  else if c =? 102 then Some 12 else if c =? 110 then Some 10 else if c =? 114 then Some 13 else if c =? 116 then Some 9 else None.
Definition put (c : char) (r : option (text * text)) : option (text * text) := match r with Some (s, rest) => Some (c :: s, rest) | None => None end.
Fixpoint read_str (l : text) : option (text * text) :=
  match l with
  | [] => None
  | c :: r =>
      if c =? 34 then Some ([], r)
      else if c <? 32 then None
      else if c =? 92 then
        match r with
        | [] => None
        | e :: r =>
            if e =? 117 then
              match r with
              | a :: b :: c :: d :: r =>
                  match hex4 a b c d with
                  | None => None
                  | Some n =>
                      if between 56320 n 57343 then None
                      else if between 55296 n 56319 then
                        match r with
                        | x :: y :: a :: b :: c :: d :: r =>
                            if (x =? 92) && (y =? 117) then
                              match hex4 a b c d with
                              | None => None
                              | Some m => if between 56320 m 57343 then put (65536 + (n - 55296) * 1024 + (m - 56320)) (read_str r) else None
                              end
                            else None
                        | _ => None
                        end
                      else put n (read_str r)
                  end
              | _ => None
              end
            else match simple_escape e with None => None | Some c => put c (read_str r) end
        end
      else put c (read_str r)
  end.
(* serde_json::de: parse_integer and parse_number: the literal and what follows it *)
Definition U64 : N := 18446744073709551616.
Definition I64 : N := 9223372036854775808.
Definition read_digits (l : text) : text * text := run is_ascii_digit l.
Definition read_number (read_float : text -> option (json * text)) (l : text) : option (json * text) :=
  let neg := match l with c :: _ => c =? 45 | [] => false end in
  let digits := if neg then tl l else l in
  let (ds, rest) := read_digits digits in
  match ds with
  | [] => None
  | d :: ds' =>
      if (d =? 48) && negb (Nat.eqb (length ds') 0) then None
      else if match rest with c :: _ => (c =? 46) || (c =? 101) || (c =? 69) | [] => false end then read_float l
      else match dec_digits ds with
           | None => None
           | Some n => if neg then if (n =? 0) || (I64 <? n) then read_float l else Some (JInt (- Z.of_N n), rest)
                       else if n <? U64 then Some (JInt (Z.of_N n), rest) else read_float l
           end
  end.
Definition expect (s : text) (v : json) (l : text) : option (json * text) :=
  if same_key (firstn (length s) l) s then Some (v, skipn (length s) l) else None.
(* deserialize_any, SeqAccess, MapAccess. [d] is remaining_depth *)
Fixpoint value_at (fl : text -> option (json * text)) (n : nat) (d : nat) (l : text) : option (json * text) :=
  match n with
  | O => None
  | S n' =>
      match skip_ws l with
      | [] => None
      | c :: r =>
          if c =? 110 then expect (chars "ull"%string) JNull r
          else if c =? 116 then expect (chars "rue"%string) (JBool true) r
          else if c =? 102 then expect (chars "alse"%string) (JBool false) r
          else if (c =? 45) || is_ascii_digit c then read_number fl (c :: r)
          else if c =? 34 then match read_str r with Some (s, rest) => Some (JStr s, rest) | None => None end
          else if c =? 91 then
            if Nat.leb d 1 then None
            else match skip_ws r with
                 | e :: r' => if e =? 93 then Some (JArr [], r') else match elems_at fl n' (d - 1) r with Some (vs, r) => Some (JArr vs, r) | None => None end
                 | [] => None
                 end
          else if c =? 123 then
            if Nat.leb d 1 then None
            else match skip_ws r with
                 | e :: r' => if e =? 125 then Some (JObj [], r') else match members_at fl n' (d - 1) r with Some (vs, r) => Some (JObj vs, r) | None => None end
                 | [] => None
                 end
          else None
      end
  end
with elems_at (fl : text -> option (json * text)) (n : nat) (d : nat) (l : text) : option (list json * text) :=
  match n with
  | O => None
  | S n' =>
      match value_at fl n' d l with
      | None => None
      | Some (v, r) =>
          match skip_ws r with
          | c :: r => if c =? 93 then Some ([v], r)
                      else if c =? 44 then match elems_at fl n' d r with Some (vs, r) => Some (v :: vs, r) | None => None end else None
          | [] => None
          end
      end
  end
with members_at (fl : text -> option (json * text)) (n : nat) (d : nat) (l : text) : option (list (text * json) * text) :=
  match n with
  | O => None
  | S n' =>
      match skip_ws l with
      | c :: r =>
          if c =? 34 then
            match read_str r with
            | None => None
            | Some (k, r) =>
                match skip_ws r with
                | c :: r =>
                    if c =? 58 then
                      match value_at fl n' d r with
                      | None => None
                      | Some (v, r) =>
                          match skip_ws r with
                          | c :: r => if c =? 125 then Some ([(k, v)], r)
                                      else if c =? 44 then match members_at fl n' d r with Some (vs, r) => Some ((k, v) :: vs, r) | None => None end else None
                          | [] => None
                          end
                      end
                    else None
                | [] => None
                end
            end
          else None
      | [] => None
      end
  end.
Definition DEPTH : nat := 128.
(* from_slice: one value, and only whitespace after it *)
Definition read_json (fl : text -> option (json * text)) (b : bytes) : option json :=
  match utf8_decode b with
  | None => None
  | Some t => match value_at fl (S (length t)) DEPTH t with
              | Some (v, rest) => match skip_ws rest with [] => Some v | _ => None end
              | None => None
              end
  end.
(* message.rs:79-118 and 120-132 in full *)
Definition write_message (sf : N -> text) (m : message) : bytes := write_frame (utf8_encode (show sf (to_json m))).
Definition read_body (fl : text -> option (json * text)) (b : bytes) : option message := match read_json fl b with Some v => of_json v | None => None end.
(* server.rs:111-121: the messages handed on until the stream ends (true) or a read fails (false) *)
Fixpoint receive (fl : text -> option (json * text)) (n : nat) (r : bytes) : list message * bool :=
  match n with
  | O => ([], true)
  | S n' =>
      match read_frame r with
      | FEnd => ([], true)
      | FErr _ => ([], false)
      | FBody b rest =>
          match read_body fl b with
          | None => ([], false)
          | Some m => (m :: fst (receive fl n' rest), snd (receive fl n' rest))
          end
      end
  end.
Definition receive_all (fl : text -> option (json * text)) (r : bytes) : list message * bool := receive fl (S (length r)) r.
