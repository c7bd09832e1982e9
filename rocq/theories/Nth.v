(* css_ast/src/selector/nth.rs on top of Parser.v, with the parts of core it uses (f32 as i32, str::parse::<i32>) and
   units/int.rs. None is a panic or a loop without end, as in Parser.v. *)
From Coq Require Import String.
From Verif Require Export Parser Write.
Open Scope N_scope.
Open Scope list_scope.

(* Rust reference, "Numeric cast": f32 as i32 truncates towards zero, saturates, and NaN is 0 *)
Definition f32_as_i32 (bits : N) : Z :=
  let m := Z.of_N (N.land bits 2147483647) in
  if (F32_INF <? m)%Z then 0%Z else
  let v := (if m =? F32_INF then 2 ^ 31 else mag_units m / 2 ^ 149)%Z in
  let v := if N.testbit bits 31 then (- v)%Z else v in
  Z.max (- 2 ^ 31) (Z.min (2 ^ 31 - 1) v).
(* f32::abs clears the sign bit *)
Definition f32_abs (bits : N) : N := N.land bits 2147483647.

(* core: <i32 as FromStr>::from_str: an optional sign, at least one decimal digit, nothing else, in range *)
Fixpoint dec_value (l : text) (acc : Z) : option Z :=
  match l with
  | [] => Some acc
  | c :: r => if is_ascii_digit c then dec_value r (acc * 10 + (Z.of_N c - 48))%Z else None
  end.
Definition parse_i32 (l : text) : option Z :=
  let '(neg, ds) := match l with
    | [] => (false, [])
    | c :: r => if c =? 43 then (false, r) else if c =? 45 then (true, r) else (false, l)
    end in
  match ds with
  | [] => None
  | _ => match dec_value ds 0 with
         | None => None
         | Some v => let v := if neg then (- v)%Z else v in
                     if ((- 2 ^ 31 <=? v) && (v <=? 2 ^ 31 - 1))%Z then Some v else None
         end
  end.

(* nth.rs:10-15 *)
Inductive nth_t : Set := NthOdd (c : cursor) | NthEven (c : cursor) | NthInteger (c : cursor) | NthAnb (a b : Z) (cs : list cursor).

(* units/int.rs:25-35 *)
Definition peek_css_int : peeker := fun _ c => Some (tok_is (ctok c) K_Number && is_int (ctok c)).
Definition parse_css_int : P cursor := parse_single peek_css_int (fun c => c).
(* token_macros.rs:1589-1599 *)
Definition parse_any : P cursor := parse_single (fun _ _ => Some true) (fun c => c).
(* parser.rs:164-167; None only if a slice is out of range *)
Definition p_str_lower (c : cursor) : P text := fun p => match parse_str_lower c (lsrc (plex p)) with Some s => Some (Ok s, p) | None => None end.

(* diagnostics.rs: ExpectedInt, ExpectedUnsigned *)
Definition D_ExpectedInt (c : cursor) : diag := D_Other 1 c.
Definition D_ExpectedUnsigned (c : cursor) : diag := D_Other 2 c.

(* nth.rs:101-120 *)
Definition nth_b_number (a b_sign : Z) (cursors : list cursor) : P nth_t := fun p =>
  match peek (peek_kind K_Number) p with
  | None => None
  | Some false => Some (Ok (NthAnb a 0 cursors), p)
  | Some true =>
      bind (parse_kind K_Number) (fun c =>
        if is_float (ctok c) then fail (D_ExpectedInt c)
        else if has_sign (ctok c) && negb (b_sign =? 0)%Z then fail (D_ExpectedUnsigned c)
        else
          let b_sign := if (b_sign =? 0)%Z then 1%Z else b_sign in
          ret (NthAnb a (f32_as_i32 (f32_abs (tvalue (ctok c))) * b_sign)%Z (cursors ++ [c]))) p
  end.
(* nth.rs:88-99 *)
Definition nth_b_sign (a b_sign : Z) (cursors : list cursor) : P nth_t := fun p =>
  if (b_sign =? 0)%Z then
    match peek (peek_delim 43) p with
    | None => None
    | Some true => bind (parse_delim 43) (fun c => nth_b_number a 1 (cursors ++ [c])) p
    | Some false =>
        match peek (peek_delim 45) p with
        | None => None
        | Some true => bind (parse_delim 45) (fun c => nth_b_number a (-1) (cursors ++ [c])) p
        | Some false => nth_b_number a 0 cursors p
        end
    end
  else nth_b_number a b_sign cursors p.
(* nth.rs:50-86 *)
Definition nth_a (c : cursor) (cursors : list cursor) : P nth_t :=
  let t := ctok c in
  if negb (kind_in (tkind t) [K_Number; K_Dimension; K_Ident]) then fail (D_Unexpected c)
  else if is_float t then fail (D_ExpectedInt c)
  else bind (p_str_lower c) (fun anb =>
    if text_eqb anb (chars "n-"%string) then nth_b_sign (if is_int t then f32_as_i32 (tvalue t) else 1%Z) (-1)%Z cursors
    else
      let '(a, chars) :=
        if is_int t then (f32_as_i32 (tvalue t), anb)
        else match anb with 45 :: r => ((-1)%Z, r) | _ => (1%Z, anb) end in
      match chars with
      | ch :: rest =>
          if negb ((ch =? 110) || (ch =? 78)) then fail (D_Unexpected c)
          else match parse_i32 rest with
               | Some b => ret (NthAnb a b cursors)
               | None => match rest with [] => nth_b_sign a 0 cursors | _ => fail (D_Unexpected c) end
               end
      | [] => fail (D_Unexpected c)
      end).
(* nth.rs:37-49 *)
Definition nth_anb (c : cursor) : P nth_t := fun p =>
  if tok_is_char (ctok c) 43 then
    match parse_any (set_skip p KS_NONE) with
    | None => None
    | Some (r, p') =>
        let p' := set_skip p' (pskip p) in
        match r with Err e => Some (Err e, p') | Ok c2 => nth_a c2 [c; c2] p' end
    end
  else nth_a c [c] p.
(* nth.rs:17-36 *)
Definition parse_nth : P nth_t := fun p =>
  match peek (peek_kind K_Number) p with
  | None => None
  | Some true => pmap NthInteger parse_css_int p
  | Some false =>
      match peek (peek_kind K_Ident) p with
      | None => None
      | Some true =>
          bind (parse_kind K_Ident) (fun ident =>
          bind (p_str_lower ident) (fun s =>
            if text_eqb s (chars "even"%string) then ret (NthEven ident)
            else if text_eqb s (chars "odd"%string) then ret (NthOdd ident)
            else nth_anb ident)) p
      | Some false => bind parse_any nth_anb p
      end
  end.
(* nth.rs:124-137 *)
Definition nth_cursors (x : nth_t) : list cursor :=
  match x with NthOdd c | NthEven c | NthInteger c => [c] | NthAnb _ _ cs => cs end.

Definition nth_of (s : string) : option nth_t :=
  match parse_nth (parser_new (chars s) no_features) with Some (Ok x, _) => Some x | _ => None end.
Definition anb_of (s : string) : option (Z * Z) := match nth_of s with Some (NthAnb a b _) => Some (a, b) | _ => None end.
(* nth.rs tests *)
Example nth_ex : map anb_of ["n"; "+N"; "-n"; "5n"; "-5n"; "n-4"; "-n-4"; "+n+4"; "+n-123456789"; "-2n+1"; "+2n-1"; "n+ 3"; "-n+3"; "N- 123"; "n- 10"; "+n + 7 "]%string =
  map Some [(1, 0); (1, 0); (-1, 0); (5, 0); (-5, 0); (1, -4); (-1, -4); (1, 4); (1, -123456789); (-2, 1); (2, -1); (1, 3); (-1, 3); (1, -123); (1, -10); (1, 7)]%Z.
Proof. vm_compute. reflexivity. Qed.
Example nth_err_ex : map nth_of ["3n + -6"; "+ 2n"; "n-b1"; "n-1n"; "-n-13b1"; "5.5"]%string = repeat None 6.
Proof. vm_compute. reflexivity. Qed.
