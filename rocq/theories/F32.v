(* [str::parse::<f32>] (core library) restricted to the texts the lexer passes to it, as exact integer arithmetic:
   the decimal is read as M * 10^E and rounded to the nearest binary32, ties to even. The result is the bit pattern.
   External behaviour (Rust's core guarantees correct rounding); used by consume_numeric_token (private.rs:846). *)
From Verif Require Export Chars.
Open Scope Z_scope.

(* floor(log2(n/d)) for n, d > 0 *)
Definition ilog2_ratio (n d : Z) : Z :=
  let e := Z.log2 n - Z.log2 d in
  (* 2^e <= n/d ?  i.e. 2^e * d <= n *)
  let ok := if 0 <=? e then 2 ^ e * d <=? n else d <=? n * 2 ^ (- e) in
  if ok then e else e - 1.

(* round-half-even of n/d, n >= 0, d > 0 *)
Definition round_div (n d : Z) : Z :=
  let q := n / d in
  let r := n mod d in
  match Z.compare (2 * r) d with
  | Lt => q
  | Gt => q + 1
  | Eq => if Z.even q then q else q + 1
  end.

Definition F32_INF : Z := 2139095040. (* 0x7f800000 *)

(* bits of the binary32 nearest to n/d >= 0 (sign excluded) *)
Definition f32_round (n d : Z) : Z :=
  if n =? 0 then 0 else
  let e := ilog2_ratio n d in
  let q := Z.max (e - 23) (-149) in
  let m := if 0 <=? q then round_div n (d * 2 ^ q) else round_div (n * 2 ^ (- q)) d in
  let bits := (q + 149) * 2 ^ 23 + m in
  if F32_INF <=? bits then F32_INF else bits.

(* Decimal reading: value of a run of ASCII digits, most significant first. *)
Definition digit_val (c : char) : Z := Z.of_N c - 48.
Fixpoint digits_val (acc : Z) (l : text) : Z :=
  match l with [] => acc | c :: r => digits_val (acc * 10 + digit_val c) r end.
Fixpoint take_digits (l : text) : text * text :=
  match l with
  | c :: r => if is_ascii_digit c then let (a, b) := take_digits r in (c :: a, b) else ([], l)
  | [] => ([], [])
  end.

(* Decimal literal: sign, mantissa, exponent of ten. *)
Definition decimal := (bool * Z * Z)%type.

Definition read_sign (l : text) : bool * text :=
  match l with
  | c :: r => if (c =? 45)%N then (true, r) else if (c =? 43)%N then (false, r) else (false, l)
  | [] => (false, [])
  end.

Definition read_decimal (l : text) : decimal :=
  let (neg, l) := read_sign l in
  let (ip, l) := take_digits l in
  let '(fp, l) := match l with
                  | c :: r => if (c =? 46)%N then take_digits r else ([], l)
                  | [] => ([], l) end in
  let ex := match l with
            | c :: r => if ((c =? 101) || (c =? 69))%N then
                          let (eneg, r) := read_sign r in
                          let (ed, _) := take_digits r in
                          (if eneg then - digits_val 0 ed else digits_val 0 ed)
                        else 0
            | [] => 0 end in
  (neg, digits_val 0 (ip ++ fp), ex - Z.of_nat (length fp)).

(* Magnitude rounding with early exits: beyond 10^40 everything overflows, below 10^-60 everything underflows. The
   exits only keep the function computable on huge exponents. 2^(log2 m) <= m < 2^(log2 m + 1). *)
Definition f32_of_decimal (m e : Z) : Z :=
  if m =? 0 then 0
  else if 0 <=? e then
    (if 60 <? e then F32_INF else f32_round (m * 10 ^ e) 1)
  else
    (* m < 2^(log2 m + 1); m * 10^e < 10^-60 when log2 m + 1 <= 3 * (-e - 60) *)
    (if Z.log2 m + 1 <=? 3 * (- e - 60) then 0 else f32_round m (10 ^ (- e))).

Definition parse_f32 (l : text) : N :=
  let '(neg, m, e) := read_decimal l in
  Z.to_N ((if neg then 2147483648 else 0) + f32_of_decimal m e).

Close Scope Z_scope.

Example parse_f32_ex : map parse_f32 [[49]; [46; 53]; [45; 49; 48]; [49; 101; 52; 48]; [48; 46; 49]; [45;48]]
  = [1065353216; 1056964608; 3240099840; 2139095040; 1036831949; 2147483648].
Proof. vm_compute. reflexivity. Qed.
