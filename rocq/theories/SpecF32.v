(* What it means for a binary32 to be the correctly rounded value of a decimal text. IEEE 754: every non-negative finite
   binary32 is an integer multiple of 2^-149; [f32_units b] is that integer for the bit pattern b (sign bit excluded).
   The pattern of infinity stands, as in IEEE rounding, for 2^128, the next value after the largest finite one. *)
From Verif Require Import Chars SpecLex.
Open Scope Z_scope.

Definition f32_infinity : Z := 255 * 2 ^ 23.
Definition f32_units (b : Z) : Z :=
  let e := b / 2 ^ 23 in
  let m := b mod 2 ^ 23 in
  if e =? 0 then m else (m + 2 ^ 23) * 2 ^ (e - 1).

(* b is the nearest to n/d among all non-negative binary32, ties going to the even significand *)
Definition nearest_f32 (n d b : Z) : Prop :=
  0 <= b <= f32_infinity /\
  forall b', 0 <= b' <= f32_infinity -> b' <> b ->
    Z.abs (f32_units b * d - n * 2 ^ 149) < Z.abs (f32_units b' * d - n * 2 ^ 149) \/
    (Z.abs (f32_units b * d - n * 2 ^ 149) = Z.abs (f32_units b' * d - n * 2 ^ 149) /\ Z.even b = true).

(* the integer written by a run of digits *)
Definition int_of (l : text) : Z := fold_left (fun a c => a * 10 + (Z.of_N c - 48)) l 0.
(* [decimal_of p neg m e]: the number text p writes (-1)^neg * m * 10^e *)
Inductive exp_of : text -> Z -> Prop :=
  | ex_none : exp_of [] 0
  | ex_some : forall c s d, (c = 101 \/ c = 69)%N -> opt_sign s -> digits1 d ->
      exp_of (c :: s ++ d) (if list_eq_dec N.eq_dec s [45%N] then - int_of d else int_of d).
Inductive decimal_of : text -> bool -> Z -> Z -> Prop :=
  | dc_int : forall s i x e, opt_sign s -> digits1 i -> exp_of x e ->
      decimal_of (s ++ i ++ x) (if list_eq_dec N.eq_dec s [45%N] then true else false) (int_of i) e
  | dc_frac : forall s i f x e, opt_sign s -> digits i -> digits1 f -> exp_of x e ->
      decimal_of (s ++ i ++ 46%N :: f ++ x) (if list_eq_dec N.eq_dec s [45%N] then true else false) (int_of (i ++ f)) (e - Z.of_nat (length f)).
(* m * 10^e as a fraction *)
Definition numerator (m e : Z) : Z := if 0 <=? e then m * 10 ^ e else m.
Definition denominator (e : Z) : Z := if 0 <=? e then 1 else 10 ^ (- e).
(* a signed bit pattern *)
Definition signed (neg : bool) (b : Z) : N := Z.to_N ((if neg then 2 ^ 31 else 0) + b).
