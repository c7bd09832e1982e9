(* Theorems for C15: the value of a number token. SpecF32.v says what a binary32 pattern denotes, what "nearest, ties to
   even" means and which decimal a number text writes. The f32 parser itself is Rust's core library: F32.v is its
   documented behaviour computed with exact integers, and the theorems show that this computation is correct rounding. *)
From Coq Require Import ZArith.
From Verif Require Import Lexer SpecToken SpecLex SpecTrace SpecF32 F32Proofs LexTrace NumberValue.
Open Scope N_scope.

Theorem C15_nearest_ties_to_even : forall f pre l t, would_start_number l -> within_limits l -> esc_ok l -> token_at f pre l t ->
  exists p r neg m e b, longest_number l p r /\ decimal_of p neg m e /\ tvalue t = signed neg b /\ nearest_f32 (numerator m e) (denominator e) b.
Proof. exact token_value. Qed.
Print Assumptions C15_nearest_ties_to_even.

Theorem C15_integers_exact : forall f pre l t p r neg m, would_start_number l -> within_limits l -> esc_ok l -> token_at f pre l t ->
  longest_number l p r -> decimal_of p neg m 0 -> (m <= 2 ^ 24)%Z -> exists b, tvalue t = signed neg b /\ (0 <= b < f32_infinity)%Z /\ f32_units b = (m * 2 ^ 149)%Z.
Proof. exact token_value_int. Qed.
Print Assumptions C15_integers_exact.

Theorem C15_decimal_is_unique : forall p n m e n' m' e', decimal_of p n m e -> decimal_of p n' m' e' -> n = n' /\ m = m' /\ e = e'.
Proof. exact decimal_det. Qed.
Print Assumptions C15_decimal_is_unique.

Theorem C15_nearest_is_unique : forall n d b b', (0 < d)%Z -> nearest_f32 n d b -> nearest_f32 n d b' -> b = b'.
Proof. exact nearest_unique. Qed.
Print Assumptions C15_nearest_is_unique.

(* -0.1 : the number is read as -1 * 10^-1 and its value is 0xBDCCCCCD *)
Example C15_case : decimal_of [45; 46; 49] true 1 (-1) /\ parse_f32 [45; 46; 49] = 3184315597.
Proof.
  split; [| vm_compute; reflexivity].
  apply (dc_frac [45] [] [49] [] 0%Z); [right; right; reflexivity | constructor | split; [discriminate | repeat constructor; discriminate] | apply ex_none].
Qed.
(* 16777217 is a tie and goes to the even 16777216 *)
Example C15_tie_case : parse_f32 [49; 54; 55; 55; 55; 50; 49; 55] = parse_f32 [49; 54; 55; 55; 55; 50; 49; 54].
Proof. vm_compute. reflexivity. Qed.
