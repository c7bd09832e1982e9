(* Theorems for C51: the numbers in an An+B, said by the characters of their tokens. [signless], [with_plus], [magnitude] and [anb_head] are in SpecSelectorText.v. *)
From Coq Require Import String.
From Coq Require Import List Lia.
From Verif Require Import Lexer Span Cursor Nth SpecToken SpecLex SpecTrace SpecF32 SpecCursor SpecParser SpecSyntax SpecNth SpecFeatures SpecSheet SpecSelectorText KindProofs NthLex MagnitudeProofs SheetTotal SheetReadable.
Open Scope N_scope.
Open Scope list_scope.

(* a number token is an integer when its text is digits with or without a sign: it is signless when there is no sign, it has a plus when the sign is one,
   and its value is what the digits say (every integer up to 2^24 is an f32) *)
Theorem C51_integers_say_their_digits : forall src f cs c s z ds, readable_text src f cs -> In c cs -> kind_of c = K_Number -> str_slice c src = Some (s ++ ds) -> sign_of s z -> digits1 ds ->
  integer_token c /\ (signless c <-> s = []) /\ (with_plus c <-> s = [43]) /\
  ((int_of ds <= 2 ^ 24)%Z -> magnitude c = int_of ds /\ f32_as_i32 (tvalue (ctok c)) = (z * int_of ds)%Z).
Proof.
  intros src f cs c s z ds (WB & _ & _ & LT & _ & EL & _) I K Sl Hs Hd.
  destruct (integer_value src f cs c s z ds WB LT EL I K Sl Hs Hd) as (HI & HS & HB & HV). assert (IT : integer_token c) by now split. split; [exact IT |].
  unfold signless, with_plus. split; [| split].
  - split; [intros (_ & N) | intros ->].
    + destruct Hs; [reflexivity | |]; rewrite (proj2 HS ltac:(discriminate)) in N; discriminate N.
    + split; [exact IT |]. destruct (has_sign (ctok c)); [| reflexivity]. destruct (proj1 HS eq_refl). reflexivity.
  - split; [intros (_ & N & B) | intros ->].
    + destruct Hs; [destruct (proj1 HS N); reflexivity | reflexivity |]. rewrite (proj2 HB eq_refl) in B. discriminate B.
    + split; [exact IT |]. split; [apply HS; discriminate |]. destruct (N.testbit _ 31); [| reflexivity]. discriminate (proj1 HB eq_refl).
  - intros Q. destruct (HV Q) as (E1 & E2). split; assumption.
Qed.
Print Assumptions C51_integers_say_their_digits.
(* and no other number token is an integer *)
Theorem C51_integers_are_digits : forall src f cs c, readable_text src f cs -> In c cs -> integer_token c -> exists s z ds, str_slice c src = Some (s ++ ds) /\ sign_of s z /\ digits1 ds.
Proof. intros src f cs c (WB & _ & _ & LT & _ & EL & _) I (K & HI). exact (integer_text src f cs c WB LT EL I K HI). Qed.
Print Assumptions C51_integers_are_digits.
(* the factor A of "2n", "-3N" and "+4n-1": a token whose text has an "n" after its digits says the number before it *)
Theorem C51_factors_say_their_digits : forall src f cs c s z ds n more, readable_text src f cs -> In c cs -> str_slice c src = Some (s ++ ds ++ n :: more) -> sign_of s z -> digits1 ds -> letter_n n ->
  is_int (ctok c) = true /\ ((int_of ds <= 2 ^ 24)%Z -> f32_as_i32 (tvalue (ctok c)) = (z * int_of ds)%Z).
Proof.
  intros src f cs c s z ds n more (WB & _ & _ & LT & _ & EL & _) I Sl Hs Hd Hn. apply (dimension_value src f cs c s z ds (n :: more)); try assumption. exists n, more. split; [reflexivity | exact Hn].
Qed.
Print Assumptions C51_factors_say_their_digits.
(* a case: "4 +17 -3n-1 2.0" *)
Definition numbers_text : text := chars "4 +17 -3n-1 2.0".
Definition numbers_tokens : list cursor := Eval vm_compute in match lex numbers_text no_features with Some l => l | None => [] end.
Definition ntk (i : nat) : cursor := nth i numbers_tokens (Cursor 0 T_EOF).
Example C51_integers_case : readable_text numbers_text no_features numbers_tokens /\ incl [ntk 0; ntk 2; ntk 4; ntk 6] numbers_tokens /\
  (kind_of (ntk 0) = K_Number /\ str_slice (ntk 0) numbers_text = Some ([] ++ [52]) /\ int_of [52] = 4%Z) /\
  (kind_of (ntk 2) = K_Number /\ str_slice (ntk 2) numbers_text = Some ([43] ++ [49; 55]) /\ sign_of [43] 1 /\ digits1 [49; 55] /\ int_of [49; 55] = 17%Z) /\
  (kind_of (ntk 4) = K_Dimension /\ str_slice (ntk 4) numbers_text = Some ([45] ++ [51] ++ 110 :: [45; 49]) /\ sign_of [45] (-1) /\ letter_n 110) /\
  (kind_of (ntk 6) = K_Number /\ ~ integer_token (ntk 6)).
Proof.
  split; [| split; [| split; [| split; [| split]]]].
  - destruct (text_ok_spec numbers_text no_features) as (cs & A); [vm_compute; reflexivity |]. assert (E : lex numbers_text no_features = Some numbers_tokens) by (vm_compute; reflexivity).
    pose proof A as (_ & _ & _ & _ & _ & E' & _). rewrite E in E'. injection E' as <-. exact (acceptable_readable _ _ _ A).
  - intros c H. vm_compute in H. vm_compute. tauto.
  - repeat split; vm_compute; reflexivity.
  - split; [reflexivity |]. split; [vm_compute; reflexivity |]. split; [constructor |]. split; [split; [discriminate | repeat constructor; unfold digit; lia] | vm_compute; reflexivity].
  - split; [reflexivity |]. split; [vm_compute; reflexivity |]. split; [constructor | now left].
  - split; [reflexivity |]. intros (_ & X). vm_compute in X. discriminate X.
Qed.
