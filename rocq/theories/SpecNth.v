(* CSS Syntax 3, section 6: the An+B microsyntax, as spelled. *)
From Verif Require Import Chars SpecLex SpecF32.
Open Scope N_scope.
Open Scope list_scope.

(* a sign and its factor; no sign is plus *)
Inductive sign_of : text -> Z -> Prop := so_none : sign_of [] 1 | so_plus : sign_of [43] 1 | so_minus : sign_of [45] (-1).
Definition letter_n (c : char) : Prop := c = 110 \/ c = 78.
(* the A part and its value: [sign] digits n, or [sign] n *)
Inductive a_part : text -> Z -> Prop :=
  | ap_digits : forall s z ds n, sign_of s z -> digits1 ds -> letter_n n -> a_part (s ++ ds ++ [n]) (z * int_of ds)
  | ap_bare : forall s z n, sign_of s z -> letter_n n -> a_part (s ++ [n]) z.
(* the B part: a sign and digits, with any whitespace before and after the sign; absent, it is 0 *)
Inductive b_part : text -> Z -> Prop :=
  | bp_none : b_part [] 0
  | bp_some : forall w1 c z w2 ds, Forall white w1 -> sign_of [c] z -> Forall white w2 -> digits1 ds -> b_part (w1 ++ c :: w2 ++ ds) (z * int_of ds).
(* what may follow: whitespace, then the end of the source or a closing parenthesis *)
Definition nth_ends (r : text) : Prop := exists w r', r = w ++ r' /\ Forall white w /\ (r' = [] \/ starts (eq 41) r').

(* the two spellings that the code misreads *)
(* ... n -1 : whitespace before the minus, none after *)
Definition detached_minus (B : text) : Prop := exists w ds, B = w ++ 45 :: ds /\ Forall white w /\ w <> [] /\ digits1 ds.
(* -n- 1 : no whitespace before the minus, some after, and A is -n *)
Definition dash_n_dash (A B : text) : Prop := (exists n, A = [45; n]) /\ exists c w, B = 45 :: c :: w /\ white c.
(* a text that is no An+B, with or without whitespace around *)
Definition no_anb (t : text) : Prop := forall w A B r a b, t = w ++ A ++ B ++ r -> Forall white w -> Forall white r -> a_part A a -> ~ b_part B b.
