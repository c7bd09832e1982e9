(* C40: An+B is parsed to the right integers. *)
From Coq Require Import String.
From Coq Require Import List.
From Verif Require Import Parser Nth SpecLex SpecF32 SpecNth LexTrace NthLex NthProofs.
Open Scope N_scope.
Open Scope list_scope.

(* Any A and B parts, any whitespace before, inside B and after, up to the end or a closing parenthesis, anywhere in a source.
   Missing: the two spellings of SpecNth.v (refuted below), integers above 2^24 (refuted below), NUL and the inputs excluded by [well_behaved]. *)
Theorem C40_anb_partial : forall f p pre w0 A a B b r last,
  plex p = Lexer (pre ++ w0 ++ A ++ B ++ r) (blen pre) last f -> pskip p = KS_TRIVIA ->
  Forall white w0 -> a_part A a -> b_part B b -> nth_ends r -> (Z.abs a <= 2 ^ 24)%Z -> (Z.abs b <= 2 ^ 24)%Z ->
  ~ detached_minus B -> ~ dash_n_dash A B ->
  well_behaved (single_line_comments f) (A ++ B ++ r) -> ~ In 0 (A ++ B ++ r) -> blen (pre ++ w0 ++ A ++ B ++ r) < 4294967295 ->
  exists q cs, parse_nth p = Some (Ok (NthAnb a b cs), q) /\ pskip q = KS_TRIVIA /\
    exists last', plex q = Lexer (pre ++ w0 ++ A ++ B ++ r) (blen (pre ++ w0 ++ A ++ B)) last' f.
Proof.
  intros f p pre w0 A a B b r last E S Hw HA HB Hr Ha Hb H1 H2 WB NZ L.
  destruct (anb_ok f p pre w0 A a B b r (ex_intro _ last E) S (conj WB NZ) L Hw HA HB Hr Ha Hb H1 H2) as (q & cs & R & S2 & (last' & A2)).
  exists q, cs. split; [exact R |]. split; [exact S2 |]. exists last'. rewrite A2, <- !app_assoc. reflexivity.
Qed.
Print Assumptions C40_anb_partial.

Theorem C40_integer_partial : forall f p pre w0 s z ds r last,
  plex p = Lexer (pre ++ w0 ++ s ++ ds ++ r) (blen pre) last f -> pskip p = KS_TRIVIA ->
  Forall white w0 -> sign_of s z -> digits1 ds -> nth_ends r -> (int_of ds <= 2 ^ 24)%Z ->
  well_behaved (single_line_comments f) (s ++ ds ++ r) -> ~ In 0 (s ++ ds ++ r) ->
  exists q c, parse_nth p = Some (Ok (NthInteger c), q) /\ f32_as_i32 (tvalue (ctok c)) = (z * int_of ds)%Z /\ pskip q = KS_TRIVIA /\
    exists last', plex q = Lexer (pre ++ w0 ++ s ++ ds ++ r) (blen (pre ++ w0 ++ s ++ ds)) last' f.
Proof.
  intros f p pre w0 s z ds r last E S Hw Hs Hd Hr Hm WB NZ. rewrite (app_assoc s ds r) in E.
  destruct (integer_ok f p pre w0 s z ds r (ex_intro _ last E) S (conj WB NZ) Hw Hs Hd Hr Hm) as (q & c & R & V & S2 & (last' & A2)).
  exists q, c. split; [exact R |]. split; [exact V |]. split; [exact S2 |]. exists last'. rewrite A2, <- !app_assoc. reflexivity.
Qed.
Print Assumptions C40_integer_partial.

(* even and odd, in any case *)
Theorem C40_keywords_partial : forall f p pre w0 u r last,
  plex p = Lexer (pre ++ w0 ++ u ++ r) (blen pre) last f -> pskip p = KS_TRIVIA -> Forall white w0 -> nth_ends r ->
  well_behaved (single_line_comments f) (u ++ r) -> ~ In 0 (u ++ r) -> blen (pre ++ w0 ++ u ++ r) < 4294967295 ->
  (lower_text u = chars "even"%string -> exists q c, parse_nth p = Some (Ok (NthEven c), q) /\
     exists last', plex q = Lexer (pre ++ w0 ++ u ++ r) (blen (pre ++ w0 ++ u)) last' f) /\
  (lower_text u = chars "odd"%string -> exists q c, parse_nth p = Some (Ok (NthOdd c), q) /\
     exists last', plex q = Lexer (pre ++ w0 ++ u ++ r) (blen (pre ++ w0 ++ u)) last' f).
Proof.
  intros f p pre w0 u r last E S Hw Hr WB NZ L. destruct (keyword_ok f p pre w0 u r (ex_intro _ last E) S (conj WB NZ) L Hw Hr) as (H1 & H2).
  split; intro H; [destruct (H1 H) as (q & c & R & _ & (last' & A2)) | destruct (H2 H) as (q & c & R & _ & (last' & A2))]; exists q, c; (split; [exact R |]); exists last'; rewrite A2, <- !app_assoc; reflexivity.
Qed.
Print Assumptions C40_keywords_partial.

(* ---- what the code gets wrong ---- *)
(* [2n -1] is A = 2, B = -1 in CSS; the code yields B = 1 *)
Theorem C40_detached_minus_refuted : exists A B a b, a_part A a /\ b_part B b /\ (Z.abs a <= 2 ^ 24)%Z /\ (Z.abs b <= 2 ^ 24)%Z /\ A ++ B = chars "2n -1"%string /\ b = (-1)%Z /\
  anb_of "2n -1"%string = Some (a, 1%Z).
Proof.
  exists (chars "2n"%string), (chars " -1"%string), 2%Z, (-1)%Z. split; [exact (ap_digits [] 1 [50] 110 so_none ltac:(split; [discriminate | repeat constructor; unfold digit; lia]) (or_introl eq_refl)) |].
  split; [exact (bp_some [32] 45 (-1) [] [49] ltac:(repeat constructor; unfold white; lia) so_minus (Forall_nil _) ltac:(split; [discriminate | repeat constructor; unfold digit; lia])) |].
  split; [lia |]. split; [lia |]. split; [reflexivity |]. split; [reflexivity |]. vm_compute. reflexivity.
Qed.
Print Assumptions C40_detached_minus_refuted.
(* [-n- 1] is A = -1, B = -1 in CSS; the code rejects it *)
Theorem C40_dash_n_dash_refuted : exists A B a b, a_part A a /\ b_part B b /\ (Z.abs a <= 2 ^ 24)%Z /\ (Z.abs b <= 2 ^ 24)%Z /\ A ++ B = chars "-n- 1"%string /\
  nth_of "-n- 1"%string = None.
Proof.
  exists (chars "-n"%string), (chars "- 1"%string), (-1)%Z, (-1)%Z. split; [exact (ap_bare [45] (-1) 110 so_minus (or_introl eq_refl)) |].
  split; [exact (bp_some [] 45 (-1) [32] [49] (Forall_nil _) so_minus ltac:(repeat constructor; unfold white; lia) ltac:(split; [discriminate | repeat constructor; unfold digit; lia])) |].
  split; [lia |]. split; [lia |]. split; [reflexivity |]. vm_compute. reflexivity.
Qed.
Print Assumptions C40_dash_n_dash_refuted.
(* integers are read through an f32: [2n+16777217] gives B = 16777216 *)
Theorem C40_large_integer_refuted : exists A B a b, a_part A a /\ b_part B b /\ A ++ B = chars "2n+16777217"%string /\ b = 16777217%Z /\ anb_of "2n+16777217"%string = Some (a, 16777216%Z).
Proof.
  exists (chars "2n"%string), (chars "+16777217"%string), 2%Z, 16777217%Z. split; [exact (ap_digits [] 1 [50] 110 so_none ltac:(split; [discriminate | repeat constructor; unfold digit; lia]) (or_introl eq_refl)) |].
  split; [exact (bp_some [] 43 1 [] (chars "16777217"%string) (Forall_nil _) so_plus (Forall_nil _) ltac:(split; [discriminate | repeat constructor; unfold digit; cbn; lia])) |].
  split; [reflexivity |]. split; [reflexivity |]. vm_compute. reflexivity.
Qed.
Print Assumptions C40_large_integer_refuted.
(* texts that are no An+B are accepted: a B without a sign, attached or not, a dangling minus, two signs *)
Theorem C40_invalid_accepted_refuted : map anb_of ["n5"; "2n 5"; "2n-"; "+-n"]%string = map Some [(1, 5); (2, 5); (2, 0); (-1, 0)]%Z /\
  Forall (fun s => no_anb (chars s)) ["n5"; "2n 5"; "2n-"; "+-n"]%string.
Proof. split; [vm_compute; reflexivity | exact invalid_anb]. Qed.
Print Assumptions C40_invalid_accepted_refuted.

(* the hypotheses are met: [ -12N +  34 )] after [:nth-child(] *)
Example C40_case : exists A B a b, a_part A a /\ b_part B b /\ A = chars "-12N"%string /\ B = chars " +  34"%string /\ a = (-12)%Z /\ b = 34%Z /\ nth_ends (chars " )"%string) /\
  ~ detached_minus B /\ ~ dash_n_dash A B /\ well_behaved false (A ++ B ++ chars " )"%string) /\ anb_of " -12N +  34 )"%string = Some (a, b).
Proof.
  exists (chars "-12N"%string), (chars " +  34"%string), (-12)%Z, 34%Z.
  split; [exact (ap_digits [45] (-1) [49; 50] 78 so_minus ltac:(split; [discriminate | repeat constructor; unfold digit; lia]) (or_intror eq_refl)) |].
  split; [exact (bp_some [32] 43 1 [32; 32] [51; 52] ltac:(repeat constructor; unfold white; lia) so_plus ltac:(repeat constructor; unfold white; lia) ltac:(split; [discriminate | repeat constructor; unfold digit; lia])) |].
  split; [reflexivity |]. split; [reflexivity |]. split; [reflexivity |]. split; [reflexivity |].
  split; [exists [32], [41]; split; [reflexivity |]; split; [repeat constructor; unfold white; lia |]; right; exists 41, []; auto |].
  split; [intros (w & ds & E & Hw & Hn & _); destruct w as [| c w]; [congruence |]; inversion E as [[E1 E2]]; destruct w as [| d w]; [discriminate |]; inversion E2; subst; inversion Hw as [| ? ? _ Hw2]; inversion Hw2 as [| ? ? W _]; unfold white, newline in W; lia |].
  split; [intros ((n & E) & _); discriminate |]. split; [apply ordinary_spec; vm_compute; reflexivity |]. vm_compute. reflexivity.
Qed.
Example C40_keyword_case : nth_of "EVEN"%string <> None /\ nth_of " oDd )"%string <> None.
Proof. split; vm_compute; discriminate. Qed.
