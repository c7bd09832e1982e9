(* Proofs about parse_nth (Nth.v). *)
From Coq Require Import ZifyBool ZifyNat ZifyN.
From Coq Require Import String.
From Coq Require Import List.
From Verif Require Import Lexer Parser Write Nth SpecToken SpecLex SpecTrace SpecF32 SpecParser SpecNth LexBase LexFacts LexProps LexProps3 CursorFacts SpecCursor JoinProofs F32Proofs NthLex.
Open Scope N_scope.
Open Scope list_scope.

Definition good (f : feature) (l : text) : Prop := well_behaved (single_line_comments f) l /\ ~ In 0 l.
Lemma good_suffix : forall f a l, good f (a ++ l) -> good f l.
Proof. intros f a l (H1 & H2). split; [now apply well_behaved_suffix in H1 | now apply no0_app in H2]. Qed.

Lemma token_here : forall p f w pre x y t k, at_text p pre (w ++ x ++ y) f -> pskip p = KS_TRIVIA -> Forall white w -> x <> [] -> ~ starts white (x ++ y) ->
  scan_token f (x ++ y) = Some t -> tkind t = k -> k <> K_Eof -> k <> K_Whitespace -> k <> K_Comment -> tlen t = blen x ->
  peek_next p = Some (Cursor (blen (pre ++ w)) t) /\
  exists q, next p = Some (Cursor (blen (pre ++ w)) t, q) /\ pskip q = KS_TRIVIA /\ at_text q (pre ++ w ++ x) y f.
Proof.
  intros p f w pre x y t k A S Hw Hx Hn E K K1 K2 K3 L.
  assert (FT : first_token f (x ++ y) t) by (unfold first_token; destruct x; [congruence | exact E]).
  destruct (parser_text p f w pre (x ++ y) t A S Hw Hn FT (kept_kind t k K K1 K2 K3)) as (P1 & q & P2 & P3 & P4).
  split; [exact P1 |]. exists q. split; [exact P2 |]. split; [exact P3 |]. now apply (text_after q pre w x y f t).
Qed.
Lemma parse_one : forall p c q k, peek_next p = Some c -> k p c = Some true -> next p = Some (c, q) -> parse_single k (fun c => c) p = Some (Ok c, q).
Proof. intros p c q k H1 H2 H3. unfold parse_single, peek. now rewrite H1, H2, H3. Qed.

(* after the optional sign of B: its digits *)
Lemma b_number_ok : forall p f pre w s z ds r a bs cs, at_text p pre (w ++ (s ++ ds) ++ r) f -> pskip p = KS_TRIVIA -> good f (w ++ (s ++ ds) ++ r) ->
  Forall white w -> sign_of s z -> digits1 ds -> (int_of ds <= 2 ^ 24)%Z -> nth_ends r -> s = [] \/ bs = 0%Z ->
  exists q c, nth_b_number a bs cs p = Some (Ok (NthAnb a (int_of ds * (if (bs =? 0)%Z then 1 else bs))%Z (cs ++ [c])), q) /\ pskip q = KS_TRIVIA /\ at_text q (pre ++ w ++ (s ++ ds)) r f.
Proof.
  intros p f pre w s z ds r a bs cs A S G Hw Hs Hd Hm Hr Hb. destruct (good_suffix _ _ _ G) as (WB & NZ).
  rewrite <- app_assoc in WB, NZ. destruct (num_tok f s z ds r Hs Hd Hr WB NZ) as (t & E & K & F & I & SG & L & V). rewrite app_assoc in E.
  assert (Hn : s ++ ds <> []) by (destruct Hd as (Hd & _); destruct s, ds; try congruence; discriminate).
  assert (NW : ~ starts white ((s ++ ds) ++ r)).
  { destruct Hd as (Hd & Dd). destruct ds as [| d ds]; [congruence |]. inversion Dd; subst. destruct Hs; cbn [app]; rewrite starts_cons; unfold white, newline, digit in *; lia. }
  destruct (token_here p f w pre (s ++ ds) r t K_Number A S Hw Hn NW E K ltac:(discriminate) ltac:(discriminate) ltac:(discriminate) L) as (P1 & q & P2 & P3 & P4).
  exists q, (Cursor (blen (pre ++ w)) t). split; [| auto]. unfold nth_b_number.
  assert (TK : tok_is t K_Number = true) by (rewrite (is_kind t _ K_Number K ltac:(discriminate)); reflexivity).
  assert (PK : peek (peek_kind K_Number) p = Some true) by (unfold peek, peek_kind; rewrite P1; cbn [ctok]; now rewrite TK). rewrite PK.
  unfold bind. unfold parse_kind. rewrite (parse_one p _ q (peek_kind K_Number) P1 ltac:(unfold peek_kind; cbn [ctok]; now rewrite TK) P2). cbn [ctok]. rewrite F.
  assert (X : has_sign t && negb (bs =? 0)%Z = false).
  { destruct Hb as [-> | ->]; [| now rewrite andb_false_r]. destruct (has_sign t); [| reflexivity]. exfalso. apply SG; reflexivity. }
  rewrite X. unfold ret. rewrite (proj2 (V Hm)). reflexivity.
Qed.

(* the end of the notation: nothing is read *)
Lemma ends_token : forall p f pre r, at_text p pre r f -> pskip p = KS_TRIVIA -> good f r -> nth_ends r ->
  exists c, peek_next p = Some c /\ tok_is (ctok c) K_Number = false /\ tok_is (ctok c) K_Delim = false.
Proof.
  intros p f pre r A S G (w & r' & -> & Hw & H).
  assert (T : exists t, first_token f r' t /\ kept_token t /\ tok_is t K_Number = false /\ tok_is t K_Delim = false).
  { destruct H as [-> | (c & r0 & -> & <-)].
    - exists T_EOF. repeat split; reflexivity.
    - exists (nth 41 SINGLE_CHAR_TOKENS T_EOF). repeat split; vm_compute; reflexivity. }
  destruct T as (t & T1 & T2 & T3 & T4).
  assert (NW : ~ starts white r').
  { destruct H as [-> | (c & r0 & -> & <-)]; [intros (c & q & E & _); discriminate |]. rewrite starts_cons. unfold white, newline. lia. }
  destruct (parser_text p f w pre r' t A S Hw NW T1 T2) as (P1 & _). eexists. split; [exact P1 |]. cbn [ctok]. auto.
Qed.
Lemma b_none_ok : forall p f pre r a cs, at_text p pre r f -> pskip p = KS_TRIVIA -> good f r -> nth_ends r -> nth_b_sign a 0 cs p = Some (Ok (NthAnb a 0 cs), p).
Proof.
  intros p f pre r a cs A S G H. destruct (ends_token p f pre r A S G H) as (c & P & K1 & K2).
  unfold nth_b_sign. rewrite Z.eqb_refl. unfold nth_b_number, peek, peek_delim, peek_kind. rewrite P, K1, K2. cbn [andb]. reflexivity.
Qed.

(* a sign set off from the digits by whitespace *)
Lemma b_delim_ok : forall p f pre w1 c z w2 ds r a cs, at_text p pre (w1 ++ [c] ++ w2 ++ ds ++ r) f -> pskip p = KS_TRIVIA -> good f (w1 ++ [c] ++ w2 ++ ds ++ r) ->
  Forall white w1 -> Forall white w2 -> w2 <> [] -> sign_of [c] z -> digits1 ds -> (int_of ds <= 2 ^ 24)%Z -> nth_ends r ->
  exists q cs', nth_b_sign a 0 cs p = Some (Ok (NthAnb a (z * int_of ds)%Z cs'), q) /\ pskip q = KS_TRIVIA /\ at_text q (pre ++ w1 ++ [c] ++ w2 ++ ds) r f.
Proof.
  intros p f pre w1 c z w2 ds r a cs A S G Hw1 Hw2 Hn Hs Hd Hm Hr. pose proof (good_suffix _ _ _ G) as G1.
  assert (Hc : c = 43 \/ c = 45) by (inversion Hs; auto).
  assert (SW : starts white (w2 ++ ds ++ r)) by (destruct w2 as [| d w2]; [congruence |]; inversion Hw2; subst; exists d, (w2 ++ ds ++ r); auto).
  destruct (sign_apart c (w2 ++ ds ++ r) Hc (or_introl SW)) as (N1 & N2).
  pose proof (sign_tok f c (w2 ++ ds ++ r) Hc ltac:(apply G1) N1 N2) as E. set (t := if c =? 43 then new_delim 43 else T_DASH) in *.
  assert (F : tkind t = K_Delim /\ tlen t = blen [c] /\ tok_is t K_Delim = true /\ tok_is_char t 43 = (c =? 43) /\ tok_is_char t 45 = (c =? 45)) by (unfold t; destruct Hc as [-> | ->]; vm_compute; auto).
  destruct F as (K & L & TD & T1 & T2).
  assert (NW : ~ starts white ([c] ++ w2 ++ ds ++ r)) by (cbn [app]; rewrite starts_cons; unfold white, newline; lia).
  destruct (token_here p f w1 pre [c] (w2 ++ ds ++ r) t K_Delim A S Hw1 ltac:(discriminate) NW E K ltac:(discriminate) ltac:(discriminate) ltac:(discriminate) L) as (P1 & q & P2 & P3 & P4).
  assert (SQ : exists bs, (bs =? 0)%Z = false /\ z = bs /\ forall cs0, nth_b_sign a 0 cs0 p = nth_b_number a bs (cs0 ++ [Cursor (blen (pre ++ w1)) t]) q).
  { unfold nth_b_sign. rewrite Z.eqb_refl. unfold peek. rewrite P1. unfold peek_delim at 1. cbn [ctok]. rewrite TD, T1. inversion Hs; subst; cbn [N.eqb Pos.eqb andb].
    - exists 1%Z. split; [reflexivity |]. split; [reflexivity |]. intro cs0. unfold bind. unfold parse_delim.
      rewrite (parse_one p _ q (peek_delim 43) P1 ltac:(unfold peek_delim; cbn [ctok]; rewrite TD, T1; reflexivity) P2). reflexivity.
    - exists (-1)%Z. split; [reflexivity |]. split; [reflexivity |]. intro cs0. unfold peek_delim at 1. cbn [ctok]. rewrite TD, T2. cbn [N.eqb Pos.eqb andb]. unfold bind. unfold parse_delim.
      rewrite (parse_one p _ q (peek_delim 45) P1 ltac:(unfold peek_delim; cbn [ctok]; rewrite TD, T2; reflexivity) P2). reflexivity. }
  destruct SQ as (bs & Hb0 & <- & SQ). rewrite SQ.
  destruct (b_number_ok q f (pre ++ w1 ++ [c]) w2 [] 1 ds r a z (cs ++ [Cursor (blen (pre ++ w1)) t]) P4 P3 ltac:(now apply good_suffix in G1) Hw2 so_none Hd Hm Hr (or_introl eq_refl)) as (q2 & c2 & R & S2 & A2).
  rewrite R, Hb0. exists q2. eexists. split; [rewrite Z.mul_comm; reflexivity |]. split; [exact S2 |]. cbn [app] in A2 |- *. rewrite <- !app_assoc in A2. exact A2.
Qed.

(* digits with their sign, if any, attached: the sign is lost *)
Lemma b_attached_ok : forall p f pre w s z ds r a cs, at_text p pre (w ++ (s ++ ds) ++ r) f -> pskip p = KS_TRIVIA -> good f (w ++ (s ++ ds) ++ r) ->
  Forall white w -> sign_of s z -> digits1 ds -> (int_of ds <= 2 ^ 24)%Z -> nth_ends r ->
  exists q cs', nth_b_sign a 0 cs p = Some (Ok (NthAnb a (int_of ds) cs'), q) /\ pskip q = KS_TRIVIA /\ at_text q (pre ++ w ++ s ++ ds) r f.
Proof.
  intros p f pre w s z ds r a cs A S G Hw Hs Hd Hm Hr.
  destruct (b_number_ok p f pre w s z ds r a 0 cs A S G Hw Hs Hd Hm Hr (or_intror eq_refl)) as (q & c & R & S2 & A2). exists q, (cs ++ [c]). split; [| auto].
  destruct (good_suffix _ _ _ G) as (WB & NZ). rewrite <- app_assoc in WB, NZ. destruct (num_tok f s z ds r Hs Hd Hr WB NZ) as (t & E & K & _ & _ & _ & L & _). rewrite app_assoc in E.
  assert (Hn : s ++ ds <> []) by (destruct Hd as (Hd & _); destruct s, ds; try congruence; discriminate).
  assert (NW : ~ starts white ((s ++ ds) ++ r)).
  { destruct Hd as (Hd & Dd). destruct ds as [| d ds]; [congruence |]. inversion Dd; subst. destruct Hs; cbn [app]; rewrite starts_cons; unfold white, newline, digit in *; lia. }
  destruct (token_here p f w pre (s ++ ds) r t K_Number A S Hw Hn NW E K ltac:(discriminate) ltac:(discriminate) ltac:(discriminate) L) as (P1 & _).
  unfold nth_b_sign. rewrite Z.eqb_refl. unfold peek, peek_delim. rewrite P1. cbn [ctok]. rewrite (is_kind t _ K_Delim K ltac:(discriminate)). cbn [kind_eqb andb].
  rewrite R, Z.eqb_refl, Z.mul_1_r. reflexivity.
Qed.

(* the texts that can follow the letter n, by the token the letter ends up in *)
Inductive tail_case : text -> text -> text -> Z -> Prop :=
  | tc_none : tail_case [] [] [] 0
  | tc_spaced : forall w1 c z w2 ds, Forall white w1 -> c = 43 \/ w1 <> [] -> sign_of [c] z -> Forall white w2 -> w2 <> [] -> digits1 ds ->
      tail_case [] [] (w1 ++ [c] ++ w2 ++ ds) (z * int_of ds)
  | tc_plus : forall w1 ds, Forall white w1 -> digits1 ds -> tail_case [] [] (w1 ++ [43] ++ ds) (int_of ds)
  | tc_dash : forall w2 ds, Forall white w2 -> w2 <> [] -> digits1 ds -> tail_case [45] [] (w2 ++ ds) (- int_of ds)
  | tc_all : forall ds, digits1 ds -> tail_case [45] ds [] (- int_of ds).
Lemma b_part_cases : forall B b, b_part B b -> ~ detached_minus B -> exists j1 j2 B', B = j1 ++ j2 ++ B' /\ tail_case j1 j2 B' b.
Proof.
  intros B b [| w1 c z w2 ds Hw1 Hs Hw2 Hd] ND; [exists [], [], []; split; [reflexivity | constructor] |].
  destruct w2 as [| d2 w2'] eqn:E2; [| rewrite <- E2 in *; assert (N2 : w2 <> []) by (rewrite E2; discriminate); clear E2].
  - cbn [app] in *. inversion Hs; subst.
    + rewrite Z.mul_1_l. exists [], [], (w1 ++ [43] ++ ds). split; [reflexivity |]. now constructor.
    + destruct w1 as [| d1 w1].
      * replace (-1 * int_of ds)%Z with (- int_of ds)%Z by lia. exists [45], ds, []. rewrite app_nil_r. split; [reflexivity |]. now constructor.
      * exfalso. apply ND. exists (d1 :: w1), ds. split; [reflexivity |]. split; [exact Hw1 |]. split; [discriminate | exact Hd].
  - destruct w1 as [| d1 w1'] eqn:E1; [| rewrite <- E1 in *; assert (N1 : w1 <> []) by (rewrite E1; discriminate); clear E1].
    + inversion Hs; subst.
      * exists [], [], ([] ++ [43] ++ w2 ++ ds). split; [reflexivity |]. constructor; auto.
      * replace (-1 * int_of ds)%Z with (- int_of ds)%Z by lia. exists [45], [], (w2 ++ ds). split; [reflexivity |]. now constructor.
    + exists [], [], (w1 ++ [c] ++ w2 ++ ds). split; [reflexivity |]. constructor; auto.
Qed.

Lemma tail_gap : forall j1 j2 B b r, tail_case j1 j2 B b -> nth_ends r -> gap (B ++ r).
Proof.
  intros j1 j2 B b r H Hr. assert (W : forall w x, Forall white w -> gap x -> gap (w ++ x)).
  { intros w x Hw Hx. destruct w as [| c w]; [exact Hx |]. apply white_gap; [exact Hw | discriminate]. }
  destruct H as [| w1 c z w2 ds Hw1 Hc Hs Hw2 Hn Hd | w1 ds Hw1 Hd | w2 ds Hw2 Hn Hd | ds Hd].
  - now apply ends_gap.
  - rewrite <- !app_assoc. destruct w1 as [| d w1]; [| apply white_gap; [exact Hw1 | discriminate]]. destruct Hc as [-> | Hc]; [| congruence].
    right. exists 43, (w2 ++ ds ++ r). auto.
  - rewrite <- !app_assoc. apply W; [exact Hw1 |]. right. exists 43, (ds ++ r). auto.
  - rewrite <- !app_assoc. now apply white_gap.
  - now apply ends_gap.
Qed.
Lemma tail_name : forall n j1 j2 B b, letter_n n -> tail_case j1 j2 B b -> n_name (n :: j1 ++ j2).
Proof.
  intros n j1 j2 B b Hn H. exists n, (j1 ++ j2). split; [reflexivity |]. split; [exact Hn |].
  destruct H as [| w1 c z w2 ds Hw1 Hc Hs Hw2 Hn2 Hd | w1 ds Hw1 Hd | w2 ds Hw2 Hn2 Hd | ds Hd]; cbn [app]; try constructor; auto.
  eapply Forall_impl; [| exact (proj2 Hd)]. cbn. auto.
Qed.

(* str::parse::<i32> of "-" and digits *)
Lemma dec_value_digits : forall ds a, digits ds -> dec_value ds a = Some (fold_left (fun a c => a * 10 + (Z.of_N c - 48))%Z ds a).
Proof.
  induction ds as [| c ds IH]; intros a H; [reflexivity |]. inversion H as [| ? ? Hc H']; subst. cbn [dec_value fold_left].
  assert (D : is_ascii_digit c = true) by (unfold is_ascii_digit; unfold digit in Hc; lia). rewrite D. apply IH, H'.
Qed.
Lemma parse_i32_minus : forall ds, digits1 ds -> (int_of ds <= 2 ^ 31)%Z -> parse_i32 (45 :: ds) = Some (- int_of ds)%Z.
Proof.
  intros ds (Hn & Hd) Hm. unfold parse_i32. cbn [N.eqb Pos.eqb]. pose proof (int_of_nonneg ds Hd) as H0. rewrite (dec_value_digits ds 0 Hd).
  fold (int_of ds). destruct ds as [| c ds]; [congruence |]. cbv zeta.
  destruct ((- 2 ^ 31 <=? - int_of (c :: ds)) && (- int_of (c :: ds) <=? 2 ^ 31 - 1))%Z eqn:Q; [reflexivity | lia].
Qed.
Lemma lower_digits : forall ds, digits ds -> lower_text ds = ds.
Proof.
  intros ds H. induction H as [| c ds Hc H IH]; [reflexivity |]. cbn [lower_text map]. fold (lower_text ds). rewrite IH. f_equal.
  unfold to_ascii_lowercase, is_ascii_upper. unfold digit in Hc. destruct ((65 <=? c) && (c <=? 90)) eqn:E; [lia | reflexivity].
Qed.
Lemma lower_n : forall n, letter_n n -> to_ascii_lowercase n = 110.
Proof. intros n [-> | ->]; reflexivity. Qed.

(* the whole of B, once the token holding the n has been read *)
Lemma nth_a_ok : forall p f pre d n j1 j2 B b r c cs a, letter_n n -> tail_case j1 j2 B b -> (Z.abs b <= 2 ^ 24)%Z -> nth_ends r ->
  at_text p pre (B ++ r) f -> pskip p = KS_TRIVIA -> good f (B ++ r) ->
  tkind (ctok c) = K_Dimension \/ tkind (ctok c) = K_Ident -> is_float (ctok c) = false ->
  parse_str_lower c (pre ++ B ++ r) = Some (lower_text (d ++ n :: j1 ++ j2)) ->
  (is_int (ctok c) = true /\ d = [] /\ f32_as_i32 (tvalue (ctok c)) = a) \/ (is_int (ctok c) = false /\ d = [] /\ a = 1%Z) \/
    (is_int (ctok c) = false /\ d = [45] /\ a = (-1)%Z /\ ~ (j1 = [45] /\ j2 = [])) ->
  exists q cs', nth_a c cs p = Some (Ok (NthAnb a b cs'), q) /\ pskip q = KS_TRIVIA /\ at_text q (pre ++ B) r f.
Proof.
  intros p f pre d n j1 j2 B b r c cs a Hn HT Hb Hr A S G HK HF HL HA.
  assert (KI : negb (kind_in (tkind (ctok c)) [K_Number; K_Dimension; K_Ident]) = false) by (destruct HK as [-> | ->]; reflexivity).
  assert (SRC : lsrc (plex p) = pre ++ B ++ r) by (destruct A as (last & ->); reflexivity).
  unfold nth_a. rewrite KI, HF. unfold bind at 1. unfold p_str_lower. rewrite SRC, HL.
  assert (LN : lower_text (d ++ n :: j1 ++ j2) = lower_text d ++ 110 :: lower_text j1 ++ lower_text j2).
  { unfold lower_text. rewrite map_app. cbn [map]. rewrite map_app, (lower_n n Hn). reflexivity. }
  (* split on whether the text is exactly "n-" *)
  assert (CASE : (j1 = [45] /\ j2 = [] /\ d = []) \/
    (text_eqb (lower_text d ++ 110 :: lower_text j1 ++ lower_text j2) (chars "n-"%string) = false /\ ~ (j1 = [45] /\ j2 = []))).
  { destruct HT as [| w1 c0 z w2 ds Hw1 Hc Hs Hw2 Hn2 Hd | w1 ds Hw1 Hd | w2 ds Hw2 Hn2 Hd | ds Hd].
    - right. split; [| intros (Q & _); discriminate]. destruct HA as [(_ & -> & _) | [(_ & -> & _) | (_ & -> & _)]]; reflexivity.
    - right. split; [| intros (Q & _); discriminate]. destruct HA as [(_ & -> & _) | [(_ & -> & _) | (_ & -> & _)]]; reflexivity.
    - right. split; [| intros (Q & _); discriminate]. destruct HA as [(_ & -> & _) | [(_ & -> & _) | (_ & -> & _)]]; reflexivity.
    - left. destruct HA as [(_ & -> & _) | [(_ & -> & _) | (_ & _ & _ & Q)]]; [auto | auto | exfalso; apply Q; auto].
    - right. rewrite (lower_digits ds (proj2 Hd)). destruct Hd as (Hd & _). destruct ds as [| x ds]; [congruence |]. split; [| intros (_ & Q); discriminate].
      destruct HA as [(_ & -> & _) | [(_ & -> & _) | (_ & -> & _)]]; reflexivity. }
  rewrite LN. destruct CASE as [(E1 & E2 & E3) | (TE & NJ)].
  - subst. inversion HT as [| | | w2 ds Hw2 Hn2 Hd |]; subst; [| exfalso; match goal with H : digits1 [] |- _ => destruct H as (H & _); congruence end].
    cbn [app lower_text map]. change (text_eqb (110 :: to_ascii_lowercase 45 :: []) (chars "n-"%string)) with true. cbv iota.
    assert (AA : (if is_int (ctok c) then f32_as_i32 (tvalue (ctok c)) else 1%Z) = a).
    { destruct HA as [(-> & _ & Q) | [(-> & _ & Q) | (_ & Q & _)]]; [exact Q | symmetry; exact Q | discriminate]. }
    rewrite AA. unfold nth_b_sign. change (-1 =? 0)%Z with false. cbv iota.
    pose proof (int_of_nonneg ds (proj2 Hd)). rewrite <- app_assoc in A, G.
    destruct (b_number_ok p f pre w2 [] 1 ds r a (-1) cs A S G Hw2 so_none Hd ltac:(lia) Hr (or_introl eq_refl)) as (q & c2 & R & S2 & A2).
    change (-1 =? 0)%Z with false in R. cbv iota in R. rewrite R. exists q, (cs ++ [c2]). split; [| split; [exact S2 | exact A2]]. do 4 f_equal. lia.
  - rewrite TE. clear TE LN.
    assert (REST : exists aa, (if is_int (ctok c) then (f32_as_i32 (tvalue (ctok c)), lower_text d ++ 110 :: lower_text j1 ++ lower_text j2)
        else match lower_text d ++ 110 :: lower_text j1 ++ lower_text j2 with 45 :: r0 => ((-1)%Z, r0) | _ => (1%Z, lower_text d ++ 110 :: lower_text j1 ++ lower_text j2) end) =
        (aa, 110 :: lower_text j1 ++ lower_text j2) /\ aa = a).
    { destruct HA as [(-> & -> & Q) | [(-> & -> & Q) | (-> & -> & Q & _)]]; cbn [app lower_text map]; eexists; (split; [reflexivity | auto]). }
    destruct REST as (aa & -> & ->). cbn [N.eqb Pos.eqb orb negb].
    destruct HT as [| w1 c0 z w2 ds Hw1 Hc Hs Hw2 Hn2 Hd | w1 ds Hw1 Hd | w2 ds Hw2 Hn2 Hd | ds Hd]; cbn [lower_text map app] in *.
    + change (parse_i32 []) with (@None Z). cbv iota beta. rewrite (b_none_ok p f pre r a cs A S G Hr). exists p, cs. rewrite app_nil_r. auto.
    + change (parse_i32 []) with (@None Z). cbv iota beta. pose proof (int_of_nonneg ds (proj2 Hd)). rewrite <- app_assoc in A, G. cbn [app] in A, G. rewrite <- app_assoc in A, G.
      apply (b_delim_ok p f pre w1 c0 z w2 ds r a cs); auto. inversion Hs; subst; lia.
    + change (parse_i32 []) with (@None Z). cbv iota beta. pose proof (int_of_nonneg ds (proj2 Hd)). rewrite <- app_assoc in A, G.
      apply (b_attached_ok p f pre w1 [43] 1 ds r a cs); auto; [constructor | lia].
    + exfalso. apply NJ. auto.
    + change (to_ascii_lowercase 45) with 45. fold (lower_text ds). rewrite (lower_digits ds (proj2 Hd)). pose proof (int_of_nonneg ds (proj2 Hd)). rewrite (parse_i32_minus ds Hd) by lia.
      unfold ret. exists p, cs. rewrite app_nil_r. auto.
Qed.

Lemma letter_no_char : forall t k ch, tkind t = k -> k = K_Dimension \/ k = K_Ident -> tok_is_char t ch = false.
Proof.
  intros t k ch K H. unfold tok_is_char, tchar, is_delim_like. pose proof (kind_bits_of t k K) as B. destruct H as [-> | ->]; rewrite B by discriminate; reflexivity.
Qed.
(* the next token with nothing skipped *)
Lemma token_here_none : forall p f pre x y t, at_text p pre (x ++ y) f -> x <> [] -> scan_token f (x ++ y) = Some t -> tlen t = blen x ->
  exists q, parse_any (set_skip p KS_NONE) = Some (Ok (Cursor (blen pre) t), q) /\ at_text q (pre ++ x) y f.
Proof.
  intros p f pre x y t (last & A) Hx E L.
  assert (FT : first_token f (x ++ y) t) by (unfold first_token; destruct x; [congruence | exact E]).
  pose proof (first_advance f pre (x ++ y) t last FT) as AD.
  assert (TI : tok_in t KS_NONE = false).
  { unfold tok_in. destruct (kindset_contains_bits KS_NONE (kind_bits t)) eqn:Q; [| reflexivity]. vm_compute in Q. discriminate. }
  unfold parse_any, parse_single, peek, peek_next, next, pfuel. cbn [plex set_skip pskip ptrivia]. rewrite A. cbn [peek_loop next_loop]. rewrite AD, TI. cbn [negb]. rewrite orb_true_r.
  eexists. split; [reflexivity |]. exists t. cbn [plex with_lex_trivia set_skip]. rewrite L, <- app_assoc, blen_app. reflexivity.
Qed.

Lemma peek_kind_at : forall p c k k', peek_next p = Some c -> tkind (ctok c) = k -> k <> K_Eof -> peek (peek_kind k') p = Some (kind_eqb k k').
Proof. intros p c k k' H K HK. unfold peek, peek_kind. rewrite H. f_equal. now apply is_kind. Qed.
Lemma letter_n_letter : forall n, letter_n n -> letter n.
Proof. intros n [-> | ->]; unfold letter, upper, lower; lia. Qed.
Lemma head_white : forall x y, x <> [] -> ~ starts white x -> ~ starts white (x ++ y).
Proof. intros x y Hx H Q. destruct x as [| c x]; [congruence |]. cbn [app] in Q. rewrite starts_cons in Q. apply H. now rewrite starts_cons. Qed.

Theorem anb_ok : forall f p pre w0 A a B b r, at_text p pre (w0 ++ A ++ B ++ r) f -> pskip p = KS_TRIVIA -> good f (A ++ B ++ r) -> blen (pre ++ w0 ++ A ++ B ++ r) < 4294967295 ->
  Forall white w0 -> a_part A a -> b_part B b -> nth_ends r -> (Z.abs a <= 2 ^ 24)%Z -> (Z.abs b <= 2 ^ 24)%Z -> ~ detached_minus B -> ~ dash_n_dash A B ->
  exists q cs, parse_nth p = Some (Ok (NthAnb a b cs), q) /\ pskip q = KS_TRIVIA /\ at_text q (pre ++ w0 ++ A ++ B) r f.
Proof.
  intros f p pre w0 A a B b r AT S G HB Hw HA HBp Hr Ha Hb ND NDD.
  destruct (b_part_cases B b HBp ND) as (j1 & j2 & B' & -> & TC). pose proof (tail_gap j1 j2 B' b r TC Hr) as GP. destruct (gap_facts _ GP) as (Y1 & Y2 & Y3 & _).
  destruct HA as [s z ds n Hs Hd Hn | s z n Hs Hn].
  - (* digits: one dimension token *)
    pose proof (tail_name n j1 j2 B' b Hn TC) as NN. set (u := n :: j1 ++ j2) in *.
    assert (EQ : (s ++ ds ++ [n]) ++ (j1 ++ j2 ++ B') ++ r = (s ++ ds ++ u) ++ B' ++ r) by (unfold u; cbn [app]; rewrite <- !app_assoc; cbn [app]; now rewrite <- !app_assoc).
    rewrite EQ in *. clear EQ.
    assert (EQ2 : pre ++ w0 ++ (s ++ ds ++ [n]) ++ j1 ++ j2 ++ B' = (pre ++ w0 ++ s ++ ds ++ u) ++ B') by (unfold u; rewrite <- !app_assoc; cbn [app]; rewrite <- ?app_assoc; reflexivity).
    pose proof (int_of_nonneg ds (proj2 Hd)) as H0.
    assert (Hm : (int_of ds <= 2 ^ 24)%Z) by (inversion Hs; subst; lia).
    destruct G as (WB & NZ). assert (WB' := WB). assert (NZ' := NZ). rewrite <- !app_assoc in WB', NZ'.
    assert (HD : blen (pre ++ w0) <> DUMMY_OFFSET) by (rewrite app_assoc, blen_app in HB; unfold DUMMY_OFFSET; lia).
    destruct (dim_token f (pre ++ w0) s z ds u (B' ++ r) Hs Hd NN Y1 Y2 WB' NZ' HD) as (t & E & K & F & I & L & V & PS).
    rewrite !app_assoc in E. rewrite <- (app_assoc s ds u) in E. rewrite <- app_assoc in E.
    assert (Hx : s ++ ds ++ u <> []) by (destruct Hd as (Hd & _); destruct s, ds; try congruence; discriminate).
    assert (NW : ~ starts white ((s ++ ds ++ u) ++ B' ++ r)).
    { apply head_white; [exact Hx |]. destruct Hd as (Hd & Dd). destruct ds as [| d ds]; [congruence |]. inversion Dd; subst. destruct Hs; cbn [app]; rewrite starts_cons; unfold white, newline, digit in *; lia. }
    destruct (token_here p f w0 pre (s ++ ds ++ u) (B' ++ r) t K_Dimension AT S Hw Hx NW E K ltac:(discriminate) ltac:(discriminate) ltac:(discriminate) L) as (P1 & q & P2 & P3 & P4).
    set (c := Cursor (blen (pre ++ w0)) t) in *.
    assert (GB : good f (B' ++ r)) by (apply (good_suffix f (s ++ ds ++ u)); split; assumption).
    assert (PS' : parse_str_lower c ((pre ++ w0 ++ s ++ ds ++ u) ++ B' ++ r) = Some (lower_text ([] ++ n :: j1 ++ j2))).
    { rewrite <- !app_assoc. rewrite <- !app_assoc in PS. exact PS. }
    destruct (nth_a_ok q f (pre ++ w0 ++ s ++ ds ++ u) [] n j1 j2 B' b r c [c] (z * int_of ds)%Z Hn TC Hb Hr P4 P3 GB (or_introl K) F PS'
      (or_introl (conj I (conj eq_refl (V Hm))))) as (q2 & cs & R & S2 & A2).
    exists q2, cs. split; [| split; [exact S2 | rewrite EQ2; exact A2]]. unfold parse_nth.
    rewrite (peek_kind_at p c _ K_Number P1 K ltac:(discriminate)), (peek_kind_at p c _ K_Ident P1 K ltac:(discriminate)). cbn [kind_eqb].
    unfold bind, parse_any. rewrite (parse_one p c q (fun _ _ => Some true) P1 eq_refl P2). unfold nth_anb. change (ctok c) with t. rewrite (letter_no_char t _ 43 K (or_introl eq_refl)). exact R.
  - (* no digits *)
    pose proof (tail_name n j1 j2 B' b Hn TC) as NN. set (u := n :: j1 ++ j2) in *.
    assert (HU : Forall ident_cp u) by now apply n_name_cp. assert (HSU : starts letter u) by (unfold u; rewrite starts_cons; now apply letter_n_letter).
    assert (EQ : (s ++ [n]) ++ (j1 ++ j2 ++ B') ++ r = s ++ u ++ B' ++ r) by (unfold u; cbn [app]; rewrite <- !app_assoc; cbn [app]; now rewrite <- ?app_assoc).
    rewrite EQ in *. clear EQ.
    assert (EQ2 : pre ++ w0 ++ (s ++ [n]) ++ j1 ++ j2 ++ B' = (pre ++ w0 ++ s ++ u) ++ B') by (unfold u; rewrite <- !app_assoc; cbn [app]; rewrite <- ?app_assoc; reflexivity).
    assert (Hx : u <> []) by discriminate.
    assert (NWu : ~ starts white (u ++ B' ++ r)) by (apply head_white; [exact Hx |]; unfold u; rewrite starts_cons; unfold letter_n, white, newline in *; lia).
    assert (LT : forall d, d = [] \/ d = [45] -> text_eqb (lower_text (d ++ u)) (chars "even"%string) = false /\ text_eqb (lower_text (d ++ u)) (chars "odd"%string) = false).
    { intros d [-> | ->]; unfold u; cbn [app lower_text map]; rewrite ?(lower_n n Hn); split; reflexivity. }
    assert (SC : s = [43] \/ s = [] \/ s = [45]) by (inversion Hs; auto). destruct SC as [-> | SC].
    + (* a plus sign of its own, then the identifier *)
      assert (z = 1%Z) by (inversion Hs; reflexivity). subst z.
      destruct (sign_apart 43 (u ++ B' ++ r) (or_introl eq_refl) ltac:(right; split; [reflexivity | unfold u; cbn [app]; rewrite starts_cons; exact Hn])) as (N1 & N2).
      pose proof (sign_tok f 43 (u ++ B' ++ r) (or_introl eq_refl) ltac:(apply G) N1 N2) as E. cbn [N.eqb Pos.eqb] in E.
      destruct (token_here p f w0 pre [43] (u ++ B' ++ r) (new_delim 43) K_Delim AT S Hw ltac:(discriminate) ltac:(cbn [app]; rewrite starts_cons; unfold white, newline; lia) E eq_refl ltac:(discriminate) ltac:(discriminate) ltac:(discriminate) eq_refl) as (P1 & q & P2 & P3 & P4).
      set (c := Cursor (blen (pre ++ w0)) (new_delim 43)) in *.
      destruct (good_suffix f [43] _ G) as (WB & NZ).
      destruct (ident_tok f (pre ++ w0 ++ [43]) [] u (B' ++ r) (or_introl eq_refl) HU HSU Y1 Y2 Y3 WB NZ) as (t & E2 & K & F & I & L & PS).
      { rewrite <- !app_assoc. exact HB. }
      cbn [app] in E2, L.
      destruct (token_here_none q f (pre ++ w0 ++ [43]) u (B' ++ r) t P4 Hx E2 L) as (q1 & PA & A1).
      set (c2 := Cursor (blen (pre ++ w0 ++ [43])) t) in *. set (q1' := set_skip q1 (pskip q)).
      assert (A1' : at_text q1' (pre ++ w0 ++ [43] ++ u) (B' ++ r) f). { destruct A1 as (last & A1). exists last. unfold q1'. cbn [plex set_skip]. rewrite A1, <- !app_assoc. reflexivity. }
      assert (GB : good f (B' ++ r)) by (apply (good_suffix f u); split; assumption).
      destruct (nth_a_ok q1' f (pre ++ w0 ++ [43] ++ u) [] n j1 j2 B' b r c2 [c; c2] 1 Hn TC Hb Hr A1' P3 GB (or_intror K) F) as (q2 & cs & R & S2 & A2).
      { rewrite <- !app_assoc. rewrite <- !app_assoc in PS. exact PS. }
      { right. left. auto. }
      exists q2, cs. split; [| split; [exact S2 | rewrite EQ2; exact A2]]. unfold parse_nth.
      rewrite (peek_kind_at p c K_Delim K_Number P1 eq_refl ltac:(discriminate)), (peek_kind_at p c K_Delim K_Ident P1 eq_refl ltac:(discriminate)). cbn [kind_eqb].
      unfold bind. unfold parse_any at 1. rewrite (parse_one p c q (fun _ _ => Some true) P1 eq_refl P2). unfold nth_anb. cbn [ctok].
      change (tok_is_char (ctok c) 43) with true. cbv iota. rewrite PA. exact R.
    + (* one identifier *)
      destruct G as (WB & NZ).
      destruct (ident_tok f (pre ++ w0) s u (B' ++ r) SC HU HSU Y1 Y2 Y3 WB NZ) as (t & E & K & F & I & L & PS).
      { rewrite <- !app_assoc. exact HB. }
      rewrite app_assoc in E.
      assert (Hsu : s ++ u <> []) by (destruct s; discriminate).
      assert (NW : ~ starts white ((s ++ u) ++ B' ++ r)).
      { rewrite <- app_assoc. destruct SC as [-> | ->]; [exact NWu | cbn [app]; rewrite starts_cons; unfold white, newline; lia]. }
      rewrite (app_assoc s u) in AT.
      destruct (token_here p f w0 pre (s ++ u) (B' ++ r) t K_Ident AT S Hw Hsu NW E K ltac:(discriminate) ltac:(discriminate) ltac:(discriminate) L) as (P1 & q & P2 & P3 & P4).
      set (c := Cursor (blen (pre ++ w0)) t) in *.
      assert (GB : good f (B' ++ r)) by (apply (good_suffix f (s ++ u)); rewrite <- app_assoc; split; assumption).
      assert (PS' : parse_str_lower c ((pre ++ w0 ++ s ++ u) ++ B' ++ r) = Some (lower_text (s ++ u))).
      { rewrite <- !app_assoc. rewrite <- !app_assoc in PS. exact PS. }
      destruct (nth_a_ok q f (pre ++ w0 ++ s ++ u) s n j1 j2 B' b r c [c] z Hn TC Hb Hr P4 P3 GB (or_intror K) F PS') as (q2 & cs & R & S2 & A2).
      { right. destruct SC as [-> | ->]; [left | right]; (split; [exact I |]); (split; [reflexivity |]); [inversion Hs; reflexivity |].
        split; [inversion Hs; reflexivity |]. intros (-> & ->). apply NDD. split; [exists n; reflexivity |].
        inversion TC as [| | | w2 ds Hw2 Hn2 Hd |]; subst; [| match goal with H : digits1 [] |- _ => destruct H as (H & _); congruence end].
        destruct w2 as [| e w2]; [congruence |]. inversion Hw2; subst. exists e, (w2 ++ ds). auto. }
      exists q2, cs. split; [| split; [exact S2 | rewrite EQ2; exact A2]]. unfold parse_nth.
      rewrite (peek_kind_at p c _ K_Number P1 K ltac:(discriminate)), (peek_kind_at p c _ K_Ident P1 K ltac:(discriminate)). cbn [kind_eqb].
      unfold bind. unfold parse_kind. rewrite (parse_one p c q (peek_kind K_Ident) P1 ltac:(unfold peek_kind; cbn [ctok c]; rewrite (is_kind t _ K_Ident K ltac:(discriminate)); reflexivity) P2).
      unfold p_str_lower. assert (SRC : lsrc (plex q) = (pre ++ w0 ++ s ++ u) ++ B' ++ r) by (destruct P4 as (last & ->); reflexivity). rewrite SRC, PS'.
      destruct (LT s SC) as (-> & ->). unfold nth_anb. cbn [ctok c]. rewrite (letter_no_char t _ 43 K (or_intror eq_refl)). exact R.
Qed.

Theorem integer_ok : forall f p pre w0 s z ds r, at_text p pre (w0 ++ (s ++ ds) ++ r) f -> pskip p = KS_TRIVIA -> good f (s ++ ds ++ r) ->
  Forall white w0 -> sign_of s z -> digits1 ds -> nth_ends r -> (int_of ds <= 2 ^ 24)%Z ->
  exists q c, parse_nth p = Some (Ok (NthInteger c), q) /\ f32_as_i32 (tvalue (ctok c)) = (z * int_of ds)%Z /\ pskip q = KS_TRIVIA /\ at_text q (pre ++ w0 ++ s ++ ds) r f.
Proof.
  intros f p pre w0 s z ds r AT S (WB & NZ) Hw Hs Hd Hr Hm. destruct (num_tok f s z ds r Hs Hd Hr WB NZ) as (t & E & K & F & I & SG & L & V). rewrite app_assoc in E.
  assert (Hn : s ++ ds <> []) by (destruct Hd as (Hd & _); destruct s, ds; try congruence; discriminate).
  assert (NW : ~ starts white ((s ++ ds) ++ r)).
  { destruct Hd as (Hd & Dd). destruct ds as [| d ds]; [congruence |]. inversion Dd; subst. destruct Hs; cbn [app]; rewrite starts_cons; unfold white, newline, digit in *; lia. }
  destruct (token_here p f w0 pre (s ++ ds) r t K_Number AT S Hw Hn NW E K ltac:(discriminate) ltac:(discriminate) ltac:(discriminate) L) as (P1 & q & P2 & P3 & P4).
  exists q, (Cursor (blen (pre ++ w0)) t). split; [| split; [exact (proj1 (V Hm)) | auto]]. unfold parse_nth.
  rewrite (peek_kind_at p _ _ K_Number P1 K ltac:(discriminate)). cbn [kind_eqb]. unfold pmap, bind, parse_css_int.
  rewrite (parse_one p _ q peek_css_int P1 ltac:(unfold peek_css_int; cbn [ctok]; rewrite (is_kind t _ K_Number K ltac:(discriminate)), I; reflexivity) P2). reflexivity.
Qed.

Theorem keyword_ok : forall f p pre w0 u r, at_text p pre (w0 ++ u ++ r) f -> pskip p = KS_TRIVIA -> good f (u ++ r) -> blen (pre ++ w0 ++ u ++ r) < 4294967295 ->
  Forall white w0 -> nth_ends r ->
  (lower_text u = chars "even"%string -> exists q c, parse_nth p = Some (Ok (NthEven c), q) /\ pskip q = KS_TRIVIA /\ at_text q (pre ++ w0 ++ u) r f) /\
  (lower_text u = chars "odd"%string -> exists q c, parse_nth p = Some (Ok (NthOdd c), q) /\ pskip q = KS_TRIVIA /\ at_text q (pre ++ w0 ++ u) r f).
Proof.
  intros f p pre w0 u r AT S (WB & NZ) HB Hw Hr. destruct (gap_facts _ (ends_gap _ Hr)) as (Y1 & Y2 & Y3 & _).
  assert (LC : forall c, letter (to_ascii_lowercase c) -> letter c).
  { intros c. unfold to_ascii_lowercase, is_ascii_upper, letter, upper, lower. destruct ((65 <=? c) && (c <=? 90)) eqn:Q; lia. }
  assert (LETTERS : (lower_text u = chars "even"%string \/ lower_text u = chars "odd"%string) -> Forall letter u).
  { intro H. assert (FL : Forall letter (lower_text u)) by (destruct H as [-> | ->]; repeat constructor; unfold letter, lower; cbn; lia).
    unfold lower_text in FL. rewrite Forall_map in FL. eapply Forall_impl; [| exact FL]. auto. }
  assert (MAIN : (lower_text u = chars "even"%string \/ lower_text u = chars "odd"%string) ->
    exists q c, peek_next p = Some c /\ next p = Some (c, q) /\ tkind (ctok c) = K_Ident /\ parse_str_lower c (lsrc (plex q)) = Some (lower_text u) /\ pskip q = KS_TRIVIA /\ at_text q (pre ++ w0 ++ u) r f).
  { intro H. pose proof (LETTERS H) as FL. assert (Hx : u <> []) by (intros ->; destruct H; discriminate).
    assert (HU : Forall ident_cp u) by (eapply Forall_impl; [| exact FL]; intros c Hc; left; left; exact Hc).
    assert (HSU : starts letter u) by (destruct u as [| c u]; [congruence |]; rewrite starts_cons; inversion FL; auto).
    destruct (ident_tok f (pre ++ w0) [] u r (or_introl eq_refl) HU HSU Y1 Y2 Y3 WB NZ) as (t & E & K & F & I & L & PS); [rewrite <- app_assoc; exact HB |].
    cbn [app] in E, L, PS.
    assert (NW : ~ starts white (u ++ r)) by (apply head_white; [exact Hx |]; destruct u as [| c u]; [congruence |]; rewrite starts_cons in *; unfold letter, upper, lower, white, newline in *; lia).
    destruct (token_here p f w0 pre u r t K_Ident AT S Hw Hx NW E K ltac:(discriminate) ltac:(discriminate) ltac:(discriminate) L) as (P1 & q & P2 & P3 & P4).
    exists q, (Cursor (blen (pre ++ w0)) t). split; [exact P1 |]. split; [exact P2 |]. split; [exact K |]. split; [| auto].
    destruct P4 as (last & ->). cbn [lsrc]. rewrite <- !app_assoc in *. exact PS. }
  split; intro H; destruct (MAIN ltac:(auto)) as (q & c & P1 & P2 & K & PS & S2 & A2); exists q, c; (split; [| auto]); unfold parse_nth;
    rewrite (peek_kind_at p c _ K_Number P1 K ltac:(discriminate)), (peek_kind_at p c _ K_Ident P1 K ltac:(discriminate)); cbn [kind_eqb];
    unfold bind; unfold parse_kind; rewrite (parse_one p c q (peek_kind K_Ident) P1 ltac:(unfold peek_kind; rewrite (is_kind _ _ K_Ident K ltac:(discriminate)); reflexivity) P2);
    unfold p_str_lower; rewrite PS, H; reflexivity.
Qed.

(* ---- texts that are no An+B ---- *)
Lemma snoc_inj : forall (a b : text) x y, a ++ [x] = b ++ [y] -> a = b /\ x = y.
Proof. intros. now apply app_inj_tail. Qed.
Lemma a_part_end : forall A a, a_part A a -> exists A' n, A = A' ++ [n] /\ letter_n n.
Proof. intros A a [s z ds n _ _ Hn | s z n _ Hn]; [exists (s ++ ds), n; now rewrite <- app_assoc | exists s, n; auto]. Qed.
Lemma b_part_end : forall B b, b_part B b -> B = [] \/ (exists B' d, B = B' ++ [d] /\ digit d) /\ exists c, In c B /\ sign c.
Proof.
  intros B b [| w1 c z w2 ds Hw1 Hs Hw2 (Hn & Hd)]; [now left |]. right. split.
  - destruct (exists_last Hn) as (ds' & d & ->). exists (w1 ++ c :: w2 ++ ds'), d. split; [now rewrite <- !app_assoc; cbn [app]; rewrite <- app_assoc |]. apply Forall_app in Hd. destruct Hd as (_ & Hd). now inversion Hd.
  - exists c. split; [apply in_or_app; right; now left |]. unfold sign. inversion Hs; auto.
Qed.
Lemma not_anb : forall t l c, t = l ++ [c] -> ~ white c -> ~ (digit c /\ exists s, In s t /\ sign s) -> (letter_n c -> forall w A a, t = w ++ A -> Forall white w -> ~ a_part A a) -> no_anb t.
Proof.
  intros t l c Et Wc Hd Hl w A B r a b E Hw Hr HA HB.
  assert (Er : r = []).
  { destruct r as [| x r]; [reflexivity |]. exfalso. destruct (@exists_last _ (x :: r) ltac:(discriminate)) as (r' & y & Ey). rewrite Ey in *.
    rewrite !app_assoc in E. rewrite Et in E. apply snoc_inj in E. destruct E as (_ & <-). apply Forall_app in Hr. destruct Hr as (_ & Hr). inversion Hr; contradiction. }
  subst r. rewrite app_nil_r in E. destruct (b_part_end B b HB) as [-> | ((B' & d & EB & Dd) & (s & Is & Ss))].
  - rewrite app_nil_r in E. destruct (a_part_end A a HA) as (A' & n & EA & Hn). assert (c = n) by (rewrite Et, EA, app_assoc in E; now apply snoc_inj in E). subst n.
    exact (Hl Hn w A a E Hw HA).
  - apply Hd. assert (c = d) by (rewrite Et, EB, !app_assoc in E; now apply snoc_inj in E). subst d. split; [exact Dd |]. exists s. split; [| exact Ss].
    rewrite E. apply in_or_app. right. apply in_or_app. now right.
Qed.
Lemma invalid_anb : Forall (fun s => no_anb (chars s)) ["n5"; "2n 5"; "2n-"; "+-n"]%string.
Proof.
  repeat apply Forall_cons; [| | | | constructor].
  - apply (not_anb _ [110] 53); [reflexivity | unfold white, newline; lia | | unfold letter_n; lia].
    intros (_ & s & I & Ss). cbn in I. unfold sign in Ss. lia.
  - apply (not_anb _ [50; 110; 32] 53); [reflexivity | unfold white, newline; lia | | unfold letter_n; lia].
    intros (_ & s & I & Ss). cbn in I. unfold sign in Ss. lia.
  - apply (not_anb _ [50; 110] 45); [reflexivity | unfold white, newline; lia | | unfold letter_n; lia].
    intros (Q & _). unfold digit in Q. lia.
  - apply (not_anb _ [43; 45] 110); [reflexivity | unfold white, newline; lia | |].
    + intros (Q & _). unfold digit in Q. lia.
    + intros _ w A a E Hw HA. change (chars "+-n"%string) with [43; 45; 110] in E.
      destruct w as [| c w]; [| cbn [app] in E; inversion E; subst; inversion Hw as [| ? ? W _]; unfold white, newline in W; lia].
      cbn [app] in E. subst A. inversion HA as [s z ds n Hs (Hd & Dd) Hn E1 | s z n Hs Hn E1].
      * rewrite Forall_forall in Dd. inversion Hs; subst; cbn [app] in E1.
        -- destruct ds as [| d ds]; [congruence |]. inversion E1; subst. specialize (Dd 43 (or_introl eq_refl)). unfold digit in Dd. lia.
        -- inversion E1 as [E2]. destruct ds as [| d ds]; [congruence |]. inversion E2; subst. specialize (Dd 45 (or_introl eq_refl)). unfold digit in Dd. lia.
        -- discriminate.
      * inversion Hs; subst; cbn [app] in E1; inversion E1.
Qed.
