(* The tokens of an An+B spelling. *)
From Coq Require Import ZifyBool ZifyNat ZifyN.
From Verif Require Import Lexer Parser Write Nth SpecToken SpecLex SpecTrace SpecF32 SpecParser SpecNth LexBase TokenProofs KindProofs ScanProofs ScanProofs2 ScanProofs3 NumProofs DimProofs LexProofs LexFacts LexKinds LexProps LexProps2 LexProps3 LexTrace CursorFacts SpecCursor CursorLex RestProofs RestProofs2 JoinProofs JoinProofs2 JoinProofs3 JoinProofs4 ParserProofs F32Proofs NumberValue.
Open Scope N_scope.
Open Scope list_scope.

(* ---- whitespace is skipped ---- *)
Lemma white_prefix : forall w l q r, Forall white w -> ~ starts white l -> run white (w ++ l) q r -> q = w /\ r = l.
Proof. intros w l q r Hw Hl R. apply (run_det white (w ++ l)); [exact R |]. split; [reflexivity | split; assumption]. Qed.

Lemma prefix_white : forall p w l r, Forall white p -> w ++ l = p ++ r -> ~ starts white l -> exists w', w = p ++ w'.
Proof.
  induction p as [| c p IH]; intros w l r F E H; [exists w; reflexivity |].
  inversion F as [| ? ? F1 F2]; subst. destruct w as [| d w]; cbn [app] in E.
  - exfalso. apply H. subst l. exists c, (p ++ r). auto.
  - inversion E; subst. destruct (IH w l r F2 H2 H) as (w' & ->). exists w'. reflexivity.
Qed.
Lemma white_token : forall f w l, Forall white w -> w <> [] -> ~ starts white l -> exists q w' t, w = q ++ w' /\ q <> [] /\
  scan_token f (w ++ l) = Some t /\ tok_is t K_Eof = false /\ tok_in t KS_TRIVIA = true /\ tlen t = blen q.
Proof.
  intros f w l Hw Hn Hl.
  assert (S : starts white (w ++ l)) by (destruct w as [| c w]; [congruence |]; inversion Hw; subst; exists c, (w ++ l); auto).
  assert (B : forall t, tkind t = K_Whitespace -> tok_is t K_Eof = false /\ tok_in t KS_TRIVIA = true).
  { intros t K. apply white_bits in K. unfold tok_is, tok_in. rewrite K. split; reflexivity. }
  destruct (separate_whitespace f) eqn:Q.
  - destruct (scan_whitespace_sep f (w ++ l) S Q) as (p & r & b & Hp & E & R).
    assert (B8 : b < 8) by (destruct R as [(-> & _) | [(-> & _) | (-> & _)]]; reflexivity).
    destruct (whitespace_read b (blen p) B8) as (K & L & _). destruct (B _ K) as (B1 & B2).
    assert (X : w ++ l = p ++ r /\ Forall white p).
    { destruct R as [(_ & (X1 & X2 & _)) | [(_ & (X1 & X2 & _)) | (_ & (X1 & X2 & _))]]; (split; [exact X1 |]); (eapply Forall_impl; [| exact X2]); intros c Hc; unfold white; auto. }
    destruct X as (X1 & X2). destruct (prefix_white p w l r X2 X1 Hl) as (w' & ->). exists p, w', (new_whitespace b (blen p)). auto 10.
  - destruct (scan_whitespace f (w ++ l) S Q) as (p & r & R & Hp & E).
    destruct (whitespace_read (ws_style p) (blen p) (ws_style_lt p)) as (K & L & _). destruct (B _ K) as (B1 & B2).
    destruct (white_prefix w l p r Hw Hl R) as (-> & ->). exists w, [], (new_whitespace (ws_style w) (blen w)). rewrite app_nil_r. auto 10.
Qed.

(* the token at the start of a text: EOF at the end *)
Definition first_token (f : feature) (l : text) (t : token) : Prop := match l with [] => t = T_EOF | _ => scan_token f l = Some t end.
Lemma first_advance : forall f pre l t last, first_token f l t -> lexer_advance (Lexer (pre ++ l) (blen pre) last f) = Some (t, Lexer (pre ++ l) (blen pre + tlen t) t f).
Proof.
  intros f pre l t last H. unfold lexer_advance. cbn [lsrc lfeat loff]. rewrite read_at. unfold first_token in H. destruct l; [subst t; reflexivity |]. rewrite H. reflexivity.
Qed.

Definition kept_token (t : token) : Prop := tok_is t K_Eof || negb (tok_in t KS_TRIVIA) = true.
Lemma next_loop_text : forall n f w pre l t last tr, Forall white w -> (length w < n)%nat -> ~ starts white l -> first_token f l t -> kept_token t ->
  exists tr', next_loop n KS_TRIVIA (Lexer (pre ++ w ++ l) (blen pre) last f) tr = Some (Cursor (blen (pre ++ w)) t, Lexer (pre ++ w ++ l) (blen (pre ++ w) + tlen t) t f, tr') /\
  peek_loop n KS_TRIVIA (Lexer (pre ++ w ++ l) (blen pre) last f) = Some (Cursor (blen (pre ++ w)) t).
Proof.
  induction n as [| n IH]; intros f w pre l t last tr Hw Hn Hl HT HK; [lia |].
  destruct w as [| c w].
  - cbn [app]. rewrite app_nil_r. cbn [next_loop peek_loop]. rewrite (first_advance f pre l t last HT). rewrite HK. exists tr. cbn [loff]. auto.
  - destruct (white_token f (c :: w) l Hw ltac:(discriminate) Hl) as (q & w' & tw & E & Hq & S & T1 & T2 & L).
    assert (FT : first_token f ((c :: w) ++ l) tw) by exact S.
    cbn [next_loop peek_loop]. rewrite (first_advance f pre ((c :: w) ++ l) tw last FT), T1, T2. cbn [negb orb loff].
    rewrite E in *. clear S FT. rewrite L.
    replace (blen pre + blen q) with (blen (pre ++ q)) by apply blen_app.
    replace (pre ++ (q ++ w') ++ l) with ((pre ++ q) ++ w' ++ l) by now rewrite <- !app_assoc.
    apply Forall_app in Hw. destruct Hw as (_ & Hw').
    assert (Hn' : (length w' < n)%nat) by (rewrite app_length in Hn; destruct q; [congruence |]; cbn [length] in Hn; lia).
    destruct (IH f w' (pre ++ q) l t tw (tr ++ [Cursor (blen pre) tw]) Hw' Hn' Hl HT HK) as (tr' & N & Pk). exists tr'.
    rewrite N, Pk. rewrite <- !app_assoc. auto.
Qed.

(* what the parser sees at a text, after whitespace *)
Definition at_text (p : parser) (pre l : text) (f : feature) : Prop := exists last, plex p = Lexer (pre ++ l) (blen pre) last f.
Lemma parser_text : forall p f w pre l t, at_text p pre (w ++ l) f -> pskip p = KS_TRIVIA -> Forall white w -> ~ starts white l -> first_token f l t -> kept_token t ->
  peek_next p = Some (Cursor (blen (pre ++ w)) t) /\
  exists q, next p = Some (Cursor (blen (pre ++ w)) t, q) /\ pskip q = KS_TRIVIA /\ plex q = Lexer (pre ++ w ++ l) (blen (pre ++ w) + tlen t) t f.
Proof.
  intros p f w pre l t (last & E) Hs Hw Hl HT HK. unfold peek_next, next, pfuel. rewrite E, Hs. cbn [lsrc].
  assert (Hn : (length w < S (N.to_nat (blen (pre ++ w ++ l))))%nat).
  { rewrite !blen_app. pose proof (length_le_blen w). lia. }
  destruct (next_loop_text _ f w pre l t last (ptrivia p) Hw Hn Hl HT HK) as (tr' & -> & ->). split; [reflexivity |].
  eexists. split; [reflexivity |]. split; [exact Hs | reflexivity].
Qed.
(* and after consuming it *)
Lemma text_after : forall q pre w x y f t, plex q = Lexer (pre ++ w ++ x ++ y) (blen (pre ++ w) + tlen t) t f -> tlen t = blen x -> at_text q (pre ++ w ++ x) y f.
Proof. intros q pre w x y f t E L. exists t. rewrite E, L, <- !app_assoc. f_equal. rewrite !blen_app. lia. Qed.

(* ---- kinds and bits ---- *)
Lemma kind_bits_of : forall t k, tkind t = k -> k <> K_Eof -> kind_bits t = kind_code k.
Proof.
  intros t k H HK. unfold tkind in H. assert (L : kind_bits t < 32) by (unfold kind_bits; change 31 with (N.ones 5); rewrite N.land_ones; apply N.mod_lt; discriminate).
  assert (Q : forallb (fun b => kind_eqb (kind_from_bits b) K_Eof || (b =? kind_code (kind_from_bits b))) (map N.of_nat (seq 0 32)) = true) by reflexivity.
  rewrite forallb_forall in Q. assert (I : In (kind_bits t) (map N.of_nat (seq 0 32))) by (apply in_map_iff; exists (N.to_nat (kind_bits t)); split; [lia | apply in_seq; lia]).
  apply Q in I. rewrite H in I. apply orb_true_iff in I. destruct I as [I | I]; [| now apply N.eqb_eq].
  exfalso. apply HK. destruct k; try discriminate. reflexivity.
Qed.
Lemma kept_kind : forall t k, tkind t = k -> k <> K_Eof -> k <> K_Whitespace -> k <> K_Comment -> kept_token t.
Proof.
  intros t k H H1 H2 H3. pose proof (kind_bits_of t k H H1) as B. unfold kept_token, tok_is, tok_in. rewrite B. destruct k; try congruence; reflexivity.
Qed.
Lemma is_kind : forall t k k', tkind t = k -> k <> K_Eof -> tok_is t k' = kind_eqb k k'.
Proof. intros t k k' H H1. unfold tok_is. rewrite (kind_bits_of t k H H1). destruct k, k'; reflexivity. Qed.

(* ---- integers ---- *)
Lemma as_i32 : forall neg b m, (0 <= b < f32_infinity)%Z -> f32_units b = (m * 2 ^ 149)%Z -> (0 <= m <= 2 ^ 24)%Z ->
  f32_as_i32 (signed neg b) = (if neg then - m else m)%Z /\ f32_as_i32 (f32_abs (signed neg b)) = m.
Proof.
  intros neg b m Hb Hu Hm.
  assert (HB : (b < 2 ^ 31)%Z) by (unfold f32_infinity in Hb; lia).
  assert (HL : N.land (signed neg b) 2147483647 = Z.to_N b).
  { change 2147483647 with (N.ones 31). rewrite N.land_ones. unfold signed. destruct neg.
    - rewrite Z2N.inj_add by lia. replace (Z.to_N (2 ^ 31)) with (1 * 2 ^ 31) by reflexivity. rewrite N.add_comm, N.mod_add by discriminate. apply N.mod_small. lia.
    - rewrite Z.add_0_l. apply N.mod_small. lia. }
  assert (HT : N.testbit (signed neg b) 31 = neg).
  { rewrite N.testbit_eqb. unfold signed. destruct neg.
    - rewrite Z2N.inj_add by lia. replace (Z.to_N (2 ^ 31)) with (1 * 2 ^ 31) by reflexivity. rewrite N.div_add_l by discriminate. rewrite N.div_small by lia. reflexivity.
    - rewrite Z.add_0_l. rewrite N.div_small by lia. reflexivity. }
  assert (HM : (mag_units b / 2 ^ 149 = m)%Z).
  { change (mag_units b) with (f32_units b). rewrite Hu. apply Z.div_mul. discriminate. }
  assert (HI : (F32_INF <? b)%Z = false /\ (b =? F32_INF)%Z = false) by (change F32_INF with f32_infinity; lia). destruct HI as (I1 & I2).
  split.
  - unfold f32_as_i32. rewrite HL, HT, Z2N.id by lia. rewrite I1, I2, HM. destruct neg; lia.
  - unfold f32_as_i32, f32_abs. rewrite HL.
    assert (HL' : N.land (Z.to_N b) 2147483647 = Z.to_N b) by (change 2147483647 with (N.ones 31); rewrite N.land_ones; apply N.mod_small; lia).
    assert (HT' : N.testbit (Z.to_N b) 31 = false) by (rewrite N.testbit_eqb, N.div_small by lia; reflexivity).
    rewrite HL', HT', Z2N.id by lia. rewrite I1, I2, HM. lia.
Qed.
Lemma int_of_nonneg : forall ds, digits ds -> (0 <= int_of ds)%Z.
Proof.
  intros ds H. unfold int_of. assert (G : forall a, (0 <= a)%Z -> (0 <= fold_left (fun a c => a * 10 + (Z.of_N c - 48)) ds a)%Z); [| apply G; lia].
  induction H as [| c ds Hc H IH]; intros a Ha; cbn [fold_left]; [exact Ha |]. apply IH. unfold digit in Hc. lia.
Qed.

(* ---- the number, the dimension, the identifier and the two delimiters ---- *)
Lemma sign_opt : forall s z, sign_of s z -> opt_sign s.
Proof. intros s z [| |]; unfold opt_sign; auto. Qed.
Lemma int_number : forall s z ds, sign_of s z -> digits1 ds -> css_number (s ++ ds).
Proof. intros s z ds Hs Hd. exists s, ds, []. rewrite app_nil_r. split; [reflexivity |]. split; [now apply (sign_opt s z) |]. split; [now left | now left]. Qed.
Lemma int_decimal : forall s z ds, sign_of s z -> digits1 ds -> exists neg, decimal_of (s ++ ds) neg (int_of ds) 0 /\ z = (if neg then -1 else 1)%Z.
Proof.
  intros s z ds Hs Hd. pose proof (dc_int s ds [] 0%Z (sign_opt s z Hs) Hd ex_none) as D. rewrite app_nil_r in D. eexists. split; [exact D |]. destruct Hs; reflexivity.
Qed.
Lemma int_not_float : forall s z ds, sign_of s z -> digits1 ds -> ~ float_text (s ++ ds).
Proof.
  intros s z ds Hs (_ & Hd) H. rewrite Forall_forall in Hd.
  assert (G : forall c, In c (s ++ ds) -> c = 43 \/ c = 45 \/ digit c).
  { intros c I. apply in_app_or in I. destruct I as [I | I]; [| auto]. destruct Hs; cbn in I; intuition. }
  unfold float_text in H. unfold digit in G. destruct H as [H | [H | H]]; apply G in H; lia.
Qed.
(* the number at the head of a text: kind aside *)
Lemma int_head : forall f s z ds x, sign_of s z -> digits1 ds -> stops x -> well_behaved (single_line_comments f) (s ++ ds ++ x) ->
  exists t, scan_token f (s ++ ds ++ x) = Some t /\ longest_number (s ++ ds ++ x) (s ++ ds) x /\ would_start_number (s ++ ds ++ x) /\
    numeric_len t = blen (s ++ ds) /\ is_float t = false /\ is_int t = true /\ (has_sign t = true <-> s <> []) /\ tvalue t = parse_f32 (s ++ ds) /\
    ((int_of ds <= 2 ^ 24)%Z -> f32_as_i32 (tvalue t) = (z * int_of ds)%Z /\ f32_as_i32 (f32_abs (tvalue t)) = int_of ds).
Proof.
  intros f s z ds x Hs Hd Hx WB. pose proof (int_number s z ds Hs Hd) as CN.
  assert (W : would_start_number (s ++ ds ++ x)) by (rewrite app_assoc; now apply css_number_starts).
  assert (HL : longest_number (s ++ ds ++ x) (s ++ ds) x) by (rewrite app_assoc; now apply css_longest).
  assert (Hn : s ++ ds ++ x <> []) by (destruct Hd as (Hd & _); destruct s, ds; try congruence; discriminate).
  destruct (scan_spec f _ Hn ltac:(apply WB)) as (t & r & E & V). exists t. split; [exact E |]. split; [exact HL |]. split; [exact W |].
  assert (T : token_at f [] (s ++ ds ++ x) t) by now apply token_at_scan.
  destruct WB as (He & WL & SV & _).
  destruct (number_token f [] _ t W WL He T) as (p' & r' & Hl & NL & _ & HSg & HF & HI & HV).
  destruct (longest_det _ _ _ _ _ HL Hl) as (<- & <-).
  assert (F : is_float t = false) by (destruct (is_float t); [exfalso; apply (int_not_float s z ds Hs Hd); now apply HF | reflexivity]).
  split; [exact NL |]. split; [exact F |]. split; [now rewrite HI, F |]. split.
  { rewrite HSg. destruct Hs; cbn [app]; split; intro Q; try discriminate; try congruence.
    - exfalso. destruct Hd as (Hd & Dd). destruct ds as [| d ds]; [congruence |]. inversion Dd; subst. cbn [app] in Q. rewrite starts_cons in Q. unfold sign, digit in *. lia.
    - rewrite starts_cons. unfold sign. auto.
    - rewrite starts_cons. unfold sign. auto. }
  split; [exact HV |]. intro Hm. destruct (int_decimal s z ds Hs Hd) as (neg & D & ->).
  destruct (token_value_int f [] _ t _ _ neg (int_of ds) W WL He T HL D Hm) as (b & Eb & Hb & Hu). rewrite Eb.
  pose proof (int_of_nonneg ds (proj2 Hd)) as H0.
  destruct (as_i32 neg b (int_of ds) ltac:(lia) Hu ltac:(lia)) as (A1 & A2). rewrite A1, A2. split; [destruct neg; lia | reflexivity].
Qed.

(* n, n- or n-12, without escapes *)
Definition n_name (u : text) : Prop := exists n j, u = n :: j /\ letter_n n /\ Forall (fun c => c = 45 \/ digit c) j.
Lemma n_name_cp : forall u, n_name u -> Forall ident_cp u.
Proof.
  intros u (n & j & -> & Hn & Hj). constructor.
  - left. unfold letter_n in Hn. unfold ident_start_cp, letter, lower, upper. lia.
  - eapply Forall_impl; [| exact Hj]. intros c [-> | H]; [right; right; reflexivity | right; left; exact H].
Qed.
Lemma n_name_starts : forall u y, n_name u -> would_start_ident (u ++ y).
Proof. intros u y (n & j & -> & Hn & _). left. cbn [app]. rewrite starts_cons. unfold letter_n in Hn. unfold ident_start_cp, letter, lower, upper. lia. Qed.
Lemma plain_ident : forall u y, Forall ident_cp u -> ~ starts ident_cp y -> ~ starts_escape y -> ident_pieces (u ++ y) (map Plain u) y.
Proof. intros u y H H1 H2. induction H as [| c u Hc H IH]; cbn [app map]; constructor; auto. Qed.
Lemma ident_cp_92 : forall c, ident_cp c -> c <> 92.
Proof. intros c H. unfold ident_cp, ident_start_cp, letter, lower, upper, digit, non_ascii_ident in H. lia. Qed.
Lemma nul_fixed_id : forall c, c <> 0 -> nul_fixed c = c.
Proof. intros c H. unfold nul_fixed. destruct (c =? 0) eqn:E; [lia | reflexivity]. Qed.
Lemma plain_value : forall u r, Forall ident_cp u -> ~ In 0 u -> css_value false u r u.
Proof.
  intros u r H. induction H as [| c u Hc H IH]; intro H0; [constructor |]. cbn [In] in H0.
  assert (C0 : c <> 0) by (intro; subst; tauto). rewrite <- (nul_fixed_id c C0) at 2. apply va_char; [now apply ident_cp_92 | discriminate | tauto].
Qed.
Lemma plain_no : forall u, Forall ident_cp u -> ~ In 92 u.
Proof. intros u H I. rewrite Forall_forall in H. apply H in I. apply ident_cp_92 in I. congruence. Qed.
Lemma n_name_stops : forall u y, n_name u -> stops (u ++ y).
Proof.
  intros u y (n & j & -> & Hn & _). unfold letter_n in Hn. split; [| split].
  - cbn [app]. rewrite starts_cons. unfold digit. lia.
  - intros (d & r & E & _). cbn [app] in E. inversion E. lia.
  - intros (x & r & E & X). apply exponent_head in X. destruct X as (e & z & -> & He). cbn [app] in E. inversion E. lia.
Qed.

Lemma dim_token : forall f pre s z ds u y, sign_of s z -> digits1 ds -> n_name u -> ~ starts ident_cp y -> ~ starts_escape y ->
  well_behaved (single_line_comments f) (s ++ ds ++ u ++ y) -> ~ In 0 (s ++ ds ++ u ++ y) -> blen pre <> DUMMY_OFFSET ->
  exists t, scan_token f (s ++ ds ++ u ++ y) = Some t /\ tkind t = K_Dimension /\ is_float t = false /\ is_int t = true /\ tlen t = blen (s ++ ds ++ u) /\
    ((int_of ds <= 2 ^ 24)%Z -> f32_as_i32 (tvalue t) = (z * int_of ds)%Z) /\
    parse_str_lower (Cursor (blen pre) t) (pre ++ s ++ ds ++ u ++ y) = Some (lower_text u).
Proof.
  intros f pre s z ds u y Hs Hd Hu Hy1 Hy2 WB NZ Hp. destruct (int_head f s z ds (u ++ y) Hs Hd (n_name_stops u y Hu) WB) as (t & E & HL & W & NL & F & I & _ & _ & V).
  assert (Hn : s ++ ds ++ u ++ y <> []) by (destruct Hd as (Hd & _); destruct s, ds; try congruence; discriminate).
  assert (T : token_at f [] (s ++ ds ++ u ++ y) t) by now apply token_at_scan.
  destruct WB as (He & WL & SV & _).
  destruct (dimension_token f [] _ t _ _ W WL He SV NZ T HL) as (_ & D & _). destruct (D (n_name_starts u y Hu)) as (K & ps & r' & Hps & L & _).
  destruct (ident_pieces_det _ _ _ (plain_ident u y (n_name_cp u Hu) Hy1 Hy2) _ _ Hps) as (<- & <-). rewrite pieces_text_plain in L.
  exists t. split; [exact E |]. split; [exact K |]. split; [exact F |]. split; [exact I |].
  assert (LT : tlen t = blen (s ++ ds ++ u)) by (rewrite L, !blen_app; lia). split; [exact LT |]. split; [intro Q; exact (proj1 (V Q)) |].
  pose proof (kind_bits_of t _ K ltac:(discriminate)) as KB.
  assert (LO : is_lower_case t = false) by (unfold is_lower_case, is_ident_like; rewrite KB; reflexivity).
  assert (LA : layout t (s ++ ds) u []).
  { split; [unfold leading_len; rewrite K; exact NL |]. split; [unfold trailing_len; rewrite K; reflexivity |]. split; [rewrite app_nil_r, <- app_assoc; exact LT |].
    split; [intros _; split; [apply plain_no, n_name_cp, Hu | intro I0; apply NZ; rewrite !in_app_iff; tauto] | congruence]. }
  assert (ST : is_string_tok t = false) by (unfold is_string_tok; rewrite KB; reflexivity).
  pose proof (parse_str_lower_layout pre t (s ++ ds) u [] y u LA Hp) as X. rewrite LO in X. cbn [app] in X. rewrite <- app_assoc in X. apply X. rewrite ST.
  apply plain_value; [now apply n_name_cp | intro I0; apply NZ; rewrite !in_app_iff; tauto].
Qed.

Lemma ident_tok : forall f pre d u y, (d = [] \/ d = [45]) -> Forall ident_cp u -> starts letter u -> ~ starts ident_cp y -> ~ starts_escape y -> ~ starts (eq 40) y ->
  well_behaved (single_line_comments f) (d ++ u ++ y) -> ~ In 0 (d ++ u ++ y) -> blen (pre ++ d ++ u ++ y) < 4294967295 ->
  exists t, scan_token f (d ++ u ++ y) = Some t /\ tkind t = K_Ident /\ is_float t = false /\ is_int t = false /\ tlen t = blen (d ++ u) /\
    parse_str_lower (Cursor (blen pre) t) (pre ++ d ++ u ++ y) = Some (lower_text (d ++ u)).
Proof.
  intros f pre d u y Hd Hu Hs Hy1 Hy2 Hy3 WB NZ HB.
  assert (FC : Forall ident_cp (d ++ u)).
  { apply Forall_app. split; [| exact Hu]. destruct Hd as [-> | ->]; repeat constructor; right; right; reflexivity. }
  assert (W : would_start_ident (d ++ u ++ y)).
  { assert (S : starts ident_start_cp (u ++ y)) by (destruct Hs as (n & j & -> & Hn); cbn [app]; rewrite starts_cons; unfold ident_start_cp; auto).
    destruct Hd as [-> | ->]; cbn [app]; [now left |]. right. right. exists (u ++ y). split; [reflexivity |]. now left. }
  assert (HC : forall r, d ++ u ++ y <> 45 :: 45 :: 62 :: r).
  { intros r Q. destruct Hs as (n & j & -> & Hn). unfold letter, lower, upper in Hn. destruct Hd as [-> | ->]; cbn [app] in Q; inversion Q; lia. }
  assert (Hn : d ++ u ++ y <> []) by (destruct Hs as (n & j & -> & _); destruct d; discriminate).
  destruct (scan_spec f _ Hn ltac:(apply WB)) as (t & r & E & _). assert (T : token_at f pre (d ++ u ++ y) t) by now apply token_at_scan.
  destruct (ident_token f pre _ t NZ ltac:(apply WB) W HC T) as (ps & r' & Hps & D & _).
  pose proof (plain_ident (d ++ u) y FC Hy1 Hy2) as HI. rewrite <- app_assoc in HI.
  destruct (ident_pieces_det _ _ _ HI _ _ Hps) as (<- & <-). rewrite pieces_text_plain in D. destruct (D Hy3) as (K & L & (_ & Es & _)).
  exists t. split; [exact E |]. split; [exact K |].
  pose proof (kind_bits_of t _ K ltac:(discriminate)) as KB.
  split; [unfold is_float, is_numeric_kind; rewrite KB; reflexivity |]. split; [unfold is_int, is_numeric_kind; rewrite KB; reflexivity |]. split; [exact L |].
  assert (NE : contains_escape_chars t = false).
  { destruct (contains_escape_chars t); [| reflexivity]. exfalso. destruct (proj1 Es eq_refl) as (e & I). apply in_map_iff in I. destruct I as (c & Q & _). discriminate. }
  assert (ST : stands_for (d ++ u ++ y) K_Ident (d ++ u)).
  { exists [], (d ++ u), [], y, false. split; [| split; [split; congruence |]].
    - pose proof (in_ident _ _ _ HI) as X. rewrite pieces_text_plain in X. exact X.
    - apply plain_value; [exact FC | intro I; apply NZ; rewrite !in_app_iff in *; tauto]. }
  apply (value_lower_case f pre (d ++ u ++ y) t WB NZ); auto.
  - intro KU. exfalso. rewrite K in KU. discriminate.
  - lia.
  - rewrite K. cbn. auto.
  - rewrite K. exact ST.
  - right. split; [exact NE | congruence].
Qed.

(* ---- what may follow ---- *)
Lemma nth_ends_head : forall r, nth_ends r -> r = [] \/ exists c r', r = c :: r' /\ (white c \/ c = 41).
Proof.
  intros r (w & r' & -> & Hw & H). destruct w as [| c w]; cbn [app].
  - destruct H as [-> | (c & r0 & -> & <-)]; [now left | right; exists 41, r0; auto].
  - right. exists c, (w ++ r'). inversion Hw; auto.
Qed.
Definition gap (y : text) : Prop := y = [] \/ exists c r, y = c :: r /\ (white c \/ c = 41 \/ c = 43).
Lemma ends_gap : forall r, nth_ends r -> gap r.
Proof. intros r H. destruct (nth_ends_head r H) as [-> | (c & r' & -> & [Q | Q])]; [now left | right | right]; exists c, r'; auto. Qed.
Lemma white_gap : forall w y, Forall white w -> w <> [] -> gap (w ++ y).
Proof. intros w y H Hn. destruct w as [| c w]; [congruence |]. inversion H; subst. right. exists c, (w ++ y). auto. Qed.
Lemma gap_facts : forall y, gap y -> ~ starts ident_cp y /\ ~ starts_escape y /\ ~ starts (eq 40) y /\ ~ starts (eq 37) y.
Proof.
  intros y [-> | (c & r & -> & H)].
  - repeat split; try (intros (c & r & E & _); discriminate). intros [E | (c & r & E & _)]; discriminate.
  - unfold white, newline in H. repeat split; try (rewrite starts_cons; unfold ident_cp, ident_start_cp, letter, lower, upper, digit, non_ascii_ident; lia).
    intro Q. apply starts_escape_92 in Q. lia.
Qed.
Lemma ends_stops : forall r, nth_ends r -> stops r /\ ~ would_start_ident r.
Proof.
  intros r H. pose proof (gap_facts r (ends_gap r H)) as (_ & G2 & _). destruct (nth_ends_head r H) as [-> | (c & r' & -> & Hc)].
  - split; [split; [| split] |].
    + intros (c & q & E & _); discriminate.
    + intros (d & q & E & _); discriminate.
    + intros (x & q & E & X). apply exponent_head in X. destruct X as (e & z & -> & _). discriminate.
    + intros [(c & q & E & _) | [Q | (q & E & _)]]; try discriminate. contradiction.
  - unfold white, newline in Hc. split; [split; [| split] |].
    + rewrite starts_cons. unfold digit. lia.
    + intros (d & q & E & _). inversion E. lia.
    + intros (x & q & E & X). apply exponent_head in X. destruct X as (e & z & -> & He). cbn [app] in E. inversion E. lia.
    + intros [Q | [Q | (q & E & _)]]; [| contradiction | inversion E; lia].
      rewrite starts_cons in Q. unfold ident_start_cp, letter, lower, upper, non_ascii_ident in Q. lia.
Qed.

Lemma num_tok : forall f s z ds r, sign_of s z -> digits1 ds -> nth_ends r -> well_behaved (single_line_comments f) (s ++ ds ++ r) -> ~ In 0 (s ++ ds ++ r) ->
  exists t, scan_token f (s ++ ds ++ r) = Some t /\ tkind t = K_Number /\ is_float t = false /\ is_int t = true /\ (has_sign t = true <-> s <> []) /\ tlen t = blen (s ++ ds) /\
    ((int_of ds <= 2 ^ 24)%Z -> f32_as_i32 (tvalue t) = (z * int_of ds)%Z /\ f32_as_i32 (f32_abs (tvalue t)) = int_of ds).
Proof.
  intros f s z ds r Hs Hd Hr WB NZ. destruct (ends_stops r Hr) as (S1 & S2). destruct (int_head f s z ds r Hs Hd S1 WB) as (t & E & HL & W & NL & F & I & SG & _ & V).
  assert (T : token_at f [] (s ++ ds ++ r) t).
  { apply token_at_scan; [| exact E]. destruct Hd as (Hd & _); destruct s, ds; try congruence; discriminate. }
  destruct WB as (He & WL & SV & _). destruct (dimension_token f [] _ t _ _ W WL He SV NZ T HL) as (_ & _ & D).
  destruct (D (proj2 (proj2 (proj2 (gap_facts r (ends_gap r Hr))))) S2) as (K & L). exists t. auto 10.
Qed.

Lemma sign_tok : forall f c y, c = 43 \/ c = 45 -> esc_ok (c :: y) -> ~ would_start_ident (c :: y) -> ~ would_start_number (c :: y) ->
  scan_token f (c :: y) = Some (if c =? 43 then new_delim 43 else T_DASH).
Proof.
  intros f c y Hc He WI WN. destruct Hc as [-> | ->].
  - apply delim_scan; [discriminate | exact He | exact WI | exact WN | unfold white, newline; lia | unfold quote; lia | reflexivity | cbn; intuition discriminate].
  - destruct (scan_spec f (45 :: y) ltac:(discriminate) He) as (t & r & E & V). rewrite E. f_equal. change (t = T_DASH).
    remember (45 :: y) as l eqn:El.
    destruct V as [c0 r t Hc Ht Hn | l t r W Hn V | l p r Hs Hr Hp | l p r b Hs Hp Hr | c0 l p e r Hq E2 Hb | l t r W Hn V | r | r
      | c0 r t Hi H1 H2 H3 H4 H5 H6 | c0 r H0 H1 H2 H3 H4 H5 H6 | l ps r Hi Hp | l ps r Hi Hp | l p r Hb | p r Hf Hp Hr]; try (inversion El; subst); try contradiction.
    + destruct Hr as (E1 & F & _). destruct p as [| d p]; [congruence |]. inversion E1; subst. inversion F; subst. unfold white, newline in *. lia.
    + destruct p as [| d p]; [congruence |].
      destruct Hr as [(_ & (E1 & F & _)) | [(_ & (E1 & F & _)) | (_ & (E1 & F & _))]]; inversion E1; subst; inversion F; subst; unfold newline in *; lia.
    + destruct Hq; lia.
    + exfalso. apply WI. right. right. exists (45 :: 62 :: r). split; [reflexivity |]. right. left. rewrite starts_cons. reflexivity.
    + cbn [In] in Hi. intuition congruence.
    + exfalso. apply H6. cbn. auto.
Qed.
Lemma sign_apart : forall c y, c = 43 \/ c = 45 -> (starts white y \/ (c = 43 /\ starts letter_n y)) -> ~ would_start_ident (c :: y) /\ ~ would_start_number (c :: y).
Proof.
  intros c y Hc H. assert (D : ~ starts digit y /\ ~ starts (eq 46) y /\ ~ (c = 45 /\ (starts ident_start_cp y \/ starts (eq 45) y \/ starts_escape y))).
  { destruct H as [(d & r & -> & Hd) | (Q & (d & r & -> & Hd))]; rewrite !starts_cons; unfold white, newline, letter_n in Hd; (split; [unfold digit; lia |]); (split; [lia |]); [| lia].
    intros (_ & [Q | [Q | Q]]); [unfold ident_start_cp, letter, lower, upper, non_ascii_ident in Q; lia | lia | apply starts_escape_92 in Q; lia]. }
  destruct D as (D1 & D2 & D3). split.
  - intros [Q | [Q | (r & E & Q)]].
    + rewrite starts_cons in Q. unfold ident_start_cp, letter, lower, upper, non_ascii_ident in Q. lia.
    + apply starts_escape_92 in Q. lia.
    + inversion E; subst. apply D3. auto.
  - intros (s & Hs & r & E & Q). destruct Hs as [-> | [-> | ->]]; cbn [app] in E.
    + destruct Q as [Q | (r' & E2 & _)]; [subst r; rewrite starts_cons in Q; unfold digit in Q; lia | subst r; inversion E2; lia].
    + inversion E; subst. destruct Q as [Q | (r' & -> & _)]; [contradiction | apply D2; rewrite starts_cons; reflexivity].
    + inversion E; subst. destruct Q as [Q | (r' & -> & _)]; [contradiction | apply D2; rewrite starts_cons; reflexivity].
Qed.
