(* What the values of number and dimension tokens say, from their texts. *)
From Coq Require Import ZifyBool ZifyNat ZifyN.
From Coq Require Import List.
From Verif Require Import Lexer Span Cursor Parser Nth SpecToken SpecLex SpecTrace SpecF32 SpecCursor SpecParser SpecSyntax SpecNth SpecSheet LexBase KindProofs ScanProofs LexProofs LexFacts LexKinds LexProps LexProps2 LexProps3 LexTrace NumProofs F32Proofs
  WriteProofs RestProofs2 JoinProofs JoinProofs2 JoinProofs3 JoinProofs4 NthLex.
Open Scope N_scope.
Open Scope list_scope.

(* a token of a text, with the text it stands on *)
Lemma token_place : forall src f cs c, well_behaved (single_line_comments f) src -> blen src < 4294967296 -> lex src f = Some cs -> In c cs ->
  exists a p r, src = a ++ p ++ r /\ p <> [] /\ tlen (ctok c) = blen p /\ scan_token f (p ++ r) = Some (ctok c) /\ str_slice c src = Some p /\ well_behaved (single_line_comments f) (p ++ r).
Proof.
  intros src f cs c WB LT EL I. destruct (lex_trace src f WB) as (cs' & E' & T). rewrite EL in E'. inversion E'. subst cs'. clear E'.
  assert (G : forall cs o l, trace f o l cs -> In c cs -> exists a p r, l = a ++ p ++ r /\ p <> [] /\ tlen (ctok c) = blen p /\ coff c = o + blen a /\ scan_token f (p ++ r) = Some (ctok c)).
  { clear. intros cs o l T. induction T as [| o p r t cs H1 H2 H3 H4 H5 H6 IH]; intros I; [destruct I |]. destruct I as [<- | I].
    - exists [], p, r. split; [reflexivity |]. split; [exact H1 |]. split; [exact H2 |]. split; [cbn; lia | exact H4].
    - destruct (IH I) as (a & p' & r' & -> & Hb & L & Q & Sc). exists (p ++ a), p', r'. split; [now rewrite app_assoc |]. split; [exact Hb |]. split; [exact L |]. split; [rewrite blen_app; lia | exact Sc]. }
  destruct (G cs 0 src T I) as (a & p & r & Es & Hp & L & Ho & Sc). cbn [N.add] in Ho. clear G.
  exists a, p, r. split; [exact Es |]. split; [exact Hp |]. split; [exact L |]. split; [exact Sc |]. split.
  - destruct c as [o t]. cbn [coff ctok] in *. subst o. rewrite Es. apply cursor_slice; [exact L |]. rewrite Es, !blen_app in LT. destruct p as [| x p]; [congruence |]. cbn [blen] in LT. pose proof (len_utf8_pos x). unfold DUMMY_OFFSET. lia.
  - rewrite Es in WB. now apply well_behaved_suffix in WB.
Qed.
Lemma number_len : forall t, tkind t = K_Number -> tlen t = numeric_len t.
Proof. intros t K. pose proof (kind_bits_of t _ K ltac:(discriminate)) as B. unfold tlen, is_delim_like. rewrite B. reflexivity. Qed.
Lemma integer_value : forall src f cs c s z ds, well_behaved (single_line_comments f) src -> blen src < 4294967296 -> lex src f = Some cs -> In c cs ->
  kind_of c = K_Number -> str_slice c src = Some (s ++ ds) -> sign_of s z -> digits1 ds ->
  is_int (ctok c) = true /\ (has_sign (ctok c) = true <-> s <> []) /\ (N.testbit (tvalue (ctok c)) 31 = true <-> s = [45]) /\
  ((int_of ds <= 2 ^ 24)%Z -> f32_as_i32 (tvalue (ctok c)) = (z * int_of ds)%Z /\ f32_as_i32 (f32_abs (tvalue (ctok c))) = int_of ds).
Proof.
  intros src f cs c s z ds WB LT EL I K St Hs Hd. destruct (token_place src f cs c WB LT EL I) as (a & p & r & Es & Hp & L & Sc & Sl & W).
  rewrite Sl in St. injection St as ->. unfold kind_of in K.
  assert (T : token_at f [] ((s ++ ds) ++ r) (ctok c)) by (apply token_at_scan; [intro Q; apply app_eq_nil in Q; tauto | exact Sc]).
  pose proof (css_number_starts (s ++ ds) r (int_number s z ds Hs Hd)) as SN. destruct W as (He & WL & SV & PL).
  destruct (number_token f [] _ _ SN WL He T) as (p' & r' & HL & NL & _).
  destruct (prefix_blen p' (s ++ ds) r' r) as (-> & ->); [symmetry; apply HL | rewrite <- NL, <- L; symmetry; now apply number_len |].
  destruct (number_token f [] _ _ SN WL He T) as (p2 & r2 & HL2 & _ & _ & HSg & HF & HI & HV). destruct (longest_det _ _ _ _ _ HL HL2) as (<- & <-).
  assert (F : is_float (ctok c) = false) by (destruct (is_float (ctok c)); [exfalso; apply (int_not_float s z ds Hs Hd); now apply HF | reflexivity]).
  split; [now rewrite HI, F |]. split.
  { rewrite HSg. destruct Hs; cbn [app]; split; intro Q; try discriminate; try congruence.
    - exfalso. destruct Hd as (Hd & Dd). destruct ds as [| d ds]; [congruence |]. inversion Dd; subst. cbn [app] in Q. rewrite starts_cons in Q. unfold sign, digit in *. lia.
    - rewrite starts_cons. unfold sign. auto.
    - rewrite starts_cons. unfold sign. auto. }
  split.
  { pose proof (dc_int s ds [] 0%Z (sign_opt s z Hs) Hd ex_none) as D. rewrite app_nil_r in D. rewrite HV. destruct (parse_f32_nearest _ _ _ _ D) as (b & E & Nr). rewrite E.
    assert (B : (0 <= b <= f32_infinity)%Z) by apply Nr. unfold f32_infinity in B. unfold signed.
    destruct (list_eq_dec N.eq_dec s [45]) as [Q | Q]; (rewrite testbit31; [| lia]); split; intro X; try assumption; try contradiction; lia. }
  intro Hm. destruct (int_decimal s z ds Hs Hd) as (neg & D & ->).
  destruct (NumberValue.token_value_int f [] _ _ _ _ neg (int_of ds) SN WL He T HL D Hm) as (b & Eb & Hb & Hu). rewrite Eb.
  pose proof (int_of_nonneg ds (proj2 Hd)) as H0. destruct (as_i32 neg b (int_of ds) Hb Hu ltac:(lia)) as (E1 & E2). rewrite E1, E2. split; [destruct neg; lia | reflexivity].
Qed.
Lemma dimension_value : forall src f cs c s z ds u, well_behaved (single_line_comments f) src -> blen src < 4294967296 -> lex src f = Some cs -> In c cs ->
  str_slice c src = Some (s ++ ds ++ u) -> sign_of s z -> digits1 ds -> starts (fun x => x = 110 \/ x = 78) u ->
  is_int (ctok c) = true /\ ((int_of ds <= 2 ^ 24)%Z -> f32_as_i32 (tvalue (ctok c)) = (z * int_of ds)%Z).
Proof.
  intros src f cs c s z ds u WB LT EL I St Hs Hd (n & j & -> & Hn). destruct (token_place src f cs c WB LT EL I) as (a & p & r & Es & Hp & L & Sc & Sl & W).
  rewrite Sl in St. injection St as ->. rewrite <- !app_assoc in Sc, W.
  assert (X : stops ((n :: j) ++ r)).
  { split; [| split].
    - cbn [app]. rewrite starts_cons. unfold digit. lia.
    - intros (d & q & E & _). cbn [app] in E. inversion E. lia.
    - intros (x & q & E & X). apply exponent_head in X. destruct X as (e & y & -> & He). cbn [app] in E. inversion E. lia. }
  destruct (int_head f s z ds _ Hs Hd X W) as (t & E & _ & _ & _ & _ & HI & _ & _ & V). rewrite Sc in E. injection E as <-. split; [exact HI |]. intro Q. exact (proj1 (V Q)).
Qed.
Lemma integer_text : forall src f cs c, well_behaved (single_line_comments f) src -> blen src < 4294967296 -> lex src f = Some cs -> In c cs ->
  kind_of c = K_Number -> is_int (ctok c) = true -> exists s z ds, str_slice c src = Some (s ++ ds) /\ sign_of s z /\ digits1 ds.
Proof.
  intros src f cs c WB LT EL I K In_. destruct (token_place src f cs c WB LT EL I) as (a & p & r & Es & Hp & L & Sc & Sl & W).
  unfold kind_of in K. assert (Hn : p ++ r <> []) by (intro Q; apply app_eq_nil in Q; tauto).
  assert (T : token_at f [] (p ++ r) (ctok c)) by now apply token_at_scan.
  pose proof (number_only f [] _ _ W Hn T (or_introl K)) as SN. destruct W as (He & WL & SV & PL).
  destruct (number_token f [] _ _ SN WL He T) as (p' & r' & HL & NL & _ & HSg & HF & HI & HV).
  destruct (prefix_blen p' p r' r) as (-> & ->); [symmetry; apply HL | rewrite <- NL, <- L; symmetry; now apply number_len |].
  assert (NF : ~ float_text p) by (intro Q; apply HF in Q; rewrite HI, Q in In_; discriminate In_).
  destruct HL as (_ & (s & m & x & -> & Hs & Hm & Hx) & _).
  assert (X : x = []).
  { destruct Hx as [-> | Hx]; [reflexivity |]. exfalso. apply NF. destruct (exponent_head x Hx) as (e & y & -> & He'). unfold float_text. right. destruct He' as [-> | ->]; [left | right]; apply in_or_app; right; apply in_or_app; right; now left. }
  subst x. rewrite app_nil_r in *. destruct Hm as [Hd | (i & g & -> & _)].
  - assert (Z_ : exists z, sign_of s z) by (destruct Hs as [-> | [-> | ->]]; eexists; constructor). destruct Z_ as (z & Hz). exists s, z, m. auto.
  - exfalso. apply NF. left. apply in_or_app. right. apply in_or_app. right. now left.
Qed.
