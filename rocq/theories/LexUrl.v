(* Proofs behind PropLex: which function names make a url token, and what it covers. *)
From Coq Require Import String ZifyBool ZifyNat ZifyN.
From Verif Require Import Lexer SpecToken SpecLex SpecTrace LexBase TokenProofs KindProofs ScanProofs ScanProofs2 ScanProofs3 NumProofs DimProofs LexProofs LexFacts LexTrace LexKinds LexProps LexProps2 LexProps3.
Open Scope N_scope.
Open Scope list_scope.
Ltac Zify.zify_post_hook ::= Z.div_mod_to_equations.

Lemma lower_eq : forall c k, 97 <= k <= 122 -> (to_ascii_lowercase c = k <-> c = k \/ c = k - 32).
Proof. intros c k H. unfold to_ascii_lowercase, is_ascii_upper. destruct ((65 <=? c) && (c <=? 90)) eqn:E; lia. Qed.
Lemma ok0 : forall c, url_ok_plain 0 c = true <-> to_ascii_lowercase c = 117.
Proof. intro c. rewrite lower_eq by lia. pose proof (is_lower_spec c) as S. unfold url_ok_plain, lower in *. cbn [N.eqb Pos.eqb andb orb]. destruct (is_ident_ascii_lower c); lia. Qed.
Lemma ok1 : forall c, url_ok_plain 1 c = true <-> to_ascii_lowercase c = 114.
Proof. intro c. rewrite lower_eq by lia. pose proof (is_lower_spec c) as S. unfold url_ok_plain, lower in *. cbn [N.eqb Pos.eqb andb orb]. destruct (is_ident_ascii_lower c); lia. Qed.
Lemma ok2 : forall c, url_ok_plain 2 c = true <-> to_ascii_lowercase c = 108.
Proof. intro c. rewrite lower_eq by lia. pose proof (is_lower_spec c) as S. unfold url_ok_plain, lower in *. cbn [N.eqb Pos.eqb andb orb]. destruct (is_ident_ascii_lower c); lia. Qed.
Lemma ok3 : forall i c, 3 <= i -> url_ok_plain i c = true.
Proof. intros i c H. unfold url_ok_plain. destruct (is_ident_ascii_lower c); lia. Qed.
Lemma uflags_far : forall q i nl d e u, 3 <= i -> ~ In 0 q -> snd (uflags i nl d e u (map Plain q)) = u.
Proof.
  induction q as [| c q IH]; intros i nl d e u Hi H0; cbn [map uflags]; [reflexivity |].
  replace (i =? 0) with false by lia. cbn [andb]. replace (c =? 0) with false by (symmetry; apply N.eqb_neq; intros ->; apply H0; now left).
  rewrite ok3 by lia. rewrite andb_true_r. apply IH; [lia |]. intro I. apply H0. now right.
Qed.
Lemma uflags_url : forall q, ~ In 0 q -> hd 0 q <> 45 ->
  (snd (uflags 0 false false false true (map Plain q)) = true <-> firstn 3 (lower_text q) = firstn (List.length q) [117; 114; 108]).
Proof.
  intros q H0 H45.
  assert (NZ : forall c, In c q -> (c =? 0) = false) by (intros c I; apply N.eqb_neq; intros ->; contradiction).
  destruct q as [| a q]; [cbn; tauto |]. cbn [hd] in H45.
  cbn [map uflags]. replace ((0 =? 0) && (a =? 45)) with false by lia. rewrite (NZ a) by now left. cbn [andb].
  change (0 + 1) with 1. destruct q as [| b q]; [cbn [map uflags snd lower_text firstn List.length]; rewrite ok0; split; [intros ->; reflexivity | intro E; now inversion E] |].
  cbn [map uflags]. replace ((1 =? 0) && (b =? 45)) with false by lia. rewrite (NZ b) by (right; now left).
  change (1 + 1) with 2. destruct q as [| c q].
  { cbn [map uflags snd lower_text firstn List.length]. rewrite andb_true_iff, ok0, ok1. split; [intros (-> & ->); reflexivity | intro E; now inversion E]. }
  cbn [map uflags]. replace ((2 =? 0) && (c =? 45)) with false by lia. rewrite (NZ c) by (right; right; now left).
  change (2 + 1) with 3. rewrite uflags_far; [| lia | intro I; apply H0; do 3 right; exact I].
  rewrite !andb_true_iff, ok0, ok1, ok2. cbn [lower_text map firstn List.length].
  replace (firstn (List.length q) []) with (@nil N) by (destruct (List.length q); reflexivity).
  split; [intros ((-> & ->) & ->); reflexivity | intro E; now inversion E].
Qed.

Lemma quote_ahead_spec : forall n r w x, run white r w x -> is_quote (peek_nth (skip_ws_upto n r) 0) = true <-> (List.length w <= n)%nat /\ starts quote x.
Proof.
  induction n as [| n IH]; intros r w x (-> & Fw & Hx).
  - cbn [skip_ws_upto]. destruct w as [| c w]; cbn [app List.length].
    + rewrite is_quote_spec. rewrite (peek_starts quote x) by (unfold quote; lia). split; [intro; split; [lia | assumption] | tauto].
    + rewrite peek0. split; [| lia]. intro Q. apply is_quote_spec in Q. inversion Fw as [| ? ? Hc]; subst. exfalso. unfold white, newline, quote in *. lia.
  - destruct w as [| c w]; cbn [app List.length skip_ws_upto].
    + assert (E : skip_ws_upto (S n) x = x).
      { destruct x as [| c x]; cbn [skip_ws_upto]; [reflexivity |]. destruct (is_whitespace c) eqn:E; [| reflexivity]. apply is_whitespace_spec in E. exfalso. apply Hx. exists c, x. auto. }
      cbn [skip_ws_upto] in E. rewrite E. rewrite is_quote_spec. rewrite (peek_starts quote x) by (unfold quote; lia). split; [intro; split; [lia | assumption] | tauto].
    + inversion Fw as [| ? ? Hc Fw']; subst. apply is_whitespace_spec in Hc. rewrite Hc. rewrite (IH (w ++ x) w x) by (repeat split; auto). split; intros (A & B); (split; [lia | exact B]).
Qed.

Lemma url_token : forall f pre l t q r1 w x, ~ In 0 l -> esc_ok l -> ident_pieces l (map Plain q) (40 :: r1) -> lower_text q = chars "url" -> run white r1 w x ->
  token_at f pre l t ->
  (starts quote x -> (List.length w <= 4)%nat -> tkind t = K_Function /\ tlen t = 4) /\
  (~ starts quote x -> exists c tail e r, url_body x c tail e r /\
     match e with
     | UMalformed => exists p r', bad_url_remnants r p r' /\ tkind t = K_BadUrl /\ tlen t = 4 + blen w + blen c + blen tail + blen p
     | _ => tkind t = K_Url /\ tlen t = 4 + blen w + blen c + blen tail /\
            (url_has_closing_paren t = true <-> e = UClosed) /\ (url_has_leading_space t = true <-> w <> [])
     end).
Proof.
  intros f pre l t q r1 w x H0 He Hq Eq Hw T. pose proof (ident_pieces_app _ _ _ Hq) as El. rewrite pieces_text_plain in El.
  assert (L3 : List.length q = 3%nat). { apply (f_equal (@List.length N)) in Eq. unfold lower_text in Eq. rewrite map_length in Eq. exact Eq. }
  assert (B3 : blen q = 3).
  { assert (F : Forall (fun c => c < 128) q). { apply Forall_forall. intros c I. assert (J : In (to_ascii_lowercase c) (chars "url")) by (rewrite <- Eq; unfold lower_text; now apply in_map).
      unfold to_ascii_lowercase, is_ascii_upper in J. cbn in J. destruct ((65 <=? c) && (c <=? 90)) eqn:E; lia. }
    rewrite blen_ascii by exact F. lia. }
  assert (Hh : hd 0 q = 117 \/ hd 0 q = 85). { destruct q as [| a q]; [discriminate |]. cbn in Eq. assert (A : to_ascii_lowercase a = 117) by congruence. apply lower_eq in A; [exact A | lia]. }
  assert (W : would_start_ident l). { left. destruct q as [| a q]; [discriminate |]. cbn [hd] in Hh. exists a, (q ++ 40 :: r1). split; [exact El |]. unfold ident_start_cp, letter, lower, upper. lia. }
  assert (Hn : l <> []) by (intro Z; rewrite Z in El; destruct q; discriminate).
  assert (HC : forall r, l <> 45 :: 45 :: 62 :: r). { intros r E. rewrite E in El. destruct q as [| a q]; [discriminate |]. inversion El; subst. cbn in Hh. lia. }
  assert (HU : snd (uflags 0 false false false true (map Plain q)) = true).
  { apply uflags_url; [| lia |].
    - intro I. apply H0. rewrite El. apply in_or_app. now left.
    - rewrite L3, Eq. reflexivity. }
  apply token_at_scan in T; [| exact Hn]. rewrite (scan_ident_like f l Hn (start_sequence_complete l H0 W) HC) in T.
  destruct (ident_like_scan l He) as (t' & r & E & V). rewrite E in T. cbn [ofst] in T. inversion T; subst t'. clear T.
  assert (H1 : ~ In 0 r1). { intro I. apply H0. rewrite El. apply in_or_app. right. now right. }
  pose proof (quote_ahead_spec 4 r1 w x Hw) as QA.
  destruct V as [ps r nl d e u Hp Hu Hs | ps r nl d e u Hp Hu Hs | ps r1' nl d e w' c tl r paren Hp Hu Hqa Hw' Hb | ps r1' nl d e w' c tl p r Hp Hu Hqa Hw' Hbr Hb].
  - destruct (ident_pieces_det _ _ _ Hq _ _ Hp) as (<- & Er). exfalso. apply Hs. rewrite <- Er. exists 40, r1. auto.
  - destruct (ident_pieces_det _ _ _ Hq _ _ Hp) as (<- & Er). inversion Er; subst r. rewrite Hu in HU. cbn [snd] in HU. subst u. rewrite pieces_text_plain, B3 in *.
    destruct Hs as [Hs | Hs]; [discriminate |]. destruct (function_read nl d e (3 + 1)) as (K & L & _). apply QA in Hs. split; [intros _ _; split; [exact K | exact L] | tauto].
  - destruct (ident_pieces_det _ _ _ Hq _ _ Hp) as (<- & Er). inversion Er; subst r1'. rewrite pieces_text_plain, B3 in *.
    destruct (run_det _ _ _ _ _ _ Hw Hw') as (<- & ->). specialize (Hb H1).
    split. { intros Q1 Q2. exfalso. assert (X : quote_ahead r1 = true) by (apply QA; auto). congruence. }
    intros _. exists c, tl, (if paren then UClosed else UAtEnd), r. split; [exact Hb |].
    destruct (url_read_gen paren (0 <? blen w) (e || has_esc c || b_space tl) (3 + 1 + blen w) (blen tl) (3 + 1 + blen w + blen c + blen tl)) as (K & L & P & S & _).
    assert (X : tkind (new_url paren (0 <? blen w) (e || has_esc c || b_space tl) (3 + 1 + blen w) (blen tl) (3 + 1 + blen w + blen c + blen tl)) = K_Url /\
      tlen (new_url paren (0 <? blen w) (e || has_esc c || b_space tl) (3 + 1 + blen w) (blen tl) (3 + 1 + blen w + blen c + blen tl)) = 4 + blen w + blen c + blen tl /\
      (url_has_closing_paren (new_url paren (0 <? blen w) (e || has_esc c || b_space tl) (3 + 1 + blen w) (blen tl) (3 + 1 + blen w + blen c + blen tl)) = true <-> (if paren then UClosed else UAtEnd) = UClosed) /\
      (url_has_leading_space (new_url paren (0 <? blen w) (e || has_esc c || b_space tl) (3 + 1 + blen w) (blen tl) (3 + 1 + blen w + blen c + blen tl)) = true <-> w <> [])).
    { split; [exact K |]. split; [rewrite L; lia |]. rewrite P, S. split; [destruct paren; split; congruence |].
      destruct w as [| c0 w0]; [cbn; split; [discriminate | congruence] |]. pose proof (blen_pos (c0 :: w0) ltac:(discriminate)). split; [discriminate | intros _; lia]. }
    destruct paren; exact X.
  - destruct (ident_pieces_det _ _ _ Hq _ _ Hp) as (<- & Er). inversion Er; subst r1'. rewrite pieces_text_plain, B3 in *.
    destruct (run_det _ _ _ _ _ _ Hw Hw') as (<- & ->). specialize (Hb H1).
    split. { intros Q1 Q2. exfalso. assert (X : quote_ahead r1 = true) by (apply QA; auto). congruence. }
    intros _. exists c, tl, UMalformed, (p ++ r). split; [exact Hb |]. exists p, r. split; [exact Hbr |]. split; [reflexivity |].
    destruct (bad_url_read (3 + 1 + blen w + blen c + blen tl + blen p)) as (_ & L). rewrite L. lia.
Qed.

Lemma function_token : forall f pre l t q r1, ~ In 0 l -> esc_ok l -> would_start_ident l -> ident_pieces l (map Plain q) (40 :: r1) -> hd 0 q <> 45 ->
  firstn 3 (lower_text q) <> firstn (List.length q) [117; 114; 108] -> token_at f pre l t -> tkind t = K_Function /\ tlen t = blen q + 1.
Proof.
  intros f pre l t q r1 H0 He W Hq H45 HN T. pose proof (ident_pieces_app _ _ _ Hq) as El. rewrite pieces_text_plain in El.
  assert (Hq0 : q <> []). { intros ->. apply HN. reflexivity. }
  assert (Hn : l <> []) by (intro Z; rewrite Z in El; destruct q; discriminate).
  assert (HC : forall r, l <> 45 :: 45 :: 62 :: r). { intros r E. rewrite E in El. destruct q as [| a q]; [congruence |]. inversion El; subst. cbn in H45. lia. }
  assert (HU : snd (uflags 0 false false false true (map Plain q)) <> true).
  { intro Q. apply uflags_url in Q; auto. intro I. apply H0. rewrite El. apply in_or_app. now left. }
  apply token_at_scan in T; [| exact Hn]. rewrite (scan_ident_like f l Hn (start_sequence_complete l H0 W) HC) in T.
  destruct (ident_like_scan l He) as (t' & r & E & V). rewrite E in T. cbn [ofst] in T. inversion T; subst t'. clear T.
  destruct V as [ps r nl d e u Hp Hu Hs | ps r nl d e u Hp Hu Hs | ps r1' nl d e w' c tl r paren Hp Hu Hqa Hw' Hb | ps r1' nl d e w' c tl p r Hp Hu Hqa Hw' Hbr Hb];
    destruct (ident_pieces_det _ _ _ Hq _ _ Hp) as (<- & Er).
  - exfalso. apply Hs. rewrite <- Er. exists 40, r1. auto.
  - rewrite pieces_text_plain. destruct (function_read nl d e (blen q + 1)) as (K & L & _). auto.
  - rewrite Hu in HU. exfalso. now apply HU.
  - rewrite Hu in HU. exfalso. now apply HU.
Qed.
