(* C23: a whole sequence of token texts. *)
From Coq Require Import ZifyBool ZifyNat ZifyN.
From Verif Require Import Lexer SpecToken SpecLex SpecTrace SpecWrite LexBase TokenProofs KindProofs ScanProofs ScanProofs2 ScanProofs3 NumProofs DimProofs LexProofs LexFacts LexKinds LexProps LexProps2 LexProps3 LexTrace LexUrl CursorFacts RestProofs RestProofs2 JoinProofs JoinProofs2 JoinProofs3 Span Cursor Write SpecCursor WriteProofs.
Open Scope N_scope.
Open Scope list_scope.

Lemma scan_one_space : forall f y, ~ starts white y -> scan_token f (32 :: y) = Some space_token.
Proof.
  intros f y H. destruct (separate_whitespace f) eqn:S.
  - destruct y as [| c y]; [unfold scan_token; rewrite S; reflexivity |].
    assert (Q : (c =? 32) = false) by (destruct (c =? 32) eqn:Q; [| reflexivity]; exfalso; apply H; exists c, y; split; [reflexivity | right; right; lia]).
    unfold scan_token. rewrite peek0, S. cbn [consume_same]. change SPACE with 32. rewrite Q. reflexivity.
  - destruct y as [| c y]; [unfold scan_token; rewrite S; reflexivity |].
    assert (Q : is_whitespace c = false).
    { destruct (is_whitespace c) eqn:Q; [| reflexivity]. exfalso. apply H. exists c, y. split; [reflexivity |]. now apply is_whitespace_spec. }
    unfold scan_token. rewrite peek0, S. unfold consume_whitespace. cbn [consume_whitespace_loop]. rewrite Q. reflexivity.
Qed.

Lemma sep_space : forall t, needs_separator_for t space_token = false.
Proof.
  intro t. unfold needs_separator_for. change (tkind space_token) with K_Whitespace. change (is_cdc space_token) with false.
  assert (Q : forall c, char_is space_token c = false) by reflexivity. rewrite !Q.
  destruct (tkind t); try reflexivity; destruct (tchar t) as [c |]; try reflexivity;
    repeat (match goal with |- match ?x with _ => _ end = _ => destruct x end; try reflexivity).
Qed.
Lemma sep_eof : forall t, needs_separator_for t T_EOF = false.
Proof.
  intro t. unfold needs_separator_for. change (tkind T_EOF) with K_Eof. change (is_cdc T_EOF) with false.
  assert (Q : forall c, c <> 0 -> char_is T_EOF c = false) by (intros c H; unfold char_is; cbn; destruct c; [congruence | reflexivity]).
  rewrite ?Q by discriminate.
  destruct (tkind t); try reflexivity; destruct (tchar t) as [c |]; try reflexivity;
    repeat (match goal with |- match ?x with _ => _ end = _ => destruct x end; try reflexivity).
Qed.
Lemma white_bits : forall t, tkind t = K_Whitespace -> kind_bits t = kind_code K_Whitespace.
Proof.
  intros t H. unfold tkind in H. assert (L : kind_bits t < 32) by (unfold kind_bits; change 31 with (N.ones 5); rewrite N.land_ones; apply N.mod_lt; discriminate).
  revert H. assert (Q : forallb (fun b => negb (kind_eqb (kind_from_bits b) K_Whitespace) || (b =? kind_code K_Whitespace)) (map N.of_nat (seq 0 32)) = true) by reflexivity.
  rewrite forallb_forall in Q. intro H. specialize (Q (kind_bits t)). rewrite H in Q.
  assert (I : In (kind_bits t) (map N.of_nat (seq 0 32))) by (apply in_map_iff; exists (N.to_nat (kind_bits t)); split; [lia | apply in_seq; lia]).
  apply Q in I. cbn [kind_eqb] in I. apply N.eqb_eq. exact I.
Qed.
Lemma sep_not_white : forall t t2, needs_separator_for t t2 = true -> tkind t2 <> K_Whitespace.
Proof.
  intros t t2 H K. unfold needs_separator_for in H. rewrite K in H.
  assert (Q : forall c, char_is t2 c = false) by (intro c; unfold char_is, tok_is_char, tchar, is_delim_like; rewrite (white_bits _ K); reflexivity).
  assert (Q2 : is_cdc t2 = false) by (unfold is_cdc; rewrite (white_bits _ K); reflexivity).
  rewrite !Q, Q2 in H.
  destruct (tkind t); try discriminate; destruct (tchar t) as [c |]; try discriminate;
    repeat (match type of H with match ?x with _ => _ end = _ => destruct x end; try discriminate).
Qed.

Lemma spelled_cons : forall prev i its, spelled prev (i :: its) =
  concat (separator_before prev (it_tok i)) ++ it_text i ++ spelled (Some (it_tok i)) its.
Proof. intros. unfold spelled. cbn [map joined]. rewrite !concat_app. cbn [concat]. now rewrite app_nil_r. Qed.

(* the text after the separator, if any *)
Lemma head_scan : forall f its i prev, Forall (found f) (i :: its) -> all_apart f (i :: its) ->
  well_behaved (single_line_comments f) (spelled prev (i :: its)) -> ~ In 0 (spelled prev (i :: its)) ->
  scan_token f (it_text i ++ spelled (Some (it_tok i)) its) = Some (it_tok i) /\ 
  scan_token f (spelled prev (i :: its)) = Some (hd (it_tok i) (spaced prev [it_tok i])).
Proof.
  intros f its. induction its as [| j its IH]; intros i prev HF HA WB H0.
  - assert (X : scan_token f (it_text i ++ spelled (Some (it_tok i)) []) = Some (it_tok i)).
    { inversion HF as [| ? ? (Hne & L & (pre & T) & W & Z) _]; subst. unfold spelled. cbn [map joined concat].
      rewrite app_nil_r. destruct HA as ([E | A] & _).
      - rewrite E, app_nil_r in T. apply token_at_scan in T; assumption.
      - rewrite <- (app_nil_r (it_text i)).
        assert (WB' : well_behaved (single_line_comments f) (it_text i ++ [])).
        { rewrite spelled_cons in WB. apply well_behaved_suffix in WB. exact WB. }
        apply (join f pre [] (it_text i) (it_after i) [] (it_tok i) T_EOF); auto.
        + rewrite app_nil_r. intro I. apply Z. apply in_or_app. now left.
        + intro last. eexists. reflexivity.
        + apply sep_eof. }
    split; [exact X |].
    rewrite spelled_cons in *. cbn [spaced]. unfold separator_before in *. destruct prev as [p |]; [| exact X].
    destruct (needs_separator_for p (it_tok i)) eqn:NS; [| exact X]. cbn [concat app map hd] in *.
    apply scan_one_space. intro S. inversion HF as [| ? ? (Hne & L & (pre & T) & W & Z) _]; subst.
    apply (sep_not_white _ _ NS). apply (second_white f pre (it_text i ++ it_after i) _ T).
    destruct (it_text i) as [| c x]; [congruence |]. eapply starts_head. exact S.
  - assert (WB1 : well_behaved (single_line_comments f) (it_text i ++ spelled (Some (it_tok i)) (j :: its))) by (rewrite spelled_cons in WB; now apply well_behaved_suffix in WB).
    assert (Z1 : ~ In 0 (it_text i ++ spelled (Some (it_tok i)) (j :: its))) by (rewrite spelled_cons in H0; exact (proj2 (no0_app _ _ H0))).
    assert (X : scan_token f (it_text i ++ spelled (Some (it_tok i)) (j :: its)) = Some (it_tok i)).
    { inversion HF as [| ? ? (Hne & L & (pre & T) & W & Z) HF']; subst. destruct HA as (A & HA').
      destruct (IH j (Some (it_tok i)) HF' HA' (well_behaved_suffix _ _ _ WB1) (proj2 (no0_app _ _ Z1))) as (Y1 & Y2).
      assert (Yne : spelled (Some (it_tok i)) (j :: its) <> []).
      { rewrite spelled_cons. inversion HF' as [| ? ? (Hn & _) _]; subst. intro Q. apply app_eq_nil in Q. destruct Q as (_ & Q). apply app_eq_nil in Q. now destruct Q. }
      apply (join f pre [] (it_text i) (it_after i) (spelled (Some (it_tok i)) (j :: its)) (it_tok i) (hd (it_tok j) (spaced (Some (it_tok i)) [it_tok j]))); auto.
      - apply token_at_scan; assumption.
      - cbn [spaced]. unfold separator_before. destruct (needs_separator_for (it_tok i) (it_tok j)) eqn:NS; [apply sep_space | exact NS].
      - cbn [spaced]. unfold separator_before. destruct (needs_separator_for (it_tok i) (it_tok j)) eqn:NS; exact A. }
    split; [exact X |].
    rewrite (spelled_cons prev). cbn [spaced]. unfold separator_before at 1 2. destruct prev as [p |]; [| exact X].
    destruct (needs_separator_for p (it_tok i)) eqn:NS; [| exact X]. cbn [concat app map hd].
    apply scan_one_space. intro S. inversion HF as [| ? ? (Hne & L & (pre & T) & W & Z) _]; subst.
    apply (sep_not_white _ _ NS). apply (second_white f pre (it_text i ++ it_after i) _ T).
    destruct (it_text i) as [| c x]; [congruence |]. eapply starts_head. exact S.
Qed.

Lemma trace_first : forall f o l cs t, trace f o l cs -> l <> [] -> scan_token f l = Some t -> exists p r cs', cs = Cursor o t :: cs' /\ l = p ++ r /\ blen p = tlen t /\ trace f (o + blen p) r cs'.
Proof.
  intros f o l cs t T Hn S. inversion T as [| o' p r t' cs' H1 H2 H3 H4 H5 H6]; subst; [congruence |].
  rewrite H4 in S. inversion S; subst. exists p, r, cs'. auto.
Qed.
Lemma sequence_trace : forall f its prev o cs, Forall (found f) its -> all_apart f its ->
  well_behaved (single_line_comments f) (spelled prev its) -> ~ In 0 (spelled prev its) -> trace f o (spelled prev its) cs ->
  map ctok cs = spaced prev (map it_tok its).
Proof.
  intros f its. induction its as [| i its IH]; intros prev o cs HF HA WB H0 T.
  - inversion T as [| o' p r t' cs' H1 H2 H3 H4 H5 H6 H7]; [reflexivity |]. symmetry in H7. destruct p; [congruence | discriminate].
  - destruct (head_scan f its i prev HF HA WB H0) as (X & Y).
    inversion HF as [| ? ? (Hne & L & _) HF']; subst. destruct HA as (_ & HA').
    assert (MAIN : forall o cs, trace f o (it_text i ++ spelled (Some (it_tok i)) its) cs -> well_behaved (single_line_comments f) (it_text i ++ spelled (Some (it_tok i)) its) ->
      ~ In 0 (it_text i ++ spelled (Some (it_tok i)) its) -> map ctok cs = it_tok i :: spaced (Some (it_tok i)) (map it_tok its)).
    { clear T o cs WB H0 Y. intros o cs T WB H0.
      destruct (trace_first f o _ cs (it_tok i) T) as (p & r & cs' & -> & E & B & T'); [destruct (it_text i); [congruence | discriminate] | exact X |].
      destruct (prefix_blen (it_text i) p _ _ E) as (<- & <-); [congruence |].
      cbn [map ctok]. f_equal. apply (IH _ _ _ HF' HA' (well_behaved_suffix _ _ _ WB) (proj2 (no0_app _ _ H0)) T'). }
    rewrite spelled_cons in *. cbn [map spaced] in *. unfold separator_before in *. destruct prev as [p |]; [| now apply (MAIN o)].
    destruct (needs_separator_for p (it_tok i)); [| now apply (MAIN o)]. cbn [concat app map hd] in *.
    destruct (trace_first _ _ _ _ _ T ltac:(discriminate) Y) as (q & r & cs' & -> & E & B & T').
    destruct (prefix_blen [32] q (it_text i ++ spelled (Some (it_tok i)) its) r E) as (<- & <-); [rewrite B; reflexivity |].
    cbn [map ctok]. f_equal. apply (MAIN _ _ T').
    + exact (well_behaved_suffix _ [32] _ WB).
    + intro I. apply H0. now right.
Qed.
Lemma sequence_lexes : forall f its, Forall (found f) its -> all_apart f its ->
  well_behaved (single_line_comments f) (spelled None its) -> ~ In 0 (spelled None its) ->
  exists cs, lex (spelled None its) f = Some cs /\ map ctok cs = spaced None (map it_tok its).
Proof.
  intros f its HF HA WB H0. destruct (lex_trace _ f WB) as (cs & E & T). exists cs. split; [exact E |]. exact (sequence_trace f its None 0 cs HF HA WB H0 T).
Qed.

(* cursors of a lexed source, written as they were spelled *)
Lemma cursor_item : forall src f cs c, well_behaved (single_line_comments f) src -> Forall (fun c => valid_char c = true) src -> blen src < 4294967295 -> ~ In 0 src ->
  lex src f = Some cs -> In c cs -> verbatim (ctok c) -> exists i, found f i /\ it_tok i = ctok c /\ write_str c src = Some (it_text i).
Proof.
  intros src f cs c WB VC LT NZ EL I V. destruct (lex_trace src f WB) as (cs' & E' & T). rewrite EL in E'. inversion E'. subst cs'. clear E'.
  assert (G : forall cs o l, trace f o l cs -> In c cs -> exists a b, l = a ++ b /\ b <> [] /\ coff c = o + blen a /\ scan_token f b = Some (ctok c)).
  { clear. intros cs o l T. induction T as [| o p r t cs H1 H2 H3 H4 H5 H6 IH]; intros I; [destruct I |]. destruct I as [<- | I].
    - exists [], (p ++ r). split; [reflexivity |]. split; [destruct p; [congruence | discriminate] |]. split; [cbn; lia | exact H4].
    - destruct (IH I) as (a & b & -> & Hb & Q & S). exists (p ++ a), b. split; [now rewrite app_assoc |]. split; [exact Hb |]. split; [rewrite blen_app; lia | exact S]. }
  destruct (G cs 0 src T I) as (a & b & Es & Hb & Ho & S). cbn [N.add] in Ho.
  assert (WBb : well_behaved (single_line_comments f) b) by (rewrite Es in WB; now apply well_behaved_suffix in WB).
  assert (TA : token_at f a b (ctok c)) by now apply token_at_scan.
  assert (VB : Forall (fun c => valid_char c = true) b) by (rewrite Es in VC; apply Forall_app in VC; tauto).
  destruct (verbatim_text f a b (ctok c) WBb VB) as (p & r & Eb & L & W); [now rewrite <- Es | exact TA | exact V |].
  exists (Item (ctok c) p r). split; [| split; [reflexivity |]].
  - unfold found. cbn [it_text it_tok it_after]. rewrite <- Eb.
    split; [| split; [exact L |]; split; [exists a; exact TA |]; split; [exact WBb |]].
    + intros ->. destruct (scan_spec f b Hb ltac:(apply WBb)) as (t' & r' & E & V'). rewrite E in S. inversion S. subst t'.
      destruct (view_extent _ _ _ _ V' WBb) as (p' & Ep & Hp' & L' & _). destruct p' as [| x p']; [congruence |]. rewrite L in L'. cbn in L'. pose proof (len_utf8_pos x). lia.
    + rewrite Es in NZ. exact (proj2 (no0_app _ _ NZ)).
  - cbn [it_text]. rewrite Es. destruct c as [o t]. cbn [coff ctok] in *. subst o. replace (0 + blen a) with (blen a) in * by lia. exact W.
Qed.
Lemma written_back : forall src f cs sub, well_behaved (single_line_comments f) src -> Forall (fun c => valid_char c = true) src -> blen src < 4294967295 -> ~ In 0 src ->
  lex src f = Some cs -> incl sub cs -> Forall (fun c => verbatim (ctok c)) sub ->
  exists its, Forall (found f) its /\ map it_tok its = map ctok sub /\ fmt_text src sub = Some (spelled None its) /\
    (all_apart f its -> well_behaved (single_line_comments f) (spelled None its) ->
     exists cs', lex (spelled None its) f = Some cs' /\ map ctok cs' = spaced None (map ctok sub)).
Proof.
  intros src f cs sub WB VC LT NZ EL HI HV.
  assert (G : exists its, Forall (found f) its /\ Forall2 (fun c i => it_tok i = ctok c /\ write_str c src = Some (it_text i)) sub its).
  { induction sub as [| c sub IH]; [exists []; auto |].
    inversion HV as [| ? ? V1 V2]; subst. destruct IH as (its & F1 & F2); [intros x Ix; apply HI; now right | exact V2 |].
    destruct (cursor_item src f cs c WB VC LT NZ EL (HI c (or_introl eq_refl)) V1) as (i & Fi & Et & Ew). exists (i :: its). auto. }
  destruct G as (its & F1 & F2). exists its. split; [exact F1 |].
  assert (ET : map it_tok its = map ctok sub) by (clear -F2; induction F2 as [| c i cs its (A & B) F2 IH]; [reflexivity | cbn [map]; now rewrite A, IH]).
  split; [exact ET |]. split.
  - rewrite (fmt_text_joined src sub (map (fun i => (it_tok i, it_text i)) its)).
    + unfold spelled. rewrite map_map. cbn [fst snd]. reflexivity.
    + clear -F2. induction F2 as [| c i cs its (A & B) F2 IH]; cbn [map]; constructor; auto.
  - intros HA W. rewrite <- ET. apply sequence_lexes; auto.
    assert (Z : Forall (fun i => ~ In 0 (it_text i)) its) by (apply Forall_forall; intros i Ii; rewrite Forall_forall in F1; destruct (F1 i Ii) as (_ & _ & _ & _ & Q); exact (proj1 (no0_app _ _ Q))).
    clear -Z. generalize (@None token). induction its as [| i its IH]; intros prev; [unfold spelled; cbn; tauto |]. rewrite spelled_cons. inversion Z as [| ? ? Z1 Z2]; subst.
    rewrite !in_app_iff. intros [Q | [Q | Q]]; [| contradiction | exact (IH Z2 _ Q)].
    unfold separator_before in Q. destruct prev as [p |]; [| destruct Q]. destruct (needs_separator_for p (it_tok i)); cbn in Q; intuition discriminate.
Qed.
Lemma join_token : forall f pre1 pre2 p1 r1 y t1 t2,
  well_behaved (single_line_comments f) (p1 ++ r1) -> well_behaved (single_line_comments f) (p1 ++ y) -> ~ In 0 (p1 ++ r1) -> ~ In 0 (p1 ++ y) ->
  token_at f pre1 (p1 ++ r1) t1 -> tlen t1 = blen p1 -> p1 <> [] -> token_at f pre2 y t2 ->
  needs_separator_for t1 t2 = false -> apart f t1 p1 r1 t2 y ->
  forall pre, token_at f pre (p1 ++ y) t1.
Proof.
  intros f pre1 pre2 p1 r1 y t1 t2 W1 W2 Z1 Z2 T1 L Hn T2 NS A pre. apply token_at_scan; [destruct p1; [congruence | discriminate] |].
  exact (join f pre1 pre2 p1 r1 y t1 t2 W1 W2 Z1 Z2 T1 L Hn T2 NS A).
Qed.

(* a check that is enough for [apart], used for the examples *)
Definition apart_check (t1 : token) (p r : text) (t2 : token) (y : text) : bool :=
  negb (existsb (N.eqb 92) p) && negb (kind_in (tkind t1) [K_String; K_Url; K_BadUrl; K_Comment; K_BadString; K_Function]) &&
  (negb (kind_eqb (tkind t1) K_Whitespace) || negb (kind_eqb (tkind t2) K_Whitespace)) &&
  match y with c :: _ => negb (existsb (N.eqb c) [45; 43; 62; 33; 47]) | [] => true end.
Lemma apart_check_ok : forall f t1 p r t2 y, apart_check t1 p r t2 y = true -> apart f t1 p r t2 y.
Proof.
  intros f t1 p r t2 y H. unfold apart_check in H. rewrite !andb_true_iff in H. destruct H as (((H1 & H2) & H3) & H4).
  apply negb_true_iff in H1, H2. apply not_in_kind in H2.
  assert (D : forall c, In c [45; 43; 62; 33; 47] -> ~ starts (eq c) y).
  { intros c I (d & z & E & <-). subst y. apply negb_true_iff in H4. assert (X : existsb (N.eqb c) [45; 43; 62; 33; 47] = true) by (apply existsb_exists; exists c; split; [exact I | apply N.eqb_refl]). congruence. }
  constructor.
  - intros (a & b & -> & _). assert (X : existsb (N.eqb 92) (a ++ 92 :: b) = true) by (apply existsb_exists; exists 92; split; [apply in_or_app; right; now left | reflexivity]). congruence.
  - intros I. exfalso. apply H2. cbn in *. intuition.
  - intro K. apply H2. rewrite K. cbn. auto 8.
  - intro K. exfalso. apply H2. rewrite K. cbn. auto 8.
  - intros K K'. rewrite K, K' in H3. discriminate.
  - intros _. apply D. cbn. auto.
  - intros _. apply D. cbn. auto.
  - intros _. apply D. cbn. auto.
  - intros _ z ->. apply (D 33); [cbn; auto 8 | exists 33, (45 :: 45 :: z); auto].
  - intros _ _. apply D. cbn. auto 8.
  - intro K. exfalso. apply H2. rewrite K. cbn. auto 8.
Qed.
