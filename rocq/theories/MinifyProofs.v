(* Proofs behind PropMinify (C58): the text that the formatting sink writes for cursors of a source, read again. *)
From Coq Require Import ZifyBool ZifyNat ZifyN.
From Coq Require Import List Permutation.
From Verif Require Import Lexer Span Cursor Write SpecToken SpecLex SpecTrace SpecF32 SpecCursor SpecWrite SpecSyntax LexBase TokenProofs KindProofs ScanProofs ScanProofs2 ScanProofs3 NumProofs F32Proofs DisplayProofs LexProofs LexFacts LexTrace LexKinds LexProps LexProps3 CursorLex WriteProofs JoinProofs JoinProofs3 JoinProofs4 NthLex SpecMinify.
From Verif Require DimProofs.
Open Scope N_scope.
Open Scope list_scope.

(* ---- numbers, written ---- *)
Lemma unsigned_positive : forall p, css_number p -> ~ starts sign p -> N.testbit (parse_f32 p) 31 = false.
Proof.
  intros p C S. destruct (decimal_total p C) as (neg & m & e & D). destruct (parse_f32_nearest p neg m e D) as (b & E & Nr). rewrite E.
  assert (B : (0 <= b <= f32_infinity)%Z) by apply Nr.
  assert (Ng : neg = false).
  { destruct D as [s i x e Hs Hi Hx | s i f x e Hs Hi Hf Hx]; (destruct Hs as [-> | [-> | ->]]; cbn [app] in S;
      [reflexivity | exfalso; apply S; eexists _, _; (split; [reflexivity |]); unfold sign; auto | exfalso; apply S; eexists _, _; (split; [reflexivity |]); unfold sign; auto]). }
  subst neg. unfold signed. unfold f32_infinity in B. rewrite testbit31; [| lia]. lia.
Qed.
Definition sv_list (l : list N) : bool := existsb (fun x => if list_eq_dec N.eq_dec (lower_text l) x then true else false) sv_fragments.
Lemma unit_suffixes : forall u, u <> U_Svmin -> u <> U_Svmax -> forall z q, unit_str u = z ++ q -> sv_list q = false.
Proof.
  intros u N1 N2 z q E.
  assert (X : forallb (fun k => negb (sv_list (skipn k (unit_str u)))) (seq 0 (S (length (unit_str u)))) = true) by (destruct u; try congruence; vm_compute; reflexivity).
  rewrite forallb_forall in X. specialize (X (length z)). rewrite E in X. rewrite skipn_app, skipn_all, Nat.sub_diag in X. cbn [skipn app] in X. apply negb_true_iff. apply X.
  apply in_seq. rewrite app_length. lia.
Qed.
Definition number_char (c : N) : Prop := digit c \/ c = 46 \/ c = 43 \/ c = 45.
Lemma displayed_chars : forall s w, opt_sign s -> plain_magnitude w -> Forall number_char (s ++ w).
Proof.
  intros s w Hs Hw. assert (Dg : forall l, digits l -> Forall number_char l) by (intros l H; eapply Forall_impl; [| exact H]; intros c Hc; left; exact Hc).
  apply Forall_app. split.
  - destruct Hs as [-> | [-> | ->]]; [constructor | |]; (constructor; [unfold number_char; auto | constructor]).
  - destruct Hw as [(_ & D) | (i & f & -> & (_ & D1) & (_ & D2))]; [now apply Dg |]. apply Forall_app. split; [now apply Dg |]. constructor; [unfold number_char; auto | now apply Dg].
Qed.
Lemma displayed_small : forall s w, opt_sign s -> plain_magnitude w -> (length w <= 1000)%nat -> blen (s ++ w) < 2048.
Proof.
  intros s w Hs Hw Lw. rewrite blen_ascii; [rewrite app_length; pose proof (sign_len s Hs); lia |].
  eapply Forall_impl; [| exact (displayed_chars s w Hs Hw)]. intros c Hc. cbn beta. unfold number_char, digit in Hc. lia.
Qed.
Lemma tail_chars : forall u, u <> U_Unknown -> u <> U_Svmin -> u <> U_Svmax -> unit_str u = [37] \/ Forall lower (unit_str u).
Proof. intros u N1 N2 N3. destruct (unit_text_spec u N1 N2 N3) as (_ & _ & [-> | (_ & F & _)]); [left; reflexivity | right; exact F]. Qed.
Lemma written_behaves : forall sw u, Forall number_char sw -> blen sw < 2048 -> u <> U_Svmin -> u <> U_Svmax -> (unit_str u = [] \/ unit_str u = [37] \/ Forall lower (unit_str u)) -> blen (unit_str u) < 2048 ->
  well_behaved false (sw ++ unit_str u) /\ ~ In 0 (sw ++ unit_str u) /\ ~ In 92 (sw ++ unit_str u).
Proof.
  intros sw u Hs Bs N2 N3 Hu Bu.
  assert (Z : forall c, In c (sw ++ unit_str u) -> 0 < c /\ c <> 92).
  { intros c I. apply in_app_or in I. destruct I as [I | I].
    - rewrite Forall_forall in Hs. specialize (Hs c I). unfold number_char, digit in Hs. lia.
    - destruct Hu as [E | [E | F]]; [rewrite E in I; destruct I | rewrite E in I; destruct I as [<- | []]; lia |]. rewrite Forall_forall in F. specialize (F c I). unfold lower in F. lia. }
  split; [| split; intro I; apply Z in I; lia].
  split; [| split; [| split; [| discriminate]]].
  - intros a c b E. assert (I : In 92 (sw ++ unit_str u)) by (rewrite E; apply in_or_app; right; now left). apply Z in I. lia.
  - apply small_within_limits. rewrite blen_app. lia.
  - intros l p r q r' (a & E) (El & _) Hp I. assert (Er := no_sv_ident _ _ _ Hp). rewrite El, Er in E.
    assert (Hr' : ~ starts ident_cp r').
    { clear - Hp. remember (map Plain q) as ps eqn:Eq. revert q Eq. induction Hp as [l H1 H2 | c l ps r H1 H2 IH | l e l' ps r H1 H2 IH]; intros q Eq; [exact H1 | |]; destruct q as [| d q]; try discriminate Eq. injection Eq as _ Eq. exact (IH q Eq). }
    assert (Q : sv_list q = true). { unfold sv_list. apply existsb_exists. exists (lower_text q). split; [exact I |]. destruct (list_eq_dec _ _ _); congruence. }
    destruct q as [| c q]; [cbn in I; intuition discriminate |].
    assert (Hc : c = 115 \/ c = 83). { cbn in I. assert (to_ascii_lowercase c = 115) by (destruct I as [I | [I | [I | [I | []]]]]; now inversion I). unfold to_ascii_lowercase, is_ascii_upper in H. destruct ((65 <=? c) && (c <=? 90)) eqn:W; lia. }
    assert (S : exists z, unit_str u = z ++ (c :: q) ++ r').
    { rewrite (app_assoc a p) in E. symmetry in E. destruct (app_eq_app _ _ _ _ E) as (z & [(E1 & E2) | (E1 & E2)]); [exists z; exact E2 |].
      destruct z as [| d z]; [exists []; symmetry; exact E2 |]. exfalso. cbn [app] in E2. injection E2 as <- _. rewrite E1 in Hs. apply Forall_app in Hs. destruct Hs as (_ & Hs). inversion Hs as [| ? ? Hd _]; subst. unfold number_char, digit in Hd. lia. }
    destruct S as (z & S). assert (R : r' = []).
    { destruct r' as [| d r']; [reflexivity |]. exfalso. apply Hr'. exists d, r'. split; [reflexivity |].
      destruct Hu as [Eu | [Eu | F]]; [rewrite Eu in S; destruct z; discriminate S | rewrite Eu in S; apply (f_equal (@length N)) in S; rewrite !app_length in S; cbn [length] in S; lia |].
      rewrite S in F. rewrite !Forall_app in F. destruct F as (_ & _ & F). inversion F; subst. left. left. right. assumption. }
    subst r'. rewrite app_nil_r in S. rewrite (unit_suffixes u N2 N3 z (c :: q) S) in Q. discriminate.
Qed.

(* ---- tokens that are alike to the separator rule ---- *)
Definition numeric (k : kind) : Prop := k = K_Number \/ k = K_Dimension.
Definition alike (a b : token) : Prop :=
  b = a \/ tkind b = tkind a /\ (tkind a = K_Whitespace \/ numeric (tkind a) /\ tvalue b = tvalue a /\ has_sign b = has_sign a).
Lemma no_char : forall t, numeric (tkind t) \/ tkind t = K_Whitespace -> tchar t = None /\ is_cdc t = false.
Proof.
  intros t [[K | K] | K]; pose proof (kind_bits_of t _ K ltac:(discriminate)) as B; unfold tchar, is_delim_like, is_cdc; rewrite B; split; reflexivity.
Qed.
Lemma alike_first : forall a b t, alike a b -> needs_separator_for a t = needs_separator_for b t.
Proof.
  intros a b t [-> | (K & [W | ([N | N] & _)])]; [reflexivity | | |]; unfold needs_separator_for; rewrite K; rewrite ?W, ?N; [| reflexivity | reflexivity].
  rewrite (proj1 (no_char a (or_intror W))). rewrite (proj1 (no_char b (or_intror (eq_trans K W)))). reflexivity.
Qed.
Lemma alike_second : forall a b t, alike a b -> needs_separator_for t a = needs_separator_for t b.
Proof.
  intros a b t [-> | (K & H)]; [reflexivity |].
  assert (NC : tchar a = None /\ is_cdc a = false /\ tchar b = None /\ is_cdc b = false).
  { assert (X : numeric (tkind a) \/ tkind a = K_Whitespace) by tauto. assert (Y : numeric (tkind b) \/ tkind b = K_Whitespace) by (rewrite K; exact X). destruct (no_char a X), (no_char b Y). auto. }
  destruct NC as (A1 & A2 & B1 & B2). unfold needs_separator_for, char_is, tok_is_char. rewrite A1, A2, B1, B2, K.
  destruct H as [W | (_ & V & Sg)]; [rewrite W; destruct (tkind t); reflexivity |]. rewrite V, Sg. reflexivity.
Qed.
Lemma white_first : forall a t, tkind a = K_Whitespace -> needs_separator_for a t = false.
Proof. intros a t W. unfold needs_separator_for. rewrite W, (proj1 (no_char a (or_intror W))). reflexivity. Qed.
Lemma white_second : forall a t, tkind a = K_Whitespace -> needs_separator_for t a = false.
Proof. intros a t W. destruct (needs_separator_for t a) eqn:E; [| reflexivity]. now apply sep_not_white in E. Qed.

(* ---- a cursor of the source, as an item ---- *)
Lemma cursor_place : forall src f cs c, well_behaved (single_line_comments f) src -> Forall (fun c => valid_char c = true) src -> blen src < 4294967295 -> ~ In 0 src ->
  lex src f = Some cs -> In c cs -> exists a p r, src = a ++ p ++ r /\ coff c = blen a /\ tlen (ctok c) = blen p /\ p <> [] /\ token_at f a (p ++ r) (ctok c) /\
    well_behaved (single_line_comments f) (p ++ r) /\ (verbatim (ctok c) -> write_str c src = Some p).
Proof.
  intros src f cs c WB VC LT NZ EL I. destruct (lex_trace src f WB) as (cs' & E' & T). rewrite EL in E'. inversion E'. subst cs'. clear E'.
  assert (G : forall cs o l, trace f o l cs -> In c cs -> exists a p r, l = a ++ p ++ r /\ p <> [] /\ tlen (ctok c) = blen p /\ coff c = o + blen a /\ scan_token f (p ++ r) = Some (ctok c)).
  { clear. intros cs o l T. induction T as [| o p r t cs H1 H2 H3 H4 H5 H6 IH]; intros I; [destruct I |]. destruct I as [<- | I].
    - exists [], p, r. split; [reflexivity |]. split; [exact H1 |]. split; [exact H2 |]. split; [cbn; lia | exact H4].
    - destruct (IH I) as (a & p' & r' & -> & Hb & L & Q & Sc). exists (p ++ a), p', r'. split; [now rewrite app_assoc |]. split; [exact Hb |]. split; [exact L |]. split; [rewrite blen_app; lia | exact Sc]. }
  destruct (G cs 0 src T I) as (a & p & r & Es & Hp & L & Ho & Sc). cbn [N.add] in Ho. clear G.
  assert (Hb : p ++ r <> []) by (destruct p; [congruence | discriminate]).
  assert (WBb : well_behaved (single_line_comments f) (p ++ r)) by (rewrite Es in WB; now apply well_behaved_suffix in WB).
  assert (TA : token_at f a (p ++ r) (ctok c)) by now apply token_at_scan.
  exists a, p, r. split; [exact Es |]. split; [lia |]. split; [exact L |]. split; [exact Hp |]. split; [exact TA |]. split; [exact WBb |].
  intro V. assert (VB : Forall (fun c => valid_char c = true) (p ++ r)) by (rewrite Es in VC; apply Forall_app in VC; tauto).
  destruct (verbatim_text f a (p ++ r) (ctok c) WBb VB) as (p' & r' & Eb & L' & W); [now rewrite <- Es | exact TA | exact V |].
  destruct (prefix_blen p p' r r' Eb) as (<- & <-); [congruence |]. rewrite Es. destruct c as [o t]. cbn [coff ctok] in *. replace o with (blen a) by lia. exact W.
Qed.

Record written_as (src : text) (c : cursor) (i : item) : Prop := {
  pc_found : found no_features i;
  pc_write : write_str c src = Some (it_text i);
  pc_alike : alike (ctok c) (it_tok i);
  pc_same : same_token (ctok c) (it_tok i);
  pc_plain : ~ In 92 (it_text i);
  pc_closed : In (kind_of c) [K_String; K_Url; K_BadUrl; K_Comment] -> it_after i <> [];
  pc_quote : kind_of c = K_String -> starts quote (it_text i);
  pc_white : kind_of c = K_Whitespace -> Forall white (it_text i);
  pc_comment : kind_of c = K_Comment -> exists z, it_text i = 47 :: 42 :: z }.
Lemma verbatim_dec : forall t, verbatim t \/ tkind t = K_Number \/ (tkind t = K_Dimension /\ dimension_unit t <> U_Unknown).
Proof.
  intro t. unfold verbatim. destruct (tkind t) eqn:K; try (left; split; discriminate).
  - right. left. reflexivity.
  - destruct (dimension_unit t) eqn:U; (left; split; [discriminate | reflexivity]) || (right; right; split; [reflexivity | discriminate]).
Qed.
Section Cursors.
Variables (src : text) (all : list cursor).
Hypotheses (WB : well_behaved false src) (VC : Forall (fun c => valid_char c = true) src) (LT : blen src < 4294967295) (NZ : ~ In 0 src) (NB : ~ In 92 src) (EL : lex src no_features = Some all).
(* a number of the source that is negative has a sign *)
Lemma negative_signed : forall c, In c all -> numeric (tkind (ctok c)) -> N.testbit (tvalue (ctok c)) 31 = true -> has_sign (ctok c) = true.
Proof.
  intros c I K Tb. destruct (cursor_place src no_features all c WB VC LT NZ EL I) as (a & p & r & Es & _ & L & Hp & T & W & _).
  assert (Hb : p ++ r <> []) by (destruct p; [congruence | discriminate]).
  pose proof (number_only no_features a (p ++ r) (ctok c) W Hb T K) as Ns.
  destruct (number_token no_features a (p ++ r) (ctok c) Ns (proj1 (proj2 W)) (proj1 W) T) as (n & r' & Ln & _ & _ & Sg & _ & _ & V).
  destruct (has_sign (ctok c)) eqn:Hs; [reflexivity |]. exfalso. rewrite V in Tb. rewrite (unsigned_positive n) in Tb; [discriminate | apply Ln |].
  intros (ch & x & E & Hc). assert (X : false = true) by (apply Sg; destruct Ln as (Ln & _); rewrite Ln, E; exists ch, (x ++ r'); auto). discriminate X.
Qed.
Lemma written_number : forall c, In c all -> kind_of c = K_Number -> sound src c -> exists i, written_as src c i.
Proof.
  intros c I K So. pose proof (so_number _ _ So K) as Fin.
  destruct (rewrite_number no_features [] (ctok c) [] K Fin) with (o := coff c) (src := src) as (p & t' & W & T & K' & V' & L' & S'); [intros (x & y & E & _); discriminate |].
  rewrite app_nil_r in T. destruct c as [o t]. cbn [ctok coff] in *. unfold kind_of in K. cbn [ctok] in K.
  assert (Ep : p = display_f32 (has_sign t) (tvalue t)) by (unfold write_str, write_pieces in W; cbn [ctok] in W; rewrite K in W; cbn [List.concat] in W; rewrite app_nil_r in W; congruence).
  destruct (display_spec (has_sign t) (tvalue t) Fin) as (w & E & Hw & Lw & _). rewrite E in Ep. pose proof (sign_text_opt (has_sign t) (tvalue t)) as Hs.
  pose proof (displayed_chars _ _ Hs Hw) as Hc.
  assert (Bl : blen p < 2048) by (rewrite Ep; exact (displayed_small _ _ Hs Hw Lw)).
  destruct (written_behaves p U_Unknown) as (B1 & B2 & B3); [now rewrite Ep | exact Bl | discriminate | discriminate | left; reflexivity | reflexivity |].
  cbn [unit_str] in B1, B2, B3. rewrite app_nil_r in B1, B2, B3.
  assert (Hn : p <> []). { intro Z. rewrite Z in *. destruct (sign_text (has_sign t) (tvalue t)); [cbn [app] in Ep; subst w; destruct Hw as [(Q & _) | (i & f & Q & _)]; [congruence | destruct i; discriminate] | discriminate]. }
  assert (Sg : has_sign t' = has_sign t). { rewrite S'. destruct (N.testbit (tvalue t) 31) eqn:Tb; [| now rewrite orb_false_r]. pose proof (negative_signed (Cursor o t) I (or_introl K) Tb) as Q. cbn [ctok] in Q. now rewrite Q. }
  exists (Item t' p []). constructor; cbn [it_text it_tok it_after ctok kind_of]; try (unfold kind_of; cbn [ctok]; rewrite K; intro Q; try discriminate Q).
  - unfold found. cbn [it_text it_tok it_after]. rewrite app_nil_r. split; [exact Hn |]. split; [exact L' |]. split; [exists []; exact T |]. auto.
  - exact W.
  - right. split; [congruence |]. right. split; [left; exact K |]. auto.
  - left. split; [left; exact K |]. split; [congruence |]. split; [exact V' |]. split; [| exact Sg]. unfold dimension_unit. rewrite (kind_bits_of t _ K), (kind_bits_of t' _ K') by discriminate. change (negb (kind_code K_Number =? kind_code K_Dimension)) with true. now rewrite !orb_true_r.
  - exact B3.
  - cbn in Q. intuition discriminate.
Qed.
Lemma written_dimension : forall c, In c all -> kind_of c = K_Dimension -> dimension_unit (ctok c) <> U_Unknown -> sound src c -> exists i, written_as src c i.
Proof.
  intros c I K N1 So. destruct (so_dimension _ _ So K N1) as (Fin & N2 & N3 & Sn).
  destruct (rewrite_dimension no_features [] (ctok c) [] K N1 N2 N3 Fin) with (o := coff c) (src := src) as (p & t' & W & T & K' & V' & U' & L' & S'); [intros (x & y & E & _); discriminate | intros [Q | (e & r & Q & _)]; discriminate |].
  rewrite app_nil_r in T. destruct c as [o t]. cbn [ctok coff] in *. unfold kind_of in K. cbn [ctok] in K.
  assert (Ep : p = display_f32 false (tvalue t) ++ unit_str (dimension_unit t)).
  { unfold write_str, write_pieces in W. cbn [ctok] in W. rewrite K in W. destruct (dimension_unit t); try congruence; cbn [List.concat] in W; rewrite app_nil_r in W; congruence. }
  destruct (display_spec false (tvalue t) Fin) as (w & E & Hw & Lw & _). rewrite E in Ep. pose proof (sign_text_opt false (tvalue t)) as Hs.
  pose proof (displayed_chars _ _ Hs Hw) as Hc. pose proof (displayed_small _ _ Hs Hw Lw) as Bl.
  destruct (written_behaves _ (dimension_unit t) Hc Bl N2 N3) as (B1 & B2 & B3); [right; exact (tail_chars _ N1 N2 N3) | destruct (dimension_unit t); vm_compute; reflexivity |]. rewrite <- Ep in B1, B2, B3.
  assert (Hn : p <> []). { intro Z. rewrite Z in *. symmetry in Ep. apply app_eq_nil in Ep. destruct Ep as (Ep & _). apply app_eq_nil in Ep. destruct Ep as (_ & Ep). subst w. destruct Hw as [(Q & _) | (i & f & Q & _)]; [congruence | destruct i; discriminate]. }
  assert (Sg : has_sign t' = has_sign t). { rewrite S'. destruct (N.testbit (tvalue t) 31) eqn:Tb; [symmetry; exact (negative_signed (Cursor o t) I (or_intror K) Tb) |]. destruct (has_sign t); [exact (Sn eq_refl) | reflexivity]. }
  exists (Item t' p []). constructor; cbn [it_text it_tok it_after ctok kind_of]; try (unfold kind_of; cbn [ctok]; rewrite K; intro Q; try discriminate Q).
  - unfold found. cbn [it_text it_tok it_after]. rewrite app_nil_r. split; [exact Hn |]. split; [exact L' |]. split; [exists []; exact T |]. auto.
  - exact W.
  - right. split; [congruence |]. right. split; [right; exact K |]. auto.
  - left. split; [right; exact K |]. split; [congruence |]. split; [exact V' |]. split; [exact U' | exact Sg].
  - exact B3.
  - cbn in Q. intuition discriminate.
Qed.
Lemma white_run : forall f l t r, scan_view f l t r -> well_behaved (single_line_comments f) l -> tkind t = K_Whitespace -> exists p, l = p ++ r /\ Forall white p /\ tlen t = blen p.
Proof.
  intros f l t r V W K. pose proof (view_shape _ _ _ _ V W) as S. unfold shape in S. rewrite K in S.
  destruct S as [(_ & p & (E & F & _) & _ & ->) | (_ & p & b & _ & -> & [(B & (E & F & _)) | [(B & (E & F & _)) | (B & (E & F & _))]])]; exists p; (split; [exact E |]).
  - split; [exact F |]. apply (whitespace_read (ws_style p) (blen p) (ws_style_lt p)).
  - split; [eapply Forall_impl; [| exact F]; intros c <-; unfold white; auto |]. subst b. apply (whitespace_read WS_Space (blen p)). reflexivity.
  - split; [eapply Forall_impl; [| exact F]; intros c <-; unfold white; auto |]. subst b. apply (whitespace_read WS_Tab (blen p)). reflexivity.
  - split; [eapply Forall_impl; [| exact F]; intros c H; unfold white; auto |]. subst b. apply (whitespace_read WS_Newline (blen p)). reflexivity.
Qed.
Lemma written_verbatim : forall c, In c all -> verbatim (ctok c) -> sound src c -> exists i, written_as src c i /\ it_tok i = ctok c.
Proof.
  intros c I V So. destruct (cursor_place src no_features all c WB VC LT NZ EL I) as (a & p & r & Es & Ho & L & Hp & T & W & Wr).
  assert (Hb : p ++ r <> []) by (destruct p; [congruence | discriminate]).
  exists (Item (ctok c) p r). split; [| reflexivity]. constructor; cbn [it_text it_tok it_after].
  - unfold found. cbn [it_text it_tok it_after]. split; [exact Hp |]. split; [exact L |]. split; [exists a; exact T |]. split; [exact W |]. rewrite Es in NZ. exact (proj2 (no0_app _ _ NZ)).
  - exact (Wr V).
  - left. reflexivity.
  - right. reflexivity.
  - intro J. apply NB. rewrite Es. apply in_or_app. right. apply in_or_app. left. exact J.
  - intros J ->. pose proof (so_closed _ _ So J) as B. rewrite Ho, L, Es, !blen_app in B. cbn [blen] in B. lia.
  - intro K. destruct (string_only no_features a (p ++ r) (ctok c) W Hb T (or_introl K)) as (ch & x & E & Q). destruct p as [| ch' p]; [congruence |]. cbn [app] in E. injection E as -> _. exists ch, p. auto.
  - intro K. destruct (scan_spec no_features (p ++ r) Hb (proj1 W)) as (t & r' & Sc & Vw). apply token_at_scan in T; [| exact Hb]. rewrite Sc in T. injection T as ->.
    destruct (white_run _ _ _ _ Vw W K) as (q & E & F & Lq). destruct (prefix_blen p q r r' E) as (-> & _); [congruence | exact F].
  - intro K. destruct (comment_only no_features a (p ++ r) (ctok c) W Hb T K) as [(x & E) | (Q & _)]; [| discriminate].
    rewrite E in T. destruct (block_comment_token no_features a x (ctok c) T) as (p' & r' & st & B & _ & L' & _). inversion B as [b r0 Hb1 Q1 Q2 Q3 | b Hb1 Q1 Q2 Q3]; subst p' r'.
    + destruct (prefix_blen p (47 :: 42 :: b ++ [42; 47]) r r0) as (-> & _); [rewrite E, <- Q1; cbn [app]; rewrite <- app_assoc; reflexivity | congruence | eexists; reflexivity].
    + destruct (prefix_blen p (47 :: 42 :: b) r []) as (-> & _); [rewrite E, <- Q1, app_nil_r; reflexivity | congruence | eexists; reflexivity].
Qed.
(* a cursor of the tree: one of the source, or a bracket with another offset *)
Definition from_source (c : cursor) : Prop := exists c0, In c0 all /\ re_emitted c0 c.
Lemma bracket_write : forall c c0, ctok c = ctok c0 -> is_opener (kind_of c0) \/ is_closer (kind_of c0) -> write_str c src = write_str c0 src.
Proof.
  intros c c0 E K. unfold write_str, write_pieces. unfold kind_of in K. rewrite E. unfold is_opener, is_closer in K. cbn [In] in K.
  destruct (tkind (ctok c0)); try reflexivity; exfalso; intuition discriminate.
Qed.
Lemma written_piece : forall c, from_source c -> sound src c -> exists i, written_as src c i.
Proof.
  intros c (c0 & I & [-> | (E & Br)]) So.
  - destruct (verbatim_dec (ctok c0)) as [V | [K | (K & U)]]; [destruct (written_verbatim c0 I V So) as (i & W & _); eauto | exact (written_number c0 I K So) | exact (written_dimension c0 I K U So)].
  - assert (Kb : forall k, In k [K_String; K_Url; K_BadUrl; K_Comment; K_BadString; K_Number; K_Dimension; K_Whitespace] -> kind_of c0 <> k).
    { intros k Ik Q. rewrite Q in Br. unfold is_opener, is_closer in Br. destruct Br as [[Br | [Br | Br]] | [Br | [Br | Br]]]; rewrite Br in Ik; cbn [In] in Ik; clear - Ik; intuition discriminate. }
    assert (V : verbatim (ctok c0)) by (split; [apply (Kb K_Number); cbn; tauto | intro Q; exfalso; apply (Kb K_Dimension); [cbn; tauto | exact Q]]).
    assert (So0 : sound src c0).
    { constructor; [intro J; exfalso; apply (Kb (kind_of c0)); [cbn in *; tauto | reflexivity] | apply Kb; cbn; tauto | intro Q; exfalso; apply (Kb K_Number); [cbn; tauto | exact Q] | intro Q; exfalso; apply (Kb K_Dimension); [cbn; tauto | exact Q]]. }
    destruct (written_verbatim c0 I V So0) as (i & [P1 P2 P3 P4 P5 P6 P7 P8 P9] & _). exists i. unfold kind_of in *. rewrite <- E in *. constructor; try assumption. rewrite (bracket_write c c0 E); [exact P2 | unfold kind_of; rewrite <- E; exact Br].
Qed.
End Cursors.

(* ---- whitespace next to whitespace is one token ---- *)
Definition white_item (w : text) : item := Item (new_whitespace (ws_style w) (blen w)) w [].
Lemma white_token : forall w, w <> [] -> Forall white w -> found no_features (white_item w) /\ tkind (it_tok (white_item w)) = K_Whitespace.
Proof.
  intros w Hn F. destruct (whitespace_read (ws_style w) (blen w) (ws_style_lt w)) as (K & L & _). split; [| exact K].
  assert (Wc : forall c, In c w -> 0 < c < 128 /\ c <> 92 /\ ~ digit c) by (intros c I; rewrite Forall_forall in F; specialize (F c I); unfold white, newline, digit in *; lia).
  unfold found, white_item. cbn [it_text it_tok it_after]. rewrite app_nil_r. split; [exact Hn |]. split; [exact L |]. split; [| split].
  - exists []. apply token_at_scan; [exact Hn |]. destruct w as [| c w]; [congruence |].
    destruct (scan_whitespace no_features (c :: w)) as (p & r & (E & Fp & Hr) & Hp & Sc); [exists c, w; split; [reflexivity | now inversion F] | reflexivity |].
    assert (R : r = []). { destruct r as [| d r]; [reflexivity |]. exfalso. apply Hr. exists d, r. split; [reflexivity |]. rewrite E in F. apply Forall_app in F. destruct F as (_ & F). now inversion F. }
    subst r. rewrite app_nil_r in E. rewrite <- E in Sc. exact Sc.
  - assert (Nn : forall l p r, suffix_of l w -> ~ longest_number l p r).
    { intros l p r (a & Ew) (El & C & _). destruct C as (s & m & x & Ep & _ & Hm & _). assert (D : exists d, digit d /\ In d m).
      { destruct Hm as [(Q & Dg) | (i & f & -> & _ & (Q & Dg))].
        - destruct m as [| d m]; [congruence |]. exists d. split; [now inversion Dg | now left].
        - destruct f as [| d f]; [congruence |]. exists d. split; [now inversion Dg | apply in_or_app; right; right; now left]. }
      destruct D as (d & Dd & Id). destruct (Wc d) as (_ & _ & X); [rewrite Ew, El, Ep; apply in_or_app; right; apply in_or_app; left; apply in_or_app; right; apply in_or_app; now left | contradiction]. }
    split; [| split; [| split; [| discriminate]]].
    + intros a c b E. apply (Wc c). rewrite E. apply in_or_app. right. right. now left.
    + intros l p r S Ln. exfalso. exact (Nn l p r S Ln).
    + intros l p r q r' S Ln. exfalso. exact (Nn l p r S Ln).
  - intro I. apply Wc in I. lia.
Qed.

Section Groups.
Variables (src : text).
(* the cursors written after prev, as items: white ones are put together *)
Inductive grouped_as : list cursor -> list item -> Prop :=
  | ga_nil : grouped_as [] []
  | ga_token : forall c r i its, ~ is_white c -> written_as src c i -> grouped_as r its -> grouped_as (c :: r) (i :: its)
  | ga_white : forall w ws r texts its, Forall is_white (w :: ws) -> ~ (exists x y, r = x :: y /\ is_white x) ->
      Forall2 (fun c s => write_str c src = Some s) (w :: ws) texts -> concat texts <> [] -> Forall white (concat texts) -> grouped_as r its ->
      grouped_as (w :: ws ++ r) (white_item (concat texts) :: its).
Lemma white_dec : forall c, is_white c \/ ~ is_white c.
Proof. intro c. unfold is_white. destruct (kind_of c); (left; reflexivity) || (right; discriminate). Qed.
Lemma grouping : forall cs, Forall (fun c => exists i, written_as src c i) cs -> exists its, grouped_as cs its.
Proof.
  intro cs. remember (length cs) as n eqn:En. assert (Hn : (length cs <= n)%nat) by lia. clear En. revert cs Hn. induction n as [| n IH]; intros cs Hn F.
  - destruct cs; [exists []; constructor | cbn in Hn; lia].
  - destruct cs as [| c cs]; [exists []; constructor |]. inversion F as [| ? ? (i & W) F']; subst. cbn [length] in Hn. destruct (white_dec c) as [Wh | Wh].
    + assert (Sp : exists ws r, cs = ws ++ r /\ Forall is_white ws /\ ~ (exists x y, r = x :: y /\ is_white x)).
      { clear. induction cs as [| d cs (ws & r & -> & A & B)]; [exists [], []; split; [reflexivity |]; split; [constructor | intros (x & y & E & _); discriminate] |].
        destruct (white_dec d) as [D | D]; [exists (d :: ws), r; split; [reflexivity |]; split; [constructor; assumption | exact B] |].
        exists [], (d :: ws ++ r). split; [reflexivity |]. split; [constructor |]. intros (x & y & E & X). injection E as <- _. contradiction. }
      destruct Sp as (ws & r & -> & A & B). apply Forall_app in F'. destruct F' as (F1 & F2). rewrite app_length in Hn. destruct (IH r ltac:(lia) F2) as (its & G).
      assert (T : exists texts, Forall2 (fun c s => write_str c src = Some s) ws texts /\ Forall white (concat texts)).
      { clear - F1 A. induction ws as [| d ws IH]; [exists []; split; constructor |]. inversion F1 as [| ? ? (j & W) F1']; subst. inversion A as [| ? ? Ad A']; subst. destruct (IH F1' A') as (texts & T1 & T2).
        exists (it_text j :: texts). split; [constructor; [apply W | exact T1] |]. cbn [concat]. apply Forall_app. split; [exact (pc_white _ _ _ W Ad) | exact T2]. }
      destruct T as (texts & T1 & T2). exists (white_item (concat (it_text i :: texts)) :: its). apply ga_white; [constructor; assumption | exact B | constructor; [apply W | exact T1] | | | exact G].
      * cbn [concat]. intro Q. apply app_eq_nil in Q. destruct Q as (Q & _). destruct (pc_found _ _ _ W) as (Z & _). contradiction.
      * cbn [concat]. apply Forall_app. split; [exact (pc_white _ _ _ W Wh) | exact T2].
    + destruct (IH cs ltac:(lia) F') as (its & G). exists (i :: its). apply ga_token; assumption.
Qed.
Lemma grouped_found : forall cs its, grouped_as cs its -> Forall (found no_features) its.
Proof. intros cs its G. induction G as [| c r i its Nw W G IH | w ws r texts its Fw Mx Tx Hn Fc G IH]; constructor; [apply W | exact IH | apply white_token; assumption | exact IH]. Qed.
(* the text that is written *)
Lemma texts_of : forall cs its, grouped_as cs its -> exists items, Forall2 (fun c it => fst it = ctok c /\ write_str c src = Some (snd it)) cs items /\
  forall prev prev', match prev, prev' with None, None => True | Some a, Some b => alike a b | _, _ => False end ->
    concat (joined prev (map (fun it => (fst it, [snd it])) items)) = spelled prev' its.
Proof.
  assert (Sep : forall prev prev' t t', match prev, prev' with None, None => True | Some a, Some b => alike a b | _, _ => False end -> alike t t' ->
    separator_before prev t = separator_before prev' t').
  { intros [a |] [b |] t t' H1 H2; try contradiction; [| reflexivity]. unfold separator_before. now rewrite (alike_first a b t H1), (alike_second t t' b H2). }
  intros cs its G. induction G as [| c r i its Nw W G (items & F & E) | w ws r texts its Fw Mx Tx Hn Fc G (items & F & E)].
  - exists []. split; [constructor |]. reflexivity.
  - exists ((ctok c, it_text i) :: items). split; [constructor; [split; [reflexivity | apply W] | exact F] |]. intros prev prev' H. rewrite spelled_cons. cbn [map joined fst snd]. rewrite !concat_app. cbn [concat]. rewrite app_nil_r.
    rewrite (Sep prev prev' _ _ H (pc_alike _ _ _ W)). f_equal. f_equal. apply E. exact (pc_alike _ _ _ W).
  - destruct (white_token _ Hn Fc) as (_ & Kw). unfold white_item in Kw. cbn [it_tok] in Kw.
    assert (X : exists ts, Forall2 (fun c it => fst it = ctok c /\ write_str c src = Some (snd it)) (w :: ws) ts /\ map snd ts = texts).
    { clear - Tx. induction Tx as [| c s cs texts H T (ts & A & B)]; [exists []; split; [constructor | reflexivity] |]. exists ((ctok c, s) :: ts). split; [constructor; [split; [reflexivity | exact H] | exact A] |]. cbn [map snd]. now rewrite B. }
    destruct X as (ts & X1 & X2). exists (ts ++ items). split; [rewrite app_comm_cons; apply Forall2_app; assumption |].
    assert (Y : forall cs ts rest last prev, Forall is_white cs -> Forall2 (fun c it => fst it = ctok c /\ write_str c src = Some (snd it)) cs ts -> (ts = [] -> prev = Some last) -> (forall x, tkind x = K_Whitespace -> concat (joined (Some x) rest) = concat (joined (Some last) rest)) ->
      concat (joined prev (map (fun it => (fst it, [snd it])) ts ++ rest)) = concat (map snd ts) ++ concat (joined (Some last) rest)).
    { clear. intros cs ts rest last prev Fw F. revert prev. induction F as [| c (t, s) cs ts (A & B) F IH]; intros prev Hp Hr; [rewrite (Hp eq_refl); reflexivity |]. inversion Fw as [| ? ? Wc Fw']; subst. cbn [fst snd] in *. subst t.
      cbn [map app joined fst snd]. rewrite !concat_app. cbn [concat]. rewrite <- app_assoc.
      assert (S0 : separator_before prev (ctok c) = []) by (unfold separator_before; destruct prev as [p |]; [rewrite (white_second _ p Wc) |]; reflexivity). rewrite S0. cbn [concat app]. f_equal.
      destruct ts as [| t2 ts]; [cbn [map app concat]; apply Hr; exact Wc |]. apply (IH Fw'); [discriminate | exact Hr]. }
    intros prev prev' H. rewrite map_app. rewrite spelled_cons. cbn [it_tok it_text white_item]. 
    assert (S0 : separator_before prev' (new_whitespace (ws_style (concat texts)) (blen (concat texts))) = []) by (unfold separator_before; destruct prev' as [p |]; [rewrite (white_second _ p Kw) |]; reflexivity). rewrite S0. cbn [concat app].
    rewrite (Y (w :: ws) ts _ (new_whitespace (ws_style (concat texts)) (blen (concat texts))) prev Fw X1); [rewrite X2; f_equal; apply E; left; reflexivity | intro Q; subst ts; inversion X1 |].
    intros x Kx. rewrite (E (Some x) (Some x) (or_introl eq_refl)). rewrite (E (Some (new_whitespace (ws_style (concat texts)) (blen (concat texts)))) (Some x)); [reflexivity |]. right. split; [congruence | left; exact Kw].
Qed.
(* ---- nothing merges ---- *)
Lemma separable_tail : forall c cs, separable src (c :: cs) -> separable src cs.
Proof. intros c cs (A & B). split; [intros a c1 c2 b -> ; exact (A (c :: a) c1 c2 b eq_refl) | intros a d ->; exact (B (c :: a) d eq_refl)]. Qed.
Lemma separable_suffix : forall a cs, separable src (a ++ cs) -> separable src cs.
Proof. induction a as [| c a IH]; intros cs H; [exact H |]. cbn [app] in H. exact (IH cs (separable_tail _ _ H)). Qed.
(* what an item does not do, whatever follows *)
Lemma safe_apart : forall t1 p1 r1 t2 l2, ~ In 92 p1 -> (In (tkind t1) [K_String; K_Url; K_BadUrl; K_Comment] -> r1 <> []) -> tkind t1 <> K_BadString ->
  (tkind t1 = K_Comment -> exists z, p1 = 47 :: 42 :: z) -> (tkind t1 = K_Whitespace -> tkind t2 <> K_Whitespace) -> tkind t1 <> K_Function ->
  (forall c, In c [45; 43; 62; 33] -> ~ starts (eq c) l2) -> apart no_features t1 p1 r1 t2 l2.
Proof.
  intros t1 p1 r1 t2 l2 H1 H2 H3 H4 H5 H6 H7. constructor.
  - intros (a & b & -> & _). apply H1. apply in_or_app. right. now left.
  - exact H2.
  - exact H3.
  - exact H4.
  - exact H5.
  - intros _. apply H7. cbn. tauto.
  - intros _. apply H7. cbn. tauto.
  - intros _. apply H7. cbn. tauto.
  - intros _ r E. apply (H7 33); [cbn; tauto |]. exists 33, (45 :: 45 :: r). auto.
  - intros _ Q. discriminate Q.
  - intro K. contradiction.
Qed.
(* the first text of a group *)
Lemma group_head : forall cs i its, grouped_as cs (i :: its) -> exists c r, cs = c :: r /\ kind_of c = tkind (it_tok i) /\ (~ is_white c /\ written_as src c i \/ is_white c /\ starts white (it_text i)) /\
  alike (ctok c) (it_tok i).
Proof.
  intros cs i its G. inversion G as [| c r i0 its0 Nw W G0 | w ws r texts its0 Fw Mx Tx Hn Fc G0]; subst.
  - exists c, r. split; [reflexivity |]. split; [| split; [left; auto | exact (pc_alike _ _ _ W)]]. destruct (pc_alike _ _ _ W) as [E | (E & _)]; unfold kind_of; [now rewrite E | now rewrite E].
  - destruct (white_token _ Hn Fc) as (_ & Kw). inversion Fw as [| ? ? Ww _]; subst. exists w, (ws ++ r). split; [reflexivity |]. split; [unfold is_white in Ww; congruence |]. split.
    + right. split; [exact Ww |]. unfold white_item. cbn [it_text]. destruct (concat texts) as [| c x]; [congruence |]. exists c, x. split; [reflexivity | now inversion Fc].
    + right. split; [unfold is_white, kind_of in Ww; congruence | left; exact Ww].
Qed.
Lemma starts_one : forall (c : N) x y, starts (eq c) (x ++ y) -> x <> [] -> exists z, x = c :: z.
Proof. intros c x y (d & z & E & <-) Hn. destruct x as [| e x]; [congruence |]. cbn [app] in E. injection E as -> _. eauto. Qed.
Lemma grouped_apart : forall cs its, grouped_as cs its -> Forall (fun c => kind_of c <> K_BadString) cs -> separable src cs -> all_apart no_features its.
Proof.
  intros cs its G. induction G as [| c r i its Nw W G IH | w ws r texts its Fw Mx Tx Hn Fc G IH]; intros Fb Sp; [exact Logic.I | |].
  - inversion Fb as [| ? ? Bc Fb']; subst. cbn [all_apart]. split; [| exact (IH Fb' (separable_tail _ _ Sp))].
    assert (Kc : kind_of c = tkind (it_tok i)) by (destruct (pc_alike _ _ _ W) as [E | (E & _)]; unfold kind_of; now rewrite E).
    assert (Cl : In (tkind (it_tok i)) [K_String; K_Url; K_BadUrl; K_Comment] -> it_after i <> []) by (rewrite <- Kc; exact (pc_closed _ _ _ W)).
    assert (Cm : tkind (it_tok i) = K_Comment -> exists z, it_text i = 47 :: 42 :: z) by (rewrite <- Kc; exact (pc_comment _ _ _ W)).
    assert (Bs : tkind (it_tok i) <> K_BadString) by (rewrite <- Kc; exact Bc).
    assert (Nwi : tkind (it_tok i) <> K_Whitespace) by (rewrite <- Kc; exact Nw).
    destruct its as [| j its].
    + right. inversion G; subst. apply safe_apart; try assumption; [exact (pc_plain _ _ _ W) | intro Q; contradiction | rewrite <- Kc; exact (proj2 Sp [] c eq_refl) |]. intros ch _ (x & y & E & _). discriminate E.
    + destruct (group_head _ _ _ G) as (d & r' & -> & Kd & Hd & Ad). rewrite spelled_cons.
      assert (Ns : needs_separator_for (it_tok i) (it_tok j) = needs_separator_for (ctok c) (ctok d)) by (rewrite <- (alike_first _ _ (it_tok j) (pc_alike _ _ _ W)); now rewrite (alike_second _ _ (ctok c) Ad)).
      unfold separator_before. destruct (needs_separator_for (it_tok i) (it_tok j)) eqn:Se.
      * cbn [concat app]. apply safe_apart; try assumption; [exact (pc_plain _ _ _ W) | intro Q; contradiction | |].
        -- intro Q. pose proof (eq_trans (eq_sym Ns) eq_refl) as Sf. unfold needs_separator_for in Sf. assert (Qc : tkind (ctok c) = K_Function) by (unfold kind_of in Kc; congruence). rewrite Qc in Sf.
           assert (X : tchar (ctok c) = None) by (unfold tchar, is_delim_like; rewrite (kind_bits_of _ _ Qc) by discriminate; reflexivity). rewrite X in Sf. discriminate Sf.
        -- intros ch I (x & y & E & Q). injection E as E _. subst x ch. cbn in I. intuition discriminate.
      * cbn [concat app]. symmetry in Ns. pose proof (proj1 Sp [] c d r' eq_refl Ns) as C. set (rest := spelled (Some (it_tok j)) its).
        assert (Hj : it_text j <> []) by (pose proof (grouped_found _ _ G) as Ff; inversion Ff as [| ? ? (Z & _) _]; subst; exact Z).
        assert (St : forall ch, In ch [45; 43; 62; 33] -> ~ written_starts src d ch -> ~ starts (eq ch) (it_text j ++ rest)).
        { intros ch I Nw' S. destruct (starts_one _ _ _ S Hj) as (z & E). destruct Hd as [(_ & Wd) | (_ & (x & y & Ex & Wx))].
          - apply Nw'. exists z. rewrite (pc_write _ _ _ Wd), E. reflexivity.
          - rewrite E in Ex. injection Ex as <- _. cbn in I. unfold white, newline in Wx. intuition lia. }
        constructor.
        -- intros (a & b & E & _). apply (pc_plain _ _ _ W). rewrite E. apply in_or_app. right. now left.
        -- exact Cl.
        -- exact Bs.
        -- exact Cm.
        -- intro Q. contradiction.
        -- intro Nl. apply St; [cbn; tauto |]. apply (cl_dash _ _ _ C). unfold name_like. rewrite Kc. destruct Nl as [Nl | (Nl & Nu)]; [left; exact Nl | right; split; [exact Nl |]].
           intro Q. apply Nu. destruct (pc_same _ _ _ W) as [(_ & _ & _ & U & _) | U]; congruence.
        -- intros (n & e & E & Hn & He). apply St; [cbn; tauto |]. apply (cl_exponent _ _ _ C). exists n, e. rewrite (pc_write _ _ _ W), E. auto.
        -- intro E. apply St; [cbn; tauto |]. apply (cl_cdc _ _ _ C). rewrite (pc_write _ _ _ W), E. reflexivity.
        -- intros E r0 Q. apply (St 33); [cbn; tauto | | exists 33, (45 :: 45 :: r0); auto]. apply (cl_cdo _ _ _ C). rewrite (pc_write _ _ _ W), E. reflexivity.
        -- intros _ Q. discriminate Q.
        -- intros Kf Tu. rewrite <- Kc in Kf. pose proof (cl_url _ _ _ C (it_text i) Kf (pc_write _ _ _ W) Tu) as Ks.
           destruct Hd as [(_ & Wd) | (Q & _)]; [| unfold is_white in Q; congruence]. destruct (pc_quote _ _ _ Wd Ks) as (q & z & E & Hq). exists [], q, (z ++ rest). rewrite E. split; [reflexivity |]. split; [constructor |]. split; [cbn; lia | exact Hq].
  - assert (Fr : Forall (fun c => kind_of c <> K_BadString) r) by (inversion Fb as [| ? ? _ Fb']; subst; apply Forall_app in Fb'; tauto).
    assert (Sr : separable src r) by exact (separable_suffix ws r (separable_tail _ _ Sp)).
    cbn [all_apart]. split; [| exact (IH Fr Sr)]. destruct its as [| j its]; [left; reflexivity |].
    destruct (white_token _ Hn Fc) as (_ & Kw). rewrite (white_first _ _ Kw).
    destruct (group_head _ _ _ G) as (d & r' & -> & Kd & Hd & Ad). assert (Nd : ~ is_white d) by (intro Q; apply Mx; eauto).
    assert (Wc : forall c, In c (concat texts) -> white c) by (intros c I; rewrite Forall_forall in Fc; exact (Fc c I)).
    unfold white_item in *. cbn [it_tok it_text it_after] in *. constructor.
    + intros (a & b & E & _). assert (I : In 92 (concat texts)) by (rewrite E; apply in_or_app; right; now left). apply Wc in I. unfold white, newline in I. lia.
    + rewrite Kw. cbn. intuition discriminate.
    + congruence.
    + intro Q. congruence.
    + intros _ Q. apply Nd. unfold is_white. congruence.
    + rewrite Kw. cbn. intuition discriminate.
    + intros (n & e & E & _ & He). assert (I : In e (concat texts)) by (rewrite E; apply in_or_app; right; now left). apply Wc in I. unfold white, newline in I. lia.
    + intro E. assert (I : In 45 (concat texts)) by (rewrite E; now left). apply Wc in I. unfold white, newline in I. lia.
    + intro E. assert (I : In 60 (concat texts)) by (rewrite E; now left). apply Wc in I. unfold white, newline in I. lia.
    + intros _ Q. discriminate Q.
    + intro Q. congruence.
Qed.
(* ---- the tokens of the text that is written ---- *)
Definition prev_alike (prev prev' : option token) : Prop := match prev, prev' with None, None => True | Some a, Some b => alike a b | _, _ => False end.
Lemma trace_places : forall o l cs, trace no_features o l cs -> forall t ts, map ctok cs = t :: ts -> exists p r cs', cs = Cursor o t :: cs' /\ l = p ++ r /\ blen p = tlen t /\ trace no_features (o + blen p) r cs' /\ map ctok cs' = ts.
Proof. intros o l cs T t ts E. inversion T as [| o' p r t' cs' H1 H2 H3 H4 H5 H6]; subst; [discriminate |]. cbn [map ctok] in E. injection E as <- <-. exists p, r, cs'. auto. Qed.
Lemma grouped_rendered : forall out cs its, grouped_as cs its -> forall prev prev' pre cs', prev_alike prev prev' -> out = pre ++ spelled prev' its ->
  trace no_features (blen pre) (spelled prev' its) cs' -> map ctok cs' = spaced prev' (map it_tok its) -> rendered src out prev cs cs'.
Proof.
  intros out cs its G. induction G as [| c r i its Nw W G IH | w ws r texts its Fw Mx Tx Hn Fc G IH]; intros prev prev' pre cs' Pa Eo T E.
  - cbn in E. apply map_eq_nil in E. subst cs'. constructor.
  - pose proof (pc_found _ _ _ W) as (Hne & L & _).
    assert (Se : separator_before prev' (it_tok i) = separator_before prev (ctok c)).
    { unfold prev_alike in Pa. unfold separator_before. destruct prev as [a |], prev' as [b |]; try contradiction; [| reflexivity]. now rewrite <- (alike_first a b (it_tok i) Pa), (alike_second _ _ a (pc_alike _ _ _ W)). }
    rewrite spelled_cons in Eo, T. cbn [map spaced] in E. rewrite Se in Eo, T, E.
    assert (MAIN : forall pre cs', out = pre ++ it_text i ++ spelled (Some (it_tok i)) its -> trace no_features (blen pre) (it_text i ++ spelled (Some (it_tok i)) its) cs' -> map ctok cs' = it_tok i :: spaced (Some (it_tok i)) (map it_tok its) ->
      exists c' r', cs' = c' :: r' /\ carried src out c c' /\ rendered src out (Some (ctok c)) r r').
    { clear pre cs' Eo T E. intros pre cs' Eo T E. destruct (trace_places _ _ _ T _ _ E) as (p & r0 & cs2 & -> & Ep & B & T2 & E2). destruct (prefix_blen (it_text i) p _ _ Ep) as (<- & <-); [congruence |].
      eexists _, cs2. split; [reflexivity |]. split.
      - split; [exact (pc_same _ _ _ W) |]. intros _. exists (it_text i). split; [exact (pc_write _ _ _ W) |]. unfold source_text. cbn [coff ctok]. rewrite <- B, Eo. apply slice_app.
      - apply (IH (Some (ctok c)) (Some (it_tok i)) (pre ++ it_text i)); [exact (pc_alike _ _ _ W) | rewrite <- app_assoc; exact Eo | rewrite blen_app; exact T2 | exact E2]. }
    unfold separator_before in *. destruct prev as [a |]; [destruct (needs_separator_for a (ctok c)) eqn:Ns |].
    + cbn [concat map app] in Eo, T, E. destruct (trace_places _ _ _ T _ _ E) as (p & r0 & cs2 & -> & Ep & B & T2 & E2).
      destruct (prefix_blen [32] p (it_text i ++ spelled (Some (it_tok i)) its) r0 Ep) as (<- & <-); [rewrite B; reflexivity |].
      destruct (MAIN (pre ++ [32]) cs2) as (c' & r' & -> & Ca & Re); [rewrite <- app_assoc; exact Eo | rewrite blen_app; exact T2 | exact E2 |].
      apply (rn_token src out (Some a) c r c' r' [Cursor (blen pre) space_token] Nw); [cbn [separator_before]; rewrite Ns; reflexivity | exact Ca | exact Re].
    + cbn [concat map app] in Eo, T, E. destruct (MAIN pre cs' Eo T E) as (c' & r' & -> & Ca & Re). apply (rn_token src out (Some a) c r c' r' [] Nw); [cbn [separator_before]; rewrite Ns; reflexivity | exact Ca | exact Re].
    + cbn [concat map app] in Eo, T, E. destruct (MAIN pre cs' Eo T E) as (c' & r' & -> & Ca & Re). apply (rn_token src out None c r c' r' [] Nw); [reflexivity | exact Ca | exact Re].
  - destruct (white_token _ Hn Fc) as ((_ & L & _) & Kw). rewrite spelled_cons in Eo, T. cbn [map spaced] in E.
    assert (S0 : separator_before prev' (it_tok (white_item (concat texts))) = []) by (unfold separator_before; destruct prev' as [p |]; [rewrite (white_second _ p Kw) |]; reflexivity).
    rewrite S0 in Eo, T, E. cbn [concat map app] in Eo, T, E. destruct (trace_places _ _ _ T _ _ E) as (p & r0 & cs2 & -> & Ep & B & T2 & E2).
    assert (Etx : it_text (white_item (concat texts)) = concat texts) by reflexivity. rewrite Etx in *.
    destruct (prefix_blen (concat texts) p _ _ Ep) as (<- & <-); [congruence |].
    assert (Ww : is_white w) by (now inversion Fw).
    apply (rn_white src out prev ws r (Cursor (blen pre) (it_tok (white_item (concat texts)))) cs2 texts w Fw Mx Tx); [exact Kw | unfold source_text; cbn [coff ctok]; rewrite <- B, Eo; apply slice_app |].
    apply (IH (Some (ctok w)) (Some (it_tok (white_item (concat texts)))) (pre ++ concat texts)); [| rewrite <- app_assoc; exact Eo | rewrite blen_app; exact T2 | exact E2].
    cbn [prev_alike]. right. split; [unfold is_white, kind_of in Ww; congruence | left; exact Ww].
Qed.
End Groups.

(* cursors of a source, written and read again *)
Lemma written_tokens : forall src all cs out, well_behaved false src -> Forall (fun c => valid_char c = true) src -> blen src < 4294967295 -> ~ In 0 src -> ~ In 92 src -> lex src no_features = Some all ->
  Forall (from_source all) cs -> Forall (sound src) cs -> separable src cs -> fmt_text src cs = Some out -> well_behaved false out ->
  exists cs', lex out no_features = Some cs' /\ rendered src out None cs cs'.
Proof.
  intros src all cs out WB VC LT NZ NB EL Fs So Sp Fm WBo.
  destruct (grouping src cs) as (its & G). { apply Forall_forall. intros c I. rewrite Forall_forall in Fs, So. exact (written_piece src all WB VC LT NZ NB EL c (Fs c I) (So c I)). }
  destruct (texts_of src cs its G) as (items & F & E). rewrite (fmt_text_joined src cs items F) in Fm. injection Fm as Fm. rewrite (E None None Logic.I) in Fm.
  pose proof (grouped_found src cs its G) as Ff. assert (Ap : all_apart no_features its). { apply (grouped_apart src cs its G); [| exact Sp]. eapply Forall_impl; [| exact So]. intros c S. exact (so_string _ _ S). }
  assert (Z : ~ In 0 out).
  { rewrite <- Fm. clear - Ff. generalize (@None token). induction its as [| i its IH]; intros prev; [unfold spelled; cbn; tauto |]. rewrite spelled_cons. inversion Ff as [| ? ? (_ & _ & _ & _ & Q1) Ff']; subst.
    rewrite !in_app_iff. intros [Q | [Q | Q]]; [| exact (proj1 (no0_app _ _ Q1) Q) | exact (IH Ff' _ Q)]. unfold separator_before in Q. destruct prev as [p |]; [| destruct Q]. destruct (needs_separator_for p (it_tok i)); cbn in Q; intuition discriminate. }
  rewrite <- Fm in WBo, Z. destruct (lex_trace _ no_features WBo) as (cs' & El & T). exists cs'. rewrite <- Fm. split; [exact El |].
  apply (grouped_rendered src _ cs its G None None []); [exact Logic.I | reflexivity | exact T | exact (sequence_trace no_features its None 0 cs' Ff Ap WBo Z T)].
Qed.
