(* Theorems for C57 (a property accepts the values of its definition). The vocabulary is in SpecConforms.v and SpecAccepts.v. *)
From Coq Require Import String.
From Coq Require Import List Permutation Lia.
From Verif Require Import LexTrace AstSheet Values SpecSheet SpecLex SpecTrace SpecParser SpecSyntax SpecTraits SpecRules KindProofs LexTrace CursorProofs LexBase LexFacts ParserProofs ParserProofs3 CompareProofs FaithProofs FaithTraits FaithRules Goes SheetTotal Tells Tells4 ValuesTotal ValuesTold PropWritten PropValues SpecWritten SpecValues
  ParserProofs2 SpecSelectorText SelectorProofs3 SelectorProofs9 SelectorGoes SpecConforms ValuesConform ValuesConform2 ValuesConform3 PropValues3 ValuesTaken ValuesTaken2 ValuesTaken3 ValuesTaken4 ValuesTaken5 ValuesTaken6 ValuesTaken7 SpecAccepts SheetReadable PropSheet.
Open Scope N_scope.
Open Scope list_scope.
Notation length := List.length.

Lemma laid_value : forall (M : mode) src f p u rest, stands src f p (u ++ rest) -> functionless u -> Forall (unescaped src) (bare u) -> trimmed u -> exists gs, u = laid gs /\ toks gs = bare u /\ Forall (fine src) gs /\ free (toks gs).
Proof.
  intros M src f p u rest S Fu Un T. destruct S as (_ & _ & A & _). pose proof (ahead_lasting _ _ A) as K. apply Forall_app in K. destruct K as (K & _). destruct (lay u K T) as (gs & E & Et & Fg). exists gs. split; [exact E |]. split; [exact Et |]. split.
  - rewrite <- Et in Un. clear - Fg Un. induction Fg as [| x gs (G & L) Fg IH]; [apply Forall_nil |]. unfold toks in Un. cbn [map] in Un. inversion Un as [| ? ? Ux Us]; subst. apply Forall_cons; [split; [exact G |]; split; [exact L | apply unescaped_plainly; exact Ux] | exact (IH Us)].
  - rewrite Et. unfold functionless, bare in *. rewrite Forall_forall in Fu. apply Forall_forall. intros c I. apply filter_In in I. apply Fu, I.
Qed.
(* ---- C57 ---- *)
(* a value of the definition of a property is accepted by the parser of the property, if it has no functions and no escapes, and the
   parser goes over exactly its tokens: whitespace and comments may stand before and between them, and the value ends where the text
   ends, or at a semicolon, a closing brace or a !. 36 of the 341 properties are left out (UNREACHED) *)
Theorem C57_value_accepted_partial : forall name value_p s d, In (name, value_p) VALUES -> reached name = true -> defines name s -> css_def s = Some d ->
  forall (M : mode) src f p u rest, stands src f p (u ++ rest) -> pskip p = KS_TRIVIA -> conforms src true d (bare u) -> functionless u -> Forall (unescaped src) (bare u) -> trimmed u -> ended rest ->
  exists l q, value_p p = Some (Ok l, q) /\ stands src f q rest /\ pskip q = KS_TRIVIA.
Proof.
  intros name value_p s d I R D C M src f p u rest S K Cu Fu Un T E. destruct (laid_value M src f p u rest S Fu Un T) as (gs & Eu & Et & Fg & Fr). rewrite <- Et in Cu. subst u. exact (value_taken name value_p s d src f I R D C gs Fg Cu Fr p rest (conj S K) E).
Qed.
Print Assumptions C57_value_accepted_partial.
(* so, where the ranges are enforced too (C56), the parser accepts exactly the values of the definition *)
Theorem C57_accepts_exactly_partial : forall name value_p s d, In (name, value_p) VALUES -> reached name = true -> enforced name = true -> defines name s -> css_def s = Some d ->
  forall (M : mode) src f p u rest, stands src f p (u ++ rest) -> pskip p = KS_TRIVIA -> functionless u -> Forall (unescaped src) (bare u) -> trimmed u -> ended rest ->
  ((exists l q, value_p p = Some (Ok l, q) /\ ahead (plex q) rest) <-> conforms src true d (bare u)).
Proof.
  intros name value_p s d I R En D C M src f p u rest S K Fu Un T E. split.
  - intros (l & q & Ev & A). pose proof S as (Sr & _ & Ap & _ & Sk). destruct (C56_value_conforms_partial name value_p I p (u ++ rest) l q Ap Sk Ev) as (used & rest' & s' & d' & Eu & A' & (r' & Ir' & En' & ->) & C' & X).
    pose proof (ahead_det _ _ A _ A') as Er. subst rest'. apply app_inv_tail in Eu. subst used. destruct D as (r & Ir & Enr & ->). assert (r = r') by exact (one_definition name r r' Ir Ir' Enr En'). subst r'. rewrite C in C'. apply some_inj in C'. subst d'. rewrite Sr, En in X. exact X.
  - intro Cu. destruct (C57_value_accepted_partial name value_p s d I R D C M src f p u rest S K Cu Fu Un T E) as (l & q & Ev & (_ & _ & A & _) & _). exists l, q. split; assumption.
Qed.
Print Assumptions C57_accepts_exactly_partial.
(* a declaration of the property, its name in any case, gets such a value as a value of the property, and not as unknown tokens:
   unless it begins with a keyword of every property (inherit, ...), and if at the end of the text nothing follows it *)
Definition wide (src : text) (c : cursor) : Prop := exists w, In w WIDE_KEYWORDS /\ word_of src K_Ident w c.
Theorem C57_declared_value_accepted_partial : forall (M : mode) name w s d src f p u rest, kind_of name = K_Ident -> is_dashed_ident (ctok name) = false -> parse_str_lower name src = Some w -> In w (map fst VALUES) -> reached w = true -> defines w s -> css_def s = Some d ->
  stands src f p (u ++ rest) -> pskip p = KS_TRIVIA -> conforms src true d (bare u) -> functionless u -> Forall (unescaped src) (bare u) -> trimmed u -> ended rest -> (gap rest -> rest = []) -> (forall c r, bare u = c :: r -> ~ wide src c) -> bare u <> [] ->
  exists l q, parse_style_value VALUES name p = Some (Ok (SvKnown w l), q) /\ stands src f q rest.
Proof.
  intros MD name w s d src f p u rest Kn Dn Wn Iw R D C S K Cu Fu Un T E Gr Nw Ne. assert (M : exists m, map_get VALUES w = Some m).
  { apply in_map_iff in Iw. destruct Iw as ((w', m) & E1 & I1). cbn [fst] in E1. subst w'. destruct (map_get VALUES w) as [m0 |] eqn:Em; [eauto |]. exfalso. clear - I1 Em. revert Em I1. generalize VALUES. intro l. induction l as [| (w0, v0) l IH]; intros Em I1; [destruct I1 |]. cbn [map_get] in Em. destruct I1 as [E | I1].
    - pose proof (f_equal fst E) as E1. cbn [fst] in E1. subst w0. rewrite text_eqb_refl in Em. discriminate.
    - destruct (text_eqb w0 w); [discriminate |]. exact (IH Em I1). }
  destruct M as (m & Em). pose proof (map_get_in _ _ _ _ Em) as I. destruct (C57_value_accepted_partial w m s d I R D C MD src f p u rest S K Cu Fu Un T E) as (l & q & Ev & Sq & Kq).
  exists l, q. split; [| exact Sq]. destruct (laid_value MD src f p u rest S Fu Un T) as (gs & Eu & Et & Fg & Fr). destruct gs as [| (g & c) gs]; [elim Ne; rewrite <- Et; reflexivity |]. inversion Fg as [| ? ? (Gg & Lc & Pc) Fg']; subst. cbn [fst snd] in *. unfold toks in Et, Fr. cbn [map snd] in Et, Fr. inversion Fr as [| ? ? Nf Fr']; subst. clear Fr.
  assert (Hh : here src f p (g ++ c :: laid gs ++ rest)) by (rewrite laid_cons in S; split; assumption). unfold parse_style_value. rewrite Dn. unfold bind, parse_if_peek.
  assert (P1 : peek (peek_set K_Ident (words WIDE_KEYWORDS)) p = Some false).
  { apply (here_peek src f _ p g c _ false Hh Gg Lc). intros cs Sp Sc. pose proof (proj1 (solo_words src f WIDE_KEYWORDS) p cs c Sp Sc) as X. unfold peek_words in X. destruct (peek_set K_Ident (words WIDE_KEYWORDS) p c) as [[] |] eqn:Eb; [| reflexivity | contradiction]. elim (Nw c (map snd gs)); [symmetry; exact Et |]. exact (peeked_word src f WIDE_KEYWORDS p cs c Sp Lc Eb). }
  rewrite P1. unfold ret. unfold or_peek. assert (P2 : peek peek_computed p = Some false) by (apply (here_peek src f _ p g c _ false Hh Gg Lc); intros cs Sp Sc; unfold peek_computed, peek_set; rewrite (tok_not K_Function c) by (assumption || apply Lc); reflexivity).
  rewrite P2. rewrite (tok_kind K_Ident name Kn) by discriminate. unfold look_up. destruct S as (Sr & _). rewrite Sr, Wn, Em, Ev. destruct Sq as (Sr' & Sf' & A' & Su' & Sk'). rewrite Sr', Wn.
  assert (Ve : value_ends q = Some true).
  { destruct E as (g1 & r & -> & G1 & Er). unfold value_ends. destruct r as [| x r].
    - assert (g1 = []) by (rewrite app_nil_r in Gr; exact (Gr G1)). subst g1. cbn [app] in A'. inversion A' as [y Ly |]; subst. unfold p_at_end, lexer_at_end. rewrite Ly, N.eqb_refl. reflexivity.
    - destruct (p_at_end q); [reflexivity |]. assert (Lx : lasts x) by (destruct Er as [Er | [Er | (Er & _)]]; unfold lasts; rewrite Er; repeat split; discriminate). assert (Hq : here src f q (g1 ++ x :: r)) by (split; [split; [exact Sr' |]; split; [exact Sf' |]; split; [exact A' |]; split; [exact Su' | exact Sk'] | exact Kq]).
      rewrite (here_peek_one src f q g1 x r Hq G1 Lx). destruct Er as [Er | [Er | (Er & Ec)]].
      + replace (tok_in (ctok x) KS_RIGHT_CURLY_OR_SEMICOLON) with true; [reflexivity |]. symmetry. apply in_kinds_tok; [apply Lx |]. unfold in_kinds. fold (kind_of x). rewrite Er. vm_compute. reflexivity.
      + replace (tok_in (ctok x) KS_RIGHT_CURLY_OR_SEMICOLON) with true; [reflexivity |]. symmetry. apply in_kinds_tok; [apply Lx |]. unfold in_kinds. fold (kind_of x). rewrite Er. vm_compute. reflexivity.
      + replace (tok_in (ctok x) KS_RIGHT_CURLY_OR_SEMICOLON) with false; [apply (here_peek src f _ q g1 x r true Hq G1 Lx); intros; unfold peek_delim; rewrite (tok_kind K_Delim x Er), Ec by discriminate; reflexivity |]. symmetry. destruct (tok_in (ctok x) KS_RIGHT_CURLY_OR_SEMICOLON) eqn:Ti; [| reflexivity]. apply in_kinds_tok in Ti; [| apply Lx]. unfold in_kinds in Ti. fold (kind_of x) in Ti. rewrite Er in Ti. vm_compute in Ti. discriminate. }
  rewrite Ve. reflexivity.
Qed.
Print Assumptions C57_declared_value_accepted_partial.

(* ---- the limits ---- *)
(* a || b: values are read only in the order of the definition, and by the first part that begins with a word *)
Theorem C57_any_order_refuted : known VALUES (chars "a{flex-flow:row wrap;flex-flow:wrap row;text-wrap:balance wrap;caret:bar;caret:red bar;block-step:center up}") = [Some (chars "flex-flow"); None; None; None; None; None].
Proof. vm_compute. reflexivity. Qed.
Print Assumptions C57_any_order_refuted.
Definition flow_text : text := chars "wrap row".
(* while "wrap row" is a value of the definition of flex-flow *)
Theorem C57_any_order_conforms : exists s d cs, defines (chars "flex-flow") s /\ css_def s = Some d /\ lex flow_text no_features = Some cs /\ conforms flow_text true d (bare cs).
Proof.
  assert (M : exists r, In r VALUE_TABLE /\ property_name (chars (fst r)) = Some (chars "flex-flow") /\ snd r = " <'flex-direction'> || <'flex-wrap'> "%string).
  { assert (X : existsb (fun r => match property_name (chars (fst r)) with Some n => text_eqb n (chars "flex-flow") | None => false end && String.eqb (snd r) " <'flex-direction'> || <'flex-wrap'> "%string) VALUE_TABLE = true) by (vm_compute; reflexivity).
    apply existsb_exists in X. destruct X as (r & I & E). apply andb_prop in E. destruct E as (E1 & E2). exists r. split; [exact I |]. split; [| apply String.eqb_eq; exact E2]. destruct (property_name (chars (fst r))) as [n |]; [| discriminate]. apply text_eqb_spec in E1. subst n. reflexivity. }
  destruct M as (r & Ir & En & Es). exists (chars (snd r)). rewrite Es. eexists (DComb [DType (DCustom (chars "FlexDirectionStyleValue")); DType (DCustom (chars "FlexWrapStyleValue"))] SOptions), _.
  split; [exists r; rewrite Es; auto |]. split; [vm_compute; reflexivity |]. split; [vm_compute; reflexivity |]. match goal with |- conforms _ _ _ (bare ?l) => let v := eval vm_compute in (bare l) in replace (bare l) with v by (vm_compute; reflexivity) end.
  match goal with |- conforms _ _ _ [?a; ?b] => change [a; b] with (concat [[a]; [b]]) end.
  apply (of_some _ _ _ [DType (DCustom (chars "FlexWrapStyleValue")); DType (DCustom (chars "FlexDirectionStyleValue"))] []); [rewrite app_nil_r; apply perm_swap | discriminate |].
  assert (Ty : forall w s d c, In (w, s) VALUE_TABLE -> css_def (chars s) = Some d -> conforms flow_text true d [c] -> conforms flow_text true (DType (DCustom (chars w))) [c]) by (intros w s d c I E Cc; apply (of_type _ _ (DCustom (chars w)) (chars w) d); [reflexivity | right; exists w, s; auto | exact Cc]).
  assert (Rw : forall w s, existsb (fun r => String.eqb (fst r) w && String.eqb (snd r) s) VALUE_TABLE = true -> In (w, s) VALUE_TABLE) by (intros w s X; apply existsb_exists in X; destruct X as ((w', s') & I & E); cbn [fst snd] in E; apply andb_prop in E; destruct E as (E1 & E2); apply String.eqb_eq in E1, E2; subst; exact I).
  constructor; [| constructor; [| constructor]].
  - eapply (Ty "FlexWrapStyleValue"%string " nowrap | wrap | wrap-reverse "%string); [apply Rw; vm_compute; reflexivity | vm_compute; reflexivity |]. apply (of_one _ _ _ (kw "wrap")); [right; left; reflexivity |]. apply of_word. split; [vm_compute; reflexivity | left; vm_compute; reflexivity].
  - eapply (Ty "FlexDirectionStyleValue"%string " row | row-reverse | column | column-reverse "%string); [apply Rw; vm_compute; reflexivity | vm_compute; reflexivity |]. apply (of_one _ _ _ (kw "row")); [left; reflexivity |]. apply of_word. split; [vm_compute; reflexivity | left; vm_compute; reflexivity].
Qed.
Print Assumptions C57_any_order_conforms.
(* a | <b>#: a list that begins with the word of the other alternative is not read on *)
Theorem C57_list_after_keyword_refuted : known VALUES (chars "a{will-change:left, auto;will-change:auto, left}") = [Some (chars "will-change"); None].
Proof. vm_compute. reflexivity. Qed.
Print Assumptions C57_list_after_keyword_refuted.
(* the tokens of the types are those of hdx, not of CSS (SpecConforms.token_of): integers are no <number>, percentages no <percentage>,
   strings no <string>; and dotted is misspelt *)
Theorem C57_css_values_refuted : known VALUES (chars "a{flex-grow:1;zoom:50%;hyphenate-character:'-';outline-style:dotted;line-height:2}") = [None; None; None; None; None] /\
  known VALUES (chars "a{flex-grow:1.5;zoom:0.5;hyphenate-character:x;outline-style:doted;line-height:2.5}") = map (fun s => Some (chars s)) ["flex-grow"; "zoom"; "hyphenate-character"; "outline-style"; "line-height"]%string.
Proof. split; vm_compute; reflexivity. Qed.
Print Assumptions C57_css_values_refuted.
(* functions: <image-1D> is never reached after <color>, and a position in a repeating-radial-gradient is never read *)
Theorem C57_functions_refuted : known VALUES (chars "a{border-top-color:stripes(red, blue);list-style-image:radial-gradient(circle at left, red, blue);list-style-image:repeating-radial-gradient(circle at left, red, blue)}") = [None; Some (chars "list-style-image"); None].
Proof. vm_compute. reflexivity. Qed.
Print Assumptions C57_functions_refuted.

(* ---- cases ---- *)
Definition unescaped_ok (src : text) (c : cursor) : bool :=
  (kind_eqb (kind_of c) K_Dimension || negb (contains_escape_chars (ctok c))) &&
  match text_end c with Some en => match slice src (text_start c) en with Some s => negb (existsb (fun x => (x =? 92) || (x =? 0)) s) | None => true end | None => true end.
Lemma unescaped_spec : forall src c, unescaped_ok src c = true -> unescaped src c.
Proof.
  intros src c E. unfold unescaped_ok in E. apply andb_prop in E. destruct E as (E1 & E2). split.
  - intro K. apply orb_prop in E1. destruct E1 as [E1 | E1]; [apply kind_eqb_eq in E1; contradiction | apply negb_true_iff in E1; exact E1].
  - intros en s T Sl. rewrite T, Sl in E2. apply negb_true_iff in E2. split; intro I; (rewrite (proj2 (existsb_exists _ s)) in E2; [discriminate |]); eexists; (split; [exact I | reflexivity]).
Qed.
Definition margin_text : text := chars " AUTO /* x */ 2Px !important;".
Example C57_case : exists value_p s d p u rest, In (chars "margin-block", value_p) VALUES /\ reached (chars "margin-block") = true /\ enforced (chars "margin-block") = true /\ defines (chars "margin-block") s /\ css_def s = Some d /\
  stands_finished margin_text no_features p (u ++ rest) /\ pskip p = KS_TRIVIA /\ conforms margin_text true d (bare u) /\ functionless u /\ Forall (unescaped margin_text) (bare u) /\ trimmed u /\ ended rest /\ List.length (bare u) = 2%nat.
Proof.
  assert (M : exists r, In r VALUE_TABLE /\ property_name (chars (fst r)) = Some (chars "margin-block") /\ snd r = " <'margin-top'>{1,2} "%string).
  { assert (X : existsb (fun r => match property_name (chars (fst r)) with Some n => text_eqb n (chars "margin-block") | None => false end && String.eqb (snd r) " <'margin-top'>{1,2} "%string) VALUE_TABLE = true) by (vm_compute; reflexivity).
    apply existsb_exists in X. destruct X as (r & I & E). apply andb_prop in E. destruct E as (E1 & E2). exists r. split; [exact I |]. split; [| apply String.eqb_eq; exact E2]. destruct (property_name (chars (fst r))) as [n |]; [| discriminate]. apply text_eqb_spec in E1. subst n. reflexivity. }
  destruct M as (r & Ir & En & Es). assert (G : match map_get VALUES (chars "margin-block") with Some _ => True | None => False end) by (vm_compute; exact Logic.I). destruct (map_get VALUES (chars "margin-block")) as [m |] eqn:Em; [| destruct G].
  destruct (text_ok_spec margin_text no_features) as (cs & A); [vm_compute; reflexivity |]. pose proof (acceptable_stands _ _ _ A) as S. destruct A as (_ & _ & _ & _ & _ & L & _).
  exists m, (chars (snd r)), (DMult (DType (DCustom (chars "MarginTopStyleValue"))) (MuRange (RgRange 1 2))), (parser_new margin_text no_features), (firstn 6 cs), (skipn 6 cs). rewrite Es.
  split; [exact (map_get_in _ _ _ _ Em) |]. split; [vm_compute; reflexivity |]. split; [vm_compute; reflexivity |]. split; [exists r; rewrite Es; auto |]. split; [vm_compute; reflexivity |]. split; [rewrite firstn_skipn; exact S |]. split; [reflexivity |]. clear S.
  vm_compute in L. apply some_inj in L. subst cs.
  match goal with |- conforms _ _ _ (bare ?l) /\ _ => let v := eval vm_compute in (bare l) in replace (bare l) with v by (vm_compute; reflexivity) end.
  match goal with |- conforms _ _ _ [?a; ?b] /\ _ => set (a1 := a); set (a2 := b) end.
  split; [| split; [| split; [| split; [| split]]]].
  - change [a1; a2] with (concat [[a1]; [a2]]). apply of_many; [| cbn [count_fits List.length]; vm_compute; split; repeat constructor].
    assert (Ty : forall c, conforms margin_text true (DComb [DType (DLengthPercentage RgNone); kw "auto"] SAlternatives) [c] -> conforms margin_text true (DType (DCustom (chars "MarginTopStyleValue"))) [c]).
    { intros c C. apply (of_type _ _ (DCustom (chars "MarginTopStyleValue")) (chars "MarginTopStyleValue") (DComb [DType (DLengthPercentage RgNone); kw "auto"] SAlternatives)); [reflexivity | | exact C]. right. exists "MarginTopStyleValue"%string, " <length-percentage> | auto "%string. split; [| split; [reflexivity | vm_compute; reflexivity]].
      assert (Y : existsb (fun r => String.eqb (fst r) "MarginTopStyleValue" && String.eqb (snd r) " <length-percentage> | auto ")%string VALUE_TABLE = true) by (vm_compute; reflexivity). apply existsb_exists in Y. destruct Y as ((w', s') & I & E). cbn [fst snd] in E. apply andb_prop in E. destruct E as (E1 & E2). apply String.eqb_eq in E1, E2. subst. exact I. }
    apply Forall_cons; [| apply Forall_cons; [| apply Forall_nil]]; apply Ty.
    + apply (of_one _ _ _ (kw "auto")); [right; left; reflexivity |]. apply of_word. split; [vm_compute; reflexivity | left; vm_compute; reflexivity].
    + apply (of_one _ _ _ (DType (DLengthPercentage RgNone))); [left; reflexivity |]. apply of_token; [| intros _; exact Logic.I]. right. exists U_Px. split; [| split; [vm_compute; reflexivity | left; vm_compute; reflexivity]]. vm_compute. tauto.
  - vm_compute. repeat constructor; discriminate.
  - apply Forall_cons; [| apply Forall_cons; [| apply Forall_nil]]; apply unescaped_spec; vm_compute; reflexivity.
  - intros v c E. cbn [firstn] in E. assert (Z : forall (l : list cursor) x y, l = v ++ [c] -> nth_error (rev l) 0 = Some x -> x = y -> c = y) by (intros l x y -> Q <-; rewrite rev_app_distr in Q; cbn [rev app nth_error] in Q; injection Q; auto). rewrite (Z _ _ _ E eq_refl eq_refl). intros [K | K]; vm_compute in K; discriminate.
  - cbn [skipn]. eexists [_], _. split; [reflexivity |]. split; [apply Forall_cons; [left; vm_compute; reflexivity | apply Forall_nil] |]. right. right. split; vm_compute; reflexivity.
  - reflexivity.
Qed.
