(* Theorems for C60 (what a declaration is). The vocabulary is in SpecDecl.v. *)
From Coq Require Import String.
From Coq Require Import List Lia.
From Verif Require Import AstSheet Values SpecSheet SpecLex SpecTrace SpecParser SpecSyntax SpecTraits KindProofs LexTrace LexFacts CursorProofs ParserProofs ParserProofs2 ParserProofs3 CompareProofs SyntaxProofs FaithProofs Tells ValuesConform PropValues SpecWritten SpecConforms SpecDecl Keeps DeclProofs.
From Verif Require SelectorGoes.
Open Scope N_scope.
Open Scope list_scope.

(* ---- C60 ---- *)
(* what was read as a declaration is a name, a colon, a value and perhaps [! important]; the value is one of the five kinds, by the
   name and the tokens of the text *)
Theorem C60_declaration : forall p cs d q, ahead (plex p) cs -> skips_trivia p -> parse_property VALUES p = Some (Ok d, q) ->
  exists used rest value imp, cs = used ++ rest /\ ahead (plex q) rest /\ bare used = pr_name d :: pr_colon d :: value ++ imp /\ kind_of (pr_name d) = K_Ident /\ kind_of (pr_colon d) = K_Colon /\
    importance (lsrc (plex p)) (pr_important d) imp /\ value_of (lsrc (plex p)) (pr_name d) value (imp ++ bare rest) (pr_value d).
Proof.
  intros p cs d q A T E. destruct (property_spec (lsrc (plex p)) (lfeat (plex p)) p cs (conj eq_refl (conj eq_refl (conj A T))) _ _ E) as (u & rest & Ec & (_ & _ & A' & _) & K). destruct (K d eq_refl rest Ec) as (value & imp & K'). exists u, rest, value, imp. auto.
Qed.
Print Assumptions C60_declaration.
(* and where whitespace and comments are skipped, the first token of the value decides: the value of a custom property is custom
   whatever it is, a keyword of every property is that keyword, and a computed function makes the value a computed one *)
Theorem C60_value_decided : forall p cs d q name colon value, ahead (plex p) cs -> pskip p = KS_TRIVIA -> parse_property VALUES p = Some (Ok d, q) -> bare cs = name :: colon :: value ->
  pr_name d = name /\ pr_colon d = colon /\ (custom_name name -> exists l, pr_value d = SvCustom l) /\
  (~ custom_name name -> forall c r, value = c :: r -> (forall w, wide_word (lsrc (plex p)) w c -> pr_value d = SvKeyword (w, c)) /\ (computed_function (lsrc (plex p)) c -> exists l, pr_value d = SvComputed l)).
Proof.
  intros p cs d q name colon value A Sk E Eb. assert (O : onto (lsrc (plex p)) (lfeat (plex p)) p cs) by (split; [reflexivity |]; split; [reflexivity |]; split; [exact A |]; rewrite Sk; intros k K; apply trivia_kinds; exact K).
  destruct (property_parts _ _ p cs d q O E) as (q2 & r2 & q3 & u3 & r3 & O2 & Eb' & Sk2 & Ev & _). rewrite Eb in Eb'. injection Eb' as -> -> Ev2. split; [reflexivity |]. split; [reflexivity |]. split.
  - intro Cn. unfold parse_style_value in Ev. rewrite Cn in Ev. destruct (pmap_inv _ _ _ _ _ _ _ Ev) as (l & _ & El). exists l. exact El.
  - intros ND c r Er. subst value. rewrite Sk in Sk2. split.
    + intros w W. destruct (wide_keyword _ _ q2 r2 (pr_name d) w c r O2 Sk2 ND Er W _ Ev) as (x & X). apply (f_equal fst) in X. cbn [fst] in X. injection X as X. exact X.
    + intros (K & w & Iw & W). unfold parse_style_value in Ev. destruct (is_dashed_ident (ctok (pr_name d))) eqn:Dn; [elim ND; exact Dn |]. destruct (peek_bare _ _ q2 r2 O2 Sk2) as (c' & Pn & M). rewrite Er in M. destruct M as (-> & L).
      assert (P1 : peek (peek_set K_Ident (words WIDE_KEYWORDS)) q2 = Some false) by (unfold peek; rewrite Pn; unfold peek_set; rewrite (SelectorGoes.tok_not K_Ident c) by (unfold kind_of in *; rewrite K; discriminate); reflexivity).
      assert (P2 : peek peek_computed q2 = Some true) by (unfold peek; rewrite Pn; unfold peek_computed, peek_set, look_up; rewrite (SelectorGoes.tok_kind K_Function c K) by discriminate; rewrite (proj1 O2), W, (words_get COMPUTED_FUNCTIONS w Iw); reflexivity).
      unfold bind at 1, parse_if_peek at 1 in Ev. rewrite P1 in Ev. cbv beta iota in Ev. unfold or_peek at 1 in Ev. rewrite P2 in Ev. destruct (pmap_inv _ _ _ _ _ _ _ Ev) as (l & _ & El). exists l. exact El.
Qed.
Print Assumptions C60_value_decided.
(* the value of a custom or unknown property, or a computed one, goes on until the end of the text, a semicolon or a closing curly
   bracket outside of other brackets, or a token that no value can have; it takes [!important] in *)
Theorem C60_free_value_extent : forall p cs d q l, ahead (plex p) cs -> pskip p = KS_TRIVIA -> parse_property VALUES p = Some (Ok d, q) -> free_value (pr_value d) = Some l ->
  pr_important d = None /\ no_semicolon l /\ (grouped (map kind_of (cvs_cursors l)) \/ left_open (map kind_of (cvs_cursors l))) /\ exists used rest, cs = used ++ rest /\ ahead (plex q) rest /\ may_stop (bare rest).
Proof.
  intros p cs d q l A Sk E Fv. assert (O : onto (lsrc (plex p)) (lfeat (plex p)) p cs) by (split; [reflexivity |]; split; [reflexivity |]; split; [exact A |]; rewrite Sk; intros k K; apply trivia_kinds; exact K).
  destruct (property_parts _ _ p cs d q O E) as (q2 & r2 & q3 & u3 & r3 & O2 & Eb' & Sk2 & Ev & E3 & O3 & Ei & u & Eu). rewrite Sk in Sk2.
  destruct (free_parts _ _ q2 r2 (pr_name d) (pr_value d) q3 l O2 Sk2 Ev Fv) as (p0 & O0 & Sk0 & El). destruct (free_spec _ _ p0 r2 l q3 O0 Sk0 El) as (used & rest & T & Em & G & A3 & O4 & M & Ns). assert (rest = r3) by (symmetry; exact (ahead_det _ _ A3 _ (proj1 (proj2 (proj2 O3))))). subst rest.
  assert (Mk : map kind_of (cvs_cursors l) = map kind_of used).
  { clear - Em. induction Em as [| a b x y R _ IH]; [reflexivity |]. cbn [map]. rewrite IH. f_equal. destruct R as [-> | (R & _)]; [reflexivity |]. unfold kind_of. rewrite R. reflexivity. }
  rewrite Mk. assert (Sk3 : pskip q3 = KS_TRIVIA) by (destruct T as (? & ? & ? & _ & _ & _ & _ & _ & (_ & _ & X & _)); rewrite X; exact Sk0). assert (Pi : peek peek_important q3 = Some false).
  { destruct (peek_bare _ _ q3 r3 O3 Sk3) as (c & Pn & Mc). unfold peek. rewrite Pn. unfold peek_important. replace (tok_is (ctok c) K_Delim) with false; [reflexivity |]. symmetry. destruct (bare r3) as [| x r]; [rewrite Mc; vm_compute; reflexivity |]. destruct Mc as (-> & L). apply SelectorGoes.tok_not; [| apply L]. intro K. cbn [may_stop] in M. rewrite K in M. destruct M as [M | [M | M]]; [discriminate | discriminate |]. apply M. left. unfold is_plain. cbn [In]. auto 12. }
  unfold parse_if_peek in Ei. rewrite Pi in Ei. injection Ei as <- <-. split; [reflexivity |]. split; [exact Ns |]. split; [exact G |]. exists u, r3. auto.
Qed.
Print Assumptions C60_free_value_extent.
(* after the others [! important], with anything or nothing between them, is found if it is there *)
Theorem C60_importance_found : forall p cs d q rest b w r, ahead (plex p) cs -> pskip p = KS_TRIVIA -> parse_property VALUES p = Some (Ok d, q) -> ahead (plex q) rest -> pr_important d = None ->
  bare rest = b :: w :: r -> ~ important (lsrc (plex p)) b w.
Proof.
  intros p cs d q rest b w r A Sk E Aq Ni Eb (B & K & X). assert (Skq : pskip q = KS_TRIVIA) by (destruct (k_property p _ _ E) as (M & _); rewrite M; exact Sk). assert (O : onto (lsrc (plex p)) (lfeat (plex p)) p cs) by (split; [reflexivity |]; split; [reflexivity |]; split; [exact A |]; rewrite Sk; intros k Kk; apply trivia_kinds; exact Kk).
  destruct (property_parts _ _ p cs d q O E) as (q2 & r2 & q3 & u3 & r3 & O2 & Eb' & Sk2 & Ev & E3 & O3 & Ei & u & Eu). rewrite Ni in Ei. apply if_peek_none in Ei. destruct Ei as (<- & Pf). assert (rest = r3) by (symmetry; exact (ahead_det _ _ Aq _ (proj1 (proj2 (proj2 O3))))). subst rest.
  destruct (peek_bare _ _ q r3 O3 Skq) as (c & Pn & Mc). rewrite Eb in Mc. destruct Mc as (-> & L). unfold peek in Pf. rewrite Pn in Pf. unfold peek_important in Pf. destruct B as (B1 & B2). rewrite (SelectorGoes.tok_kind K_Delim b B1) in Pf by discriminate. assert (B3 : tok_is_char (ctok b) 33 = true) by (apply tok_is_char_spec; exact B2). rewrite B3 in Pf. cbn [andb] in Pf.
  rewrite (peek_n_spec q r3 2 Aq) in Pf by lia. rewrite Skq, (kept_bare q r3 Aq), Eb in Pf. cbn [N.to_nat] in Pf. change (nth (Pos.to_nat 2 - 1) (b :: w :: r) (eof_cursor q)) with w in Pf. rewrite (SelectorGoes.tok_kind K_Ident w K) in Pf by discriminate. rewrite (proj1 O3) in Pf. change IMPORTANT with (chars "important") in Pf. rewrite X in Pf. discriminate.
Qed.
Print Assumptions C60_importance_found.
(* whether it was a declaration or not, the parser skips and stops at the same tokens as before and is in the same state *)
Theorem C60_modes_kept : forall p r q, parse_property VALUES p = Some (r, q) -> pskip q = pskip p /\ pstop q = pstop p /\ pstate q = pstate p.
Proof. intros p r q E. destruct (k_property p r q E) as (A & B & C). auto. Qed.
Print Assumptions C60_modes_kept.

(* ---- the limits ---- *)
Inductive value_kind : Set := VkKeyword | VkCustom | VkComputed | VkUnknown | VkKnown.
Definition kind_of_value (v : style_value) : value_kind := match v with SvKeyword _ => VkKeyword | SvCustom _ => VkCustom | SvComputed _ => VkComputed | SvUnknown _ => VkUnknown | SvKnown _ _ => VkKnown end.
(* the declaration that a text begins with: its kind, whether it is important, and the number of tokens that were left *)
Definition declared (s : string) : option (value_kind * bool) :=
  match parse_property VALUES (parser_new (chars s) no_features) with
  | Some (Ok d, _) => Some (kind_of_value (pr_value d), match pr_important d with Some _ => true | None => false end)
  | _ => None
  end.
(* [!important] of a custom property, an unknown one or a computed value is part of its value *)
Theorem C60_important_refuted : map declared ["--a:1 !important"; "foo:bar !important"; "width:calc(1px) !important"; "width:1px !important"; "width:inherit ! IMPORTANT"]%string =
  [Some (VkCustom, false); Some (VkUnknown, false); Some (VkComputed, false); Some (VkKnown, true); Some (VkKeyword, true)].
Proof. vm_compute. reflexivity. Qed.
Print Assumptions C60_important_refuted.
(* a keyword of every property need not be the whole value *)
Theorem C60_keyword_alone_refuted : declared "width:inherit 1px;" = Some (VkKeyword, false).
Proof. vm_compute. reflexivity. Qed.
Print Assumptions C60_keyword_alone_refuted.
(* a value of the property is not taken for one when whitespace is all that follows it, or when it ends at a closing bracket *)
Theorem C60_value_at_end_refuted : map declared ["width:1px"; "width:1px "; "width:1px)"; "width:1px }"]%string = [Some (VkKnown, false); Some (VkUnknown, false); Some (VkUnknown, false); Some (VkKnown, false)].
Proof. vm_compute. reflexivity. Qed.
Print Assumptions C60_value_at_end_refuted.
(* a computed function that is not the first token of the value makes it a computed one only where the value of the property stopped *)
Theorem C60_computed_refuted : map declared ["margin-top:calc(1px)"; "width:1px calc(1px)"; "foo:1px calc(1px)"; "width:fit-content(calc(1px))"; "border-spacing:1px foo calc(1px)"]%string = [Some (VkComputed, false); Some (VkComputed, false); Some (VkUnknown, false); Some (VkUnknown, false); Some (VkUnknown, false)].
Proof. vm_compute. reflexivity. Qed.
Print Assumptions C60_computed_refuted.

(* ---- cases ---- *)
Definition decl_text : text := chars "WIDTH : /* x */ fit-content(2px) ! Important ; color: red".
Example C60_case : exists p cs d q, p = parser_new decl_text no_features /\ ahead (plex p) cs /\ skips_trivia p /\ pskip p = KS_TRIVIA /\ parse_property VALUES p = Some (Ok d, q) /\ (exists w l, pr_value d = SvKnown w l) /\ pr_important d <> None.
Proof.
  assert (G : match parse_property VALUES (parser_new decl_text no_features) with Some (Ok d, _) => match pr_value d, pr_important d with SvKnown _ _, Some _ => true | _, _ => false end | _ => false end = true) by (vm_compute; reflexivity).
  destruct (parse_property VALUES (parser_new decl_text no_features)) as [[[d | e] q] |] eqn:E; [| discriminate G | discriminate G]. assert (L : exists cs, lex decl_text no_features = Some cs) by (eexists; vm_compute; reflexivity). destruct L as (cs & L). exists (parser_new decl_text no_features), cs, d, q. split; [reflexivity |].
  split; [apply lex_ahead; [apply ordinary_spec; vm_compute; reflexivity | exact L] |]. split; [intros k Ik; apply trivia_kinds; exact Ik |]. split; [reflexivity |]. split; [exact E |]. clear E. destruct (pr_value d); try discriminate G. split; [eauto |]. destruct (pr_important d); [discriminate | discriminate G].
Qed.
Definition free_text : text := chars "--x: a {b} (c ; d) !important; e".
Example C60_free_case : exists p cs d q l, p = parser_new free_text no_features /\ ahead (plex p) cs /\ pskip p = KS_TRIVIA /\ parse_property VALUES p = Some (Ok d, q) /\ free_value (pr_value d) = Some l.
Proof.
  assert (G : match parse_property VALUES (parser_new free_text no_features) with Some (Ok d, _) => match free_value (pr_value d) with Some _ => true | _ => false end | _ => false end = true) by (vm_compute; reflexivity).
  destruct (parse_property VALUES (parser_new free_text no_features)) as [[[d | e] q] |] eqn:E; [| discriminate G | discriminate G]. destruct (free_value (pr_value d)) as [l |] eqn:Fl; [| discriminate G]. assert (L : exists cs, lex free_text no_features = Some cs) by (eexists; vm_compute; reflexivity). destruct L as (cs & L). exists (parser_new free_text no_features), cs, d, q, l. split; [reflexivity |].
  split; [apply lex_ahead; [apply ordinary_spec; vm_compute; reflexivity | exact L] |]. split; [reflexivity |]. split; [exact E | exact Fl].
Qed.
