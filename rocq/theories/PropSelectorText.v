(* Theorems for C51 (selectors written as the grammar says are read as the tree they are). The layouts of a tree, [list_laid], are in
   SpecSelectorText.v; [ready] is in SpecSelectors.v. *)
From Coq Require Import String.
From Coq Require Import List Lia.
From Verif Require Import Selectors SpecLex SpecTrace SpecParser SpecSyntax SpecTraits SpecFeatures SpecSelectors SpecSelectorText KindProofs LexTrace ParserProofs ParserProofs2 ParserProofs3 TraitsTotal FeatureProofs
  SelectorProofs SelectorProofs2 SelectorProofs3 SelectorProofs4 SelectorGoes SelectorGoes7 PropSelectors.
Open Scope N_scope.
Open Scope list_scope.

(* a list of selectors laid out as tokens, before '{', ')', ';' or the end: the parser returns that list and stops right after it.
   Missing: the spellings of An+B that PropNth.v refutes, comments between the simple selectors of a complex one, and the forms of [C51_selectors_refused_refuted] *)
Theorem C51_selectors_are_read_partial : forall p l toks rest, ready p -> ahead (plex p) (toks ++ rest) -> list_laid (lsrc (plex p)) l toks -> list_ends rest ->
  exists q, parse_selectors p = Some (Ok l, q) /\ ahead (plex q) rest /\ same_mode p q.
Proof. intros p l toks rest R A L He. destruct (selectors_read _ l toks p rest L eq_refl R A He) as (q & E & Aq & S & _). eauto. Qed.
Print Assumptions C51_selectors_are_read_partial.
(* so a layout has one reading *)
Theorem C51_one_reading : forall p l l' toks rest, ready p -> ahead (plex p) (toks ++ rest) -> list_laid (lsrc (plex p)) l toks -> list_laid (lsrc (plex p)) l' toks -> list_ends rest -> l = l'.
Proof.
  intros p l l' toks rest R A L L' He. destruct (C51_selectors_are_read_partial p l toks rest R A L He) as (q & E & _). destruct (C51_selectors_are_read_partial p l' toks rest R A L' He) as (q' & E' & _).
  rewrite E in E'. injection E' as E' _. exact E'.
Qed.
Print Assumptions C51_one_reading.
Definition error_of (s : string) : Prop := ready (parser_new (chars s) no_features) /\ exists e q, parse_selectors (parser_new (chars s) no_features) = Some (Err e, q).
(* valid selectors that are refused: a name in no namespace, a column combinator, a comment before a pseudo-element or a function, a comment at the end, a function left open at the end *)
Theorem C51_selectors_refused_refuted : error_of "|a" /\ error_of "[|a]" /\ error_of "a||b" /\ error_of "a/**/::before" /\ error_of "a/**/:is(b)" /\ error_of "a/**/" /\ error_of ":lang(en".
Proof. unfold error_of. repeat match goal with |- _ /\ _ => split end; try (apply sample_ready; reflexivity); eexists _, _; vm_compute; reflexivity. Qed.
Print Assumptions C51_selectors_refused_refuted.
(* "of" in :nth-child(): the function has no ")", what follows is read as selectors after it, and the list ends at the ")" *)
Theorem C51_nth_child_of_refuted : exists n c f v w t w' t' q, ready (parser_new (chars ":nth-child(2n+1 of a) {") no_features) /\
  parse_selectors (parser_new (chars ":nth-child(2n+1 of a) {") no_features) = Some (Ok [([SFunctionalClass n c f v None; SCombinator (CDescendant w); STag t; SCombinator (CDescendant w'); STag t'], None)], q) /\
  exists close, peek_n q 1 = Some close /\ kind_of close = K_RightParen.
Proof. eexists _, _, _, _, _, _, _, _, _. split; [apply sample_ready; reflexivity |]. split; [vm_compute; reflexivity |]. eexists. split; [vm_compute; reflexivity | reflexivity]. Qed.
Print Assumptions C51_nth_child_of_refuted.
(* the words of the standard are known, each function with the argument the standard gives it, and no other function is *)
Theorem C51_standard_words : (forall name ty, In (name, ty) FUNCTIONAL_CLASSES <-> function_takes name ty) /\ incl STANDARD_CLASSES (vendor_classes VStandard) /\ incl STANDARD_ELEMENTS (vendor_elements VStandard) /\
  (forall w, In w LEGACY_PSEUDO_ELEMENTS <-> In w ONE_COLON_ELEMENTS).
Proof.
  assert (I : forall (l l' : list text), forallb (fun w => existsb (text_eqb w) l') l = true -> incl l l').
  { intros l l' H w Hw. rewrite forallb_forall in H. specialize (H w Hw). now apply existsb_text. }
  split; [| split; [apply I; vm_compute; reflexivity | split; [apply I; vm_compute; reflexivity | split; apply I; vm_compute; reflexivity]]].
  intros name ty. split.
  - intros H. vm_compute in H. repeat (destruct H as [H | H]; [injection H as <- <-; vm_compute; tauto |]). destruct H.
  - destruct ty; cbn [function_takes]; intros H; [subst; vm_compute; tauto | | subst; vm_compute; tauto | | subst; vm_compute; tauto]; vm_compute in H; repeat (destruct H as [<- | H]; [vm_compute; tauto |]); destruct H.
Qed.
Print Assumptions C51_standard_words.
(* pseudo-classes and pseudo-elements of the standards that are in no table *)
Theorem C51_standard_words_missing_refuted : Forall (fun w => Forall (fun v => ~ In (chars w) (vendor_classes v)) [VStandard; VWebkit; VMoz; VMs; VO]) ["user-valid"; "user-invalid"; "muted"; "seeking"; "open"]%string /\
  error_of ":seeking {" /\ error_of "::details-content {".
Proof.
  split; [| split; (split; [apply sample_ready; reflexivity | eexists _, _; vm_compute; reflexivity])].
  assert (N : forall (w : text) l, existsb (text_eqb w) l = false -> ~ In w l). { intros w l H Hi. apply existsb_text in Hi. congruence. }
  repeat constructor; apply N; vm_compute; reflexivity.
Qed.
Print Assumptions C51_standard_words_missing_refuted.
(* a case: the layout of "#x , a:not( .b )>c" before " {" *)
Definition sample : parser := parser_new (chars "#x , a:not( .b )>c[ d |= e i]:before {") no_features.
Definition sample_cursors : list cursor := Eval vm_compute in (match lex (chars "#x , a:not( .b )>c[ d |= e i]:before {") no_features with Some l => l | None => [] end).
Definition tok (i : nat) : cursor := nth i sample_cursors (Cursor 0 T_EOF).
Lemma no_pipe_cons : forall c r, kind_of c <> K_Comment -> tchar (ctok c) <> Some 124 -> no_pipe (c :: r).
Proof. intros c r K N [| d comments] c' r' E F K'; cbn [app] in E; injection E as <- E; [exact N | inversion F; contradiction]. Qed.
Lemma one_gap : forall c, kind_of c = K_Whitespace -> gap [c].
Proof. intros c K. constructor; [now left | constructor]. Qed.
Lemma none_gap : gap [].
Proof. constructor. Qed.
Lemma not_descends : forall x, match x with SCombinator (CDescendant _) => False | _ => True end -> ~ descends x.
Proof. intros x H (w & ->). exact H. Qed.
Definition sample_tree (t1 t2 : tag_t) : list (list component_ast * option cursor) :=
  [([SId (tok 0)], Some (tok 2));
   ([STag t1; SFunctionalClass (chars "not") (tok 5) (tok 6) (VSelectors [([SClass (tok 8) (tok 9)], None)]) (Some (tok 11)); SCombinator (CChild (tok 12)); STag t2;
     SAttribute (Attribute (tok 14) None (tok 16) (Some (ALangPrefix (tok 18) (tok 19))) (Some (tok 21)) (Some (MInsensitive (tok 23))) (Some (tok 24))); SLegacy (chars "before", (tok 25, tok 26))], None)].
Example C51_case : exists l toks rest, ready sample /\ ahead (plex sample) (toks ++ rest) /\ list_laid (lsrc (plex sample)) l toks /\ list_ends rest /\ List.length l = 2%nat /\ List.length toks = 27%nat.
Proof.
  assert (R : ready sample) by (apply sample_ready; reflexivity).
  assert (A : ahead (plex sample) sample_cursors). { destruct (ready_ahead sample R) as (cs & A). pose proof (ahead_lex _ _ _ A) as E. vm_compute in E. injection E as <-. exact A. }
  destruct (C50_tags sample (tok 4) (chars "a") eq_refl eq_refl) as (t1 & _ & E1 & P1 & _). destruct (C50_tags sample (tok 13) (chars "c") eq_refl eq_refl) as (t2 & _ & E2 & P2 & _).
  exists (sample_tree t1 t2), (firstn 27 sample_cursors), (skipn 27 sample_cursors). split; [exact R |]. split; [rewrite firstn_skipn; exact A |]. split.
  - set (src := lsrc (plex sample)) in *.
    assert (La : laid src (STag t1) [tok 4]) by (rewrite <- E1; now apply laid_tag). assert (Lc : laid src (STag t2) [tok 13]) by (rewrite <- E2; now apply laid_tag).
    assert (Lb : laid src (SClass (tok 8) (tok 9)) [tok 8; tok 9]) by (apply laid_class; [split; reflexivity | reflexivity]).
    assert (Ln : laid src (SFunctionalClass (chars "not") (tok 5) (tok 6) (VSelectors [([SClass (tok 8) (tok 9)], None)]) (Some (tok 11))) (tok 5 :: tok 6 :: ([tok 7] ++ [tok 8; tok 9]) ++ [tok 10] ++ [tok 11])).
    { apply (laid_functional_class src (chars "not") TySelectors); try reflexivity; [cbn; tauto | | apply one_gap; reflexivity]. apply laid_selectors. apply laid_one; [apply one_gap; reflexivity |]. apply laid_first.
      - apply laid_last; [exact Lb | now apply not_descends].
      - intros x r [= <- <-]. now apply not_descends. }
    assert (Lg : laid src (SCombinator (CChild (tok 12))) [tok 12]) by (apply (laid_combinator src (CChild (tok 12))); [split; reflexivity | discriminate]).
    assert (Lt : laid src (SAttribute (Attribute (tok 14) None (tok 16) (Some (ALangPrefix (tok 18) (tok 19))) (Some (tok 21)) (Some (MInsensitive (tok 23))) (Some (tok 24)))) (firstn 11 (skipn 14 sample_cursors))).
    { apply laid_attribute. split; [| split; [discriminate |]].
      - split; [reflexivity |]. split; [exact Logic.I |]. split; [reflexivity |]. split; [split; [repeat split | left; reflexivity] |]. split; [| reflexivity]. split; [reflexivity |]. exists 105. split; [vm_compute; reflexivity | now left].
      - exists [tok 15], [tok 17], [tok 20], [tok 22], [], (tok 24). repeat (split; [first [apply one_gap; reflexivity | apply none_gap | reflexivity] |]). reflexivity. }
    assert (Ll : laid src (SLegacy (chars "before", (tok 25, tok 26))) [tok 25; tok 26]).
    { apply (laid_legacy src (chars "before", (tok 25, tok 26))). split; [reflexivity |]. split; [| reflexivity]. split; [reflexivity |]. exists (chars "before"). split; [vm_compute; reflexivity |]. vm_compute. tauto. }
    change (firstn 27 sample_cursors) with ([] ++ [tok 0] ++ [tok 1] ++ tok 2 :: ([tok 3] ++ [tok 4] ++ (tok 5 :: tok 6 :: ([tok 7] ++ [tok 8; tok 9]) ++ [tok 10] ++ [tok 11]) ++ [tok 12] ++ [tok 13] ++ firstn 11 (skipn 14 sample_cursors) ++ [tok 25; tok 26])).
    apply laid_more; [apply none_gap | | apply one_gap; reflexivity | reflexivity |].
    + apply laid_first; [apply laid_last; [apply laid_id; reflexivity | now apply not_descends] |]. intros x r [= <- <-]. now apply not_descends.
    + apply laid_one; [apply one_gap; reflexivity |]. apply laid_first; [| intros x r [= <- <-]; now apply not_descends].
      apply laid_cons; [exact La | apply no_pipe_cons; discriminate |]. apply laid_cons; [exact Ln | exact Logic.I |]. apply laid_cons; [exact Lg | exact Logic.I |]. apply laid_cons; [exact Lc | apply no_pipe_cons; discriminate |].
      apply laid_cons; [exact Lt | exact Logic.I |]. apply laid_last; [exact Ll | now apply not_descends].
  - split; [| split; reflexivity]. right. exists [tok 27], (tok 28), []. split; [reflexivity |]. split; [apply one_gap; reflexivity | left; reflexivity].
Qed.
(* a case of An+B, in each of the ways to write B: the layouts of the arguments of :nth-child() and the like *)
Definition anb_sample : list cursor := Eval vm_compute in (match lex (chars "+n/**/- 3 2n+1 -n-4 N- 5 -3n") no_features with Some l => l | None => [] end).
Definition at_ (i : nat) : cursor := nth i anb_sample (Cursor 0 T_EOF).
Example C51_anb_case : exists src, src = chars "+n/**/- 3 2n+1 -n-4 N- 5 -3n" /\
  anb_laid src 1 (-3) [at_ 0; at_ 1; at_ 3; at_ 5] (firstn 6 anb_sample) /\ anb_laid src 2 1 [at_ 7; at_ 8] [at_ 7; at_ 8] /\
  anb_laid src (-1) (-4) [at_ 10] [at_ 10] /\ anb_laid src 1 (-5) [at_ 12; at_ 14] [at_ 12; at_ 13; at_ 14] /\ anb_laid src (-3) 0 [at_ 16] [at_ 16].
Proof.
  eexists. split; [reflexivity |]. split; [| split; [| split; [| split]]].
  - apply (anb_apart _ 1 [at_ 0; at_ 1] [at_ 2] (at_ 3) (-1) [at_ 4] (at_ 5)); [apply head_plus_n; [split; reflexivity | reflexivity | reflexivity] | | right; split; [split |]; reflexivity | apply one_gap; reflexivity | repeat split; reflexivity].
    constructor; [now right | constructor].
  - apply (anb_signed _ 2 [at_ 7] [] (at_ 8)); [apply (head_dimension _ (at_ 7) []); reflexivity | apply none_gap | repeat split; reflexivity].
  - apply (anb_digits _ (-1) [at_ 10] [52]); [apply head_minus_n; reflexivity | split; [discriminate | repeat constructor; unfold digit; lia] | vm_compute; discriminate].
  - apply (anb_dash _ 1 [at_ 12] [at_ 13] (at_ 14)); [apply head_n; reflexivity | intros c [= <-] E; vm_compute in E; discriminate E | apply one_gap; reflexivity | repeat split; reflexivity].
  - apply (anb_alone _ (-3) [at_ 16]). apply (head_dimension _ (at_ 16) []); reflexivity.
Qed.
