(* Theorems for C59 (the syntax highlighter). The model is in Highlight.v, the vocabulary in SpecHighlight.v, SpecLspDoc.v, SpecSpan.v. *)
From Coq Require Import String.
From Coq Require Import List Permutation Sorted.
From Verif Require Import Highlight SpecSheet SpecLex SpecTrace SpecParser SpecSyntax SpecSpan SpecLspJson SpecLspDoc LspDocProofs LexTrace LexLimits ParserProofs2 ParserProofs3 KindProofs Tells Tells9 SheetReadable SheetTotal ValuesTotal PropLspServer PropValues2 PropMinify SpecValues SpecWritten Shows Shows4 HighlightProofs SpecHighlight.
Open Scope N_scope.
Open Scope list_scope.

(* what the theorems ask of a text: that the lexer takes it (C01), and that its offsets can be told from the dummy offset *)
Definition lexed_text (src : text) : Prop := well_behaved false src /\ blen src < 4294967295.

Lemma tree_marks : forall src l, lexed_text src -> tree_of src l -> exists cs, lex src no_features = Some cs /\ tiles 0 src cs /\ sh src (flat_map rule_marks l) cs.
Proof.
  intros src l (WB & _) (q & E). destruct (lex_tiles src no_features WB) as (cs & L & T & _). exists cs. split; [exact L |]. split; [exact T |].
  assert (O : onto src no_features (parser_new src no_features) cs).
  { split; [reflexivity |]. split; [reflexivity |]. split; [exact (lex_ahead src no_features cs WB L) |]. intros k Ik. apply kindset_new_spec in Ik. cbn in Ik. intuition. }
  destruct (s_parse_sheet src no_features reordered incomplete VALUES (values_told src no_features) _ cs O _ _ E) as (u & rest & -> & _ & K). specialize (K l eq_refl). apply (sh_le _ _ u); [exact K |].
  intro c. rewrite count_app. apply Nat.le_add_r.
Qed.

(* ---- C59 ---- *)
(* every mark is true of the text: what is shown as a tag is an identifier of that class of tags, what is shown as a pseudo-class is a
   colon directly followed by a known name, punctuation is a brace or a colon; its tokens are tokens of the text, and it is shown on a
   stretch of it *)
Theorem C59_marks_are_true : forall src l m, lexed_text src -> tree_of src l -> sheet_mark l m ->
  true_mark src m /\ placed src m /\ exists cs, lex src no_features = Some cs /\ incl (mark_cursors m) cs.
Proof.
  intros src l m X T M. destruct (tree_marks src l X T) as (cs & L & Ti & S). apply sheet_marks in M. split; [exact (marks_true _ _ _ S m M) |]. split.
  - exact (marks_placed src cs m Ti (marks_true _ _ _ S m M) (fun c => marks_in _ _ _ S m c M)).
  - exists cs. split; [exact L |]. intro c. exact (marks_in _ _ _ S m c M).
Qed.
Print Assumptions C59_marks_are_true.
(* no two marks overlap *)
Theorem C59_marks_are_disjoint : forall src l m m', lexed_text src -> tree_of src l -> sheet_mark l m -> sheet_mark l m' -> m <> m' -> disjoint (shown_span m) (shown_span m').
Proof.
  intros src l m m' X T M M' Ne. destruct (tree_marks src l X T) as (cs & L & Ti & S). apply sheet_marks in M. apply sheet_marks in M'. exact (marks_disjoint src cs _ Ti S m m' M M' Ne).
Qed.
Print Assumptions C59_marks_are_disjoint.
(* the highlights are those of the marks: none is missed, none is made up, none is shown twice or lost in the map, and each is found
   under its span *)
Theorem C59_highlights : forall src l, lexed_text src -> tree_of src l -> finished l ->
  exists hs, highlight_sheet l = Some hs /\ NoDup (map hspan hs) /\ (forall h, In h hs <-> exists m, sheet_mark l m /\ h = shown m) /\
    (forall m, sheet_mark l m -> get_highlight hs (shown_span m) = Some (shown m)).
Proof.
  intros src l X T U. destruct (tree_marks src l X T) as (cs & L & Ti & S). unfold highlight_sheet. rewrite (sheet_shown src l U (marks_fit _ _ _ Ti S (proj2 X))). cbn [option_map].
  pose proof (marks_collected src cs _ Ti S) as P. eexists. split; [reflexivity |].
  assert (Nd : NoDup (map hspan (collect (map shown (flat_map rule_marks l))))).
  { apply (Permutation_NoDup (Permutation_map hspan (Permutation_sym P))). rewrite map_map. exact (marks_spans src cs _ Ti S). }
  assert (I : forall h, In h (collect (map shown (flat_map rule_marks l))) <-> exists m, sheet_mark l m /\ h = shown m).
  { intro h. split.
    - intro I. apply (Permutation_in _ P) in I. apply in_map_iff in I. destruct I as (m & <- & I). apply sheet_marks in I. eauto.
    - intros (m & M & ->). apply sheet_marks in M. apply (Permutation_in _ (Permutation_sym P)). apply in_map. exact M. }
  split; [exact Nd |]. split; [exact I |]. intros m M. assert (Im : In (shown m) (collect (map shown (flat_map rule_marks l)))) by (apply I; eauto). clear - Nd Im. revert Nd Im. generalize (collect (map shown (flat_map rule_marks l))). intro hs.
  change (shown_span m) with (hspan (shown m)). generalize (shown m). intros h. induction hs as [| x hs IH]; intros Nd I; [destruct I |]. cbn [map] in Nd. inversion Nd as [| ? ? Ni Nd']; subst. unfold get_highlight in *. cbn [List.find]. destruct I as [-> | I].
  - replace (span_eqb (hspan h) (hspan h)) with true by (unfold span_eqb; rewrite !N.eqb_refl; reflexivity). reflexivity.
  - destruct (span_eqb (hspan x) (hspan h)) eqn:E; [| exact (IH Nd' I)]. exfalso. apply Ni. rewrite (span_eqb_spec _ _ E). apply in_map. exact I.
Qed.
Print Assumptions C59_highlights.
(* the highlighter panics just on a stylesheet with an @media or @-webkit-keyframes rule that it visits *)
Theorem C59_panics : forall src l, lexed_text src -> tree_of src l -> highlight_sheet l = None <-> exists r s, In r l /\ within r s /\ unfinished s.
Proof.
  intros src l X T. split.
  - intro E. destruct (sheet_dec l) as [U | U]; [exact U |]. destruct (C59_highlights src l X T U) as (hs & Q & _). rewrite E in Q. discriminate Q.
  - intros (r & s & I & W & U). unfold highlight_sheet. rewrite (sheet_panics l r s I W U). reflexivity.
Qed.
Print Assumptions C59_panics.
(* what the server computes of a document: nothing if it has no tree, else the highlights of the tree *)
Theorem C59_document : forall src r, parse_source src = Some r ->
  ((~ exists l, tree_of src l) -> document_highlights src = Some None) /\ (forall l, tree_of src l -> document_highlights src = option_map Some (highlight_sheet l)).
Proof.
  intros src r E. unfold document_highlights. rewrite E. unfold parse_source in E. destruct (parse_entirely (parse_sheet VALUES) (parser_new src no_features)) as [[r' q] |] eqn:P; [| discriminate E]. cbn [option_map fst] in E. injection E as ->.
  destruct (entirely_ok src r q P) as [(l & T & ->) | (-> & _ & Nt)].
  - split; [intro Nt; exfalso; apply Nt; eauto |]. intros l' T'. rewrite (tree_unique src l l' T T'). reflexivity.
  - split; [reflexivity |]. intros l T. exfalso. apply Nt. eauto.
Qed.
Print Assumptions C59_document.
Theorem C59_document_returns_partial : forall src cs, acceptable src no_features cs -> exists r, parse_source src = Some r.
Proof.
  intros src cs A. destruct (entirely_returns VALUES values_sensible src no_features _ cs (acceptable_stands src no_features cs A)) as (r & q & E). unfold parse_source. rewrite E. cbn. eauto.
Qed.
Print Assumptions C59_document_returns_partial.
(* the reply: every mark is sent once, in document order, and the deltas decode to the line and column of its start *)
Theorem C59_reply : forall src l r, lexed_text src -> parse_source src = Some r -> tree_of src l -> finished l ->
  exists hs sent ps, document_reply src = Some (Some sent) /\ document_highlights src = Some (Some hs) /\ Permutation hs (map (fun x => fst (fst x)) sent) /\
    (forall m, sheet_mark l m -> In (shown m) (map (fun x => fst (fst x)) sent)) /\
    StronglySorted (fun a b => span_le (hspan a) (hspan b)) (map (fun x => fst (fst x)) sent) /\
    Forall2 (starts_after src) (map (fun x => fst (fst x)) sent) ps /\
    Forall2 (fun p x => exists q, last_line p q /\ x = (count_newlines p, N.of_nat (List.length q))) ps (decode 0 0 (map (fun x => (snd (fst x), snd x)) sent)).
Proof.
  intros src l r X E T U. destruct (C59_document src r E) as (_ & D). specialize (D l T). destruct (C59_highlights src l X T U) as (hs & H & _ & I & _). rewrite H in D. cbn [option_map] in D.
  destruct (tree_marks src l X T) as (cs & L & Ti & S).
  assert (B : Forall (on_boundary src) hs).
  { apply Forall_forall. intros h Ih. apply I in Ih. destruct Ih as (m & M & ->). apply sheet_marks in M. exact (marks_boundary src cs _ Ti S m M). }
  destruct (C38_deltas_decode_partial src hs B) as (sent & ps & R & P & So & St & Dc). exists hs, sent, ps. split; [unfold document_reply; rewrite D, R; reflexivity |]. split; [exact D |]. split; [exact P |].
  split; [intros m M; apply (Permutation_in _ P); apply I; eauto |]. auto.
Qed.
Print Assumptions C59_reply.
(* and a client that asks for the tokens of the document gets them *)
Definition highlighter (src : text) : option (list highlight) := match document_highlights src with Some (Some hs) => Some hs | _ => None end.
Theorem C59_served : forall uri_ok decodes capabilities s i u src l r, lexed_text src -> parse_source src = Some r -> tree_of src l -> finished l ->
  ready s = true -> uri_ok u = true -> document s u = Some src ->
  exists sent, document_reply src = Some (Some sent) /\
    service_handle uri_ok highlighter decodes capabilities s
      (Request i (chars "textDocument/semanticTokens/full"%string) (JObj [(chars "textDocument"%string, JObj [(chars "uri"%string, JStr u)])]))
    = Some (s, Some (ResponseOk i (JObj [(chars "data"%string, JArr (flat_map (fun x => token_json (semantic_token x)) sent))]))).
Proof.
  intros uri_ok decodes capabilities s i u src l r X E T U R Ok D. destruct (C59_reply src l r X E T U) as (hs & sent & ps & Rp & H & _). exists sent. split; [exact Rp |].
  apply (C38_reply_is_about_the_document uri_ok highlighter decodes capabilities s i u src hs sent R Ok D).
  - unfold highlighter. rewrite H. reflexivity.
  - unfold document_reply in Rp. rewrite H in Rp. destruct (highlight_reply src hs); [injection Rp as ->; reflexivity | discriminate Rp].
Qed.
Print Assumptions C59_served.
(* what one would expect to be shown and is not: the highlighter panics on every @media rule, and shows nothing in @-moz-document,
   in the arguments of :is() and :host(), of a tag with a namespace, of @font-face, of a rule that was not understood *)
Theorem C59_unfinished_refuted : map (fun s => document_highlights (chars s)) ["@media print{a{b:c}}"; "@-webkit-keyframes a{}"; "@supports (a:b){@media print{}}"]%string = [None; None; None].
Proof. vm_compute. reflexivity. Qed.
Print Assumptions C59_unfinished_refuted.
Definition shown_texts (src : text) : option (list (option text)) :=
  match document_highlights src with Some (Some hs) => Some (map (fun h => span_contents (hspan h) src) (sorted hs)) | _ => None end.
Theorem C59_not_shown_refuted :
  map (fun s => shown_texts (chars s)) ["@-moz-document url(x){a{color:red}}"; "b:is(a){}"; "x|a{}"; "a::before{}"; "#i.j[k]{}"; "@font-face{src:url(x)}"; "@page :first{}"]%string =
  map (fun l => Some (map (fun s => Some (chars s)) l)) [[]; ["b"; "{"; "}"]; ["{"; "}"]; ["a"; "{"; "}"]; ["{"; "}"]; []; []]%string.
Proof. vm_compute. reflexivity. Qed.
Print Assumptions C59_not_shown_refuted.
Definition case_highlight : text := chars "a, my-tag:empty > tt nope:-moz-focusring { color: red; --x: 1; zoo: y; &:focus { top: 0 } }
@supports (width: 1px) { b { } } @property --p { syntax: '*'; inherits: true } @keyframes k { from { left: 0 } }".
Definition shown_kinds (src : text) : option (list (N * N)) :=
  match document_highlights src with Some (Some hs) => Some (map (fun h => (hkind h, hmod h)) (sorted hs)) | _ => None end.
Example C59_case : lexed_text case_highlight /\ tree_of case_highlight (sheet_of case_highlight) /\ (exists r, parse_source case_highlight = Some r) /\ finished (sheet_of case_highlight) /\
  List.length (sheet_of case_highlight) = 4%nat /\
  shown_kinds case_highlight =
  Some [(1, 0); (1, 16); (7, 0); (1, 0); (1, 1); (7, 2); (18, 0); (14, 0); (18, 0); (14, 16); (18, 0); (14, 1); (18, 0); (7, 0); (18, 0); (14, 0); (18, 0); (18, 0); (18, 0);
        (14, 1); (18, 0); (1, 0); (18, 0); (18, 0); (14, 16); (14, 0); (18, 0); (14, 0); (18, 0); (14, 0); (18, 0)].
Proof.
  split; [split; [apply ordinary_spec; vm_compute; reflexivity | vm_compute; reflexivity] |]. split; [eexists; vm_compute; reflexivity |]. split; [eexists; vm_compute; reflexivity |]. split; [| split; vm_compute; reflexivity].
  destruct (sheet_dec (sheet_of case_highlight)) as [(r & s & I & W & U) | N]; [| exact N]. exfalso. pose proof (sheet_panics _ r s I W U) as P. vm_compute in P. discriminate P.
Qed.
