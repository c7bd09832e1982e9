(* Theorems for C53 (a stylesheet that was parsed is written with the tokens it was read from). The vocabulary is in SpecWritten.v:
   [values_faithful], the condition on the parsers of property values, which are a parameter, as are the names of the properties
   whose values may be reordered ([loose]) or incomplete ([lossy]); [whole], false of the trees known to lack tokens; [mixed], true
   of the trees with a block of both declarations and rules or a value of a loose property. [emits] is in SpecRules.v. *)
From Coq Require Import ZifyBool ZifyNat ZifyN.
From Coq Require Import String.
From Coq Require Import List Permutation.
From Verif Require Import AstSheet SpecSheet SpecLex SpecTrace SpecParser SpecSyntax SpecTraits SpecRules SpecFeatures LexBase LexFacts LexTrace KindProofs ParserProofs ParserProofs2 ParserProofs3 FaithProofs FaithTraits FaithRules Goes SheetTotal
  Tells Tells2 Tells3 Tells4 Tells6 Tells9 SpecWritten.
Open Scope N_scope.
Open Scope list_scope.

Lemma faithful_told : forall src f loose lossy props, SpecWritten.values_faithful loose lossy props -> told_values src f loose lossy props.
Proof.
  intros src f loose lossy props H w m I p cs (S1 & S2 & A & T) r q E. destruct (H w m I p cs r q A T E) as (u & rest & Ec & A' & S1' & S2' & T' & X). exists u, rest. split; [exact Ec |].
  split; [unfold onto; rewrite S1', S2'; repeat (split; [assumption |]); exact T' |]. intros a Ea Lw. apply (X a Ea). apply negb_true_iff in Lw. exact Lw.
Qed.
Lemma told_faithful : forall loose lossy props, (forall src f, told_values src f loose lossy props) -> SpecWritten.values_faithful loose lossy props.
Proof.
  intros loose lossy props H w m I p cs r q A T E. destruct (H (lsrc (plex p)) (lfeat (plex p)) w m I p cs (conj eq_refl (conj eq_refl (conj A T))) r q E) as (u & rest & Ec & (S1 & S2 & A' & T') & X).
  exists u, rest. repeat (split; [assumption |]). intros l El Lw. apply (X l El). apply negb_true_iff. exact Lw.
Qed.

(* ---- C53 ---- *)
(* a text was parsed as a stylesheet: its tokens are those of the tree, in order, and some whitespace, comments, semicolons and
   <!-- --> that the tree leaves out. Not said of trees that are not [whole]; the order not of trees that are [mixed] *)
Theorem C53_stylesheet_written_partial : forall loose lossy props src f cs l q, SpecWritten.values_faithful loose lossy props -> well_behaved (single_line_comments f) src -> lex src f = Some cs ->
  parse_sheet props (parser_new src f) = Some (Ok l, q) -> forallb (whole lossy) l = true -> emits (existsb (mixed loose) l) cs (sheet_cursors l).
Proof.
  intros loose lossy props src f cs l q Hp W L E Wh. pose proof (faithful_told src f loose lossy props Hp) as H. assert (O : onto src f (parser_new src f) cs).
  { split; [reflexivity |]. split; [reflexivity |]. split; [exact (lex_ahead src f cs W L) |]. intros k Ik. apply kindset_new_spec in Ik. cbn in Ik. intuition. }
  destruct (w_parse_sheet src f loose lossy props H _ cs O _ _ E) as (u & rest & -> & (_ & _ & A & _) & K). specialize (K l eq_refl Wh). destruct (sheet_ends src f _ _ _ (w_css_rule src f loose lossy props H) _ _ _ _ O E) as (rest' & A' & F).
  rewrite <- (ahead_det _ _ A' _ A) in F. pose proof (emits_app _ _ _ _ _ _ K (emits_dropped rest F)) as X. rewrite orb_false_r, app_nil_r in X. exact X.
Qed.
Print Assumptions C53_stylesheet_written_partial.
(* said of the tokens alone: no token but whitespace, comments, semicolons and <!-- --> is lost, and none is made up *)
Theorem C53_no_token_lost_partial : forall loose lossy props src f cs l q, SpecWritten.values_faithful loose lossy props -> well_behaved (single_line_comments f) src -> lex src f = Some cs ->
  parse_sheet props (parser_new src f) = Some (Ok l, q) -> forallb (whole lossy) l = true ->
  Permutation (filter is_lasting (map ctok (sheet_cursors l))) (filter is_lasting (map ctok cs)) /\
  (existsb (mixed loose) l = false -> filter is_lasting (map ctok (sheet_cursors l)) = filter is_lasting (map ctok cs)).
Proof. intros loose lossy props src f cs l q Hp W L E Wh. apply emits_lasting. exact (C53_stylesheet_written_partial loose lossy props src f cs l q Hp W L E Wh). Qed.
Print Assumptions C53_no_token_lost_partial.
(* one rule, from anywhere in a text, whichever of whitespace and comments the parser skips; nested in a style rule too *)
Theorem C53_rule_written_partial : forall loose lossy props p cs r q, SpecWritten.values_faithful loose lossy props -> ahead (plex p) cs -> skips_trivia p ->
  parse_css_rule props p = Some (Ok r, q) \/ parse_nested_rule props p = Some (Ok r, q) ->
  exists used rest, cs = used ++ rest /\ ahead (plex q) rest /\ (whole lossy r = true -> emits (mixed loose r) used (css_rule_cursors r)).
Proof.
  intros loose lossy props p cs r q Hp A T E. pose proof (faithful_told (lsrc (plex p)) (lfeat (plex p)) loose lossy props Hp) as H. assert (O : onto (lsrc (plex p)) (lfeat (plex p)) p cs) by (split; [reflexivity |]; split; [reflexivity |]; split; assumption).
  destruct E as [E | E]; destruct (w_css_rule_n _ _ loose lossy props H _ _ p cs O _ _ E) as (u & rest & Ec & (_ & _ & A' & _) & K); exists u, rest; (split; [exact Ec |]; split; [exact A' |]); exact (K r eq_refl).
Qed.
Print Assumptions C53_rule_written_partial.
(* what is left out is left out with reason. The texts of the tokens a tree writes: *)
Definition written (src : text) (props : properties) : list (option text) :=
  match parse_sheet props (parser_new src no_features) with Some (Ok l, _) => map (fun c => str_slice c src) (sheet_cursors l) | _ => [] end.
(* a condition with [not] loses the feature before it ... *)
Theorem C53_not_refuted : written (chars "@media (hover) not (hover:none) {}") [] = map (fun s => Some (chars s)) ["@media"; "not"; "("; "hover"; ":"; "none"; ")"; "{"; "}"]%string.
Proof. vm_compute. reflexivity. Qed.
Print Assumptions C53_not_refuted.
(* ... an @charset without its semicolon loses the next token ... *)
Theorem C53_charset_refuted : written (chars "@charset ""x"" a b{}") [] = map (fun s => Some (chars s)) ["@charset"; " "; """x"""; "b"; "{"; "}"]%string.
Proof. vm_compute. reflexivity. Qed.
Print Assumptions C53_charset_refuted.
(* ... and a block with both is written with its declarations first *)
Theorem C53_order_refuted : written (chars "a{b{}color:d}") [] = map (fun s => Some (chars s)) ["a"; "{"; "color"; ":"; "d"; "b"; "{"; "}"; "}"]%string.
Proof. vm_compute. reflexivity. Qed.
Print Assumptions C53_order_refuted.
Lemma keyword_told : forall src f, tells src f keyword_value (wri (fun _ => true) (fun _ => false) (fun cs => cs)).
Proof. intros src f p cs O. unfold keyword_value. apply tv_pmap. eapply tv_use; [exact O | apply k_kind; discriminate |]. intros c u K _. exact K. Qed.
Lemma keywords_faithful : forall ws, SpecWritten.values_faithful none_of none_of (map (fun w => (w, keyword_value)) ws).
Proof. intro ws. apply told_faithful. intros src f w m I. apply in_map_iff in I. destruct I as (x & E & _). injection E as _ <-. apply keyword_told. Qed.
Definition case_text : text := chars "@charset ""utf-8""; @layer a.b, c; /* x */ @media print and (min-width: 4px) { a > b:is(c, #d)::before { & e { float: left } } } @container (width > 2px) { f { --g: {h} } } @supports (float: left) { @font-face { font-family: x } } @keyframes k { from { top: 0 } 50% { top: 1px } } @page :first { margin: 1px } @unknown x; :!y {} g { color: inherit !important; 5; }".
Example C53_case : SpecWritten.values_faithful none_of none_of [(chars "float", keyword_value); (chars "color", keyword_value)] /\ well_behaved false case_text /\ (exists cs, lex case_text no_features = Some cs) /\
  exists l q, parse_sheet [(chars "float", keyword_value); (chars "color", keyword_value)] (parser_new case_text no_features) = Some (Ok l, q) /\ forallb (whole none_of) l = true /\ existsb (mixed none_of) l = true /\ existsb (mixed none_of) (firstn 8 l) = false /\ List.length l = 10%nat.
Proof.
  split; [exact (keywords_faithful [chars "float"; chars "color"]) |]. split; [apply ordinary_spec; vm_compute; reflexivity |]. split; [eexists; vm_compute; reflexivity |]. eexists _, _. split; [vm_compute; reflexivity |]. repeat split; vm_compute; reflexivity.
Qed.
