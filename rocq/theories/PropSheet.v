(* Theorems for C52 (parsing a stylesheet returns). The conditions on texts ([acceptable]) and on the parsers of property values
   ([sensible]) are in SpecSheet.v. *)
From Coq Require Import String.
From Coq Require Import List Lia.
From Verif Require Import AstSheet SpecSheet SpecLex SpecTrace SpecParser SpecSyntax SpecTraits KindProofs LexTrace ParserProofs ParserProofs3 SheetReadable SheetTotal.
Open Scope N_scope.
Open Scope list_scope.

(* ---- C52 ---- *)
(* a text is parsed as a stylesheet: the parser comes back, having moved to a later token; so does parse_entirely. What is left
   out is in [acceptable]. *)
Theorem C52_stylesheets_return_partial : forall props src f cs, Forall (fun x => sensible (snd x)) props -> acceptable src f cs ->
  exists r q used rest, parse_sheet props (parser_new src f) = Some (r, q) /\ cs = used ++ rest /\ ahead (plex q) rest.
Proof.
  intros props src f cs Hp A. destruct (sheet_returns props Hp src f _ cs (acceptable_stands src f cs A)) as (r & q & u & rest & E & Ec & S). exists r, q, u, rest. split; [exact E |]. split; [exact Ec | apply S].
Qed.
Print Assumptions C52_stylesheets_return_partial.
Theorem C52_whole_stylesheets_return_partial : forall props src f cs, Forall (fun x => sensible (snd x)) props -> acceptable src f cs ->
  exists ret q, parse_entirely (parse_sheet props) (parser_new src f) = Some (ret, q).
Proof. intros props src f cs Hp A. exact (entirely_returns props Hp src f _ cs (acceptable_stands src f cs A)). Qed.
Print Assumptions C52_whole_stylesheets_return_partial.
(* from anywhere in such a text, whatever trivia the parser skips, one rule is parsed or refused; a parsed rule is not empty, so
   that a list of rules gets shorter *)
Theorem C52_rules_return_partial : forall props src f p cs, Forall (fun x => sensible (snd x)) props -> stands_finished src f p cs ->
  exists r q used rest, parse_css_rule props p = Some (r, q) /\ cs = used ++ rest /\ stands_finished src f q rest /\ (forall a, r = Ok a -> used <> []).
Proof. intros props src f p cs Hp S. exact (rule_returns props Hp src f p cs S). Qed.
Print Assumptions C52_rules_return_partial.
(* what is left out is left out with reason: "@page" followed by something that is no page selector is read for ever, however much
   fuel the model gets ... *)
Definition at_page : parser := match next (parser_new (chars "@page 1") no_features) with Some (_, q) => q | None => parser_new [] no_features end.
Theorem C52_page_refuted : parse_sheet [] (parser_new (chars "@page 1") no_features) = None /\
  (exists c, peek_next at_page = Some c /\ kind_of c = K_Number) /\
  forall n, comma_loop KS_LEFT_CURLY_OR_SEMICOLON parse_page_selector n at_page = None.
Proof.
  split; [vm_compute; reflexivity |]. split; [eexists; split; vm_compute; reflexivity |].
  assert (E1 : parse_page_selector at_page = Some (Ok (PageSelector None []), at_page)) by (vm_compute; reflexivity).
  assert (E2 : if_kind K_Comma at_page = Some (Ok None, at_page)) by (vm_compute; reflexivity).
  assert (E3 : exists c, peek_next at_page = Some c /\ tok_in (ctok c) KS_LEFT_CURLY_OR_SEMICOLON = false) by (exists (match peek_next at_page with Some c => c | None => eof_cursor at_page end); split; vm_compute; reflexivity).
  destruct E3 as (c & E3 & E4). clear - E1 E2 E3 E4. set (p0 := at_page) in *. clearbody p0. induction n as [| n IH]; [reflexivity |]. cbn [comma_loop]. unfold bind at 1. rewrite E1. unfold bind. rewrite E2, E3, E4. unfold pmap, bind. rewrite IH. reflexivity.
Qed.
Print Assumptions C52_page_refuted.
(* ... at the end of the file too; font-tech() and font-format() in @supports, and a function in @container, are a todo!() ... *)
Theorem C52_unfinished_refuted : Forall (fun s => parse_sheet [] (parser_new (chars s) no_features) = None)
  ["@page a"; "@supports font-tech(x){}"; "@supports font-format(woff){}"; "@container style(--a:b){}"]%string.
Proof. repeat (apply Forall_cons; [vm_compute; reflexivity |]). apply Forall_nil. Qed.
Print Assumptions C52_unfinished_refuted.
(* ... and even "@page {}" is read for ever when an earlier rule had a selector that was refused: what is skipped is not put back *)
Theorem C52_page_after_error_refuted :
  (exists l q, parse_sheet [] (parser_new (chars "a{} @page {}") no_features) = Some (Ok l, q) /\ List.length l = 2%nat) /\
  parse_sheet [] (parser_new (chars "a{} :!x{} @page {}") no_features) = None.
Proof. split; [eexists _, _; split; vm_compute; reflexivity | vm_compute; reflexivity]. Qed.
Print Assumptions C52_page_after_error_refuted.
Definition case_sheet : text := chars "@charset ""utf-8""; @layer a.b, c; /* x */ @media print and (min-width: 4px) { a > b:is(c, #d)::before { color: red !important; & e { float: left } } } @container (width > 2px) { f { --g: {h} } } @supports (display: grid) and (not (float: none)) { @font-face { font-family: x } } @keyframes k { from { top: 0 } 50% { top: 1px } } @unknown x; :!y {} @page{float:left;margin:1cm} @page:first,b:left{ @top-left { float: left; } @unknown {} }".
Example C52_case : acceptable case_sheet no_features (match lex case_sheet no_features with Some cs => cs | None => [] end) /\
  Forall (fun x => sensible (snd x)) [(chars "float", keyword_value); (chars "color", keyword_value)] /\
  exists l q, parse_sheet [(chars "float", keyword_value); (chars "color", keyword_value)] (parser_new case_sheet no_features) = Some (Ok l, q) /\ List.length l = 10%nat /\ text_ok (chars "a{} :!x{} @page{}") no_features = true.
Proof.
  split; [destruct (text_ok_spec case_sheet no_features) as (cs & A); [vm_compute; reflexivity | destruct A as (A1 & A2 & A3 & A4 & A5 & E & A6); rewrite E; unfold acceptable; auto 10] |].
  split; [repeat (apply Forall_cons; [exact keyword_sensible |]); apply Forall_nil |]. eexists _, _. split; [vm_compute; reflexivity |]. split; vm_compute; reflexivity.
Qed.
