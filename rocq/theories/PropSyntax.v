(* C30 C31: component values, blocks and functions *)
From Verif Require Import Syntax SpecLex SpecTrace SpecParser SpecSyntax ParserProofs ParserProofs2 ParserProofs3 ParserProofs4 SyntaxProofs SyntaxTotal SyntaxAccept SyntaxFacts.
Open Scope N_scope.
Open Scope list_scope.

(* ---- C30: the tokens read and not recorded as trivia are the tokens emitted, in order; only the offset of a bracket
   of a simple block may differ. [took] says every other token consumed is in the trivia list. ---- *)
Theorem C30_values_preserved : forall src f p vs q, well_behaved (single_line_comments f) src -> reached_parser src f p -> skips_comments p ->
  parse_component_values p = Some (Ok vs, q) -> exists used, took p q used /\ Forall2 re_emitted used (cvs_cursors vs).
Proof. exact values_preserved. Qed.
Print Assumptions C30_values_preserved.
Theorem C30_one_value_preserved : forall src f p (m : P cval) v q, well_behaved (single_line_comments f) src -> reached_parser src f p -> skips_comments p ->
  m = parse_component_value \/ m = parse_simple_block \/ m = parse_function_block ->
  m p = Some (Ok v, q) -> exists used, took p q used /\ used <> [] /\ Forall2 re_emitted used (cv_cursors v).
Proof. exact one_value_preserved. Qed.
Print Assumptions C30_one_value_preserved.
(* the same tokens in the same order, offsets left out *)
Theorem C30_same_tokens : forall used out, Forall2 re_emitted used out -> map ctok out = map ctok used.
Proof. exact re_emitted_tokens. Qed.
Print Assumptions C30_same_tokens.
(* the offsets of the brackets: '{' is emitted where the parser stood before the comment, '}' at the dummy offset *)
Theorem C30_bracket_offsets_refuted : exists q, parse_component_value (parser_new [47; 42; 42; 47; 123; 125] no_features) =
    Some (Ok (CvBlock 0 T_LEFT_CURLY [] (Some T_RIGHT_CURLY)), q) /\
  took (parser_new [47; 42; 42; 47; 123; 125] no_features) q [Cursor 4 T_LEFT_CURLY; Cursor 5 T_RIGHT_CURLY] /\
  cv_cursors (CvBlock 0 T_LEFT_CURLY [] (Some T_RIGHT_CURLY)) = [Cursor 0 T_LEFT_CURLY; Cursor DUMMY_OFFSET T_RIGHT_CURLY].
Proof. exact bracket_offsets. Qed.
Print Assumptions C30_bracket_offsets_refuted.
Example C30_case : exists q, parse_component_values (parser_new sheet_sample no_features) =
  Some (Ok [CvToken K_Ident (Cursor 0 (new_ident false false false 1)); CvToken K_Whitespace (Cursor 1 (new_whitespace 1 1));
            CvFunction (Cursor 2 (new_function false false false 2)) [CvToken K_Ident (Cursor 4 (new_ident false false false 1));
              CvToken K_Comma (Cursor 9 T_COMMA); CvBlock 10 T_LEFT_SQUARE [CvToken K_Ident (Cursor 11 (new_ident false false false 1))] (Some T_RIGHT_SQUARE)] (Some (Cursor 14 T_RIGHT_PAREN))], q)
  /\ skips_comments (parser_new sheet_sample no_features).
Proof. eexists. split; [vm_compute; reflexivity | split; reflexivity]. Qed.

(* ---- C31: termination, and where blocks and functions end ---- *)
Theorem C31_always_returns : forall src f p, well_behaved (single_line_comments f) src -> reached_parser src f p -> skips_comments p ->
  (exists r q, parse_component_value p = Some (r, q)) /\ (exists r q, parse_component_values p = Some (r, q)) /\
  (exists r q, parse_simple_block p = Some (r, q)) /\ (exists r q, parse_function_block p = Some (r, q)).
Proof. exact values_return. Qed.
Print Assumptions C31_always_returns.
(* a closed block is an opening bracket, a bracketed sequence, and a closing bracket; an unclosed one stands before the end
   of the input or a token that is neither a closing bracket nor part of any component value *)
Theorem C31_block_shape : forall src f p v q, well_behaved (single_line_comments f) src -> reached_parser src f p -> skips_comments p ->
  parse_simple_block p = Some (Ok v, q) -> exists used, took p q used /\ block_result q v used.
Proof. exact block_shape. Qed.
Print Assumptions C31_block_shape.
(* a closed function ends at its ')'; an unclosed one at the end of the input *)
Theorem C31_function_shape : forall src f p v q, well_behaved (single_line_comments f) src -> reached_parser src f p -> skips_comments p ->
  parse_function_block p = Some (Ok v, q) -> exists used fn vs close inner, took p q used /\ v = CvFunction fn vs close /\ kind_of fn = K_Function /\ Forall2 re_emitted inner (cvs_cursors vs) /\
    match close with
    | Some c => kind_of c = K_RightParen /\ used = fn :: inner ++ [c] /\ grouped (map kind_of inner)
    | None => used = fn :: inner /\ left_open (map kind_of used) /\ p_at_end q = true
    end.
Proof. exact function_shape. Qed.
Print Assumptions C31_function_shape.
(* properly bracketed contents are accepted, and the block or function ends at its own closing bracket *)
Theorem C31_block_accepted : forall p sk x a c l, pskip p = KS_TRIVIA -> ahead (plex p) (sk ++ x :: a ++ c :: l) -> Forall is_trivia sk ->
  is_opener (kind_of x) -> values_text (fun _ => True) a -> kind_of c = closer_of (kind_of x) ->
  exists vs q, parse_simple_block p = Some (Ok (CvBlock (poffset p) (ctok x) vs (Some (ctok c))), q) /\ ahead (plex q) l.
Proof. exact block_accepted. Qed.
Print Assumptions C31_block_accepted.
Theorem C31_function_accepted : forall p sk x a c l, pskip p = KS_TRIVIA -> ahead (plex p) (sk ++ x :: a ++ c :: l) -> Forall is_trivia sk ->
  kind_of x = K_Function -> values_text (fun _ => True) a -> kind_of c = K_RightParen ->
  exists vs q, parse_function_block p = Some (Ok (CvFunction x vs (Some c)), q) /\ ahead (plex q) l.
Proof. exact function_accepted. Qed.
Print Assumptions C31_function_accepted.
Theorem C31_values_accepted : forall ok body p rest, values_text ok body -> pskip p = KS_TRIVIA -> ahead (plex p) (body ++ rest) ->
  (forall k, ok k -> kindset_contains (pstop p) k = false) -> ends_values (pstop p) rest ->
  exists vs q tr, parse_component_values p = Some (Ok vs, q) /\ Forall is_trivia tr /\ ahead (plex q) (tr ++ rest).
Proof. exact values_accepted. Qed.
Print Assumptions C31_values_accepted.
(* but a closing bracket of another kind closes a block too: '(a]' *)
Theorem C31_own_closer_refuted : exists vs q, parse_simple_block (parser_new [40; 97; 93] no_features) = Some (Ok (CvBlock 0 T_LEFT_PAREN vs (Some T_RIGHT_SQUARE)), q).
Proof. eexists _, _. vm_compute. reflexivity. Qed.
Print Assumptions C31_own_closer_refuted.
(* and the block '{a-->}' ends, unclosed, before '-->', though its '}' follows *)
Theorem C31_unclosed_before_closer_refuted : exists vs q c, parse_simple_block (parser_new [123; 97; 32; 45; 45; 62; 125] no_features) = Some (Ok (CvBlock 0 T_LEFT_CURLY vs None), q) /\
  peek_next q = Some c /\ kind_of c = K_CdcOrCdo.
Proof. eexists _, _, _. split; [vm_compute; reflexivity | split; vm_compute; reflexivity]. Qed.
Print Assumptions C31_unclosed_before_closer_refuted.
(* a function left open at the end of the input is an error if a comment follows its last value: 'f(a' against 'f(a/**/' *)
Theorem C31_unclosed_function_refuted : exists v q e q', parse_function_block (parser_new [102; 40; 97] no_features) = Some (Ok v, q) /\
  parse_function_block (parser_new [102; 40; 97; 47; 42; 42; 47] no_features) = Some (Err e, q').
Proof. eexists _, _, _, _. split; vm_compute; reflexivity. Qed.
Print Assumptions C31_unclosed_function_refuted.
Example C31_case : exists cs, ahead (plex (parser_new sheet_sample no_features)) cs /\ values_text (fun _ => True) cs /\ (length cs > 5)%nat /\
  ends_values (pstop (parser_new sheet_sample no_features)) [] /\ pskip (parser_new sheet_sample no_features) = KS_TRIVIA.
Proof. exact sheet_sample_values. Qed.
