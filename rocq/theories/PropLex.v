(* Theorems for C05-C14, C16-C18: the lexer against the CSS grammar.
   Vocabulary: Lexer.v models css_lexer; SpecLex.v is CSS Syntax 3 section 4 as relations [text at the position -> token
   text -> rest]; SpecTrace.v says what it is to hold a lexer ([reached]), to call advance repeatedly ([advances]), to
   cover a source ([tiles]) and to be the token returned at a position ([token_at features before after token]).
   [well_behaved] excludes, by hypothesis, inputs on which the code is shown wrong by the _refuted theorems here:
   a backslash before a non-ASCII character, a number followed by sv/svm/svma/svmi, non-ASCII or NUL text inside a
   single-line comment, and numbers at or above the packing limits. *)
From Coq Require Import String.
From Verif Require Import Lexer SpecToken SpecLex SpecTrace LexTrace LexKinds LexProps LexProps2 LexProps3 LexUrl LexLimits.
Open Scope N_scope.
Open Scope list_scope.

Definition with_line_comments : feature := {| single_line_comments := true; separate_whitespace := false |}.
Definition sample : list N := chars "a:focus{margin: -1.5px 20% url( x.png ) 'q'; /* c */ #id @media <!-- --> }".
Example sample_well_behaved : forall f, well_behaved f sample.
Proof. intro f. apply ordinary_spec. reflexivity. Qed.

(* ---- C05: progress and termination ---- *)
Theorem C05_progress_partial : forall src f x, well_behaved (single_line_comments f) src -> reached src f x -> loff x < blen src ->
  exists t x', lexer_advance x = Some (t, x') /\ tkind t <> K_Eof /\ 0 < tlen t /\ loff x' = loff x + tlen t /\ loff x' <= blen src.
Proof. exact progress. Qed.
Print Assumptions C05_progress_partial.
Theorem C05_eof_stays : forall x, loff x = blen (lsrc x) -> lexer_advance x = Some (T_EOF, Lexer (lsrc x) (loff x) T_EOF (lfeat x)).
Proof. exact eof_stays. Qed.
Print Assumptions C05_eof_stays.
Theorem C05_exhausted_within_byte_count_partial : forall src f x, well_behaved (single_line_comments f) src -> reached src f x ->
  exists ts y, advances x ts y /\ loff y = blen src /\ N.of_nat (List.length ts) <= blen src - loff x.
Proof. exact reached_exhausts. Qed.
Print Assumptions C05_exhausted_within_byte_count_partial.
(* missing: at the documented limit of 16,777,216 characters the packed length wraps to 0 and advance stands still *)
Theorem C05_documented_limit_refuted : exists src, digits src /\ blen src = 16777216 /\ forall f,
  exists t, lexer_advance (lexer_new src f) = Some (t, Lexer src 0 t f) /\ tkind t = K_Number /\ tlen t = 0.
Proof. exact limit_source. Qed.
Print Assumptions C05_documented_limit_refuted.
Example C05_reached_case : reached sample no_features (lexer_new sample no_features) /\ loff (lexer_new sample no_features) < blen sample.
Proof. split; [apply rc_new | reflexivity]. Qed.

(* ---- C06: tiling, no panic ---- *)
Theorem C06_tokens_tile_partial : forall src f, well_behaved (single_line_comments f) src ->
  exists cs, lex src f = Some cs /\ tiles 0 src cs /\ N.of_nat (List.length cs) <= blen src /\
    forall o t, In (Cursor o t) cs -> exists a b, src = a ++ b /\ o = blen a /\ b <> [] /\ token_at f a b t.
Proof. exact lex_tiles_at. Qed.
Print Assumptions C06_tokens_tile_partial.
Theorem C06_slices_concatenate_partial : forall src f, well_behaved (single_line_comments f) src -> exists cs texts, lex src f = Some cs /\
  Forall2 (fun c t => slice src (coff c) (coff c + tlen (ctok c)) = Some t) cs texts /\ concat texts = src.
Proof. exact lex_slices. Qed.
Print Assumptions C06_slices_concatenate_partial.
Theorem C06_always_on_a_boundary_partial : forall src f x, well_behaved (single_line_comments f) src -> reached src f x ->
  lsrc x = src /\ lfeat x = f /\ exists pre l, src = pre ++ l /\ loff x = blen pre.
Proof. exact reached_boundary. Qed.
Print Assumptions C06_always_on_a_boundary_partial.
(* backslash, e-acute: the escape is counted as two bytes, the next advance slices inside the character and panics *)
Theorem C06_escaped_non_ascii_refuted : exists src, src = [92; 233] /\ lex src no_features = None.
Proof. exists [92; 233]. split; [reflexivity | vm_compute; reflexivity]. Qed.
Print Assumptions C06_escaped_non_ascii_refuted.
Theorem C06_line_comment_non_ascii_refuted : exists src, src = [47; 47; 233; 10] /\ lex src with_line_comments = None.
Proof. exists [47; 47; 233; 10]. split; [reflexivity | vm_compute; reflexivity]. Qed.
Print Assumptions C06_line_comment_non_ascii_refuted.
Example C06_sample : option_map (@List.length cursor) (lex sample no_features) = Some 27%nat.
Proof. vm_compute. reflexivity. Qed.

(* ---- C07: rewinding ---- *)
Theorem C07_rewind_restores : forall x ts y, advances x ts y -> lexer_rewind y (lexer_checkpoint x) = x.
Proof. exact rewind_restores. Qed.
Print Assumptions C07_rewind_restores.
Theorem C07_replay : forall x ts y, advances x ts y -> forall ts' z, List.length ts' = List.length ts ->
  advances (lexer_rewind y (lexer_checkpoint x)) ts' z -> ts' = ts /\ z = y.
Proof. exact replay. Qed.
Print Assumptions C07_replay.
Theorem C07_depends_on_source_features_offset : forall src off f t1 t2,
  match lexer_advance (Lexer src off t1 f), lexer_advance (Lexer src off t2 f) with
  | Some (a, x), Some (b, y) => a = b /\ x = y
  | None, None => True
  | _, _ => False
  end.
Proof. exact last_token_irrelevant. Qed.
Print Assumptions C07_depends_on_source_features_offset.
Example C07_case : advances (lexer_new (chars "a {") no_features) [new_ident false false false 1; new_whitespace 1 1; T_LEFT_CURLY] (Lexer (chars "a {") 3 T_LEFT_CURLY no_features).
Proof. do 3 (eapply av_cons; [reflexivity |]). apply av_nil. Qed.

(* ---- C08: whitespace ---- *)
Theorem C08_maximal_run_and_style : forall f pre l t, separate_whitespace f = false -> starts white l -> token_at f pre l t ->
  exists p r, run white l p r /\ tkind t = K_Whitespace /\ tlen t = blen p /\
    (style_has (whitespace_style t) WS_Space <-> In 32 p) /\ (style_has (whitespace_style t) WS_Tab <-> In 9 p) /\
    (style_has (whitespace_style t) WS_Newline <-> exists c, newline c /\ In c p).
Proof. exact whitespace_token. Qed.
Print Assumptions C08_maximal_run_and_style.
Theorem C08_only_whitespace : forall f pre l t, well_behaved (single_line_comments f) l -> l <> [] -> token_at f pre l t ->
  tkind t = K_Whitespace -> starts white l.
Proof. exact whitespace_only. Qed.
Print Assumptions C08_only_whitespace.
Theorem C08_never_adjacent : forall f src cs1 c1 c2 cs2, separate_whitespace f = false -> well_behaved (single_line_comments f) src ->
  lex src f = Some (cs1 ++ c1 :: c2 :: cs2) -> tkind (ctok c1) = K_Whitespace -> tkind (ctok c2) <> K_Whitespace.
Proof. exact whitespace_not_adjacent. Qed.
Print Assumptions C08_never_adjacent.
Example C08_case : starts white (chars " 	 x") /\ exists t, token_at no_features (chars "a") (chars " 	 x") t.
Proof. split; [exists 32, (chars "	 x"); split; [reflexivity | unfold white; auto] |]. exists (new_whitespace 3 3). intro last. eexists. reflexivity. Qed.

(* ---- C09: separate whitespace ---- *)
Theorem C09_homogeneous_maximal : forall f pre l t, separate_whitespace f = true -> starts white l -> token_at f pre l t ->
  tkind t = K_Whitespace /\ exists p r, p <> [] /\ tlen t = blen p /\
   ((whitespace_style t = WS_Space /\ run (eq 32) l p r) \/ (whitespace_style t = WS_Tab /\ run (eq 9) l p r) \/
    (whitespace_style t = WS_Newline /\ run newline l p r)).
Proof. exact separate_token. Qed.
Print Assumptions C09_homogeneous_maximal.
Example C09_case : exists t, token_at {| single_line_comments := false; separate_whitespace := true |} [] [32; 32; 9; 10] t /\ tlen t = 2.
Proof. exists (new_whitespace WS_Space 2). split; [intro last; eexists; reflexivity | reflexivity]. Qed.

(* ---- C10: block comments ---- *)
Theorem C10_ends_at_first_terminator : forall f pre l t, token_at f pre (47 :: 42 :: l) t -> exists p r s,
  block_comment (47 :: 42 :: l) p r /\ tkind t = K_Comment /\ tlen t = blen p /\ comment_style_of t = Some s /\ documented_block_style l s.
Proof. exact block_comment_token. Qed.
Print Assumptions C10_ends_at_first_terminator.
Theorem C10_slash_alone : forall f pre l t, single_line_comments f = false -> ~ starts (eq 42) l -> token_at f pre (47 :: l) t -> t = T_SLASH.
Proof. exact slash_token. Qed.
Print Assumptions C10_slash_alone.
Theorem C10_comments_start_so : forall f pre l t, well_behaved (single_line_comments f) l -> l <> [] -> token_at f pre l t -> tkind t = K_Comment ->
  (exists l', l = 47 :: 42 :: l') \/ (single_line_comments f = true /\ exists l', l = 47 :: 47 :: l').
Proof. exact comment_only. Qed.
Print Assumptions C10_comments_start_so.
Example C10_case : exists t, token_at no_features [] (chars "/**/ */") t /\ tlen t = 4.
Proof. exists (new_comment CS_Block 4). split; [intro last; eexists; reflexivity | reflexivity]. Qed.

(* ---- C11: single-line comments ---- *)
Theorem C11_ends_at_line_end_partial : forall f pre l t, single_line_comments f = true -> plain_line_comments (47 :: 47 :: l) -> token_at f pre (47 :: 47 :: l) t ->
  exists p r s, line_comment (47 :: 47 :: l) p r /\ tkind t = K_Comment /\ tlen t = blen p /\ comment_style_of t = Some s /\ documented_line_style l s.
Proof. exact line_comment_token. Qed.
Print Assumptions C11_ends_at_line_end_partial.
(* missing: non-ASCII text (length counted in characters, above) and NUL, which ends the comment *)
Theorem C11_nul_refuted : exists l t p r, l = [47; 47; 0; 97; 10] /\ token_at with_line_comments [] l t /\ line_comment l p r /\ tlen t < blen p.
Proof.
  exists [47; 47; 0; 97; 10], (new_comment CS_Single 2), [47; 47; 0; 97], [10]. split; [reflexivity |]. split; [intro last; eexists; reflexivity |].
  split; [| reflexivity]. exists [0; 97]. split; [reflexivity |]. split; [reflexivity |]. split; [reflexivity |].
  split; [repeat constructor; intros [H | [H | H]]; discriminate |]. intros (c & x & E & H). inversion E; subst. apply H. unfold newline. auto.
Qed.
Print Assumptions C11_nul_refuted.

(* ---- C12: strings ---- *)
Theorem C12_string_extent_and_flags_partial : forall f pre q l t, quote q -> esc_ok (q :: l) -> ~ In 0 l -> token_at f pre (q :: l) t -> exists p e r,
  string_body q l p e r /\ tlen t = 1 + blen p /\
  match e with
  | Closed => tkind t = K_String /\ has_close_quote t = true /\ tquote_style t = (if q =? 34 then QS_Double else QS_Single)
  | AtEnd => tkind t = K_String /\ has_close_quote t = false /\ r = []
  | AtNewline => tkind t = K_BadString /\ starts newline r
  end /\ (e <> AtNewline -> (contains_escape_chars t = true <-> In 92 p)).
Proof. exact string_token. Qed.
Print Assumptions C12_string_extent_and_flags_partial.
Theorem C12_strings_start_with_a_quote : forall f pre l t, well_behaved (single_line_comments f) l -> l <> [] -> token_at f pre l t ->
  tkind t = K_String \/ tkind t = K_BadString -> starts quote l.
Proof. exact string_only. Qed.
Print Assumptions C12_strings_start_with_a_quote.
(* the body is unique, so the theorem above determines the token *)
Theorem C12_body_is_unique : forall q l p e r, quote q -> string_body q l p e r -> forall p' e' r', string_body q l p' e' r' -> p = p' /\ e = e' /\ r = r'.
Proof. exact string_body_det. Qed.
Print Assumptions C12_body_is_unique.
(* missing: a NUL after a backslash ends the string although its closing quote follows *)
Theorem C12_escaped_nul_refuted : exists src t, src = [34; 92; 0; 34] /\ token_at no_features [] src t /\ tkind t = K_String /\ has_close_quote t = false /\ tlen t < blen src.
Proof. exists [34; 92; 0; 34], (new_string QS_Double false true 2). split; [reflexivity |]. split; [intro last; eexists; reflexivity |]. repeat split; reflexivity. Qed.
Print Assumptions C12_escaped_nul_refuted.
Example C12_case : exists t, token_at no_features [] (chars "'a\'b' c") t /\ tlen t = 6 /\ esc_ok (chars "'a\'b' c").
Proof.
  exists (new_string QS_Single true true 6). split; [intro last; eexists; reflexivity |]. split; [reflexivity |].
  intros a c b E. assert (I : In c (chars "'a\'b' c")) by (rewrite E; apply in_or_app; right; right; now left). cbn in I. lia.
Qed.

(* ---- C13: identifiers ---- *)
Theorem C13_ident_partial : forall f pre l t, ~ In 0 l -> esc_ok l -> would_start_ident l -> (forall r, l <> 45 :: 45 :: 62 :: r) ->
  token_at f pre l t -> exists ps r, ident_pieces l ps r /\
   (~ starts (eq 40) r -> tkind t = K_Ident /\ tlen t = blen (pieces_text ps) /\ ident_facts t ps) /\
   (starts (eq 40) r -> (tkind t = K_Function /\ tlen t = blen (pieces_text ps) + 1 /\ ident_facts t ps) \/ tkind t = K_Url \/ tkind t = K_BadUrl).
Proof. exact ident_token. Qed.
Print Assumptions C13_ident_partial.
Theorem C13_at_keyword_partial : forall f pre l t, ~ In 0 l -> esc_ok l -> would_start_ident l -> token_at f pre (64 :: l) t -> exists ps r, ident_pieces l ps r /\
  tkind t = K_AtKeyword /\ tlen t = 1 + blen (pieces_text ps) /\ (is_dashed_ident t = true <-> starts_dashed ps) /\ (contains_escape_chars t = true <-> has_escape ps) /\
  (is_lower_case t = true <-> forall c, In c (plain_chars ps) -> lower c \/ digit c \/ c = 45).
Proof. exact at_token. Qed.
Print Assumptions C13_at_keyword_partial.
Theorem C13_hash_partial : forall f pre l t, ~ In 0 l -> esc_ok l -> starts ident_cp l \/ starts_escape l -> token_at f pre (35 :: l) t -> exists ps r, ident_pieces l ps r /\
  tkind t = K_Hash /\ tlen t = 1 + blen (pieces_text ps) /\ (contains_escape_chars t = true <-> has_escape ps) /\
  (is_lower_case t = true <-> forall c, In c (plain_chars ps) -> lower c \/ digit c \/ c = 45).
Proof. exact hash_token. Qed.
Print Assumptions C13_hash_partial.
Theorem C13_only_so : forall f pre l t, well_behaved (single_line_comments f) l -> l <> [] -> token_at f pre l t ->
  (In (tkind t) [K_Ident; K_Function; K_Url; K_BadUrl] -> would_start_ident l) /\
  (tkind t = K_AtKeyword -> exists l', l = 64 :: l' /\ would_start_ident l') /\
  (tkind t = K_Hash -> exists l', l = 35 :: l' /\ (starts ident_cp l' \/ starts_escape l')).
Proof. exact ident_like_only. Qed.
Print Assumptions C13_only_so.
Theorem C13_pieces_are_unique : forall l ps r, ident_pieces l ps r -> forall ps' r', ident_pieces l ps' r' -> ps = ps' /\ r = r'.
Proof. exact ident_pieces_det. Qed.
Print Assumptions C13_pieces_are_unique.
(* missing: an ident with a dash or digit is not reported lower-case, although an at-keyword with the same text is *)
Theorem C13_lower_case_refuted : exists t t', token_at no_features [] (chars "foo-bar") t /\ tkind t = K_Ident /\ is_lower_case t = false /\
  token_at no_features [] (chars "@foo-bar") t' /\ is_lower_case t' = true.
Proof.
  exists (new_ident true false false 7), (new_atkeyword false false false 8). split; [intro last; eexists; reflexivity |]. split; [reflexivity |]. split; [reflexivity |].
  split; [intro last; eexists; reflexivity | reflexivity].
Qed.
Print Assumptions C13_lower_case_refuted.
(* missing: NUL, which CSS replaces by U+FFFD, is not an ident start after @ *)
Theorem C13_nul_refuted : exists l t, l = [0; 97] /\ would_start_ident l /\ token_at no_features [] (64 :: l) t /\ tkind t = K_Delim.
Proof.
  exists [0; 97], T_AT. split; [reflexivity |]. split; [left; exists 0, [97]; split; [reflexivity | unfold ident_start_cp; auto] |].
  split; [intro last; eexists; reflexivity | reflexivity].
Qed.
Print Assumptions C13_nul_refuted.
Example C13_case : ~ In 0 (chars "--Foo(") /\ would_start_ident (chars "--Foo(") /\ exists t, token_at no_features [] (chars "--Foo(") t /\ is_dashed_ident t = true.
Proof.
  split; [cbn; lia |]. split; [right; right; exists (chars "-Foo("); split; [reflexivity |]; right; left; exists 45, (chars "Foo("); auto |].
  exists (new_function true true false 6). split; [intro last; eexists; reflexivity | reflexivity].
Qed.

(* ---- C14: numbers ---- *)
Theorem C14_longest_number_and_flags_partial : forall f pre l t, would_start_number l -> within_limits l -> esc_ok l -> token_at f pre l t ->
  exists p r, longest_number l p r /\ numeric_len t = blen p /\ (tkind t = K_Number \/ tkind t = K_Dimension) /\
    (has_sign t = true <-> starts sign l) /\ (is_float t = true <-> float_text p) /\ is_int t = negb (is_float t) /\ tvalue t = parse_f32 p.
Proof. exact number_token. Qed.
Print Assumptions C14_longest_number_and_flags_partial.
Theorem C14_numbers_start_so : forall f pre l t, well_behaved (single_line_comments f) l -> l <> [] -> token_at f pre l t ->
  tkind t = K_Number \/ tkind t = K_Dimension -> would_start_number l.
Proof. exact number_only. Qed.
Print Assumptions C14_numbers_start_so.
Theorem C14_longest_is_unique : forall l p r p' r', longest_number l p r -> longest_number l p' r' -> p = p' /\ r = r'.
Proof. exact longest_det. Qed.
Print Assumptions C14_longest_is_unique.
Example C14_case : would_start_number (chars "+.5e-3.1x") /\ within_limits (chars "+.5e-3.1x") /\ esc_ok (chars "+.5e-3.1x") /\
  exists t, token_at no_features [] (chars "+.5e-3.1x") t /\ tlen t = 6.
Proof.
  split; [exists [43]; split; [right; left; reflexivity |]; exists (chars ".5e-3.1x"); split; [reflexivity |]; right; exists (chars "5e-3.1x"); split; [reflexivity |];
    exists 53, (chars "e-3.1x"); split; [reflexivity | unfold digit; lia] |].
  destruct (ordinary_spec false (chars "+.5e-3.1x") eq_refl) as (A & B & _). split; [exact B |]. split; [exact A |].
  eexists. split; [intro last; eexists; vm_compute; reflexivity | reflexivity].
Qed.

(* ---- C16: dimensions ---- *)
Theorem C16_units_partial : forall f pre l t p r, would_start_number l -> within_limits l -> esc_ok l -> no_sv_unit l -> ~ In 0 l -> token_at f pre l t ->
  longest_number l p r ->
  (starts (eq 37) r -> tkind t = K_Dimension /\ dimension_unit t = U_Percent /\ tlen t = blen p + 1) /\
  (would_start_ident r -> tkind t = K_Dimension /\ exists ps r', ident_pieces r ps r' /\ tlen t = blen p + blen (pieces_text ps) /\
     (dimension_unit t <> U_Unknown -> exists n q, In (dimension_unit t, n) css_unit_names /\ ps = map Plain q /\ lower_text q = chars n) /\
     (forall u n q, In (u, n) css_unit_names -> u <> U_Percent -> ps = map Plain q -> lower_text q = chars n -> hd 0 q <> 68 -> dimension_unit t = u)) /\
  (~ starts (eq 37) r -> ~ would_start_ident r -> tkind t = K_Number /\ tlen t = blen p).
Proof. exact dimension_token. Qed.
Print Assumptions C16_units_partial.
(* missing: units spelt with a capital D are not recognised *)
Theorem C16_capital_d_refuted : exists t, token_at no_features [] (chars "1DEG") t /\ tkind t = K_Dimension /\ dimension_unit t = U_Unknown /\
  In (U_Deg, "deg"%string) css_unit_names /\ lower_text (chars "DEG") = chars "deg".
Proof. eexists. split; [intro last; eexists; vm_compute; reflexivity |]. split; [reflexivity |]. split; [reflexivity |]. split; [cbn; tauto | reflexivity]. Qed.
Print Assumptions C16_capital_d_refuted.
(* missing: 1sv is split into the dimension 1s and the ident v *)
Theorem C16_sv_refuted : exists c1 c2, lex (chars "1sv") no_features = Some [c1; c2] /\ tkind (ctok c1) = K_Dimension /\ dimension_unit (ctok c1) = U_S /\ tlen (ctok c1) = 2.
Proof. do 2 eexists. split; [vm_compute; reflexivity |]. repeat split; reflexivity. Qed.
Print Assumptions C16_sv_refuted.
Example C16_case : exists t, token_at no_features [] (chars "-1.5Px;") t /\ dimension_unit t = U_Px /\ tlen t = 6.
Proof. eexists. split; [intro last; eexists; vm_compute; reflexivity |]. split; reflexivity. Qed.

(* ---- C17: url( ---- *)
Theorem C17_url_partial : forall f pre l t q r1 w x, ~ In 0 l -> esc_ok l -> ident_pieces l (map Plain q) (40 :: r1) -> lower_text q = chars "url" -> run white r1 w x ->
  token_at f pre l t ->
  (starts quote x -> (List.length w <= 4)%nat -> tkind t = K_Function /\ tlen t = 4) /\
  (~ starts quote x -> exists c tail e r, url_body x c tail e r /\
     match e with
     | UMalformed => exists p r', bad_url_remnants r p r' /\ tkind t = K_BadUrl /\ tlen t = 4 + blen w + blen c + blen tail + blen p
     | _ => tkind t = K_Url /\ tlen t = 4 + blen w + blen c + blen tail /\
            (url_has_closing_paren t = true <-> e = UClosed) /\ (url_has_leading_space t = true <-> w <> [])
     end).
Proof. exact url_token. Qed.
Print Assumptions C17_url_partial.
Theorem C17_other_functions_partial : forall f pre l t q r1, ~ In 0 l -> esc_ok l -> would_start_ident l -> ident_pieces l (map Plain q) (40 :: r1) -> hd 0 q <> 45 ->
  firstn 3 (lower_text q) <> firstn (List.length q) [117; 114; 108] -> token_at f pre l t -> tkind t = K_Function /\ tlen t = blen q + 1.
Proof. exact function_token. Qed.
Print Assumptions C17_other_functions_partial.
(* missing: any name that agrees with url on its first three characters, or is shorter, or has dashes in place of them, makes a url *)
Theorem C17_other_names_refuted : Forall (fun s => exists t, token_at no_features [] (chars s) t /\ tkind t = K_Url) ["u(a)"; "urlfoo(a)"; "--l(a)"; "-rl(a)"]%string.
Proof. repeat constructor; (eexists; split; [intro last; eexists; vm_compute; reflexivity | reflexivity]). Qed.
Print Assumptions C17_other_names_refuted.
(* missing: a quoted url after five spaces is a bad url, not a function *)
Theorem C17_five_spaces_refuted : exists t, token_at no_features [] (chars "url(     'a')") t /\ tkind t = K_BadUrl.
Proof. eexists. split; [intro last; eexists; vm_compute; reflexivity | reflexivity]. Qed.
Print Assumptions C17_five_spaces_refuted.
(* missing: the escape \000075 of the letter u is not recognised (\75 is) *)
Theorem C17_long_escape_refuted : exists t t', token_at no_features [] (chars "\000075rl(a)") t /\ tkind t = K_Function /\
  token_at no_features [] (chars "\75rl(a)") t' /\ tkind t' = K_Url.
Proof. do 2 eexists. split; [intro last; eexists; vm_compute; reflexivity |]. split; [reflexivity |]. split; [intro last; eexists; vm_compute; reflexivity | reflexivity]. Qed.
Print Assumptions C17_long_escape_refuted.
Example C17_case : ident_pieces (chars "URL( x )") (map Plain (chars "URL")) (chars "( x )") /\ lower_text (chars "URL") = chars "url" /\ run white (chars " x )") [32] (chars "x )") /\
  exists t, token_at no_features [] (chars "URL( x )") t.
Proof.
  split.
  { cbn [chars map]. vm_compute. do 3 (apply ip_char; [unfold ident_cp, ident_start_cp, letter, upper; left; left; left; lia |]). apply ip_stop; [| intros [E | (c & r & E & _)]; discriminate].
    intros (c & r & E & H). inversion E; subst. unfold ident_cp, ident_start_cp, letter, upper, lower, digit, non_ascii_ident in H. lia. }
  split; [reflexivity |]. split.
  { split; [reflexivity |]. split; [apply Forall_cons; [unfold white; auto | apply Forall_nil] |]. intros (c & r & E & H). inversion E; subst. unfold white, newline in H. lia. }
  eexists. intro last. eexists. vm_compute. reflexivity.
Qed.

(* ---- C18: punctuation ---- *)
Theorem C18_lexed_constants_partial : forall f pre c k l t, In (c, k) punctuation_constants -> ~ In c [35; 43; 45; 46; 47; 60; 64; 92; 95] ->
  token_at f pre (c :: l) t -> t = k.
Proof. exact punct_token. Qed.
Print Assumptions C18_lexed_constants_partial.
Theorem C18_char_and_length : forall f pre l t, well_behaved (single_line_comments f) l -> l <> [] -> Forall (fun c => valid_char c = true) l -> token_at f pre l t ->
  In (tkind t) doc_delim_like -> exists c r, l = c :: r /\ tchar t = Some c /\ tlen t = len_utf8 c.
Proof. exact delim_token. Qed.
Print Assumptions C18_char_and_length.
(* missing: a lexed '.' or '+' is not equal to the public constant for it *)
Theorem C18_period_plus_refuted : exists t1 t2, token_at no_features [] (chars ".") t1 /\ tkind t1 = K_Delim /\ t1 <> T_PERIOD /\ In (46, T_PERIOD) punctuation_constants /\
  token_at no_features [] (chars "+") t2 /\ tkind t2 = K_Delim /\ t2 <> T_PLUS /\ In (43, T_PLUS) punctuation_constants.
Proof.
  do 2 eexists. split; [intro last; eexists; vm_compute; reflexivity |]. split; [reflexivity |]. split; [discriminate |]. split; [cbn; tauto |].
  split; [intro last; eexists; vm_compute; reflexivity |]. split; [reflexivity |]. split; [discriminate | cbn; tauto].
Qed.
Print Assumptions C18_period_plus_refuted.
Example C18_case : In (59, T_SEMICOLON) punctuation_constants /\ token_at no_features [] (chars ";x") T_SEMICOLON.
Proof. split; [cbn; tauto | intro last; eexists; reflexivity]. Qed.
