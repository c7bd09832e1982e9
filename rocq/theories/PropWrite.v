(* Theorems for C32 and C33: writing tokens back (Cursor::write_str, CursorFmtSink, CursorVecSink).
   SpecWrite.v has the vocabulary. Hypotheses: [well_behaved] (PropLex.v), scalar values in the source, sources below 4 GB. *)
From Coq Require Import String.
From Verif Require Import Lexer Span Cursor Write SpecToken SpecLex SpecTrace SpecCursor SpecWrite LexTrace CursorFacts WriteProofs.
Open Scope N_scope.
Open Scope list_scope.

(* ---- C32 ---- *)
(* Over a whole source: writing never panics, the token texts in order are the source, and every token that is neither a
   number nor a dimension with a known unit is written as its own text. *)
Theorem C32_reproduces_the_source_partial : forall src f,
  well_behaved (single_line_comments f) src -> Forall (fun c => valid_char c = true) src -> blen src < 4294967295 ->
  exists cs texts, lex src f = Some cs /\ concat texts = src /\
    Forall2 (fun c p => slice src (coff c) (coff c + tlen (ctok c)) = Some p /\ (exists s, write_str c src = Some s) /\
      (verbatim (ctok c) -> write_str c src = Some p)) cs texts.
Proof. exact source_write. Qed.
Print Assumptions C32_reproduces_the_source_partial.
(* the same for one token anywhere in a source *)
Theorem C32_token_verbatim_partial : forall f pre l t,
  well_behaved (single_line_comments f) l -> Forall (fun c => valid_char c = true) l -> blen (pre ++ l) < 4294967295 ->
  token_at f pre l t -> verbatim t -> exists p r, l = p ++ r /\ tlen t = blen p /\ write_str (Cursor (blen pre) t) (pre ++ l) = Some p.
Proof. exact verbatim_text. Qed.
Print Assumptions C32_token_verbatim_partial.
(* A number token (from any source: its token is all that matters) of finite value is written as a number of the same value
   that, wherever it is not continued, lexes as one number token covering it; the sign flag is kept, except that a negative
   value always shows its sign. *)
Theorem C32_number_respelled : forall f pre t r, tkind t = K_Number -> finite_f32 (tvalue t) -> ~ starts number_continues r ->
  forall o src, exists p t', write_str (Cursor o t) src = Some p /\ token_at f pre (p ++ r) t' /\
    tkind t' = K_Number /\ tvalue t' = tvalue t /\ tlen t' = blen p /\ has_sign t' = has_sign t || N.testbit (tvalue t) 31.
Proof. exact rewrite_number. Qed.
Print Assumptions C32_number_respelled.
(* a known-unit dimension keeps its value and unit, except for the units svmin and svmax *)
Theorem C32_dimension_respelled_partial : forall f pre t r, tkind t = K_Dimension ->
  dimension_unit t <> U_Unknown -> dimension_unit t <> U_Svmin -> dimension_unit t <> U_Svmax ->
  finite_f32 (tvalue t) -> ~ starts ident_cp r -> ~ starts_escape r ->
  forall o src, exists p t', write_str (Cursor o t) src = Some p /\ token_at f pre (p ++ r) t' /\
    tkind t' = K_Dimension /\ tvalue t' = tvalue t /\ dimension_unit t' = dimension_unit t /\ tlen t' = blen p /\ has_sign t' = N.testbit (tvalue t) 31.
Proof. exact rewrite_dimension. Qed.
Print Assumptions C32_dimension_respelled_partial.
(* missing: svmin is written as svmax *)
Theorem C32_svmin_becomes_svmax_refuted : exists src t, src = chars "2svmin"%string /\ token_at no_features [] src t /\
  dimension_unit t = U_Svmin /\ write_str (Cursor 0 t) src = Some (chars "2svmax"%string).
Proof. eexists (chars "2svmin"%string), _. split; [reflexivity |]. split; [intro last; eexists; vm_compute; reflexivity |]. split; vm_compute; reflexivity. Qed.
Print Assumptions C32_svmin_becomes_svmax_refuted.
(* an infinite value: 1e39 is written as the identifier inf *)
Theorem C32_overflowing_number_refuted : exists src t t', src = chars "1e39"%string /\ token_at no_features [] src t /\ tkind t = K_Number /\
  write_str (Cursor 0 t) src = Some (chars "inf"%string) /\ token_at no_features [] (chars "inf"%string) t' /\ tkind t' = K_Ident.
Proof.
  eexists (chars "1e39"%string), _, _. split; [reflexivity |]. split; [intro last; eexists; vm_compute; reflexivity |]. split; [vm_compute; reflexivity |].
  split; [vm_compute; reflexivity |]. split; [intro last; eexists; vm_compute; reflexivity | vm_compute; reflexivity].
Qed.
Print Assumptions C32_overflowing_number_refuted.
(* the sign of a positive dimension is lost (it is kept on a number): +1px after 1n would no longer be signed *)
Theorem C32_dimension_sign_lost_refuted : exists src t, src = chars "+1px"%string /\ token_at no_features [] src t /\ has_sign t = true /\
  write_str (Cursor 0 t) src = Some (chars "1px"%string).
Proof. eexists (chars "+1px"%string), _. split; [reflexivity |]. split; [intro last; eexists; vm_compute; reflexivity |]. split; vm_compute; reflexivity. Qed.
Print Assumptions C32_dimension_sign_lost_refuted.
(* 1.0 is not an integer in CSS; written back it is *)
Theorem C32_integer_flag_changes_refuted : exists src t t', src = chars "1.0"%string /\ token_at no_features [] src t /\ is_int t = false /\
  write_str (Cursor 0 t) src = Some (chars "1"%string) /\ token_at no_features [] (chars "1"%string) t' /\ is_int t' = true.
Proof.
  eexists (chars "1.0"%string), _, _. split; [reflexivity |]. split; [intro last; eexists; vm_compute; reflexivity |]. split; [vm_compute; reflexivity |].
  split; [vm_compute; reflexivity |]. split; [intro last; eexists; vm_compute; reflexivity | vm_compute; reflexivity].
Qed.
Print Assumptions C32_integer_flag_changes_refuted.
Definition write_src : text := chars "a{b:url( x ) +01.50PX '\a' 010}"%string.
Example C32_case : match lex write_src no_features with Some cs => map (fun c => write_str c write_src) cs | None => [] end =
  map Some (map chars ["a"; "{"; "b"; ":"; "url( x )"; " "; "1.5px"; " "; "'\a'"; " "; "10"; "}"]%string).
Proof. vm_compute. reflexivity. Qed.
Example C32_case_hypotheses : well_behaved false write_src /\ Forall (fun c => valid_char c = true) write_src /\ blen write_src < 4294967295.
Proof. split; [apply ordinary_spec; reflexivity |]. split; [repeat constructor | reflexivity]. Qed.
Example C32_case_number : exists t, tkind t = K_Number /\ finite_f32 (tvalue t) /\ ~ starts number_continues (chars ", 1"%string).
Proof.
  exists (new_number true true 5 (parse_f32 (chars "+0.10"%string))). split; [reflexivity |]. split; [split; vm_compute; reflexivity |].
  intros (c & r & E & H). injection E as <- <-. unfold number_continues, ident_cp, ident_start_cp, letter, upper, lower, digit, non_ascii_ident in H. Lia.lia.
Qed.
Example C32_case_dimension : exists t, tkind t = K_Dimension /\ dimension_unit t <> U_Unknown /\ dimension_unit t <> U_Svmin /\ dimension_unit t <> U_Svmax /\ finite_f32 (tvalue t).
Proof. exists (new_dimension true false 3 2 (parse_f32 (chars "1.5"%string)) U_Em). repeat split; try (vm_compute; congruence). Qed.

(* ---- C33 ---- *)
(* Whatever the writer does, it has been handed, in order, each cursor's pieces with one space before a cursor exactly when
   the token before it needs a separator: all of them, or all up to and including the piece it failed on; the sink reports
   an error exactly in the second case, and hands nothing more after it. *)
Theorem C33_every_cursor_in_order : forall src cs items fa,
  Forall2 (fun c it => fst it = ctok c /\ write_pieces c src = Some (snd it)) cs items ->
  exists s, fmt_append_all (fmt_sink_new src (Writer [] fa)) cs = Some s /\ (handed (fs_writer s), fs_err s) = delivered fa (joined None items).
Proof. exact sink_output. Qed.
Print Assumptions C33_every_cursor_in_order.
(* the text written when the writer does not fail: each cursor as Cursor::write_str writes it *)
Theorem C33_text : forall src cs items, Forall2 (fun c it => fst it = ctok c /\ write_str c src = Some (snd it)) cs items ->
  fmt_text src cs = Some (concat (joined None (map (fun it => (fst it, [snd it])) items))).
Proof. exact fmt_text_joined. Qed.
Print Assumptions C33_text.
(* the vector sink keeps every cursor in order, with a separator cursor in the same places *)
Theorem C33_vec_sink : forall cs v, vec_append_all v cs = v ++ vec_joined SEPARATOR (match rev v with la :: _ => Some (ctok la) | [] => None end) cs.
Proof. exact vec_append_all_spec. Qed.
Print Assumptions C33_vec_sink.
(* but that separator cannot be written: its offset lies outside any source, so writing it panics *)
Theorem C33_vec_separator_panics_refuted : forall src, blen src < DUMMY_OFFSET -> write_str SEPARATOR src = None.
Proof. exact separator_panics. Qed.
Print Assumptions C33_vec_separator_panics_refuted.
Theorem C33_vec_sink_output_panics_refuted : exists src cs, lex src no_features = Some cs /\
  (exists s, fmt_text src cs = Some s) /\ fmt_text src (vec_append_all [] (filter (fun c => negb (kind_eqb (tkind (ctok c)) K_Whitespace)) cs)) = None.
Proof.
  exists (chars "a b"%string). eexists. split; [vm_compute; reflexivity |]. split; [eexists; vm_compute; reflexivity | vm_compute; reflexivity].
Qed.
Print Assumptions C33_vec_sink_output_panics_refuted.
Example C33_case : exists cs, lex write_src no_features = Some cs /\
  fmt_text write_src (filter (fun c => negb (kind_eqb (tkind (ctok c)) K_Whitespace)) cs) = Some (chars "a{b:url( x )1.5px'\a'10}"%string).
Proof. eexists. split; [vm_compute; reflexivity | vm_compute; reflexivity]. Qed.
Example C33_case_separators : exists cs, lex (chars "a b 1 2 + +3"%string) no_features = Some cs /\
  fmt_text (chars "a b 1 2 + +3"%string) (filter (fun c => negb (kind_eqb (tkind (ctok c)) K_Whitespace)) cs) = Some (chars "a b 1 2+ +3"%string).
Proof. eexists. split; [vm_compute; reflexivity | vm_compute; reflexivity]. Qed.
