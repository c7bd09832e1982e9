(* Theorems for C19-C22: the text of tokens.
   SpecCursor.v says what text a token stands for (CSS Syntax 3.3, 4.3.4-4.3.7): [stands_for l k v], "the token of kind k at
   the start of l stands for v". Hypotheses used below, each exhibited as necessary by a _refuted theorem or by PropLex:
   [well_behaved] (PropLex.v), no NUL in the source, url parts below 4096 bytes, sources below 4 GB. *)
From Coq Require Import String.
From Verif Require Import Lexer Span Cursor SpecToken SpecLex SpecTrace SpecCursor LexTrace CursorProofs CursorLex CursorFacts.
Open Scope N_scope.
Open Scope list_scope.

(* ---- C19: escapes ---- *)
(* the decoder returns the code point of the escape (NUL standing for U+FFFD, which the callers substitute) and consumes
   exactly the escape; the argument is the text after the backslash *)
Theorem C19_decodes_the_escape : forall l e r, escape_at (92 :: l) e r -> exists ch n,
  parse_escape_sequence l = (ch, n) /\ 1 + n = blen e /\ escape_value e (nul_fixed ch).
Proof. exact decode_spec. Qed.
Print Assumptions C19_decodes_the_escape.
Theorem C19_value_is_unique : forall e c c', escape_value e c -> escape_value e c' -> c = c'.
Proof. exact escape_value_det. Qed.
Print Assumptions C19_value_is_unique.
(* for any following characters at all: a scalar value, and NUL only if that is the character itself *)
Theorem C19_always_a_scalar_value : forall l ch n, Forall (fun c => valid_char c = true) l -> parse_escape_sequence l = (ch, n) ->
  valid_char ch = true /\ (ch = 0 -> starts (eq 0) l).
Proof. exact decode_scalar. Qed.
Print Assumptions C19_always_a_scalar_value.
Theorem C19_scanners_agree_partial : forall l, starts_escape (92 :: l) -> esc_ok (92 :: l) ->
  fst (consume_escape_sequence l) = 1 + snd (parse_escape_sequence l).
Proof. exact scanners_agree. Qed.
Print Assumptions C19_scanners_agree_partial.
(* missing: a backslash before a non-ASCII character, counted as two bytes by the lexer and decoded from three or more *)
Theorem C19_scanners_agree_refuted : exists l, starts_escape (92 :: l) /\ fst (consume_escape_sequence l) <> 1 + snd (parse_escape_sequence l).
Proof. exists [233]. split; [right; exists 233, []; split; [reflexivity | unfold newline; intros [H | [H | H]]; discriminate] | discriminate]. Qed.
Print Assumptions C19_scanners_agree_refuted.
Example C19_case : parse_escape_sequence (chars "26 B") = (38, 3) /\ parse_escape_sequence (chars "d800x") = (65533, 4) /\ parse_escape_sequence (chars "110000z") = (65533, 6).
Proof. repeat split. Qed.
Example C19_case_escape : escape_at (chars "\26 B") (chars "\26 ") (chars "B").
Proof.
  apply (esc_hex (chars "26") [32] (chars "B")); [cbn; Lia.lia | change (Forall hex [50; 54]); constructor; [unfold hex, digit; Lia.lia |]; constructor; [unfold hex, digit; Lia.lia | constructor] | | apply os_one; [unfold white, newline; auto | intros (E & _); discriminate]].
  right. intros (c & r & E & H). injection E as <- <-. unfold hex, digit in H. Lia.lia.
Qed.

(* ---- C20: parse_str ---- *)
Theorem C20_value_is_unique : forall l k v v', stands_for l k v -> stands_for l k v' -> v = v'.
Proof. exact stands_for_det. Qed.
Print Assumptions C20_value_is_unique.
Theorem C20_parse_str_is_the_value_partial : forall f pre l t, well_behaved (single_line_comments f) l -> ~ In 0 l -> (tkind t = K_Url -> url_limits l) -> blen (pre ++ l) < 4294967296 ->
  token_at f pre l t -> In (tkind t) texty ->
  (exists v, stands_for l (tkind t) v) /\ forall v, stands_for l (tkind t) v -> parse_str (Cursor (blen pre) t) (pre ++ l) = Some v.
Proof. intros f pre l t WB H0 UL HB T K. split; [exact (value_exists f pre l t WB H0 UL T K) | exact (value_parse_str f pre l t WB H0 UL HB T K)]. Qed.
Print Assumptions C20_parse_str_is_the_value_partial.
(* missing: other kinds. An unterminated comment reports a trailing length of 2 it does not have: parse_str panics on it *)
Theorem C20_unterminated_comment_refuted : exists src t, src = chars "/*a" /\ token_at no_features [] src t /\ tkind t = K_Comment /\ parse_str (Cursor 0 t) src = None.
Proof. exists (chars "/*a"), (new_comment CS_Block 3). split; [reflexivity |]. split; [intro last; eexists; reflexivity |]. split; [reflexivity | vm_compute; reflexivity]. Qed.
Print Assumptions C20_unterminated_comment_refuted.
Definition escaped_ident : list N := chars "f\6f o(x)".
Example C20_case : exists t, token_at no_features (chars "a ") escaped_ident t /\ tkind t = K_Function /\ parse_str (Cursor 2 t) (chars "a " ++ escaped_ident) = Some (chars "foo").
Proof. exists (new_function false false true 7). split; [intro last; eexists; vm_compute; reflexivity |]. split; vm_compute; reflexivity. Qed.
Example C20_case_hypotheses : well_behaved false escaped_ident /\ ~ In 0 escaped_ident /\ url_limits escaped_ident.
Proof. split; [apply ordinary_spec; reflexivity |]. split; [cbn; intuition discriminate | apply small_url_limits; reflexivity]. Qed.

(* ---- C21: parse_str_lower ---- *)
(* exact: what is returned, whatever the flags *)
Theorem C21_lower_follows_the_flag : forall f pre l t, well_behaved (single_line_comments f) l -> ~ In 0 l -> (tkind t = K_Url -> url_limits l) -> blen (pre ++ l) < 4294967296 ->
  token_at f pre l t -> In (tkind t) texty -> forall v, stands_for l (tkind t) v ->
  parse_str_lower (Cursor (blen pre) t) (pre ++ l) = Some (if is_lower_case t then v else lower_text v).
Proof. exact value_lower. Qed.
Print Assumptions C21_lower_follows_the_flag.
Theorem C21_parse_str_lower_partial : forall f pre l t, well_behaved (single_line_comments f) l -> ~ In 0 l -> (tkind t = K_Url -> url_limits l) -> blen (pre ++ l) < 4294967296 ->
  token_at f pre l t -> In (tkind t) texty -> forall v, stands_for l (tkind t) v ->
  is_lower_case t = false \/ (contains_escape_chars t = false /\ tkind t <> K_Url) ->
  parse_str_lower (Cursor (blen pre) t) (pre ++ l) = Some (lower_text v).
Proof. exact value_lower_case. Qed.
Print Assumptions C21_parse_str_lower_partial.
(* missing: escapes do not clear the lower-case flag, so an escaped capital stays a capital; nor is it cleared by the text of
   an unclosed url *)
Theorem C21_escaped_capital_refuted : exists src t, src = chars "\41" /\ token_at no_features [] src t /\ tkind t = K_Ident /\
  parse_str (Cursor 0 t) src = Some (chars "A") /\ parse_str_lower (Cursor 0 t) src = Some (chars "A").
Proof. exists (chars "\41"), (new_ident false false true 3). split; [reflexivity |]. split; [intro last; eexists; vm_compute; reflexivity |]. repeat split; vm_compute; reflexivity. Qed.
Print Assumptions C21_escaped_capital_refuted.
Theorem C21_unclosed_url_refuted : exists src t, src = chars "url(FOO" /\ token_at no_features [] src t /\ tkind t = K_Url /\
  parse_str_lower (Cursor 0 t) src = Some (chars "FOO").
Proof. exists (chars "url(FOO"), (new_url false false false 4 0 7). split; [reflexivity |]. split; [intro last; eexists; vm_compute; reflexivity |]. split; vm_compute; reflexivity. Qed.
Print Assumptions C21_unclosed_url_refuted.
Example C21_case : exists t, token_at no_features [] (chars "FooBar:") t /\ is_lower_case t = false /\ parse_str_lower (Cursor 0 t) (chars "FooBar:") = Some (chars "foobar").
Proof. exists (new_ident true false false 6). split; [intro last; eexists; vm_compute; reflexivity |]. split; vm_compute; reflexivity. Qed.

(* ---- C22: eq_ignore_ascii_case ---- *)
Theorem C22_eq_ignore_ascii_case_partial : forall f pre l t, well_behaved (single_line_comments f) l -> ~ In 0 l -> (tkind t = K_Url -> url_limits l) -> blen (pre ++ l) < 4294967296 ->
  token_at f pre l t -> In (tkind t) texty -> forall v k, stands_for l (tkind t) v -> contains_escape_chars t = false ->
  tkind t <> K_Url \/ is_lower_case t = false -> lower_text k = k ->
  exists b, eq_ignore_ascii_case (Cursor (blen pre) t) (pre ++ l) k = Some b /\ (b = true <-> lower_text v = k).
Proof. intros f pre l t WB H0 UL HB T K v k Sv E U Lk. exists (text_eqb (lower_text v) k). split; [now apply (value_eq_plain f) | apply text_eqb_spec]. Qed.
Print Assumptions C22_eq_ignore_ascii_case_partial.
(* what it does on tokens with escapes: a case-sensitive comparison with the decoded value *)
Theorem C22_escaped_tokens_compare_exactly : forall f pre l t, well_behaved (single_line_comments f) l -> ~ In 0 l -> (tkind t = K_Url -> url_limits l) -> blen (pre ++ l) < 4294967296 ->
  token_at f pre l t -> In (tkind t) texty -> forall v k, stands_for l (tkind t) v -> contains_escape_chars t = true -> tkind t <> K_String ->
  exists b, eq_ignore_ascii_case (Cursor (blen pre) t) (pre ++ l) k = Some b /\ (b = true <-> v = k).
Proof. intros f pre l t WB H0 UL HB T K v k Sv E S. exists (text_eqb v k). split; [now apply (value_eq_escaped f) | apply text_eqb_spec]. Qed.
Print Assumptions C22_escaped_tokens_compare_exactly.
(* missing, hence: *)
Theorem C22_escaped_capital_refuted : exists src t, src = chars "F\6fo" /\ token_at no_features [] src t /\ tkind t = K_Ident /\
  parse_str_lower (Cursor 0 t) src = Some (chars "foo") /\ eq_ignore_ascii_case (Cursor 0 t) src (chars "foo") = Some false.
Proof. exists (chars "F\6fo"), (new_ident true false true 5). split; [reflexivity |]. split; [intro last; eexists; vm_compute; reflexivity |]. repeat split; vm_compute; reflexivity. Qed.
Print Assumptions C22_escaped_capital_refuted.
(* an escaped newline in a string swallows a character of the keyword *)
Theorem C22_escaped_newline_refuted : exists src t, src = [34; 97; 92; 10; 98; 34] /\ token_at no_features [] src t /\ tkind t = K_String /\
  parse_str_lower (Cursor 0 t) src = Some (chars "ab") /\ eq_ignore_ascii_case (Cursor 0 t) src (chars "ab") = Some false /\
  eq_ignore_ascii_case (Cursor 0 t) src (chars "axb") = Some true.
Proof. exists [34; 97; 92; 10; 98; 34], (new_string QS_Double true true 6). split; [reflexivity |]. split; [intro last; eexists; vm_compute; reflexivity |]. repeat split; vm_compute; reflexivity. Qed.
Print Assumptions C22_escaped_newline_refuted.
Example C22_case : exists t, token_at no_features [] (chars "FOO ") t /\ eq_ignore_ascii_case (Cursor 0 t) (chars "FOO ") (chars "foo") = Some true.
Proof. exists (new_ident true false false 3). split; [intro last; eexists; vm_compute; reflexivity |]. vm_compute. reflexivity. Qed.
