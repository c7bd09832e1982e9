(* Theorems for C01, C02, C03, C04, C18 (constants) and C42.
   Vocabulary: Token.v models the constructors and accessors bit by bit; SpecToken.v has the documented kind lists, the
   CSS spelling of every unit and the table of punctuation constants. *)
From Coq Require Import String.
From Verif Require Import Token SpecToken TokenProofs KindProofs.
Open Scope N_scope.

(* ---- C01: what a constructor is given is what the accessors return ---- *)
Theorem C01_ident : forall contains_non_lower dashed escape len, let t := new_ident contains_non_lower dashed escape len in
  tkind t = K_Ident /\ tlen t = len /\ is_lower_case t = negb contains_non_lower /\ is_dashed_ident t = dashed /\
  contains_escape_chars t = escape.
Proof. exact ident_read. Qed.
Print Assumptions C01_ident.

Theorem C01_function : forall contains_non_lower dashed escape len, let t := new_function contains_non_lower dashed escape len in
  tkind t = K_Function /\ tlen t = len /\ is_lower_case t = negb contains_non_lower /\ is_dashed_ident t = dashed /\
  contains_escape_chars t = escape.
Proof. exact function_read. Qed.
Print Assumptions C01_function.

Theorem C01_atkeyword : forall contains_non_lower dashed escape len, let t := new_atkeyword contains_non_lower dashed escape len in
  tkind t = K_AtKeyword /\ tlen t = len /\ is_lower_case t = negb contains_non_lower /\ is_dashed_ident t = dashed /\
  contains_escape_chars t = escape.
Proof. exact atkeyword_read. Qed.
Print Assumptions C01_atkeyword.

Theorem C01_hash : forall contains_non_lower id_like escape len, let t := new_hash contains_non_lower id_like escape len in
  tkind t = K_Hash /\ tlen t = len /\ is_lower_case t = negb contains_non_lower /\ hash_is_id_like t = id_like /\
  contains_escape_chars t = escape.
Proof. exact hash_read. Qed.
Print Assumptions C01_hash.

(* the quote style survives, except a single quote on an unclosed string (see the refutation below) *)
Theorem C01_string_partial : forall q close escape len, let t := new_string q close escape len in
  tkind t = K_String /\ tlen t = len /\ has_close_quote t = close /\ contains_escape_chars t = escape /\
  (q = QS_Double -> tquote_style t = QS_Double) /\ (q = QS_Single -> close = true -> tquote_style t = QS_Single).
Proof. exact string_read. Qed.
Print Assumptions C01_string_partial.

Theorem C01_string_quote_refuted : exists escape len,
  tquote_style (new_string QS_Single false escape len) = QS_None.
Proof. exists false, 4. reflexivity. Qed.
Print Assumptions C01_string_quote_refuted.

Theorem C01_whitespace : forall style len, style < 8 -> let t := new_whitespace style len in
  tkind t = K_Whitespace /\ tlen t = len /\ whitespace_style t = style.
Proof. exact whitespace_read. Qed.
Print Assumptions C01_whitespace.

Theorem C01_comment : forall style len, let t := new_comment style len in
  tkind t = K_Comment /\ tlen t = len /\ comment_style_of t = Some style.
Proof. exact comment_read. Qed.
Print Assumptions C01_comment.

Theorem C01_bad_string : forall len, let t := new_bad_string len in tkind t = K_BadString /\ tlen t = len.
Proof. exact bad_string_read. Qed.
Print Assumptions C01_bad_string.

Theorem C01_bad_url : forall len, let t := new_bad_url len in tkind t = K_BadUrl /\ tlen t = len.
Proof. exact bad_url_read. Qed.
Print Assumptions C01_bad_url.

Theorem C01_number : forall float sign len value, len < 16777216 -> let t := new_number float sign len value in
  tkind t = K_Number /\ tlen t = len /\ numeric_len t = len /\ is_float t = float /\ is_int t = negb float /\
  has_sign t = sign /\ tvalue t = value.
Proof. exact number_read. Qed.
Print Assumptions C01_number.
Example C01_number_case : 300000 < 16777216 /\ tlen (new_number true true 300000 5) = 300000.
Proof. split; reflexivity. Qed.

Theorem C01_dimension : forall float sign num_len text_len value unit, num_len < 4096 -> (unit = U_Unknown -> text_len < 4096) ->
  let t := new_dimension float sign num_len text_len value unit in
  tkind t = K_Dimension /\ numeric_len t = num_len /\ is_float t = float /\ is_int t = negb float /\ has_sign t = sign /\
  tvalue t = value /\ dimension_unit t = unit /\ leading_len t = num_len /\
  tlen t = num_len + (if unit_eqb unit U_Unknown then text_len else unit_len unit).
Proof. exact dimension_read. Qed.
Print Assumptions C01_dimension.
Example C01_dimension_case : dimension_unit (new_dimension true true 4095 3 5 U_Rem) = U_Rem
  /\ tlen (new_dimension true true 4095 4095 5 U_Unknown) = 8190.
Proof. split; reflexivity. Qed.

Theorem C01_url : forall paren space escape leading trailing len, leading < 4096 -> trailing < 4096 ->
  let t := new_url paren space escape leading trailing len in
  tkind t = K_Url /\ tlen t = len /\ url_has_closing_paren t = paren /\ url_has_leading_space t = space /\
  contains_escape_chars t = escape /\ leading_len t = leading /\ trailing_len t = trailing.
Proof. exact url_read. Qed.
Print Assumptions C01_url.
Example C01_url_case : leading_len (new_url true false true 4095 4095 70000) = 4095.
Proof. reflexivity. Qed.

Theorem C01_delim : forall c, valid_char c = true -> let t := new_delim c in
  tkind t = K_Delim /\ tlen t = len_utf8 c /\ tchar t = Some c.
Proof. exact delim_read. Qed.
Print Assumptions C01_delim.
Example C01_delim_case : valid_char 8364 = true /\ tlen (new_delim 8364) = 3.
Proof. split; reflexivity. Qed.

(* the public constant for "0": its length and value are not those of a zero number (token.rs:259) *)
Theorem C01_number_zero_refuted : tlen T_NUMBER_ZERO <> 1 /\ tvalue T_NUMBER_ZERO <> 0.
Proof. split; discriminate. Qed.
Print Assumptions C01_number_zero_refuted.

(* ---- C02 ---- *)
Theorem C02_kind_roundtrip : forall k, kind_from_bits (kind_code k) = k.
Proof. exact kind_roundtrip. Qed.
Print Assumptions C02_kind_roundtrip.
Theorem C02_kind_codes_distinct : forall a b, kind_code a = kind_code b -> a = b.
Proof. exact kind_code_inj. Qed.
Print Assumptions C02_kind_codes_distinct.
Theorem C02_token_is_kind : forall t k, well_formed t -> (tok_is t k = true <-> tkind t = k).
Proof. exact tok_is_kind. Qed.
Print Assumptions C02_token_is_kind.
Theorem C02_delim_like : forall t, well_formed t -> (is_delim_like t = true <-> In (tkind t) doc_delim_like).
Proof. exact delim_like_spec. Qed.
Print Assumptions C02_delim_like.
Theorem C02_cdc : forall t, well_formed t -> (is_cdc t = true <-> tkind t = K_CdcOrCdo /\ third_bit t = true).
Proof. exact cdc_spec. Qed.
Print Assumptions C02_cdc.
Theorem C02_empty : forall t, well_formed t -> (token_is_empty t = true <-> tkind t = K_Eof).
Proof. exact empty_spec. Qed.
Print Assumptions C02_empty.
(* documented lists are too short: the exact lists, and a witness against the documentation *)
Theorem C02_ident_like_partial : forall t, well_formed t -> (is_ident_like t = true <-> In (tkind t) (K_Url :: doc_ident_like)).
Proof. exact ident_like_spec. Qed.
Print Assumptions C02_ident_like_partial.
Theorem C02_ident_like_refuted : exists t, well_formed t /\ is_ident_like t = true /\ ~ In (tkind t) doc_ident_like.
Proof. exists (new_url true false false 4 1 8). repeat split; [vm_compute; tauto | vm_compute; intuition discriminate]. Qed.
Print Assumptions C02_ident_like_refuted.
Theorem C02_numeric_partial : forall t, well_formed t ->
  (is_int t = true <-> In (tkind t) (K_BadString :: K_BadUrl :: doc_numeric) /\ third_bit t = false) /\
  (is_float t = true <-> In (tkind t) (K_BadString :: K_BadUrl :: doc_numeric) /\ third_bit t = true) /\
  (has_sign t = true <-> In (tkind t) (K_BadString :: K_BadUrl :: doc_numeric) /\ second_bit t = true).
Proof. exact numeric_spec. Qed.
Print Assumptions C02_numeric_partial.
Theorem C02_numeric_refuted : exists t, well_formed t /\ is_int t = true /\ ~ In (tkind t) doc_numeric.
Proof. exists (new_bad_string 3). repeat split; [vm_compute; tauto | vm_compute; intuition discriminate]. Qed.
Print Assumptions C02_numeric_refuted.
Theorem C02_trivia_partial : forall t, well_formed t -> (is_trivia t = true <-> In (tkind t) (K_CdcOrCdo :: doc_trivia)).
Proof. exact trivia_spec. Qed.
Print Assumptions C02_trivia_partial.
Theorem C02_trivia_refuted : exists t, well_formed t /\ is_trivia t = true /\ ~ In (tkind t) doc_trivia.
Proof. exists T_CDC. repeat split; [vm_compute; tauto | vm_compute; intuition discriminate]. Qed.
Print Assumptions C02_trivia_refuted.
Theorem C02_bad_partial : forall t, well_formed t -> (is_bad t = true <->
  In (tkind t) [K_Eof; K_Whitespace; K_Comment; K_CdcOrCdo; K_Number; K_Dimension; K_BadString; K_BadUrl]).
Proof. exact bad_spec. Qed.
Print Assumptions C02_bad_partial.
Theorem C02_bad_refuted : exists t, well_formed t /\ is_bad t = true /\ ~ In (tkind t) doc_bad.
Proof. exists (new_number false false 1 0). repeat split; [vm_compute; tauto | vm_compute; intuition discriminate]. Qed.
Print Assumptions C02_bad_refuted.
Example C02_well_formed_case : well_formed (new_function true false true 12) /\ well_formed (new_dimension true true 3 2 7 U_Px).
Proof. split; vm_compute; tauto. Qed.

(* ---- C03 ---- *)
Theorem C03_new : forall ks k, kindset_contains (kindset_new ks) k = true <-> In k ks.
Proof. exact kindset_new_spec. Qed.
Print Assumptions C03_new.
Theorem C03_add : forall s k k', kindset_contains (kindset_add s k) k' = true <-> kindset_contains s k' = true \/ k' = k.
Proof. exact kindset_add_spec. Qed.
Print Assumptions C03_add.
Theorem C03_any : forall k, kindset_contains KS_ANY k = true.
Proof. exact kindset_any_spec. Qed.
Print Assumptions C03_any.
Theorem C03_token : forall t s, well_formed t -> tok_in t s = kindset_contains s (tkind t).
Proof. exact kindset_token. Qed.
Print Assumptions C03_token.
Example C03_case : kindset_contains (kindset_new [K_Comma; K_Eof]) K_Eof = true
  /\ kindset_contains (kindset_new [K_Comma; K_Eof]) K_Colon = false /\ tok_in T_COMMA (kindset_new [K_Comma; K_Eof]) = true.
Proof. repeat split. Qed.

(* ---- C04 ---- *)
Theorem C04_unit_roundtrip : forall u, unit_of_u8 (unit_code u) = u.
Proof. exact unit_roundtrip. Qed.
Print Assumptions C04_unit_roundtrip.
Theorem C04_unit_len : forall u, unit_len u = blen (unit_str u).
Proof. exact unit_len_spec. Qed.
Print Assumptions C04_unit_len.
Theorem C04_unit_text_partial : forall u n, In (u, n) css_unit_names -> u <> U_Svmax -> u <> U_Svmin -> unit_str u = chars n.
Proof. exact unit_names. Qed.
Print Assumptions C04_unit_text_partial.
(* svmax prints as svmin and svmin as svmax *)
Theorem C04_unit_text_refuted : exists u n, In (u, n) css_unit_names /\ unit_str u <> chars n.
Proof. exists U_Svmax, "svmax"%string. split; [vm_compute; tauto | vm_compute; discriminate]. Qed.
Print Assumptions C04_unit_text_refuted.
Theorem C04_every_unit_named : forall u, u <> U_Unknown -> exists n, In (u, n) css_unit_names.
Proof. exact unit_names_total. Qed.
Print Assumptions C04_every_unit_named.
Example C04_case : unit_str U_Rem = chars "rem" /\ unit_len U_Rem = 3.
Proof. split; reflexivity. Qed.

(* ---- C18: the public punctuation constants ---- *)
Theorem C18_constants : forall c t, In (c, t) punctuation_constants ->
  tchar t = Some c /\ tlen t = 1 /\ len_utf8 c = 1 /\ well_formed t /\ In (tkind t) doc_delim_like.
Proof. exact constants_read. Qed.
Print Assumptions C18_constants.
Example C18_constants_case : tchar T_TILDE = Some 126.
Proof. reflexivity. Qed.

(* ---- C42 ---- *)
Theorem C42_pair_of_token : forall t p o c ks, In (p, (o, c), ks) bracket_table ->
  (to_pairwise t = Some p <-> In (tkind t) ks).
Proof. exact pairwise_kind. Qed.
Print Assumptions C42_pair_of_token.
Theorem C42_start_end : forall p o c ks, In (p, (o, c), ks) bracket_table ->
  tchar (pair_start p) = Some o /\ tchar (pair_end p) = Some c
  /\ to_pairwise (pair_start p) = Some p /\ to_pairwise (pair_end p) = Some p.
Proof. exact pairwise_ends. Qed.
Print Assumptions C42_start_end.
Theorem C42_total : forall p, exists o c ks, In (p, (o, c), ks) bracket_table.
Proof. exact pairwise_total. Qed.
Print Assumptions C42_total.
Example C42_case : to_pairwise (new_function false false false 4) = Some PW_Paren.
Proof. reflexivity. Qed.
