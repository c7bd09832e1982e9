(* Theorems for C23: when no separator is needed, putting two token texts side by side keeps the boundary between them.
   SpecWrite.v has the vocabulary; [apart] lists, one by one, what the separator rule overlooks, and each of its exclusions is
   shown necessary below. Other hypotheses: [well_behaved] (PropLex.v) and no NUL. *)
From Coq Require Import String.
From Coq Require Import List.
From Verif Require Import Lexer Span Cursor Write SpecToken SpecLex SpecTrace SpecCursor SpecWrite LexTrace JoinProofs3 JoinProofs4.
Open Scope N_scope.
Open Scope list_scope.

(* The text p1 of a token t1, found anywhere (r1 follows it there), is placed before a text y that starts with a token t2. If
   needs_separator_for t1 t2 is false (and [apart]), the first token of p1 ++ y is t1 again, the very same token. *)
Theorem C23_boundaries_kept_partial : forall f pre1 pre2 p1 r1 y t1 t2,
  well_behaved (single_line_comments f) (p1 ++ r1) -> well_behaved (single_line_comments f) (p1 ++ y) -> ~ In 0 (p1 ++ r1) -> ~ In 0 (p1 ++ y) ->
  token_at f pre1 (p1 ++ r1) t1 -> tlen t1 = blen p1 -> p1 <> [] -> token_at f pre2 y t2 ->
  needs_separator_for t1 t2 = false -> apart f t1 p1 r1 t2 y ->
  forall pre, token_at f pre (p1 ++ y) t1.
Proof. exact join_token. Qed.
Print Assumptions C23_boundaries_kept_partial.

(* A whole sequence: written as the sink writes it (a space exactly where needs_separator_for asks), it lexes to the same
   tokens with one-space tokens at those places. *)
Theorem C23_sequence_kept_partial : forall f its, Forall (found f) its -> all_apart f its ->
  well_behaved (single_line_comments f) (spelled None its) -> ~ In 0 (spelled None its) ->
  exists cs, lex (spelled None its) f = Some cs /\ map ctok cs = spaced None (map it_tok its).
Proof. exact sequence_lexes. Qed.
Print Assumptions C23_sequence_kept_partial.

(* The same from end to end: any choice, in any order, of the cursors of a lexed source whose tokens are written verbatim
   (all but numbers and known-unit dimensions, see C32), written by the sink and lexed again. *)
Theorem C23_write_and_lex_partial : forall src f cs sub,
  well_behaved (single_line_comments f) src -> Forall (fun c => valid_char c = true) src -> blen src < 4294967295 -> ~ In 0 src ->
  lex src f = Some cs -> incl sub cs -> Forall (fun c => verbatim (ctok c)) sub ->
  exists its, Forall (found f) its /\ map it_tok its = map ctok sub /\ fmt_text src sub = Some (spelled None its) /\
    (all_apart f its -> well_behaved (single_line_comments f) (spelled None its) ->
     exists cs', lex (spelled None its) f = Some cs' /\ map ctok cs' = spaced None (map ctok sub)).
Proof. exact written_back. Qed.
Print Assumptions C23_write_and_lex_partial.

(* Each exclusion is needed. First text, what followed it where it was found, text placed after it. *)
Local Ltac merge := unfold merges; do 3 eexists;
  split; [intro last; eexists; vm_compute; reflexivity |]; split; [vm_compute; reflexivity |]; split; [intro last; eexists; vm_compute; reflexivity |];
  split; [vm_compute; reflexivity |]; split; [intro last; eexists; vm_compute; reflexivity | vm_compute; discriminate].
Theorem C23_missed_separators_refuted : Forall (fun x => match x with (p1, r1, y) => merges no_features (chars p1) (chars r1) (chars y) end)
  [ ("a", "", "-"); ("a", "", "-0"); ("@a", "", "-"); ("#a", "", "-"); ("1px", "", "-");  (* a dash after a name *)
    ("1e", "", "+5");                                                                     (* an exponent *)
    ("--", "", ">"); ("<", "", "!--");                                                    (* --> and <!-- *)
    ("url(", "'b')", "b)");                                                               (* a function that needs its quote *)
    ("\61", "", " "); ("\", "", "{");                                                     (* an open escape *)
    ("'a", "", "{"); ("url(a", "", "+"); ("/*a", "", "{");                                (* cut off by the end of the source *)
    (" ", "", " ") ]%string.
Proof. repeat (apply Forall_cons; [merge |]). apply Forall_nil. Qed.
Print Assumptions C23_missed_separators_refuted.
(* with line comments on: a slash before a line comment, and anything after one *)
Theorem C23_missed_separators_line_comments_refuted : let f := {| single_line_comments := true; separate_whitespace := false |} in
  merges f (chars "/"%string) [] (chars "//x"%string) /\ merges f (chars "//a"%string) [10] (chars "{"%string).
Proof. split; merge. Qed.
Print Assumptions C23_missed_separators_line_comments_refuted.
(* a string broken by a newline *)
Theorem C23_missed_separator_bad_string_refuted : merges no_features (chars "'a"%string) (10 :: chars "b"%string) (chars "{"%string).
Proof. merge. Qed.
Print Assumptions C23_missed_separator_bad_string_refuted.
(* A separator does not help after an open escape: the escape takes it in. Dropping the comment of \61/**/b and writing the two
   identifiers gives \61 b, which is one identifier. *)
Theorem C23_separator_swallowed_refuted : exists src cs, src = chars "\61/**/b"%string /\ lex src no_features = Some cs /\
  map (fun c => tkind (ctok c)) cs = [K_Ident; K_Comment; K_Ident] /\
  exists out cs', fmt_text src (filter (fun c => negb (kind_eqb (tkind (ctok c)) K_Comment)) cs) = Some out /\ out = chars "\61 b"%string /\
    lex out no_features = Some cs' /\ map (fun c => tkind (ctok c)) cs' = [K_Ident].
Proof. eexists _, _. split; [reflexivity |]. split; [vm_compute; reflexivity |]. split; [vm_compute; reflexivity |]. eexists _, _. split; [vm_compute; reflexivity |]. split; [vm_compute; reflexivity |]. split; [vm_compute; reflexivity | vm_compute; reflexivity]. Qed.
Print Assumptions C23_separator_swallowed_refuted.
(* A signed dimension after a name: no separator because of its sign, but the sign is not written. a +1px without its space
   becomes the identifier a1px. *)
Theorem C23_sign_dropped_refuted : exists src cs, src = chars "a +1px"%string /\ lex src no_features = Some cs /\
  map (fun c => tkind (ctok c)) cs = [K_Ident; K_Whitespace; K_Dimension] /\
  exists out cs', fmt_text src (filter (fun c => negb (kind_eqb (tkind (ctok c)) K_Whitespace)) cs) = Some out /\ out = chars "a1px"%string /\
    lex out no_features = Some cs' /\ map (fun c => tkind (ctok c)) cs' = [K_Ident].
Proof. eexists _, _. split; [reflexivity |]. split; [vm_compute; reflexivity |]. split; [vm_compute; reflexivity |]. eexists _, _. split; [vm_compute; reflexivity |]. split; [vm_compute; reflexivity |]. split; [vm_compute; reflexivity | vm_compute; reflexivity]. Qed.
Print Assumptions C23_sign_dropped_refuted.

(* the hypotheses are met: the tokens of [a b c{d:e] without their first space, which is put back *)
Definition join_src : text := chars "a b c{d:e"%string.
Definition join_items : list item :=
  [ Item (new_ident false false false 1) (chars "a"%string) (chars " b c{d:e"%string);
    Item (new_ident false false false 1) (chars "b"%string) (chars " c{d:e"%string);
    Item (new_whitespace WS_Space 1) (chars " "%string) (chars "c{d:e"%string);
    Item (new_ident false false false 1) (chars "c"%string) (chars "{d:e"%string);
    Item T_LEFT_CURLY (chars "{"%string) (chars "d:e"%string);
    Item (new_ident false false false 1) (chars "d"%string) (chars ":e"%string);
    Item T_COLON (chars ":"%string) (chars "e"%string);
    Item (new_ident false false false 1) (chars "e"%string) [] ].
Example C23_case : Forall (found no_features) join_items /\ all_apart no_features join_items /\
  well_behaved false (spelled None join_items) /\ ~ In 0 (spelled None join_items) /\
  spelled None join_items = join_src /\
  spaced None (map it_tok join_items) = map ctok (match lex join_src no_features with Some cs => cs | None => [] end).
Proof.
  split; [| split; [| split; [| split; [| split]]]].
  - repeat (apply Forall_cons; [split; [discriminate | split; [vm_compute; reflexivity | split; [exists []; intro last; eexists; vm_compute; reflexivity | split; [apply ordinary_spec; vm_compute; reflexivity | vm_compute; intuition discriminate]]]] |]). apply Forall_nil.
  - repeat (split; [try (left; reflexivity); apply apart_check_ok; vm_compute; reflexivity |]). exact I.
  - apply ordinary_spec. vm_compute. reflexivity.
  - vm_compute. intuition discriminate.
  - vm_compute. reflexivity.
  - vm_compute. reflexivity.
Qed.
