(* Theorems for C26 (peeking), C27 (no token lost), C28 (checkpoints), C29 (parse_entirely), C41 (comparisons). *)
From Coq Require Import String.
From Verif Require Import Parser SpecLex SpecTrace SpecParser LexTrace ParserProofs ParserProofs2 ParserProofs3 ParserProofs4 CompareProofs.
Open Scope N_scope.
Open Scope list_scope.

Definition sample : text := [97; 32; 47; 42; 42; 47; 98; 62; 61; 32; 49].  (* a /**/b>= 1 *)
Lemma sample_ok : well_behaved (single_line_comments no_features) sample.
Proof. apply ordinary_spec. reflexivity. Qed.

(* ---- C26: peeking (the peeks do not return a parser: they take it by shared reference) ---- *)
Theorem C26_peek_next_predicts : forall src f p, well_behaved (single_line_comments f) src -> reached_parser src f p ->
  exists c q, peek_next p = Some c /\ next p = Some (c, q).
Proof. exact (fun src f p W R => peek_next_predicts src f W p R). Qed.
Print Assumptions C26_peek_next_predicts.
(* peek_n n is what the n-th call of next would return, past the end included *)
Theorem C26_peek_n_predicts : forall src f p, well_behaved (single_line_comments f) src -> reached_parser src f p ->
  (forall n, exists c, nexts (S n) p c) /\ (forall n c, nexts n p c -> peek_n p (N.of_nat n) = Some c).
Proof. exact (fun src f p W R => conj (nexts_total src f W p R) (peek_n_predicts src f W p R)). Qed.
Print Assumptions C26_peek_n_predicts.
Theorem C26_next_is_stop_predicts : forall src f p c q, well_behaved (single_line_comments f) src -> reached_parser src f p ->
  kindset_contains (pskip p) K_Eof = false -> next p = Some (c, q) -> next_is_stop p = Some (kindset_contains (pstop p) (tkind (ctok c))).
Proof. exact (fun src f p c q W R => stop_predicts src f W p R c q). Qed.
Print Assumptions C26_next_is_stop_predicts.
Theorem C26_peek_including_whitespace : forall src f p s, well_behaved (single_line_comments f) src -> reached_parser src f p ->
  (forall k, kindset_contains s k = kindset_contains (pskip p) k && negb (kind_eqb k K_Whitespace)) ->
  peek_next_including_whitespace p = peek_next (set_skip p s).
Proof. exact (fun src f p s W R => ws_peek src f W p R s). Qed.
Print Assumptions C26_peek_including_whitespace.
Theorem C26_consume_trivia_keeps_next : forall src f p, well_behaved (single_line_comments f) src -> reached_parser src f p ->
  exists q c r r', consume_trivia p = Some q /\ next p = Some (c, r) /\ next q = Some (c, r') /\ ptrivia r' = ptrivia r /\ ptrivia q = ptrivia r.
Proof. exact (fun src f p W R => trivia_then_next src f W p R). Qed.
Print Assumptions C26_consume_trivia_keeps_next.
(* peek_n(0) underflows; next_is_stop never returns when the skip set contains Eof and only skipped tokens are left *)
Theorem C26_peek_n_zero_refuted : exists src f p, well_behaved (single_line_comments f) src /\ reached_parser src f p /\ peek_n p 0 = None.
Proof. exists sample, no_features, (parser_new sample no_features). split; [exact sample_ok |]. split; [apply st_refl | reflexivity]. Qed.
Print Assumptions C26_peek_n_zero_refuted.
Theorem C26_next_is_stop_hangs_refuted : exists src f p, well_behaved (single_line_comments f) src /\ reached_parser src f p /\
  forall n, next_is_stop_loop n (pskip p) (pstop p) (plex p) = None.
Proof.
  exists [], no_features, (set_skip (parser_new [] no_features) KS_ANY). split; [apply ordinary_spec; reflexivity |]. split; [apply st_skip, st_refl |].
  intro n. exact (next_is_stop_hangs n KS_ANY KS_NONE [] no_features T_default eq_refl).
Qed.
Print Assumptions C26_next_is_stop_hangs_refuted.
Example C26_case : exists q, reached_parser sample no_features (parser_new sample no_features) /\
  next (parser_new sample no_features) = Some (Cursor 0 (new_ident false false false 1), q) /\
  peek_n (parser_new sample no_features) 2 = Some (Cursor 6 (new_ident false false false 1)) /\ peek_n (parser_new sample no_features) 9 = Some (Cursor 11 T_EOF).
Proof. eexists. split; [apply st_refl |]. split; [vm_compute; reflexivity |]. split; vm_compute; reflexivity. Qed.

(* ---- C27: no token is lost ---- *)
Theorem C27_next_step : forall src f p, well_behaved (single_line_comments f) src -> reached_parser src f p ->
  exists c q skipped rest, next p = Some (c, q) /\ ptrivia q = ptrivia p ++ skipped /\ Forall (in_kinds (pskip p)) skipped /\ same_settings p q /\ ahead (plex q) rest /\
  ((ahead (plex p) (skipped ++ c :: rest) /\ ~ in_kinds (pskip p) c /\ tkind (ctok c) <> K_Eof) \/ (ahead (plex p) skipped /\ rest = [] /\ c = eof_cursor p)).
Proof. exact (fun src f p W R => next_step src f W p R). Qed.
Print Assumptions C27_next_step.
(* any history of next, consume_trivia and set_skip / set_stop / set_state runs, and its outputs merged with the trivia
   are the tokens of the source up to where the parser stands *)
Theorem C27_history_partitions_the_tokens : forall src f os, well_behaved (single_line_comments f) src ->
  (exists outs q, exec_all (parser_new src f) os outs q) /\
  (forall outs q, exec_all (parser_new src f) os outs q -> exists consumed rest,
     lex src f = Some (consumed ++ rest) /\ ahead (plex q) rest /\ merged (filter (fun c => negb (is_eof c)) outs) (ptrivia q) consumed).
Proof. exact (fun src f os W => conj (exec_all_exists src f os _ W (st_refl _ _)) (fun outs q H => history_from_start src f os outs q W H)). Qed.
Print Assumptions C27_history_partitions_the_tokens.
(* with the default skip set, trivia are exactly the whitespace and comments, and the outputs exactly the other tokens *)
Theorem C27_default_trivia : forall src f os outs q, well_behaved (single_line_comments f) src -> exec_all (parser_new src f) os outs q -> (forall s, ~ In (OSkip s) os) ->
  exists consumed rest, lex src f = Some (consumed ++ rest) /\ ahead (plex q) rest /\
  ptrivia q = filter (fun c => kindset_contains KS_TRIVIA (tkind (ctok c))) consumed /\
  filter (fun c => negb (is_eof c)) outs = filter (fun c => negb (kindset_contains KS_TRIVIA (tkind (ctok c)))) consumed.
Proof. exact history_from_start_fixed. Qed.
Print Assumptions C27_default_trivia.
(* a parser reached in any way, rewinds included, stands between two tokens of the source *)
Theorem C27_stands_on_a_token_boundary : forall src f p, well_behaved (single_line_comments f) src -> reached_parser src f p ->
  exists all don cs, lex src f = Some all /\ all = don ++ cs /\ ahead (plex p) cs /\ lsrc (plex p) = src /\ lfeat (plex p) = f.
Proof. exact reached_stream. Qed.
Print Assumptions C27_stands_on_a_token_boundary.
Example C27_case : exists outs q, exec_all (parser_new sample no_features) [ONext; ONext; OSkip KS_NONE; ONext; ONext; ONext; OTrivia; ONext] outs q /\
  map coff outs = [0; 6; 7; 8; 9; 10] /\ map coff (ptrivia q) = [1; 2].
Proof.
  eexists _, _. split.
  - repeat (econstructor; [vm_compute; reflexivity |]). constructor.
  - vm_compute. split; reflexivity.
Qed.

(* ---- C28: checkpoints ---- *)
Theorem C28_rewind_restores : forall p q, steps small p q -> small p ->
  rewind q (checkpoint p) = Parser (plex p) (perrs p) (ptrivia p) (pstate q) (pskip q) (pstop q).
Proof. exact rewind_restores_parser. Qed.
Print Assumptions C28_rewind_restores.
(* for every source of fewer than 65536 tokens, with fewer than 256 errors at the checkpoints, whatever was parsed in between *)
Theorem C28_rewind_restores_short_sources : forall src f all p q, well_behaved (single_line_comments f) src -> lex src f = Some all -> N.of_nat (List.length all) < 65536 ->
  steps few_errors (parser_new src f) p -> few_errors p -> steps few_errors p q ->
  rewind q (checkpoint p) = Parser (plex p) (perrs p) (ptrivia p) (pstate q) (pskip q) (pstop q).
Proof. exact short_source_rewind. Qed.
Print Assumptions C28_rewind_restores_short_sources.
(* a failed try_parse leaves offset, errors and trivia as they were *)
Theorem C28_try_parse_is_transparent : forall A (m : P A) p e q, small p -> (forall r q', m p = Some (r, q') -> steps small p q') -> try_parse m p = Some (Err e, q) ->
  plex q = plex p /\ perrs q = perrs p /\ ptrivia q = ptrivia p.
Proof. exact try_parse_transparent. Qed.
Print Assumptions C28_try_parse_is_transparent.
(* the trivia counter of a checkpoint is 16 bits: with 65536 trivia, rewinding to where one stands empties the list *)
Theorem C28_many_trivia_refuted : exists src f p, reached_parser src f p /\ ptrivia (rewind p (checkpoint p)) = [] /\ List.length (ptrivia p) = N.to_nat 65536.
Proof. exact counter_wraps. Qed.
Print Assumptions C28_many_trivia_refuted.
(* the skip set, the stop set and the state are not part of a checkpoint *)
Theorem C28_settings_not_restored_refuted : exists p q, steps small p q /\ small p /\
  pskip (rewind q (checkpoint p)) <> pskip p /\ pstop (rewind q (checkpoint p)) <> pstop p /\ pstate (rewind q (checkpoint p)) <> pstate p.
Proof.
  exists (parser_new sample no_features), (set_state (set_stop (set_skip (parser_new sample no_features) KS_NONE) KS_ANY) 1).
  split; [repeat constructor |]. split; [split; reflexivity |]. repeat split; discriminate.
Qed.
Print Assumptions C28_settings_not_restored_refuted.
Example C28_case : exists q e q', small (parser_new sample no_features) /\
  (exists c, next (parser_new sample no_features) = Some (c, q)) /\ steps small (parser_new sample no_features) q /\
  (forall r q', parse_comparison q = Some (r, q') -> steps small q q') /\
  try_parse (parse_double 62 60) q = Some (Err e, q') /\ plex q' = plex q.
Proof.
  destruct (next (parser_new sample no_features)) as [[c q] |] eqn:N; [| vm_compute in N; discriminate].
  exists q. vm_compute in N. injection N as <- <-. eexists _, _. split; [split; reflexivity |]. split; [eexists; reflexivity |].
  split; [eapply st_next; [apply st_refl | vm_compute; reflexivity] |]. split; [| split; [vm_compute; reflexivity | reflexivity]].
  intros r q' E. vm_compute in E. injection E as <- <-. apply st_refl.
Qed.

(* ---- C29: parse_entirely, for any parse function [m] that returned r and left the parser p1 ---- *)
Theorem C29_parse_entirely : forall A (m : P A) p r p1 cs, m p = Some (r, p1) -> ahead (plex p1) cs ->
  let output := match r with Ok a => Some a | Err _ => None end in
  let errors := perrs p1 ++ match r with Ok _ => [] | Err e => [e] end in
  exists q, (Forall (in_kinds (pskip p1)) cs -> parse_entirely m p = Some (ParserReturn output errors (ptrivia p1), q)) /\
    (~ Forall (in_kinds (pskip p1)) cs ->
      parse_entirely m p = Some (ParserReturn output (errors ++ [D_ExpectedEnd (span_new (poffset p1) (blen (lsrc (plex p1))))]) (ptrivia p1 ++ cs ++ [eof_cursor p1]), q)).
Proof. exact entirely_spec. Qed.
Print Assumptions C29_parse_entirely.
(* so a clean result means success with nothing but skipped kinds left *)
Theorem C29_clean_result : forall A (m : P A) p r p1 cs ret q a, m p = Some (r, p1) -> ahead (plex p1) cs -> parse_entirely m p = Some (ret, q) ->
  routput ret = Some a -> rerrors ret = [] -> r = Ok a /\ Forall (in_kinds (pskip p1)) cs /\ perrs p1 = [].
Proof. exact entirely_clean. Qed.
Print Assumptions C29_clean_result.
(* trailing whitespace and comments are not recorded when nothing else remains *)
Theorem C29_trailing_trivia_refuted : exists (m : P cursor) p r p1 c q ret, m p = Some (r, p1) /\ ahead (plex p1) [c] /\ parse_entirely m p = Some (ret, q) /\ ~ In c (rtrivia ret).
Proof. exact entirely_drops_trailing. Qed.
Print Assumptions C29_trailing_trivia_refuted.
Example C29_case : exists q, parse_entirely (parse_kind K_Ident) (parser_new sample no_features) = Some (ParserReturn (Some (Cursor 0 (new_ident false false false 1)))
  [D_ExpectedEnd (span_new 1 11)]
  (map (fun x => Cursor (fst x) (snd x)) [(1, new_whitespace 1 1); (2, comment_token); (6, new_ident false false false 1); (7, T_GREATER_THAN); (8, T_EQUALS); (9, new_whitespace 1 1); (10, new_number false false 1 1065353216); (11, T_EOF)]), q).
Proof. eexists. vm_compute. reflexivity. Qed.

(* ---- C41: comparison operators ---- *)
Theorem C41_parses_to_the_operator_written : forall src f p x q, well_behaved (single_line_comments f) src -> reached_parser src f p -> parse_comparison p = Some (Ok x, q) ->
  comparison_spelled x /\ took p q (comparison_cursors x).
Proof.
  intros src f p x q W R E. destruct (reached_ahead src f W p R) as (cs & A). exact (comparison_sound p cs x q A E).
Qed.
Print Assumptions C41_parses_to_the_operator_written.
(* what each next token [c] leads to; [next_kept p rest] is the token after it, skipped kinds left out *)
Theorem C41_accepts : forall p sk c rest, ahead (plex p) (sk ++ c :: rest) -> Forall (in_kinds (pskip p)) sk -> ~ in_kinds (pskip p) c ->
  (is_delim 61 c -> exists q, parse_comparison p = Some (Ok (CmpEq c), q)) /\
  (is_delim 62 c -> tchar (ctok (next_kept p rest)) <> Some 61 -> exists q, parse_comparison p = Some (Ok (CmpGt c), q)) /\
  (is_delim 60 c -> tchar (ctok (next_kept p rest)) <> Some 61 -> exists q, parse_comparison p = Some (Ok (CmpLt c), q)) /\
  (forall d rest', rest = d :: rest' -> ~ in_kinds (pskip p) d -> is_delim 62 c -> is_delim 61 d -> exists q, parse_comparison p = Some (Ok (CmpGe c d), q)) /\
  (forall d rest', rest = d :: rest' -> ~ in_kinds (pskip p) d -> is_delim 60 c -> is_delim 61 d -> exists q, parse_comparison p = Some (Ok (CmpLe c d), q)) /\
  (tchar (ctok c) <> Some 60 -> tchar (ctok c) <> Some 61 -> tchar (ctok c) <> Some 62 -> exists e, parse_comparison p = Some (Err e, p)) /\
  (forall d rest', rest = d :: rest' -> tkind (ctok d) <> K_Delim -> is_delim 60 c \/ is_delim 62 c -> tchar (ctok (next_kept p rest)) = Some 61 -> exists q, parse_comparison p = Some (Err (D_Unexpected d), q)).
Proof. exact comparison_complete. Qed.
Print Assumptions C41_accepts.
(* '> =' (the operator '>' and then the token '=') is taken for '>=' and then rejected *)
Theorem C41_spaced_equals_refuted : exists src p q e, reached_parser src no_features p /\ p = parser_new [62; 32; 61] no_features /\ src = [62; 32; 61] /\ parse_comparison p = Some (Err e, q).
Proof. eexists _, _, _, _. split; [apply st_refl |]. split; [reflexivity |]. split; [reflexivity |]. vm_compute. reflexivity. Qed.
Print Assumptions C41_spaced_equals_refuted.
Example C41_case : exists q, parse_comparison (parser_new [32; 62; 61; 32; 49] no_features) = Some (Ok (CmpGe (Cursor 1 T_GREATER_THAN) (Cursor 2 T_EQUALS)), q).
Proof. eexists. vm_compute. reflexivity. Qed.
