(* Theorems for C43 (parsing blocks, declarations, rules and stylesheets returns) and C44 (no token is lost).
   Hypotheses: the source has no lexer trap ([well_behaved], PropLex.v), no NUL, fewer than 2^32 bytes; the parser skips
   comments and does not skip the end of the input, as every parser does unless its skip set was replaced. *)
From Coq Require Import String.
From Coq Require Import List Permutation.
From Verif Require Import Traits Syntax SpecLex SpecTrace SpecParser SpecSyntax SpecTraits LexTrace ParserProofs ParserProofs2 ParserProofs3 SyntaxProofs SyntaxTotal TraitsTotal RulesTotal SpecRules FaithProofs FaithTraits FaithRules.
Open Scope N_scope.
Open Scope list_scope.

(* each returns, only moves forward, and leaves state, skip set and stop set as they were; a rule, block or declaration
   returned has consumed a token *)
Theorem C43_always_returns : forall src f p, well_behaved (single_line_comments f) src -> ~ In 0 src -> blen src < 4294967296 ->
  reached_parser src f p -> skips_comments p ->
  well_run 0 parse_stylesheet p /\ well_run 1 parse_rule p /\ well_run 1 parse_block p /\ well_run 2 parse_declaration p /\ well_run 0 parse_bad_declaration p.
Proof.
  intros src f p W Z B R Sk. assert (U : usable p) by (split; [exact Sk | exact (reached_names src f p W Z B R)]).
  destruct (reached_stream src f p W R) as (all & don & cs & _ & _ & A & _ & _). pose proof (le_n (List.length cs)) as L.
  split; [exact (parse_stylesheet_runs _ p cs U A L) |]. split; [exact (parse_rule_runs _ p cs U A L) |]. split; [exact (parse_block_runs _ p cs U A L) |].
  split; [exact (parse_declaration_runs _ p cs U A L) | exact (bad_declaration_runs _ p cs U A L)].
Qed.
Print Assumptions C43_always_returns.
Theorem C43_new_parser : forall src f, well_behaved (single_line_comments f) src -> ~ In 0 src -> blen src < 4294967296 ->
  exists r q, parse_stylesheet (parser_new src f) = Some (r, q) /\ moved 0 (parser_new src f) q.
Proof.
  intros src f W Z B. destruct (C43_always_returns src f (parser_new src f) W Z B (st_refl _ _)) as ((r & q & E & M) & _); [split; reflexivity |].
  exists r, q. split; [exact E |]. destruct r; exact M.
Qed.
Print Assumptions C43_new_parser.
Example C43_case : well_behaved false (chars "@a b{c:d}e{--f:g;h{}}") /\ ~ In 0 (chars "@a b{c:d}e{--f:g;h{}}") /\
  exists rs q, parse_stylesheet (parser_new (chars "@a b{c:d}e{--f:g;h{}}") no_features) = Some (Ok rs, q) /\ List.length rs = 2%nat /\ p_at_end q = true.
Proof. split; [apply ordinary_spec; reflexivity |]. split; [cbn; intuition discriminate |]. eexists _, _. split; [vm_compute; reflexivity |]. split; reflexivity. Qed.

(* the provided methods of the traits, for any implementor whose own parsers behave: [well_behaving k n m], "with at most n
   tokens ahead, m returns, and has consumed k tokens when it succeeds" *)
Theorem C43_declaration_trait : forall V (valid : parser -> cursor -> option bool) (value_p : cursor -> P V) n,
  (forall p c, valid p c <> None) -> (forall c, well_behaving 0 n (value_p c)) -> well_behaving 2 n (declaration_t valid value_p).
Proof. exact declaration_runs. Qed.
Print Assumptions C43_declaration_trait.
(* an implementor may use the block itself in its rules: only fewer tokens are asked for *)
Theorem C43_block_trait : forall D R peek_d (decl_p : P D) (rule_p : P R) n,
  (forall m, (m < n)%nat -> peeks m peek_d /\ well_behaving 1 m decl_p /\ well_behaving 1 m rule_p) -> well_behaving 1 n (block_t peek_d decl_p rule_p).
Proof. exact block_runs. Qed.
Print Assumptions C43_block_trait.
Theorem C43_at_rule_trait : forall Pr B name (prelude_p : P Pr) (block_p : P B) n, well_behaving 0 n prelude_p -> well_behaving 0 n block_p ->
  well_behaving 1 (S n) (at_rule_t name prelude_p block_p).
Proof. exact at_rule_runs. Qed.
Print Assumptions C43_at_rule_trait.
Theorem C43_qualified_rule_trait : forall Pr B X (prelude_p : P Pr) (block_p : P B) (bad_p : P X) n,
  well_behaving 0 n prelude_p -> well_behaving 1 n block_p -> well_behaving 0 n bad_p -> well_behaving 1 n (qualified_rule_t prelude_p block_p bad_p).
Proof. exact qualified_rule_runs. Qed.
Print Assumptions C43_qualified_rule_trait.
Theorem C43_list_traits : forall A B (a : P A) (b : P B) n, well_behaving 1 n a -> well_behaving 1 n b ->
  well_behaving 0 n (sheet_t a) /\ well_behaving 1 (S n) (rule_list_t a) /\ well_behaving 1 (S n) (declaration_list_t a) /\ well_behaving 1 (S n) (declaration_rule_list_t a b).
Proof.
  intros A B a b n Ha Hb. split; [exact (sheet_runs A a n Ha) |]. split; [exact (rule_list_runs A a n Ha) |]. split; [exact (declaration_list_runs A a n Ha) | exact (declaration_rule_list_runs A B a b n Ha Hb)].
Qed.
Print Assumptions C43_list_traits.
Theorem C43_no_block_no_prelude : forall n, well_behaving 0 n no_block_allowed /\ well_behaving 0 n no_prelude_allowed.
Proof. intro n. split; [exact (no_block_runs n) | exact (no_prelude_runs n)]. Qed.
Print Assumptions C43_no_block_no_prelude.
(* the two prelude lists, when an item consumes a token whenever it succeeds *)
Theorem C43_prelude_list_traits_partial : forall I stop (item_p : P I) n, well_behaving 1 n item_p ->
  well_behaving 1 n (prelude_list_t stop item_p) /\ well_behaving 1 n (comma_list_t stop item_p).
Proof. intros I stop item_p n H. split; [exact (prelude_list_runs I stop item_p n H) | exact (comma_list_runs I stop item_p n H)]. Qed.
Print Assumptions C43_prelude_list_traits_partial.
(* missing: items that may be empty. The loops of the two traits do not look for the end of the input: with such an item they
   run for ever there, whatever the number of turns allowed (and outside of it, at any token the item does not take) *)
Lemma values_at_end : parse_component_values (parser_new [] no_features) = Some (Ok [], parser_new [] no_features).
Proof. reflexivity. Qed.
Theorem C43_prelude_list_hangs_refuted : forall n : nat, (forall m, well_behaving 0 m parse_component_values) /\
  prelude_loop KS_LEFT_CURLY_OR_SEMICOLON parse_component_values n (parser_new [] no_features) = None /\
  comma_loop KS_LEFT_CURLY_OR_SEMICOLON parse_component_values n (parser_new [] no_features) = None.
Proof.
  assert (E1 : peek_next (parser_new [] no_features) = Some (Cursor 0 T_EOF)) by (vm_compute; reflexivity).
  assert (E2 : tok_in (ctok (Cursor 0 T_EOF)) KS_LEFT_CURLY_OR_SEMICOLON = false) by (vm_compute; reflexivity).
  assert (E3 : if_kind K_Comma (parser_new [] no_features) = Some (@Ok (option cursor) None, parser_new [] no_features)) by (vm_compute; reflexivity).
  intro n. split; [exact values_run |]. induction n as [| n [IH1 IH2]]; [split; reflexivity |]. cbn [prelude_loop comma_loop]. unfold bind. rewrite values_at_end. split.
  - rewrite E1, E2. unfold pmap, bind. rewrite IH1. reflexivity.
  - rewrite E3, E1, E2. unfold pmap, bind. rewrite IH2. reflexivity.
Qed.
Print Assumptions C43_prelude_list_hangs_refuted.
Example C43_case_traits : well_behaving 1 3 (parse_kind K_Ident) /\
  exists l q, prelude_list_t KS_LEFT_CURLY_OR_SEMICOLON (parse_kind K_Ident) (parser_new (chars "a b;") no_features) = Some (Ok l, q) /\ List.length l = 2%nat.
Proof. split; [intros p cs U A L; exact (run_kind K_Ident p cs ltac:(discriminate) A) |]. eexists _, _. split; [vm_compute; reflexivity | reflexivity]. Qed.

(* ---- C44: no token is lost ----
   [reads mixed p q out] (SpecRules.v): the tokens between p and q are, in order, tokens that [out] repeats (a bracket's
   offset aside), and whitespace, comments, semicolons and <!-- --> that it may leave out; [out] keeps the order if [mixed]
   is false. [normal p]: the skip set is the default one, and the tokens of the source lie ahead. *)
Theorem C44_normal_parsers : forall src f p, well_behaved (single_line_comments f) src -> reached_parser src f p -> pskip p = KS_TRIVIA -> normal p.
Proof. intros src f p W R Sk. destruct (reached_stream src f p W R) as (all & don & cs & _ & _ & A & _ & _). split; [exact Sk | now exists cs]. Qed.
Print Assumptions C44_normal_parsers.
(* a stylesheet: every token is emitted or droppable, in source order unless some block has both declarations and rules *)
Theorem C44_stylesheet : forall p rs q, normal p -> parse_stylesheet p = Some (Ok rs, q) ->
  reads (existsb mixed_rule rs) p q (flat_map rule_cursors rs) /\ exists rest, ahead (plex q) rest /\ Forall is_trivia rest.
Proof. intros p rs q N E. split; [exact (parse_stylesheet_faithful p _ q N E) | exact (sheet_reads_all _ _ _ _ parse_rule_faithful p rs q N E)]. Qed.
Print Assumptions C44_stylesheet.
Theorem C44_rule : forall p r q, normal p -> parse_rule p = Some (Ok r, q) -> reads (mixed_rule r) p q (rule_cursors r).
Proof. intros p r q N E. exact (parse_rule_faithful p _ q N E). Qed.
Print Assumptions C44_rule.
Theorem C44_block : forall p b q, normal p -> parse_block p = Some (Ok b, q) -> reads (mixed_block b) p q (block_cursors b).
Proof. intros p b q N E. exact (parse_block_faithful p _ q N E). Qed.
Print Assumptions C44_block.
Theorem C44_declaration : forall p d q, normal p -> parse_declaration p = Some (Ok d, q) -> reads false p q (decl_cursors d).
Proof. intros p b q N E. exact (parse_declaration_faithful p _ q N E). Qed.
Print Assumptions C44_declaration.
(* said of the tokens alone: those of the source that may not be dropped are, as a multiset, those emitted; and in order when
   no block is mixed *)
Theorem C44_tokens : forall src f rs q, well_behaved (single_line_comments f) src -> parse_stylesheet (parser_new src f) = Some (Ok rs, q) ->
  exists cs, lex src f = Some cs /\
    Permutation (filter is_lasting (map ctok (flat_map rule_cursors rs))) (filter is_lasting (map ctok cs)) /\
    (existsb mixed_rule rs = false -> filter is_lasting (map ctok (flat_map rule_cursors rs)) = filter is_lasting (map ctok cs)).
Proof.
  intros src f rs q W E. destruct (reached_stream src f (parser_new src f) W (st_refl _ _)) as (all & don & cs & El & -> & A & _ & _).
  assert (D : don = []). { destruct (fresh_ahead src f W) as (all' & A' & E'). rewrite E' in El. injection El as ->. pose proof (ahead_det _ _ A' _ A) as Q. destruct don as [| x don]; [reflexivity |]. exfalso. apply (f_equal (@List.length cursor)) in Q. cbn in Q. rewrite app_length in Q. Lia.lia. }
  subst don. cbn [app] in El. exists cs. split; [exact El |]. destruct (C44_stylesheet (parser_new src f) rs q (conj eq_refl (ex_intro _ cs A)) E) as ((cs1 & rest & A1 & A2 & _ & Em) & rest' & A3 & F).
  rewrite (ahead_det _ _ A2 _ A3) in F. pose proof (ahead_det _ _ A1 _ A) as Q. subst cs.
  assert (L : filter is_lasting (map ctok rest) = []).
  { clear - F. induction rest as [| c rest IH]; [reflexivity |]. inversion F as [| ? ? T F']; subst. cbn [map filter]. destruct (is_lasting (ctok c)) eqn:L; [| exact (IH F')].
    apply lasting_spec in L. exfalso. apply L. unfold droppable. destruct T as [-> | ->]; cbn; tauto. }
  rewrite map_app, filter_app, L, app_nil_r. exact (emits_lasting _ _ _ Em).
Qed.
Print Assumptions C44_tokens.
Theorem C44_lasting_means : forall c, is_lasting (ctok c) = true <-> ~ droppable c.
Proof. exact lasting_spec. Qed.
Print Assumptions C44_lasting_means.
(* the provided methods of the traits: faithful for every implementor whose own parsers are *)
Theorem C44_declaration_trait : forall V (valid : parser -> cursor -> option bool) (value_p : cursor -> P V) em mx, (forall c, faithful (value_p c) em mx) ->
  faithful (declaration_t valid value_p) (fun x => let '(name, colon, v, i) := x in name :: colon :: em v ++ important_cursors i) (fun x => let '(_, _, v, _) := x in mx v).
Proof. exact declaration_faithful. Qed.
Print Assumptions C44_declaration_trait.
Theorem C44_block_trait : forall D R peek_d (decl_p : P D) (rule_p : P R) em_d em_r mx_d mx_r, faithful decl_p em_d mx_d -> faithful rule_p em_r mx_r ->
  faithful (block_t peek_d decl_p rule_p) (fun x => let '(o, ds, rs, c) := x in o :: decls_out em_d ds ++ flat_map em_r rs ++ opt_cursor c) (fun x => let '(_, ds, rs, _) := x in pile_mx mx_d mx_r ds rs).
Proof. intros D R peek_d decl_p rule_p em_d em_r mx_d mx_r HD HR. exact (block_faithful peek_d decl_p rule_p em_d em_r mx_d mx_r HD HR). Qed.
Print Assumptions C44_block_trait.
Theorem C44_at_rule_trait : forall Pr B name (prelude_p : P Pr) (block_p : P B) em_p em_b mx_p mx_b, faithful prelude_p em_p mx_p -> faithful block_p em_b mx_b ->
  faithful (at_rule_t name prelude_p block_p) (fun x => let '(a, pr, b) := x in a :: opt_emit em_p pr ++ em_b b) (fun x => let '(_, pr, b) := x in opt_mx mx_p pr || mx_b b).
Proof. exact at_rule_faithful. Qed.
Print Assumptions C44_at_rule_trait.
Theorem C44_qualified_rule_trait : forall Pr B X (prelude_p : P Pr) (block_p : P B) (bad_p : P X) em_p em_b mx_p mx_b, faithful prelude_p em_p mx_p -> faithful block_p em_b mx_b ->
  (forall p r q, normal p -> bad_p p = Some (r, q) -> moved 0 p q) ->
  faithful (qualified_rule_t prelude_p block_p bad_p) (fun x => em_p (fst x) ++ em_b (snd x)) (fun x => mx_p (fst x) || mx_b (snd x)).
Proof. exact qualified_rule_faithful. Qed.
Print Assumptions C44_qualified_rule_trait.
Theorem C44_list_traits : forall D R (decl_p : P D) (rule_p : P R) em_d em_r mx_d mx_r stop, faithful decl_p em_d mx_d -> faithful rule_p em_r mx_r ->
  faithful (sheet_t rule_p) (flat_map em_r) (existsb mx_r) /\
  faithful (rule_list_t rule_p) (fun x => let '(o, rs, c) := x in o :: flat_map em_r rs ++ opt_cursor c) (fun x => let '(_, rs, _) := x in existsb mx_r rs) /\
  faithful (declaration_list_t decl_p) (fun x => let '(o, ds, c) := x in o :: decls_out em_d ds ++ opt_cursor c) (fun x => let '(_, ds, _) := x in decls_mx mx_d ds) /\
  faithful (declaration_rule_list_t decl_p rule_p) (fun x => let '(o, ds, rs, c) := x in o :: decls_out em_d ds ++ flat_map em_r rs ++ opt_cursor c) (fun x => let '(_, ds, rs, _) := x in pile_mx mx_d mx_r ds rs) /\
  faithful (prelude_list_t stop rule_p) (flat_map em_r) (existsb mx_r) /\ faithful (comma_list_t stop decl_p) (decls_out em_d) (decls_mx mx_d).
Proof.
  intros D R decl_p rule_p em_d em_r mx_d mx_r stop HD HR. split; [exact (sheet_faithful rule_p em_r mx_r HR) |]. split; [exact (rule_list_faithful rule_p em_r mx_r HR) |].
  split; [exact (declaration_list_faithful decl_p em_d mx_d HD) |]. split; [exact (declaration_rule_list_faithful decl_p rule_p em_d em_r mx_d mx_r HD HR) |].
  split; [exact (prelude_list_faithful rule_p em_r mx_r HR stop) | exact (comma_list_faithful decl_p em_d mx_d HD stop)].
Qed.
Print Assumptions C44_list_traits.
Definition offsets (r : option (res (list rule) * parser)) : list N := match r with Some (Ok rs, _) => map coff (flat_map rule_cursors rs) | _ => [] end.
(* what may be lost or moved does get lost or moved: a declaration after a rule is written before it; semicolons are dropped;
   the brace of a block is placed before the whitespace that precedes it *)
Theorem C44_order_refuted : offsets (parse_stylesheet (parser_new (chars "a{b{}c:d}") no_features)) = [0; 1; 5; 6; 7; 2; 3; 4; 8].
Proof. vm_compute. reflexivity. Qed.
Print Assumptions C44_order_refuted.
Theorem C44_semicolons_dropped_refuted : offsets (parse_stylesheet (parser_new (chars "a{;b:c}@d{};") no_features)) = [0; 1; 3; 4; 5; 6; 7; 9; 10].
Proof. vm_compute. reflexivity. Qed.
Print Assumptions C44_semicolons_dropped_refuted.
Theorem C44_brace_offset_refuted : offsets (parse_stylesheet (parser_new (chars "@a  {}") no_features)) = [0; 2; 5] /\ offsets (parse_stylesheet (parser_new (chars "@a{}") no_features)) = [0; 2; 3].
Proof. split; vm_compute; reflexivity. Qed.
Print Assumptions C44_brace_offset_refuted.
Example C44_case : exists rs q, parse_stylesheet (parser_new (chars "@a b{c:d}e{f{g:h}}") no_features) = Some (Ok rs, q) /\ existsb mixed_rule rs = false /\ List.length (flat_map rule_cursors rs) = 17%nat.
Proof. eexists _, _. split; [vm_compute; reflexivity |]. split; reflexivity. Qed.
