(* C30 and C31 for reached parsers, and the samples. *)
From Coq Require Import ZifyBool ZifyNat ZifyN.
From Verif Require Import Syntax SpecLex SpecTrace SpecParser SpecSyntax SpecToken LexBase TokenProofs KindProofs LexFacts LexTrace ParserProofs ParserProofs2 ParserProofs3 ParserProofs4 CompareProofs SyntaxProofs SyntaxTotal SyntaxAccept.
Open Scope N_scope.
Open Scope list_scope.
Ltac Zify.zify_post_hook ::= Z.div_mod_to_equations.

Lemma values_preserved : forall src f p vs q, well_behaved (single_line_comments f) src -> reached_parser src f p -> skips_comments p ->
  parse_component_values p = Some (Ok vs, q) -> exists used, took p q used /\ Forall2 re_emitted used (cvs_cursors vs).
Proof.
  intros src f p vs q W R Sk E. destruct (reached_ahead src f W p R) as (cs & A).
  destruct (proj1 (proj2 (fuel_good (sfuel p))) p cs vs q Sk A E) as (used & T & Em & _). eauto.
Qed.
Lemma block_shape : forall src f p v q, well_behaved (single_line_comments f) src -> reached_parser src f p -> skips_comments p ->
  parse_simple_block p = Some (Ok v, q) -> exists used, took p q used /\ block_result q v used.
Proof.
  intros src f p v q W R Sk E. destruct (reached_ahead src f W p R) as (cs & A).
  exact (block_with_inv _ p cs v q (proj1 (proj2 (fuel_good (sfuel p)))) Sk A E).
Qed.
Lemma function_shape : forall src f p v q, well_behaved (single_line_comments f) src -> reached_parser src f p -> skips_comments p ->
  parse_function_block p = Some (Ok v, q) -> exists used fn vs close inner, took p q used /\ v = CvFunction fn vs close /\ kind_of fn = K_Function /\ Forall2 re_emitted inner (cvs_cursors vs) /\
    match close with
    | Some c => kind_of c = K_RightParen /\ used = fn :: inner ++ [c] /\ grouped (map kind_of inner)
    | None => used = fn :: inner /\ left_open (map kind_of used) /\ p_at_end q = true
    end.
Proof.
  intros src f p v q W R Sk E. destruct (reached_ahead src f W p R) as (cs & A).
  exact (function_with_inv _ p cs v q (proj2 (proj2 (fuel_good (sfuel p)))) Sk A E).
Qed.
Lemma block_emitted : forall q v used, block_result q v used -> used <> [] /\ Forall2 re_emitted used (cv_cursors v).
Proof.
  intros q v used (start & o & vs & close & oc & inner & -> & Eo & Ko & Em & R). cbn [cv_cursors]. destruct close as [t |].
  - destruct R as (c & Et & Kc & -> & _). split; [discriminate |]. constructor; [right; split; [cbn; congruence | now left] |]. apply F2_app; [exact Em |].
    constructor; [right; split; [cbn; congruence | now right] | constructor].
  - destruct R as (-> & _). split; [discriminate |]. rewrite app_nil_r. constructor; [right; split; [cbn; congruence | now left] | exact Em].
Qed.
Lemma one_value_preserved : forall src f p (m : P cval) v q, well_behaved (single_line_comments f) src -> reached_parser src f p -> skips_comments p ->
  m = parse_component_value \/ m = parse_simple_block \/ m = parse_function_block ->
  m p = Some (Ok v, q) -> exists used, took p q used /\ used <> [] /\ Forall2 re_emitted used (cv_cursors v).
Proof.
  intros src f p m v q W R Sk [-> | [-> | ->]] E.
  - destruct (reached_ahead src f W p R) as (cs & A). destruct (proj1 (fuel_good (sfuel p)) p cs v q Sk A E) as (used & T & Em & _ & NE & _). eauto.
  - destruct (block_shape src f p v q W R Sk E) as (used & T & B). destruct (block_emitted _ _ _ B). eauto.
  - destruct (function_shape src f p v q W R Sk E) as (used & fn & vs & close & inner & T & -> & K & Em & B). exists used. split; [exact T |]. cbn [cv_cursors]. destruct close as [c |].
    + destruct B as (_ & -> & _). split; [discriminate |]. constructor; [apply re_emitted_refl |]. apply F2_app; [exact Em |]. constructor; [apply re_emitted_refl | constructor].
    + destruct B as (-> & _). split; [discriminate |]. rewrite app_nil_r. constructor; [apply re_emitted_refl | exact Em].
Qed.
Lemma re_emitted_tokens : forall used out, Forall2 re_emitted used out -> map ctok out = map ctok used.
Proof. intros used out H. induction H as [| c e used out R _ IH]; [reflexivity |]. cbn. rewrite IH. f_equal. destruct R as [-> | [R _]]; [reflexivity | exact R]. Qed.
Lemma values_return : forall src f p, well_behaved (single_line_comments f) src -> reached_parser src f p -> skips_comments p ->
  (exists r q, parse_component_value p = Some (r, q)) /\ (exists r q, parse_component_values p = Some (r, q)) /\
  (exists r q, parse_simple_block p = Some (r, q)) /\ (exists r q, parse_function_block p = Some (r, q)).
Proof.
  intros src f p W R Sk. destruct (reached_ahead src f W p R) as (cs & A).
  destruct (component_values_okay p cs Sk A) as ((r1 & q1 & E1 & _) & (r2 & q2 & E2 & _) & (r3 & q3 & E3 & _) & (r4 & q4 & E4 & _)).
  split; [exists r1, q1; exact E1 |]. split; [exists r2, q2; exact E2 |]. split; [exists r3, q3; exact E3 | exists r4, q4; exact E4].
Qed.

(* an executable list of the tokens ahead *)
Definition is_eof_kind (k : kind) : bool := match k with K_Eof => true | _ => false end.
Fixpoint lex_ahead_list (n : nat) (x : lexer) : option (list cursor) :=
  match n with
  | O => None
  | S n' =>
      if loff x =? blen (lsrc x) then Some []
      else match lexer_advance x with
           | None => None
           | Some (t, y) => if is_eof_kind (tkind t) || (tlen t =? 0) then None else match lex_ahead_list n' y with None => None | Some cs => Some (Cursor (loff x) t :: cs) end
           end
  end.
Lemma lex_ahead_list_ok : forall n x cs, lex_ahead_list n x = Some cs -> ahead x cs.
Proof.
  induction n as [| n IH]; intros x cs E; cbn [lex_ahead_list] in E; [discriminate |]. destruct (loff x =? blen (lsrc x)) eqn:B; [injection E as <-; constructor; lia |].
  destruct (lexer_advance x) as [[t y] |] eqn:Ad; [| discriminate]. destruct (is_eof_kind (tkind t) || (tlen t =? 0)) eqn:B2; [discriminate |]. apply orb_false_iff in B2. destruct B2 as [B2 B3].
  destruct (lex_ahead_list n y) as [cs' |] eqn:E2; [| discriminate]. injection E as <-. apply (ah_cons x t y cs'); [exact Ad | | lia | now apply IH].
  intro K. rewrite K in B2. discriminate.
Qed.

(* a f(b/**/,[c]) *)
Definition sheet_sample : text := [97; 32; 102; 40; 98; 47; 42; 42; 47; 44; 91; 99; 93; 32; 41].
Lemma sheet_sample_values : exists cs, ahead (plex (parser_new sheet_sample no_features)) cs /\ values_text (fun _ => True) cs /\ (length cs > 5)%nat /\
  ends_values (pstop (parser_new sheet_sample no_features)) [] /\ pskip (parser_new sheet_sample no_features) = KS_TRIVIA.
Proof.
  pose (i := fun o => Cursor o (new_ident false false false 1)). pose (w := fun o => Cursor o (new_whitespace 1 1)).
  exists (i 0 :: w 1 :: Cursor 2 (new_function false false false 2) :: (i 4 :: Cursor 5 (new_comment CS_Block 4) :: Cursor 9 T_COMMA :: Cursor 10 T_LEFT_SQUARE :: [i 11] ++ Cursor 12 T_RIGHT_SQUARE :: [w 13]) ++ Cursor 14 T_RIGHT_PAREN :: []).
  split; [apply (lex_ahead_list_ok 50); vm_compute; reflexivity |]. split; [| split; [cbn; lia | split; [exact I | reflexivity]]].
  apply vt_plain; [cbn; tauto | tauto |]. apply vt_plain; [cbn; tauto | tauto |]. apply vt_function; [reflexivity | exact I | | reflexivity | constructor].
  apply vt_plain; [cbn; tauto | tauto |]. apply vt_comment; [reflexivity |]. apply vt_plain; [cbn; tauto | tauto |].
  apply vt_block; [right; left; reflexivity | exact I | | reflexivity |]; (apply vt_plain; [cbn; tauto | tauto | constructor]).
Qed.
Lemma bracket_offsets : exists q, parse_component_value (parser_new [47; 42; 42; 47; 123; 125] no_features) =
    Some (Ok (CvBlock 0 T_LEFT_CURLY [] (Some T_RIGHT_CURLY)), q) /\
  took (parser_new [47; 42; 42; 47; 123; 125] no_features) q [Cursor 4 T_LEFT_CURLY; Cursor 5 T_RIGHT_CURLY] /\
  cv_cursors (CvBlock 0 T_LEFT_CURLY [] (Some T_RIGHT_CURLY)) = [Cursor 0 T_LEFT_CURLY; Cursor DUMMY_OFFSET T_RIGHT_CURLY].
Proof.
  eexists. split; [vm_compute; reflexivity |]. split; [| reflexivity].
  exists [Cursor 0 (new_comment CS_Block 4); Cursor 4 T_LEFT_CURLY; Cursor 5 T_RIGHT_CURLY], [Cursor 0 (new_comment CS_Block 4)], [].
  split; [apply (lex_ahead_list_ok 50); vm_compute; reflexivity |]. split; [apply (lex_ahead_list_ok 50); vm_compute; reflexivity |].
  split; [vm_compute; reflexivity |]. split; [repeat constructor |]. split; [repeat constructor |]. repeat split.
Qed.
