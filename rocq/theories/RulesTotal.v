(* Parsing component values, declarations, blocks, rules and stylesheets returns, from every parser a user can hold. *)
From Coq Require Import ZifyBool ZifyNat ZifyN.
From Verif Require Import Traits Syntax SpecLex SpecTrace SpecCursor SpecParser SpecSyntax SpecTraits SpecToken LexBase TokenProofs KindProofs LexFacts LexTrace LexLimits CursorProofs CursorLex CursorFacts
  ParserProofs ParserProofs2 ParserProofs3 ParserProofs4 CompareProofs SyntaxProofs SyntaxTotal TraitsTotal.
Open Scope N_scope.
Open Scope list_scope.

(* ---- names ---- *)
Lemma eq_returns : forall f pre l t, well_behaved (single_line_comments f) l -> ~ In 0 l -> blen (pre ++ l) < 4294967296 -> token_at f pre l t -> is_name (tkind t) ->
  forall w, exists b, eq_ignore_ascii_case (Cursor (blen pre) t) (pre ++ l) w = Some b.
Proof.
  intros f pre l t WB H0 HB T K w. assert (Kt : In (tkind t) texty) by (unfold is_name in K; cbn in K |- *; tauto).
  assert (NU : tkind t = K_Url -> url_limits l) by (intro Q; exfalso; unfold is_name in K; rewrite Q in K; cbn in K; intuition discriminate).
  assert (NS : tkind t <> K_String) by (intro Q; unfold is_name in K; rewrite Q in K; cbn in K; intuition discriminate).
  destruct (value_exists f pre l t WB H0 NU T Kt) as (v & Sv). destruct (contains_escape_chars t) eqn:E.
  - eexists. exact (value_eq_escaped f pre l t WB H0 NU HB T Kt v w Sv E NS).
  - pose proof (texty_nonempty _ _ _ _ T Kt) as Hn. destruct (lexed_layout f pre l t WB H0 NU Hn T Kt) as (lead & content & trail & r & v' & HI & El & Hv & L).
    rewrite El. eexists. apply (eq_layout_plain pre t lead content trail r w L); [exact (u32_not_dummy _ _ Hn HB) | exact E].
Qed.
Theorem reached_names : forall src f p, well_behaved (single_line_comments f) src -> ~ In 0 src -> blen src < 4294967296 -> reached_parser src f p -> names_readable p.
Proof.
  intros src f p W H0 HB R. destruct (reached_stream src f p W R) as (all & don & cs & E & -> & A & S1 & S2). intros cs' c A' I K. rewrite (ahead_det _ _ A _ A') in I. rewrite S1.
  destruct (lex_tiles_at src f W) as (all & E' & _ & _ & H). rewrite E in E'. injection E' as <-. destruct c as [o t]. unfold kind_of in K. cbn [ctok] in K.
  destruct (H o t) as (a & b & -> & -> & Hb & T); [apply in_or_app; now right |].
  pose proof (well_behaved_suffix _ _ _ W) as WB. assert (H0' : ~ In 0 b) by (intro Q; apply H0, in_or_app; now right).
  assert (Kt : In (tkind t) texty) by (unfold is_name in K; cbn in K |- *; tauto).
  assert (NU : tkind t = K_Url -> url_limits b) by (intro Q; exfalso; unfold is_name in K; rewrite Q in K; cbn in K; intuition discriminate).
  destruct (value_exists f a b t WB H0' NU T Kt) as (v & Sv). split; [| split].
  - exact (eq_returns f a b t WB H0' HB T K).
  - eexists. exact (value_parse_str f a b t WB H0' NU HB T Kt v Sv).
  - eexists. exact (value_lower f a b t WB H0' NU HB T Kt v Sv).
Qed.

(* ---- component values ---- *)
Lemma values_run : forall n, well_behaving 0 n parse_component_values.
Proof. intros n p cs U A L. apply run_okay. exact (proj1 (proj2 (component_values_okay p cs (proj1 U) A))). Qed.
(* ---- declarations ---- *)
Lemma parse_declaration_runs : forall n, well_behaving 2 n parse_declaration.
Proof. intros n p cs U A L. apply run_pmap. apply (declaration_runs (list cval) (fun _ _ => Some true) (fun _ => parse_component_values) n) with (cs := cs); auto; [discriminate | intros _; exact (values_run n)]. Qed.
Lemma peek_declaration_total : forall n, peeks n peek_declaration.
Proof.
  intros n p cs U A L. apply (peek_total_of _ p cs A). intro c. unfold peek_declaration. destruct (tok_is (ctok c) K_Ident); [| discriminate]. destruct (peek_n_total p cs 2 ltac:(lia) A) as (d & ->). discriminate.
Qed.
Lemma value_runs_skips : forall p cs, skips_comments p -> ahead (plex p) cs -> well_run 1 parse_component_value p.
Proof.
  intros p cs Sk A. destruct (proj1 (component_values_okay p cs Sk A)) as (r & q & E & M). exists r, q. split; [exact E |]. destruct r as [v | e]; [| exact M].
  destruct (proj1 (fuel_good (sfuel p)) p cs v q Sk A E) as (used & T & _ & _ & NE & _). eapply moved_le; [| exact (moved_took _ _ _ T)]. destruct used; [congruence | cbn; lia].
Qed.
Lemma value_runs : forall n, well_behaving 1 n parse_component_value.
Proof. intros n p cs U A L. exact (value_runs_skips p cs (proj1 U) A). Qed.
Lemma moved_skips_len : forall k p q cs, moved k p q -> skips_comments p -> ahead (plex p) cs -> skips_comments q /\ exists cs', ahead (plex q) cs' /\ (length cs' + k <= length cs)%nat.
Proof. intros k p q cs M Sk A. split; [exact (moved_skips _ _ _ M Sk) | exact (moved_len _ _ _ _ M A)]. Qed.
Lemma bad_declaration_returns : forall p cs, skips_comments p -> ahead (plex p) cs -> well_run 0 parse_bad_declaration p.
Proof.
  intros p cs U A. unfold parse_bad_declaration. enough (G : forall m p cs, skips_comments p -> ahead (plex p) cs -> (length cs < m)%nat -> well_run 0 (bad_fuel m) p)
    by (apply (G (sfuel p) p cs U A); exact (sfuel_more p cs A)).
  clear p cs U A. induction m as [| m IH]; intros p cs U A Lm; [lia |]. unfold well_run. cbn [bad_fuel]. destruct (p_at_end p); [eexists _, p; split; [reflexivity | exact (moved_refl p cs A)] |].
  assert (More : forall q cs', skips_comments q -> ahead (plex q) cs' -> (length cs' <= m)%nat -> well_run 0 (bind parse_component_value (fun v => pmap (cons v) (bad_fuel m))) q).
  { intros q cs' Uq Aq Lq. apply (run_bind _ _ _ _ 1); [exact (value_runs_skips q cs' Uq Aq) |]. intros v q1 _ M1. destruct (moved_skips_len _ _ _ cs' M1 Uq Aq) as (U1 & cs1 & A1 & L1).
    apply run_pmap, (IH q1 cs1 U1 A1). lia. }
  apply run_or_peek; [exact (peek_kind_total _ p cs A) | intros _ | intros _].
  { apply (run_bind _ _ _ _ 1); [exact (value_runs_skips p cs U A) |]. intros v q1 _ M1. destruct (moved_right _ _ _ M1) as (cs1 & A1). exact (run_ret _ _ q1 cs1 A1). }
  apply run_or_peek; [exact (peek_kind_total _ p cs A) | intros _ | intros _; apply (More p cs U A); lia].
  unfold well_run. destruct (is_nested p); [eexists _, p; split; [reflexivity | exact (moved_refl p cs A)] |].
  apply (run_bind _ _ _ _ 1); [exact (run_kind K_RightCurly p cs ltac:(discriminate) A) |]. intros o p1 _ M1. destruct (moved_skips_len _ _ _ cs M1 U A) as (U1 & cs1 & A1 & L1).
  apply (More p1 cs1 U1 A1). lia.
Qed.
Lemma bad_declaration_runs : forall n, well_behaving 0 n parse_bad_declaration.
Proof. intros n p cs U A L. exact (bad_declaration_returns p cs (proj1 U) A). Qed.

(* ---- rules ---- *)
Lemma well_behaving_le : forall A (m : P A) k j n, (j <= n)%nat -> well_behaving k n m -> well_behaving k j m.
Proof. intros A m k j n H W p cs U Ah L. apply (W p cs U Ah). lia. Qed.
Lemma well_behaving_weak : forall A (m : P A) k j n, (j <= k)%nat -> well_behaving k n m -> well_behaving j n m.
Proof. intros A m k j n H W p cs U Ah L. apply (run_weaken _ _ j k p H). exact (W p cs U Ah L). Qed.
Lemma block_of_runs : forall rule_p n, (forall m, (m < n)%nat -> well_behaving 1 m rule_p) -> well_behaving 1 n (block_of rule_p).
Proof.
  intros rule_p n H p cs U A L. unfold block_of.
  pose proof (run_pmap _ _ (fun x => let '(opening, decls, rules, close) := x in Block (poffset p) opening decls rules close) _ 1 p
    (block_runs _ _ peek_declaration parse_declaration rule_p n ltac:(intros m Hm; split; [exact (peek_declaration_total m) | split; [apply (well_behaving_weak _ _ 2); [lia | apply parse_declaration_runs] | exact (H m Hm)]]) p cs U A L)) as (r & q & E & M).
  exists r, q. split; [exact E | exact M].
Qed.
Lemma optional_block_runs : forall block_p n, well_behaving 1 n block_p -> well_behaving 0 n (optional_block block_p).
Proof.
  intros block_p n H p cs U A L. apply (run_bind _ _ _ _ 0).
  - apply (run_if_peek _ _ _ p cs A); [exact (peek_kindset_total _ p cs A) |]. intros _. apply (run_weaken _ _ 0 1); [lia |]. exact (H p cs U A L).
  - intros [b |] q _ M; destruct (moved_right _ _ _ M) as (cs1 & A1); [exact (run_ret _ _ q cs1 A1) | apply run_pmap; exact (run_if_kind _ q cs1 A1)].
Qed.
Lemma at_rule_of_runs : forall block_p n, well_behaving 1 n block_p -> well_behaving 1 (S n) (at_rule_of block_p).
Proof.
  intros block_p n H p cs U A L. apply (run_bind _ _ _ _ 1).
  - apply run_in_stop. apply (at_rule_runs _ _ None parse_component_values (optional_block block_p) n (values_run n) (optional_block_runs block_p n H)) with (cs := cs); auto.
  - intros x q _ M. destruct (moved_right _ _ _ M) as (cs1 & A1). apply (run_bind _ _ _ _ 0); [exact (run_if_kind _ q cs1 A1) |]. intros s q1 _ M1. destruct (moved_right _ _ _ M1) as (cs2 & A2).
    destruct x as ((? & ?) & ?). exact (run_ret _ _ q1 cs2 A2).
Qed.
Lemma qualified_rule_of_runs : forall block_p n, well_behaving 1 n block_p -> well_behaving 1 n (qualified_rule_of block_p).
Proof.
  intros block_p n H p cs U A L. apply run_pmap.
  exact (qualified_rule_runs _ _ _ parse_component_values block_p parse_bad_declaration n (values_run n) H (bad_declaration_runs n) p cs U A L).
Qed.
Lemma rule_fuel_runs : forall n k, (k < n)%nat -> well_behaving 1 k (rule_fuel n).
Proof.
  induction n as [| n IH]; intros k Hk; [lia |]. assert (B : well_behaving 1 k (block_of (rule_fuel n))) by (apply block_of_runs; intros m Hm; apply IH; lia).
  intros p cs U A L. cbn [rule_fuel]. apply run_or_peek; [exact (peek_kind_total _ p cs A) | intros _ | intros _].
  - apply (at_rule_of_runs _ k B p cs U A). lia.
  - exact (qualified_rule_of_runs _ k B p cs U A L).
Qed.
Theorem parse_rule_runs : forall n, well_behaving 1 n parse_rule.
Proof. intros n p cs U A L. apply (rule_fuel_runs (sfuel p) (length cs) (sfuel_more p cs A) p cs U A). lia. Qed.
Theorem parse_block_runs : forall n, well_behaving 1 n parse_block.
Proof.
  intros n p cs U A L. apply (block_of_runs (rule_fuel (sfuel p)) (length cs)) with (cs := cs); auto. intros m Hm. apply rule_fuel_runs. pose proof (sfuel_more p cs A). lia.
Qed.
Theorem parse_stylesheet_runs : forall n, well_behaving 0 n parse_stylesheet.
Proof. intro n. apply sheet_runs, parse_rule_runs. Qed.
