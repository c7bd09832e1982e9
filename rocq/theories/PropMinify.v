(* Theorems for C58 (minify and build: the text they write has the tokens of the stylesheet). The model is in Minify.v, the
   vocabulary in SpecMinify.v, SpecRules.v and SpecWritten.v. *)
From Coq Require Import String.
From Coq Require Import List Permutation.
From Verif Require Import Minify SpecSheet SpecLex SpecTrace SpecParser SpecSyntax SpecTraits SpecRules SpecWrite LexTrace ParserProofs ParserProofs3 FaithRules WriteProofs SheetReadable SheetTotal ValuesTotal TokenProofs DimProofs PropValues PropValues2 MinifyProofs SpecMinify SpecWritten SpecValues.
Open Scope N_scope.
Open Scope list_scope.

(* the tree that hdx makes of a text *)
Definition tree_of (src : text) (l : list css_rule) : Prop := exists q, parse_sheet VALUES (parser_new src no_features) = Some (Ok l, q).
(* what the theorems ask of a text: it is valid UTF-8 of less than 4 GiB without NUL and backslash, and of numbers and units that the lexer can hold *)
Definition plain_text (src : text) : Prop := well_behaved false src /\ Forall (fun c => valid_char c = true) src /\ blen src < 4294967295 /\ ~ In 0 src /\ ~ In 92 src.
(* nothing that minifying is known to damage (see SpecMinify.v, and C55 for [whole]) *)
Definition kept_tree (src : text) (l : list css_rule) : Prop :=
  forallb (whole incomplete) l = true /\ Forall (sound src) (sheet_cursors l) /\ separable src (sheet_cursors l).

Lemma entirely_ok : forall src r q, parse_entirely (parse_sheet VALUES) (parser_new src no_features) = Some (r, q) ->
  (exists l, tree_of src l /\ routput r = Some l) \/ (routput r = None /\ rerrors r <> [] /\ ~ exists l, tree_of src l).
Proof.
  intros src r q. unfold parse_entirely, tree_of. destruct (parse_sheet VALUES (parser_new src no_features)) as [[[l | e] p1] |]; [| | discriminate].
  - intro E. left. exists l. split; [eauto |]. destruct (p_at_end p1); [injection E as <- _; reflexivity |]. destruct (peek_next p1) as [c |]; [| discriminate]. destruct (tok_is (ctok c) K_Eof); [injection E as <- _; reflexivity |].
    destruct (drain_loop (pfuel p1) p1); [injection E as <- _; reflexivity | discriminate].
  - intro E. right. assert (X : forall a b : list diag, a ++ b <> [] -> (a ++ b) <> []) by auto.
    assert (Y : routput r = None /\ rerrors r <> []).
    { set (p1' := with_errs p1 (perrs p1 ++ [e])) in E. assert (Z : perrs p1' <> []) by (cbn; destruct (perrs p1); discriminate).
      destruct (p_at_end p1'); [injection E as <- _; split; [reflexivity | exact Z] |]. destruct (peek_next p1') as [c |]; [| discriminate]. destruct (tok_is (ctok c) K_Eof); [injection E as <- _; split; [reflexivity | exact Z] |].
      destruct (drain_loop (pfuel p1') p1') as [p2 |]; [injection E as <- _; split; [reflexivity |]; cbn; destruct (perrs p2); discriminate | discriminate]. }
    destruct Y as (Y1 & Y2). split; [exact Y1 |]. split; [exact Y2 |]. intros (l & q' & Q). discriminate Q.
Qed.
Lemma minify_inv : forall src out, minify src = Some (Some out) -> exists l, tree_of src l /\ fmt_text src (sheet_cursors l) = Some out.
Proof.
  intros src out. unfold minify, parse_source, return_cursors. destruct (parse_entirely (parse_sheet VALUES) (parser_new src no_features)) as [[r q] |] eqn:E; [| discriminate]. cbn [option_map fst].
  destruct (entirely_ok src r q E) as [(l & T & O) | (O & Er & _)]; intro M.
  - exists l. split; [exact T |]. rewrite O in M. destruct (rerrors r); [| discriminate]. destruct (fmt_text src (sheet_cursors l)); [| discriminate]. injection M as ->. reflexivity.
  - exfalso. destruct (rerrors r); [contradiction | discriminate].
Qed.
Lemma tree_unique : forall src l l', tree_of src l -> tree_of src l' -> l' = l.
Proof. intros src l l' (q & E) (q' & E'). rewrite E in E'. injection E' as <- _. reflexivity. Qed.
Lemma emitted_source : forall b all out, emits b all out -> Forall (from_source all) out.
Proof.
  intros b all out (kept & dropped & out0 & M & _ & R & O).
  assert (I : forall c, In c kept -> In c all) by (clear - M; induction M as [| x a b c M IH | x a b c M IH]; intros d Id; [destruct Id | destruct Id as [<- | Id]; [now left | right; auto] | right; auto]).
  assert (F0 : Forall (from_source all) out0) by (clear - R I; induction R as [| a e k o Ra R IH]; constructor; [exists a; split; [apply I; now left | exact Ra] | apply IH; intros c Ic; apply I; now right]).
  destruct b; [| now subst]. rewrite Forall_forall in *. intros c Ic. apply F0. apply (Permutation_in c (Permutation_sym O) Ic).
Qed.
Lemma rendered_lasting : forall src out prev cs cs', rendered src out prev cs cs' -> Forall2 same_token (filter is_lasting (map ctok cs)) (filter is_lasting (map ctok cs')).
Proof.
  assert (W : forall c, is_white c -> is_lasting (ctok c) = false) by (intros c K; destruct (is_lasting (ctok c)) eqn:L; [| reflexivity]; apply lasting_spec in L; exfalso; apply L; left; symmetry; exact K).
  assert (Sp : is_lasting space_token = false) by exact (W (Cursor 0 space_token) eq_refl).
  intros src out prev cs cs' R. induction R as [prev | prev c r c' r' sep Nw Se (Sm & _) R IH | prev ws r c' r' texts w Fw Mx Tx Wc St R IH].
  - constructor.
  - rewrite map_app, filter_app, Se. cbn [map filter].
    assert (Z : filter is_lasting (map (fun _ : text => space_token) (separator_before prev (ctok c))) = []) by (clear - Sp; induction (separator_before prev (ctok c)) as [| x y IHs]; [reflexivity |]; cbn [map filter]; rewrite Sp; exact IHs). rewrite Z. cbn [app].
    assert (L : is_lasting (ctok c') = is_lasting (ctok c)). { unfold is_lasting. destruct Sm as [(_ & K & _) | ->]; [now rewrite K | reflexivity]. }
    rewrite L. destruct (is_lasting (ctok c)); [constructor; assumption | exact IH].
  - cbn [map]. rewrite map_app. cbn [filter]. rewrite filter_app. inversion Fw as [| ? ? Ww Fws]; subst. rewrite (W w Ww), (W c' Wc).
    assert (Z : filter is_lasting (map ctok ws) = []) by (clear - Fws W; induction Fws as [| x y Wx F IHs]; [reflexivity |]; cbn [map filter]; rewrite (W x Wx); exact IHs). rewrite Z. exact IH.
Qed.

(* ---- C58 ---- *)
(* the text that minify returns, read again: its tokens are those of the tree, one for one and spelled as they were, but for numbers and
   dimensions, which keep value, unit and sign; there is a space where needs_separator_for asks for one, and whitespace next to
   whitespace is one token. The tokens of the tree are those of the stylesheet but for whitespace, comments, semicolons and <!-- -->,
   in their order unless the tree is [mixed] *)
Theorem C58_minified_partial : forall src out l, plain_text src -> minify src = Some (Some out) -> tree_of src l -> kept_tree src l -> well_behaved false out ->
  exists cs cs', lex src no_features = Some cs /\ lex out no_features = Some cs' /\ emits (existsb (mixed reordered) l) cs (sheet_cursors l) /\ rendered src out None (sheet_cursors l) cs'.
Proof.
  intros src out l (WB & VC & LT & NZ & NB) M T (Wh & So & Sp) WBo. destruct (minify_inv src out M) as (l' & T' & Fm). rewrite (tree_unique _ _ _ T T') in Fm.
  destruct (lex_trace src no_features WB) as (cs & EL & _). destruct T as (q & T). pose proof (C55_stylesheet_written_partial src no_features cs l q WB EL T Wh) as Em.
  destruct (written_tokens src cs (sheet_cursors l) out WB VC LT NZ NB EL (emitted_source _ _ _ Em) So Sp Fm WBo) as (cs' & EL' & R). exists cs, cs'. auto.
Qed.
Print Assumptions C58_minified_partial.
(* so: no token but whitespace, comments, semicolons and <!-- --> is lost, made up or changed, and the others stand in their order *)
Theorem C58_no_token_lost_partial : forall src out l, plain_text src -> minify src = Some (Some out) -> tree_of src l -> kept_tree src l -> well_behaved false out ->
  exists cs cs' ts, lex src no_features = Some cs /\ lex out no_features = Some cs' /\
    Permutation ts (filter is_lasting (map ctok cs)) /\ (existsb (mixed reordered) l = false -> ts = filter is_lasting (map ctok cs)) /\
    Forall2 same_token ts (filter is_lasting (map ctok cs')).
Proof.
  intros src out l P M T K WBo. destruct (C58_minified_partial src out l P M T K WBo) as (cs & cs' & E1 & E2 & Em & R). exists cs, cs', (filter is_lasting (map ctok (sheet_cursors l))).
  split; [exact E1 |]. split; [exact E2 |]. destruct (emits_lasting _ _ _ Em) as (A & B). split; [exact A |]. split; [exact B |]. exact (rendered_lasting _ _ _ _ _ R).
Qed.
Print Assumptions C58_no_token_lost_partial.
(* minify and build come back for the texts of C52, and refuse a text that has no tree *)
Theorem C58_minify_returns_partial : forall src cs, acceptable src no_features cs -> blen src < 4294967295 -> (forall l, tree_of src l -> forallb (whole incomplete) l = true) ->
  (exists m, minify src = Some m) /\ (exists b, build src = Some b) /\
  ((~ exists l, tree_of src l) -> minify src = Some None /\ exists e errs, build src = Some (inl (e :: errs))).
Proof.
  intros src cs A LT Wh. destruct (entirely_returns VALUES values_sensible src no_features _ cs (acceptable_stands src no_features cs A)) as (r & q & E).
  destruct A as (WB & NZ & VC & _ & _ & EL & _).
  unfold minify, build, parse_source, return_cursors. rewrite E. cbn [option_map fst]. destruct (entirely_ok src r q E) as [(l & T & O) | (O & Er & Nt)].
  - assert (F : exists out, fmt_text src (sheet_cursors l) = Some out).
    { destruct (source_write src no_features WB VC LT) as (cs0 & texts & EL0 & _ & F2). rewrite EL in EL0. injection EL0 as <-.
      pose proof T as (q' & T'). pose proof (emitted_source _ _ _ (C55_stylesheet_written_partial src no_features cs l q' WB EL T' (Wh l T))) as Fs.
      assert (Wr : forall c, In c (sheet_cursors l) -> exists s, write_str c src = Some s).
      { intros c I. rewrite Forall_forall in Fs. destruct (Fs c I) as (c0 & I0 & Re). assert (W0 : exists s, write_str c0 src = Some s) by (clear - F2 I0; induction F2 as [| x p y z (_ & H & _) F IH]; [destruct I0 | destruct I0 as [<- | I0]; [exact H | exact (IH I0)]]).
        destruct Re as [-> | (Et & Br)]; [exact W0 | rewrite (bracket_write src c c0 Et Br); exact W0]. }
      assert (It : exists items, Forall2 (fun c it => fst it = ctok c /\ write_str c src = Some (snd it)) (sheet_cursors l) items).
      { clear - Wr. induction (sheet_cursors l) as [| c y IH]; [exists []; constructor |]. destruct IH as (items & F); [intros d Id; apply Wr; now right |]. destruct (Wr c (or_introl eq_refl)) as (s & W). exists ((ctok c, s) :: items). constructor; [split; [reflexivity | exact W] | exact F]. }
      destruct It as (items & It). rewrite (fmt_text_joined src _ items It). eauto. }
    rewrite O. destruct F as (out & F). rewrite F. cbn [option_map]. split; [destruct (rerrors r); eauto |]. split; [eauto |]. intro Nt. exfalso. apply Nt. eauto.
  - rewrite O. destruct (rerrors r) as [| e errs]; [contradiction |]. split; [eauto |]. split; [eauto |]. intros _. split; [reflexivity | eauto].
Qed.
Print Assumptions C58_minify_returns_partial.
(* what build writes is what minify returns *)
Theorem C58_build_is_minify : forall src out, minify src = Some (Some out) -> build src = Some (inr out).
Proof.
  intros src out M. destruct (minify_inv src out M) as (l & T & F). unfold minify, build, parse_source, return_cursors in *. destruct (parse_entirely (parse_sheet VALUES) (parser_new src no_features)) as [[r q] |] eqn:E; [| discriminate M]. cbn [option_map fst] in *.
  destruct (entirely_ok src r q E) as [(l' & T' & O) | (_ & _ & Nt)]; [| exfalso; apply Nt; eauto]. rewrite O. rewrite (tree_unique _ _ _ T T'), F. reflexivity.
Qed.
Print Assumptions C58_build_is_minify.
(* what is left out is left out with reason: two lengths become one, a sign is lost, and the text may get longer *)
Theorem C58_damage_refuted :
  map (fun s => minify (chars s)) ["a{margin:1px -0px}"; "a{margin:1px +2px}"; "a{b:+1px}"; "a{b:1e30}"]%string =
  map (fun s => Some (Some (chars s))) ["a{margin:1px-0px}"; "a{margin:1px2px}"; "a{b:1px}"; "a{b:1000000000000000000000000000000}"]%string.
Proof. vm_compute. reflexivity. Qed.
Print Assumptions C58_damage_refuted.
Theorem C58_merged_refuted : exists src out cs cs', plain_text src /\ minify src = Some (Some out) /\ lex src no_features = Some cs /\ lex out no_features = Some cs' /\
  map (fun c => tkind (ctok c)) cs = [K_Ident; K_LeftCurly; K_Ident; K_Colon; K_Dimension; K_Whitespace; K_Dimension; K_RightCurly] /\
  map (fun c => tkind (ctok c)) cs' = [K_Ident; K_LeftCurly; K_Ident; K_Colon; K_Dimension; K_RightCurly].
Proof.
  exists (chars "a{margin:1px -0px}"), (chars "a{margin:1px-0px}"). eexists _, _. split; [split; [apply ordinary_spec; vm_compute; reflexivity |] |].
  - split; [repeat (constructor; [reflexivity |]); constructor |]. split; [vm_compute; reflexivity |]. split; cbn; intuition discriminate.
  - split; [vm_compute; reflexivity |]. split; [vm_compute; reflexivity |]. split; [vm_compute; reflexivity |]. split; vm_compute; reflexivity.
Qed.
Print Assumptions C58_merged_refuted.
(* ---- a case ---- *)
Definition kinds : kind -> list kind -> bool := kind_in.
Lemma kinds_spec : forall k ks, kinds k ks = true <-> In k ks.
Proof.
  intros k ks. unfold kinds, kind_in. rewrite existsb_exists. split; [intros (x & I & E) | intro I; exists k; split; [exact I | destruct k; reflexivity]].
  assert (k = x) by (destruct k, x; try discriminate E; reflexivity). subst. exact I.
Qed.
Definition finite_check (v : N) : bool := (v <? 4294967296) && (v mod 2147483648 <? 2139095040).
Lemma finite_check_ok : forall v, finite_check v = true -> SpecWrite.finite_f32 v.
Proof. intros v H. unfold finite_check in H. apply andb_prop in H. destruct H as (A & B). apply N.ltb_lt in A, B. split; assumption. Qed.
Definition sound_check (src : text) (c : cursor) : bool :=
  let t := ctok c in
  (negb (kinds (kind_of c) [K_String; K_Url; K_BadUrl; K_Comment]) || (coff c + tlen t <? blen src)) && negb (kinds (kind_of c) [K_BadString]) &&
  (negb (kinds (kind_of c) [K_Number]) || finite_check (tvalue t)) &&
  (negb (kinds (kind_of c) [K_Dimension]) || unit_eqb (dimension_unit t) U_Unknown ||
    finite_check (tvalue t) && negb (unit_eqb (dimension_unit t) U_Svmin) && negb (unit_eqb (dimension_unit t) U_Svmax) && (negb (has_sign t) || N.testbit (tvalue t) 31)).
Lemma sound_check_ok : forall src c, sound_check src c = true -> sound src c.
Proof.
  intros src c H. unfold sound_check in H. apply andb_prop in H. destruct H as (H & H4). apply andb_prop in H. destruct H as (H & H3). apply andb_prop in H. destruct H as (H1 & H2).
  assert (E : forall ks, In (kind_of c) ks -> negb (kinds (kind_of c) ks) = false) by (intros ks I; apply kinds_spec in I; now rewrite I).
  constructor.
  - intro I. rewrite (E _ I) in H1. now apply N.ltb_lt.
  - intro K. rewrite (E [K_BadString]) in H2; [discriminate | left; auto].
  - intro K. rewrite (E [K_Number]) in H3; [| left; auto]. now apply finite_check_ok.
  - intros K U. rewrite (E [K_Dimension]) in H4; [| left; auto]. cbn [orb] in H4. apply orb_prop in H4. destruct H4 as [H4 | H4]; [apply unit_unknown in H4; contradiction |].
    apply andb_prop in H4. destruct H4 as (H4 & D). apply andb_prop in H4. destruct H4 as (H4 & C). apply andb_prop in H4. destruct H4 as (A & B).
    split; [now apply finite_check_ok |]. split; [intro Q; rewrite Q in B; discriminate B |]. split; [intro Q; rewrite Q in C; discriminate C |]. intro S. rewrite S in D. exact D.
Qed.
Definition text_starts (src : text) (c : cursor) (ch : N) : bool := match write_str c src with Some (x :: _) => x =? ch | _ => false end.
Definition clear_check (src : text) (c1 c2 : cursor) : bool :=
  let st ch := negb (text_starts src c2 ch) in
  (negb (kinds (kind_of c1) [K_Ident; K_AtKeyword; K_Hash; K_Dimension]) || st 45) &&
  match write_str c1 src with
  | Some s => (negb (existsb (fun x => (x =? 101) || (x =? 69)) s) || st 43) && (if list_eq_dec N.eq_dec s [45; 45] then st 62 else true) && (if list_eq_dec N.eq_dec s [60] then st 33 else true) &&
      (negb (kinds (kind_of c1) [K_Function]) || kinds (kind_of c2) [K_String] || match lexer_advance (Lexer ([] ++ s) (blen []) T_EOF no_features) with Some (t, _) => negb (kinds (tkind t) [K_Url]) | None => false end)
  | None => true
  end.
Lemma clear_check_ok : forall src c1 c2, clear_check src c1 c2 = true -> clear src c1 c2.
Proof.
  intros src c1 c2 H. unfold clear_check in H. apply andb_prop in H. destruct H as (H1 & H2).
  assert (St : forall ch, negb (text_starts src c2 ch) = true -> ~ written_starts src c2 ch) by (intros ch Q (r & E); unfold text_starts in Q; rewrite E, N.eqb_refl in Q; discriminate Q).
  constructor.
  - intro Nl. apply St. apply orb_prop in H1. destruct H1 as [H1 | H1]; [| exact H1]. exfalso. apply negb_true_iff in H1. assert (X : kinds (kind_of c1) [K_Ident; K_AtKeyword; K_Hash; K_Dimension] = true) by (apply kinds_spec; destruct Nl as [Nl | (Nl & _)]; [cbn in *; tauto | rewrite Nl; cbn; tauto]). congruence.
  - intros (n & e & E & _ & He). rewrite E in H2. apply St. repeat (apply andb_prop in H2; destruct H2 as (H2 & _)). apply orb_prop in H2. destruct H2 as [H2 | H2]; [| exact H2]. exfalso. apply negb_true_iff in H2.
    rewrite existsb_app in H2. apply orb_false_iff in H2. destruct H2 as (_ & H2). cbn [existsb] in H2. destruct He as [-> | ->]; discriminate H2.
  - intro E. rewrite E in H2. apply St. apply andb_prop in H2. destruct H2 as (H2 & _). apply andb_prop in H2. destruct H2 as (H2 & _). apply andb_prop in H2. destruct H2 as (_ & H2). exact H2.
  - intro E. rewrite E in H2. apply St. apply andb_prop in H2. destruct H2 as (H2 & _). apply andb_prop in H2. destruct H2 as (_ & H2). exact H2.
  - intros s K E (t & T & Kt). rewrite E in H2. apply andb_prop in H2. destruct H2 as (_ & H2). apply orb_prop in H2. destruct H2 as [H2 | H2].
    + apply orb_prop in H2. destruct H2 as [H2 | H2]; [exfalso; rewrite K in H2; discriminate H2 |]. apply kinds_spec in H2. destruct H2 as [H2 | []]. symmetry. exact H2.
    + exfalso. destruct (T T_EOF) as (x & Q). rewrite Q in H2. rewrite Kt in H2. discriminate H2.
Qed.
Fixpoint separable_check (src : text) (cs : list cursor) : bool :=
  match cs with
  | [] => true
  | c :: r => match r with [] => negb (kinds (kind_of c) [K_Function]) | d :: _ => needs_separator_for (ctok c) (ctok d) || clear_check src c d end && separable_check src r
  end.
Lemma separable_check_ok : forall src cs, separable_check src cs = true -> separable src cs.
Proof.
  intros src cs. induction cs as [| c r IH]; intro H; [split; intros; destruct a; discriminate |].
  cbn [separable_check] in H. apply andb_prop in H. destruct H as (H1 & H2). destruct (IH H2) as (A & B). split.
  - intros [| x a] c1 c2 b E Ns; [| injection E as <- E; exact (A a c1 c2 b E Ns)]. injection E as <- ->. rewrite Ns in H1. exact (clear_check_ok _ _ _ H1).
  - intros [| x a] d E; [| injection E as <- E; exact (B a d E)]. injection E as <- ->. intro K. rewrite K in H1. discriminate H1.
Qed.
Definition case_minify : text := chars "@media screen and (min-width:4px) { a /* x */ b { margin: -1.50px -2px; width: calc(1.0px + 2E3px); color: red } }
.c > d:is(e, #f)::before { background: url(g.png); float: left; b: 1.0 +1.50 ""s"" 7foo }
@keyframes k { from { top: 0 } 50% { top: 1px } }".
Definition case_minified : text := chars "@media screen and (min-width:4px){a  b{margin:-1.5px -2px;width: calc(1px + 2000px);color:red}}.c > d:is(e,#f)::before{background: url(g.png);float:left;b: 1 +1.5 ""s"" 7foo}@keyframes k{from{top:0}50%{top:1px}}".
Definition case_tree : list css_rule := sheet_of case_minify.
Example C58_case : plain_text case_minify /\ minify case_minify = Some (Some case_minified) /\ tree_of case_minify case_tree /\ List.length case_tree = 3%nat /\
  kept_tree case_minify case_tree /\ well_behaved false case_minified /\ existsb (mixed reordered) case_tree = false.
Proof.
  split; [split; [apply ordinary_spec; vm_compute; reflexivity |]; split; [apply Forall_forall; intros c I; assert (X : forallb valid_char case_minify = true) by (vm_compute; reflexivity); rewrite forallb_forall in X; exact (X c I) |]; split; [vm_compute; reflexivity |] |].
  - assert (X : forallb (fun c => negb ((c =? 0) || (c =? 92))) case_minify = true) by (vm_compute; reflexivity). rewrite forallb_forall in X. split; intro I; specialize (X _ I); discriminate X.
  - split; [vm_compute; reflexivity |]. split; [eexists; vm_compute; reflexivity |]. split; [vm_compute; reflexivity |]. split; [| split; [apply ordinary_spec; vm_compute; reflexivity | vm_compute; reflexivity]].
    split; [vm_compute; reflexivity |]. split; [| apply separable_check_ok; vm_compute; reflexivity].
    apply Forall_forall. intros c I. apply sound_check_ok. assert (X : forallb (sound_check case_minify) (sheet_cursors case_tree) = true) by (vm_compute; reflexivity). rewrite forallb_forall in X. exact (X c I).
Qed.
