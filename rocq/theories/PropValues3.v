(* Theorems for C56 (a property accepts only values of its definition). The vocabulary is in SpecConforms.v. *)
From Coq Require Import String.
From Coq Require Import List Permutation Lia.
From Verif Require Import LexTrace AstSheet Values SpecSheet SpecLex SpecTrace SpecParser SpecSyntax SpecTraits SpecRules KindProofs LexTrace CursorProofs LexBase LexFacts ParserProofs ParserProofs3 CompareProofs FaithProofs FaithTraits FaithRules Goes SheetTotal Tells Tells4 ValuesTotal ValuesTold PropWritten PropValues SpecWritten SpecValues
  ParserProofs2 SpecConforms ValuesConform ValuesConform2 ValuesConform3.
Open Scope N_scope.
Open Scope list_scope.

Lemma property_value : forall name value_p, In (name, value_p) VALUES -> exists r d t, In r VALUE_TABLE /\ property_name (chars (fst r)) = Some name /\ parse_def (chars (snd r)) = Some d /\ css_def (chars (snd r)) = Some d /\
  generate leaf_ty (value_ty 4) d = Some t /\ value_p = ty_parse t /\ enforced name = enforced_def (enforced_at 4) d.
Proof.
  assert (M : forallb (fun r => match map_get NAMED_TYPES (chars (fst r)) with Some _ => false | None => match map_get VALUE_DEFS (chars (fst r)), parse_def (chars (snd r)) with Some (Some _), Some _ => true | _, _ => false end end) VALUE_TABLE = true) by (vm_compute; reflexivity).
  assert (U : NoDup (map fst VALUE_DEFS)) by (apply distinct_spec; vm_compute; reflexivity).
  intros name value_p I. unfold VALUES in I. apply in_flat_map in I. destruct I as (r & Ir & I). destruct (property_name (chars (fst r))) as [n |] eqn:Ew; [| destruct I]. destruct (value_ty 5 (chars (fst r))) as [t |] eqn:Et; [| destruct I]. destruct I as [E | []].
  pose proof (f_equal fst E) as E1. pose proof (f_equal snd E) as E2. cbn [fst snd] in E1, E2. subst n value_p. clear E. rewrite forallb_forall in M. specialize (M r Ir). cbv beta in M.
  pose proof all_marked as K. rewrite forallb_forall in K. specialize (K r Ir). cbv beta in K. rewrite Ew in K. apply Bool.eqb_prop in K. cbn [value_ty] in Et. cbn [enforced_at] in K.
  destruct (map_get NAMED_TYPES (chars (fst r))); [discriminate M |]. destruct (map_get VALUE_DEFS (chars (fst r))) as [[d |] |] eqn:Ed; try discriminate M.
  assert (Pd : parse_def (chars (snd r)) = Some d).
  { apply map_get_in in Ed. clear - Ed Ir U. assert (I2 : In (chars (fst r), parse_def (chars (snd r))) VALUE_DEFS) by (unfold VALUE_DEFS; apply in_map_iff; exists r; auto). revert U Ed I2. generalize (chars (fst r)) (parse_def (chars (snd r))). clear. intros k v.
    induction VALUE_DEFS as [| (k0, v0) l IH]; intros U A B; [destruct A |]. cbn [map fst] in U. apply NoDup_cons_iff in U. destruct U as (N & U). destruct A as [A | A], B as [B | B]; try congruence; [| | exact (IH U A B)].
    - injection A as -> ->. elim N. apply in_map_iff. exists (k, v). auto.
    - injection B as -> ->. elim N. apply in_map_iff. exists (k, Some d). auto. }
  exists r, d, t. split; [exact Ir |]. split; [exact Ew |]. split; [exact Pd |]. split; [rewrite (maps_agree _ _ _ _ _ _ same_readings Ir); exact Pd |]. split; [exact Et |]. split; [reflexivity | exact K].
Qed.
Lemma value_reads : forall name value_p src f, In (name, value_p) VALUES -> exists s d, defines name s /\ css_def s = Some d /\ tells src f value_p (fun _ u => conforms src (enforced name) d (bare u)).
Proof.
  intros name value_p src f I. destruct (property_value name value_p I) as (r & d & t & Ir & Ew & Pd & Cd & G & -> & K). exists (chars (snd r)), d. split; [exists r; auto |]. split; [exact Cd |].
  apply (row_conforms src f (enforced name) 4 (value_conforms src f (enforced name) 4) r d t Ir Pd G). rewrite K. auto.
Qed.

(* ---- C56 ---- *)
(* the definition of each property, read with the precedences of the value definition syntax, is the one its parser was made of *)
Theorem C56_definitions_read : Forall (fun r => exists d, css_def (chars (snd r)) = Some d /\ parse_def (chars (snd r)) = Some d) VALUE_TABLE.
Proof.
  apply Forall_forall. intros r I. pose proof (maps_agree _ _ _ _ _ _ same_readings I) as X. cbv beta in X. pose proof C54_every_definition_compiles as (C & _). rewrite Forall_forall in C. destruct (C r I) as (N & _). destruct (parse_def (chars (snd r))) as [d |]; [| elim N; reflexivity]. exists d. split; [exact X | reflexivity].
Qed.
Print Assumptions C56_definitions_read.
(* what the parser of a property accepted, wherever it was run, is a value of the definition of that property: whitespace and comments
   aside, the tokens it went over conform to it. Its ranges are not enforced in the properties of UNENFORCED *)
Theorem C56_value_conforms_partial : forall name value_p, In (name, value_p) VALUES -> forall p cs l q, ahead (plex p) cs -> skips_trivia p -> value_p p = Some (Ok l, q) ->
  exists used rest s d, cs = used ++ rest /\ ahead (plex q) rest /\ defines name s /\ css_def s = Some d /\ conforms (lsrc (plex p)) (enforced name) d (bare used).
Proof.
  intros name value_p I p cs l q A T E. destruct (value_reads name value_p (lsrc (plex p)) (lfeat (plex p)) I) as (s & d & D & C & K). destruct (K p cs (conj eq_refl (conj eq_refl (conj A T))) _ _ E) as (u & rest & Ec & (_ & _ & A' & _) & X).
  exists u, rest, s, d. repeat (split; [assumption |]). exact (X l eq_refl).
Qed.
Print Assumptions C56_value_conforms_partial.
(* a declaration is given a value of its property only for such tokens: the text after the colon was a value of the definition of the
   property that the name names, without regard to case *)
Theorem C56_declared_value_conforms_partial : forall p cs name w l q, ahead (plex p) cs -> skips_trivia p -> parse_style_value VALUES name p = Some (Ok (SvKnown w l), q) ->
  exists used rest s d, cs = used ++ rest /\ ahead (plex q) rest /\ parse_str_lower name (lsrc (plex p)) = Some w /\ defines w s /\ css_def s = Some d /\ conforms (lsrc (plex p)) (enforced w) d (bare used).
Proof.
  intros p cs name w l q A T E. set (src := lsrc (plex p)) in *. set (f := lfeat (plex p)) in *. assert (O : onto src f p cs) by (split; [reflexivity |]; split; [reflexivity |]; split; assumption).
  assert (K : tells src f (parse_style_value VALUES name) (fun v u => match v with SvKnown w _ => parse_str_lower name src = Some w /\ exists s d, defines w s /\ css_def s = Some d /\ conforms src (enforced w) d (bare u) | _ => True end)).
  { clear w l q A T E O. clearbody src f. clear p cs. intros p cs O. unfold parse_style_value. destruct (is_dashed_ident (ctok name)).
    { apply tv_pmap. eapply tv_use; [exact O | exact (w_free src f) |]. intros v u K. exact Logic.I. }
    eapply tv_bind; [exact O | apply tells_if_peek, tells_set; discriminate |]. intros [w |] u q r E Oq K; cbv beta iota in K; [apply tv_ok; [exact Oq | exact Logic.I] |].
    subst u. cbn [app]. apply tv_or_peek; intro Pk; [apply tv_pmap; eapply tv_use; [exact Oq | exact (w_free src f) |]; intros v u K; exact Logic.I |].
    match goal with |- tv _ _ r ?K _ => assert (Fb : forall q2 r2, onto src f q2 r2 -> tv src f r K (fallback_value (checkpoint q) q2)) end.
    { intros q2 r2 O2. pose proof (onto_back src f _ _ _ _ Oq O2) as O3. unfold fallback_value. destruct (peek peek_computed q2) as [[] |]; [| | apply tv_none]; apply tv_pmap; (eapply tv_use; [exact O3 | exact (w_free src f) |]; intros v u K; exact Logic.I). }
    destruct (tok_is (ctok name) K_Ident); [| exact (Fb q r Oq)]. unfold look_up. destruct (parse_str_lower name (lsrc (plex q))) as [w |] eqn:Ew; [| apply tv_none]. destruct (map_get VALUES w) as [m |] eqn:Mg; [| exact (Fb q r Oq)].
    apply map_get_in in Mg. destruct (value_reads w m src f Mg) as (s & d & D & C & R). destruct (m q) as [[[l | e] q2] |] eqn:Em; [| | apply tv_none]; destruct (R q r Oq _ _ Em) as (u2 & r2 & E2 & O2 & K2); [| exact (Fb q2 r2 O2)]. specialize (K2 l eq_refl).
    destruct (value_ends q2) as [[] |]; [| exact (Fb q2 r2 O2) | apply tv_none]. pose proof (proj1 O2) as S2. pose proof (proj1 Oq) as S1. rewrite S1 in Ew. replace (parse_str_lower name (lsrc (plex q2))) with (Some w) by (rewrite S2, Ew; reflexivity). apply (tv_shift _ _ _ _ u2 r2 _ _ E2). apply tv_ok; [exact O2 |]. cbv beta iota. rewrite app_nil_r. split; [exact Ew |]. exists s, d. auto. }
  destruct (K p cs O _ _ E) as (u & rest & Ec & (_ & _ & A' & _) & X). destruct (X _ eq_refl) as (X1 & s & d & X2 & X3 & X4). exists u, rest, s, d. repeat (split; [assumption |]). exact X4.
Qed.
Print Assumptions C56_declared_value_conforms_partial.

(* ---- the limits ---- *)
(* the ranges of UNENFORCED: negative zooms, radii and margins are accepted *)
Theorem C56_ranges_refuted : known VALUES (chars "a{zoom:-0.5;border-top-left-radius:1px -1px;overflow-clip-margin-top:-1px}") = map (fun s => Some (chars s)) ["zoom"; "border-top-left-radius"; "overflow-clip-margin-top"]%string.
Proof. vm_compute. reflexivity. Qed.
Print Assumptions C56_ranges_refuted.
(* the operators bind as in CSS: whichever two of them stand between three words (every pair of an operator with another or itself) *)
Definition operator (s : dstyle) : list tt := match s with SOrdered => [] | SAllMustOccur => [TtPunct 38 true; TtPunct 38 false] | SOptions => [TtPunct 124 true; TtPunct 124 false] | SAlternatives => [TtPunct 124 false] end.
Definition binding (s : dstyle) : nat := match s with SOrdered => 0 | SAllMustOccur => 1 | SOptions => 2 | SAlternatives => 3 end.
Theorem C56_operators_bind : forall s t a b c, let l := TtIdent a :: operator s ++ TtIdent b :: operator t ++ [TtIdent c] in
  parse_tts (S (tts_size l)) l = css_read (S (tts_size l)) l /\
  css_read (S (tts_size l)) l = Some (match Nat.compare (binding s) (binding t) with
    | Eq => DComb [DIdent a; DIdent b; DIdent c] s
    | Lt => DComb [DComb [DIdent a; DIdent b] s; DIdent c] t
    | Gt => DComb [DIdent a; DComb [DIdent b; DIdent c] t] s end).
Proof. intros s t a b c. destruct s, t; split; reflexivity. Qed.
Print Assumptions C56_operators_bind.
(* that the definitions are read rightly is owed to the table: of others the macro gets the precedences wrong *)
Theorem C56_precedence_refuted : parse_def (chars "a b || c | d") <> css_def (chars "a b || c | d") /\ css_def (chars "a b || c | d") <> None.
Proof. split; vm_compute; discriminate. Qed.
Print Assumptions C56_precedence_refuted.
(* the end of a function may be missing *)
Theorem C56_unclosed_refuted : known VALUES (chars "a{color:rgb(1 2 3}") = [Some (chars "color")].
Proof. vm_compute. reflexivity. Qed.
Print Assumptions C56_unclosed_refuted.

(* ---- cases ---- *)
Definition case_text : text := chars " FIT-content( /* x */ 2px ) ; ".
Example C56_case : exists value_p p cs l q, In (chars "width", value_p) VALUES /\ p = parser_new case_text no_features /\ ahead (plex p) cs /\ skips_trivia p /\ value_p p = Some (Ok l, q).
Proof.
  assert (G : match map_get VALUES (chars "width") with Some m => match m (parser_new case_text no_features) with Some (Ok l, _) => List.length l = 3%nat | _ => False end | None => False end) by (vm_compute; reflexivity).
  destruct (map_get VALUES (chars "width")) as [m |] eqn:Em; [| destruct G]. destruct (m (parser_new case_text no_features)) as [[[l | e] q] |] eqn:E; try destruct G.
  assert (L : exists cs, lex case_text no_features = Some cs) by (eexists; vm_compute; reflexivity). destruct L as (cs & L). exists m, (parser_new case_text no_features), cs, l, q. split; [exact (map_get_in _ _ _ _ Em) |]. split; [reflexivity |].
  split; [apply lex_ahead; [apply ordinary_spec; vm_compute; reflexivity | exact L] |]. split; [| exact E]. intros k Ik. apply kindset_new_spec in Ik. cbn in Ik. intuition.
Qed.
(* the specification tells values from others *)
Definition case_word : text := chars "Left middle".
Example C56_specification : exists l d a b, lex case_word no_features = Some l /\ bare l = [a; b] /\ css_def (chars " left | right | <length> ") = Some d /\ conforms case_word true d [a] /\ ~ conforms case_word true d [b] /\ ~ conforms case_word true d [a; b].
Proof.
  eexists _, (alt [kw "left"; kw "right"; DType (DLength RgNone)]), _, _. split; [vm_compute; reflexivity |]. split; [vm_compute; reflexivity |]. split; [vm_compute; reflexivity |].
  split; [apply (of_one _ _ _ (kw "left")); [left; reflexivity |]; apply of_word; split; [vm_compute; reflexivity | left; vm_compute; reflexivity] |].
  split; intro C; inversion C as [| | | | | | l d cs I K | | | | | | | | | | | |]; subst; destruct I as [<- | [<- | [<- | []]]]; inversion K; subst;
    try match goal with H : word_of _ _ _ _ |- _ => destruct H as (_ & [H | H]); vm_compute in H; discriminate end;
    try match goal with H : type_name _ = Some _ |- _ => discriminate end.
  match goal with H : token_of _ _ _ |- _ => destruct H as [(H & _) | (u & _ & H & _)]; vm_compute in H; discriminate end.
Qed.
