(* The logic of Tells.v for property values: what each parser of VALUES reads conforms to its definition (SpecConforms.v). *)
From Coq Require Import ZifyBool ZifyNat ZifyN Permutation.
From Coq Require Import String.
From Coq Require Import List.
From Verif Require Import AstSheet Values SpecSheet SpecLex SpecTrace SpecParser SpecSyntax SpecTraits SpecRules SpecFeatures SpecCursor SpecToken LexBase TokenProofs KindProofs LexFacts LexTrace CursorProofs CursorLex
  ParserProofs ParserProofs2 ParserProofs3 ParserProofs4 CompareProofs SyntaxProofs SyntaxTotal TraitsTotal RulesTotal FeatureProofs FaithProofs FaithTraits FaithRules Goes Goes2 Goes3 SheetTotal ValuesTotal Tells Tells2 Tells3 ValuesTold SpecConforms.
From Verif Require DimProofs.
Open Scope N_scope.
Open Scope list_scope.
Notation length := List.length.

Section Logic.
Variable src : text.
Variable f : feature.
Variable strict : bool.
Notation tells := (tells src f).
Notation onto := (onto src f).
Notation tv := (tv src f).
Notation solo := (solo (mod_ := false) src f).
Notation conforms := (conforms src strict).
Notation word_of := (word_of src).
Notation token_of := (token_of src).

(* ---- tokens ---- *)
Lemma bare_app : forall a b, bare (a ++ b) = bare a ++ bare b.
Proof. intros a b. unfold bare. apply filter_app. Qed.
Lemma bare_trivia : forall s l, only_trivia s -> Forall (in_kinds s) l -> bare l = [].
Proof.
  intros s l T F. induction F as [| c l I F IH]; [reflexivity |]. unfold bare in *. cbn [filter]. rewrite IH. unfold in_kinds in I. destruct (T _ I) as [E | E].
  - assert (X : tok_is (ctok c) K_Whitespace = true) by (apply tok_is_kind; [apply wf_of_kind; unfold kind_of; rewrite E; discriminate | exact E]). rewrite X. reflexivity.
  - assert (X : tok_is (ctok c) K_Comment = true) by (apply tok_is_kind; [apply wf_of_kind; unfold kind_of; rewrite E; discriminate | exact E]). rewrite X, orb_true_r. reflexivity.
Qed.
Definition lasts (c : cursor) : Prop := kind_of c <> K_Eof /\ kind_of c <> K_Whitespace /\ kind_of c <> K_Comment.
Lemma bare_one : forall c, lasts c -> bare [c] = [c].
Proof.
  intros c (N & W & C). unfold bare. cbn [filter]. destruct (tok_is (ctok c) K_Whitespace) eqn:X; [elim W; exact (kind_is c _ N X) |]. destruct (tok_is (ctok c) K_Comment) eqn:Y; [elim C; exact (kind_is c _ N Y) |]. reflexivity.
Qed.
(* the token that was read: the one that was next *)
Lemma next_bare : forall p cs c q, onto p cs -> next p = Some (c, q) -> exists u rest, cs = u ++ rest /\ onto q rest /\ peek_next p = Some c /\ (ctok c = T_EOF \/ kind_of c <> K_Eof /\ bare u = bare [c]).
Proof.
  intros p cs c q (A & B & C & D) N. destruct (next_total p cs C) as (c1 & q1 & sk & rest & N1 & E & F & St & Hc & _ & A' & Se). rewrite N in N1. injection N1 as <- <-.
  pose proof (peek_next_spec p sk rest) as Pn. rewrite <- E in Pn. specialize (Pn C F St). rewrite <- Hc in Pn.
  destruct Se as (_ & _ & Sk & _ & S1 & S2). assert (O : onto q (tl rest)) by (unfold Tells.onto; rewrite S1, S2, Sk; auto).
  destruct rest as [| d rest]; cbn [tl hd_or_eof] in *.
  - exists sk, []. split; [exact E |]. split; [exact O |]. split; [exact Pn |]. left. subst c. reflexivity.
  - subst d. exists (sk ++ [c]), rest. rewrite <- app_assoc. split; [exact E |]. split; [exact O |]. split; [exact Pn |]. right.
    split; [apply (ahead_kind _ _ C); rewrite E; apply in_or_app; right; now left |]. rewrite bare_app, (bare_trivia _ _ D F). reflexivity.
Qed.
Lemma c_built : forall A k (build : parser -> cursor -> option A), solid k ->
  tells (parse_built k build) (fun a u => exists c p q, bare u = bare [c] /\ kind_of c <> K_Eof /\ k p c = Some true /\ build q c = Some a /\ lsrc (plex p) = src /\ lsrc (plex q) = src).
Proof.
  intros A k build So p cs O. unfold parse_built. destruct (peek k p) as [b |] eqn:Pk; [| apply tv_none]. destruct (next p) as [[c q] |] eqn:N; [| apply tv_none].
  destruct (next_bare p cs c q O N) as (u & rest & -> & Oq & Pn & X). unfold peek in Pk. rewrite Pn in Pk. destruct b.
  - destruct X as [X | (Kc & Em)]; [exfalso; apply (So p (coff c)); rewrite <- Pk; destruct c as [o t]; simpl in X; subst t; reflexivity |]. destruct (build q c) as [x |] eqn:B; [| apply tv_none].
    intros r q' E. injection E as <- <-. exists u, rest. split; [reflexivity |]. split; [exact Oq |]. intros a E. injection E as <-. exists c, p, q. destruct O as (Os & _). pose proof Oq as (Oqs & _). repeat (split; [assumption |]). exact Oqs.
  - apply (tv_fails _ _ _ _ _ _ _ rest Oq). eauto.
Qed.
(* [means k T]: the tokens that the peeker accepts are as T says *)
Definition means (k : peeker) (T : cursor -> Prop) : Prop := forall p c, lsrc (plex p) = src -> kind_of c <> K_Eof -> k p c = Some true -> T c.
Lemma c_single : forall A k (g : cursor -> A) T, solid k -> means k T -> (forall c, T c -> lasts c) -> tells (parse_single k g) (fun a u => exists c, a = g c /\ bare u = [c] /\ T c).
Proof.
  intros A k g T So M L. change (parse_single k g) with (parse_built k (fun _ c => Some (g c))). eapply tells_imp; [apply c_built; exact So |]. intros a u (c & p & q & Em & Kc & Pk & B & S1 & _). injection B as <-. pose proof (M p c S1 Kc Pk) as X. exists c. split; [reflexivity |]. split; [| exact X]. rewrite Em. apply bare_one. exact (L c X).
Qed.
Lemma c_one : forall k T, solid k -> means k T -> (forall c, T c -> lasts c) -> tells (one k) (fun l u => exists c, l = [c] /\ bare u = [c] /\ T c).
Proof. intros k T So M L p cs O. unfold one. apply tv_pmap. eapply tv_use; [exact O | exact (c_single _ k (fun c => c) T So M L) |]. intros a u (c & -> & E & X). exists c. auto. Qed.
Lemma means_imp : forall k (T T' : cursor -> Prop), means k T -> (forall c, T c -> T' c) -> means k T'.
Proof. intros k T T' M X p c S N E. exact (X c (M p c S N E)). Qed.
Lemma means_kind : forall k, means (peek_kind k) (fun c => kind_of c = k).
Proof. intros k p c S N E. unfold peek_kind in E. apply some_inj in E. exact (kind_is c k N E). Qed.
Lemma means_delim : forall ch, means (peek_delim ch) (fun c => kind_of c = K_Delim /\ tok_is_char (ctok c) ch = true).
Proof. intros ch p c S N E. unfold peek_delim in E. apply some_inj in E. apply andb_prop in E. split; [exact (kind_is c _ N (proj1 E)) | apply E]. Qed.
Lemma means_dashed : means peek_dashed_ident (fun c => kind_of c = K_Ident /\ is_dashed_ident (ctok c) = true).
Proof. intros p c S N E. unfold peek_dashed_ident in E. apply some_inj in E. apply andb_prop in E. split; [exact (kind_is c _ N (proj1 E)) | apply E]. Qed.
Lemma means_set : forall V k (m : list (text * V)), means (peek_set k m) (fun c => exists w v, In (w, v) m /\ word_of k w c).
Proof.
  intros V k m p c S N E. unfold peek_set in E. destruct (tok_is (ctok c) k) eqn:T; [| discriminate]. unfold look_up in E. rewrite S in E. destruct (parse_str_lower c src) as [w |] eqn:L; [| discriminate].
  destruct (map_get m w) as [v |] eqn:Mg; [| discriminate]. exists w, v. split; [exact (map_get_in _ _ _ _ Mg) |]. split; [exact (kind_is c k N T) | left; exact L].
Qed.
Lemma means_words : forall k l, means (peek_set k (words l)) (fun c => exists w, In w l /\ word_of k w c).
Proof.
  intros k l. eapply means_imp; [apply means_set |]. intros c (w & v & I & W). exists w. split; [| exact W]. unfold words in I. apply in_map_iff in I. destruct I as (x & E & I). injection E as -> ->. exact I.
Qed.
Lemma means_named : forall k w, means (peek_named k w) (word_of k w).
Proof. intros k w p c S N E. unfold peek_named in E. destruct (tok_is (ctok c) k) eqn:T; [| discriminate]. rewrite S in E. split; [exact (kind_is c k N T) | right; exact E]. Qed.
Lemma means_unit : forall u, means (peek_dimension u (unit_str u)) (has_unit src u).
Proof.
  intros u p c S N E. unfold peek_dimension in E. destruct (tok_is (ctok c) K_Dimension) eqn:T; [| discriminate]. split; [exact (kind_is c _ N T) |]. destruct (unit_eqb (dimension_unit (ctok c)) u) eqn:U; [left; apply DimProofs.unit_eqb_eq; exact U |]. rewrite S in E. right. exact E.
Qed.
Lemma means_any : forall l T, Forall (fun k => means k T) l -> means (any_peek l) T.
Proof.
  intros l T F. induction F as [| k l M F IH]; intros p c S N E; cbn [any_peek] in E; [discriminate |]. destruct (k p c) as [[] |] eqn:X; [exact (M p c S N X) | exact (IH p c S N E) | discriminate].
Qed.
Lemma means_units : forall l, means (any_peek (map (fun u => peek_dimension u (unit_str u)) l)) (fun c => exists u, In u l /\ has_unit src u c).
Proof.
  intro l. apply means_any. apply Forall_forall. intros k I. apply in_map_iff in I. destruct I as (u & <- & I). eapply means_imp; [apply means_unit |]. intros c X. eauto.
Qed.
Lemma means_zero_or : forall k T, means k T -> means (fun p c => if tok_is (ctok c) K_Number && f32_is_zero (tvalue (ctok c)) then Some true else k p c) (fun c => zero c \/ T c).
Proof.
  intros k T M p c S N E. cbv beta in E. destruct (tok_is (ctok c) K_Number && f32_is_zero (tvalue (ctok c))) eqn:Z; [| right; exact (M p c S N E)]. apply andb_prop in Z. left. split; [exact (kind_is c _ N (proj1 Z)) | apply Z].
Qed.
Lemma means_length : forall r, means peek_length (token_of (DLength r)).
Proof. intro r. exact (means_zero_or _ _ (means_units LENGTH_UNITS)). Qed.
Lemma means_lp : forall r, means peek_length_percentage (token_of (DLengthPercentage r)).
Proof. intro r. exact (means_zero_or _ _ (means_units (U_Percent :: LENGTH_UNITS))). Qed.
Lemma means_percent : means peek_percent (has_unit src U_Percent).
Proof. exact (means_unit U_Percent). Qed.
Lemma means_texts : forall k l, means (peek_set k (words (map chars l))) (fun c => exists w, In w l /\ word_of k (chars w) c).
Proof. intros k l. eapply means_imp; [apply means_words |]. intros c (w & I & W). apply in_map_iff in I. destruct I as (s & <- & I). eauto. Qed.
Lemma means_angle : forall r, means peek_angle (token_of (DAngle r)).
Proof. intro r. exact (means_texts K_Dimension _). Qed.
Lemma means_time : forall r, means peek_time (token_of (DTime r)).
Proof. intro r. exact (means_zero_or _ _ (means_texts K_Dimension ["s"; "ms"]%string)). Qed.
Lemma means_resolution : forall r, means (peek_set K_Dimension (words (map chars ["dpi"; "dpcm"; "dppx"]%string))) (token_of (DResolution r)).
Proof. intro r. exact (means_texts K_Dimension _). Qed.
Lemma means_int : forall r, means peek_int (token_of (DInteger r)).
Proof. intros r p c S N E. unfold peek_int in E. apply some_inj in E. apply andb_prop in E. split; [exact (kind_is c _ N (proj1 E)) | apply E]. Qed.
Lemma means_float : forall r, means peek_float (token_of (DNumber r)).
Proof. intros r p c S N E. unfold peek_float in E. apply some_inj in E. apply andb_prop in E. split; [exact (kind_is c _ N (proj1 E)) | apply E]. Qed.
Lemma means_opacity : means peek_opacity (token_of (DCustom (chars "OpacityValue"))).
Proof.
  intros p c S N E. unfold peek_opacity in E. do 6 right. split; [reflexivity |]. destruct (tok_is (ctok c) K_Number && f32_upto_1 (tvalue (ctok c))) eqn:Z; [apply andb_prop in Z; left; split; [exact (kind_is c _ N (proj1 Z)) | apply Z] |].
  destruct (peek_percent p c) as [[] |] eqn:X; [| discriminate | discriminate]. cbn [andb] in E. apply some_inj in E. right. split; [exact (means_percent p c S N X) | exact E].
Qed.
(* the tokens of types last *)
Lemma token_lasts : forall t c, token_of t c -> lasts c.
Proof.
  intros t c T. assert (L : forall k, k <> K_Eof -> k <> K_Whitespace -> k <> K_Comment -> kind_of c = k -> lasts c) by (intros k N1 N2 N3 E; unfold lasts; rewrite E; auto).
  assert (U : forall u, has_unit src u c -> lasts c) by (intros u (E & _); apply (L K_Dimension); [discriminate | discriminate | discriminate | exact E]).
  assert (W : forall k w, k <> K_Eof -> k <> K_Whitespace -> k <> K_Comment -> word_of k w c -> lasts c) by (intros k w N1 N2 N3 (E & _); exact (L k N1 N2 N3 E)).
  assert (Z : zero c -> lasts c) by (intros (E & _); apply (L K_Number); [discriminate | discriminate | discriminate | exact E]).
  destruct t; cbn [SpecConforms.token_of] in T;
    repeat first [contradiction | match goal with H : exists _, _ |- _ => destruct H | H : _ /\ _ |- _ => destruct H | H : _ \/ _ |- _ => destruct H end | match goal with
      | H : zero c |- _ => exact (Z H) | H : has_unit _ _ c |- _ => exact (U _ H) | H : kind_of c = ?k |- _ => apply (L k); [discriminate | discriminate | discriminate | exact H]
      | H : SpecConforms.word_of _ ?k ?w c |- _ => apply (W k w); [discriminate | discriminate | discriminate | exact H] end].
Qed.

(* ---- parsers ---- *)
Definition rd (d : def) (m : P (list cursor)) : Prop := tells m (fun _ u => conforms d (bare u)).
Lemma rd_or : forall d k a b, rd d a -> rd d b -> rd d (or_peek k a b).
Proof. intros d k a b Ha Hb p cs O. apply tv_or_peek; intros _; [exact (Ha p cs O) | exact (Hb p cs O)]. Qed.
Lemma rd_maybe : forall d k m, rd d m -> rd (maybe d) (or_peek k m (ret [])).
Proof.
  intros d k m H p cs O. apply tv_or_peek; intros _; [eapply tv_use; [exact O | exact H |]; intros a u X; cbv beta in *; apply of_something; exact X | apply tv_ok; [exact O | apply of_nothing]].
Qed.
Lemma rd_alt : forall d l m, In d l -> rd d m -> rd (alt l) m.
Proof. intros d l m I H. eapply tells_imp; [exact H |]. intros a u X. cbv beta in *. apply (of_one _ _ l d); [exact I | exact X]. Qed.
Lemma rd_type : forall t name d m, type_name t = Some name -> In (name, d) HAND_WRITTEN -> rd d m -> rd (DType t) m.
Proof. intros t name d m E I H. eapply tells_imp; [exact H |]. intros a u X. cbv beta in *. apply (of_type _ _ t name d); [exact E | left; exact I | exact X]. Qed.
Lemma c_order : forall l ms, Forall2 rd l ms -> tells (in_order ms) (fun _ u => exists parts, Forall2 conforms l parts /\ bare u = concat parts).
Proof.
  intros l ms F. induction F as [| d m l ms H F IH]; intros p cs O; cbn [in_order]; [apply tv_ok; [exact O |]; exists []; split; [constructor | reflexivity] |].
  eapply tv_bind; [exact O | exact H |]. intros a u q r _ Oq K. cbv beta in K. apply tv_pmap. eapply tv_use; [exact Oq | exact IH |]. intros b v (parts & F' & E). exists (bare u :: parts). split; [constructor; assumption |]. rewrite bare_app, E. reflexivity.
Qed.
Lemma rd_order : forall l ms, Forall2 rd l ms -> rd (seq l) (in_order ms).
Proof. intros l ms F. eapply tells_imp; [exact (c_order l ms F) |]. intros a u (parts & F' & ->). apply of_sequence. exact F'. Qed.
Lemma rd_token : forall t k, solid k -> means k (token_of t) -> type_checks t = RgNone -> rd (DType t) (one k).
Proof.
  intros t k So M E. eapply tells_imp; [exact (c_one k (token_of t) So M (token_lasts t)) |]. intros a u (c & _ & -> & T). apply of_token; [exact T |]. intros _. rewrite E. exact Logic.I.
Qed.
Lemma word_lasts : forall k w c, k <> K_Eof -> k <> K_Whitespace -> k <> K_Comment -> word_of k w c -> lasts c.
Proof. intros k w c N1 N2 N3 (E & _). unfold lasts. rewrite E. auto. Qed.
Lemma c_set : forall V k (m : list (text * V)), k <> K_Eof -> k <> K_Whitespace -> k <> K_Comment -> tells (parse_set k m) (fun x u => bare u = [snd x] /\ exists w, In (w, fst x) m /\ word_of k w (snd x)).
Proof.
  intros V k m N1 N2 N3. change (parse_set k m) with (parse_built (peek_set k m) (build_set m)). eapply tells_imp; [apply c_built; exact (solid_set V k m N1) |].
  intros x u (c & p & q & Em & Kc & Pk & B & S1 & S2). destruct (set_word _ _ _ _ _ _ _ _ Kc Pk B S2) as (<- & Kw & w & L & I). assert (W : word_of k w (snd x)) by (split; [exact Kw | left; exact L]). split; [rewrite Em; apply bare_one; exact (word_lasts k w _ N1 N2 N3 W) |]. exists w. auto.
Qed.
Lemma c_words : forall l, tells (parse_words l) (fun _ u => exists w c, bare u = [c] /\ In w l /\ word_of K_Ident w c).
Proof.
  intros l p cs O. unfold parse_words. apply tv_pmap. eapply tv_use; [exact O | apply c_set; discriminate |]. intros x u (E & w & I & W). exists w, (snd x). split; [exact E |]. split; [| exact W]. unfold words in I. apply in_map_iff in I. destruct I as (y & Ey & I). injection Ey as <- _. exact I.
Qed.
Lemma kws_of : forall l w c, In w l -> word_of K_Ident w c -> conforms (kws l) [c].
Proof. intros l w c I W. apply (of_one _ _ _ (DIdent w)); [apply in_map; exact I | apply of_word; exact W]. Qed.
Lemma rd_words : forall l, rd (kws l) (parse_words l).
Proof. intro l. eapply tells_imp; [apply c_words |]. intros a u (w & c & -> & I & W). exact (kws_of l w c I W). Qed.
Lemma rd_opt_words : forall l, rd (maybe (kws l)) (opt_words l).
Proof. intro l. unfold opt_words. apply rd_maybe. apply rd_words. Qed.
Lemma c_kind : forall k, k <> K_Eof -> k <> K_Whitespace -> k <> K_Comment -> tells (parse_kind k) (fun c u => bare u = [c] /\ kind_of c = k).
Proof.
  intros k N1 N2 N3. eapply tells_imp; [apply (c_single _ (peek_kind k) (fun c => c) (fun c => kind_of c = k)); [exact (solid_kind k N1) | apply means_kind |] |].
  - intros c E. unfold lasts. rewrite E. auto.
  - intros a u (c & -> & E & K). auto.
Qed.
Lemma c_if_kind : forall k, k <> K_Eof -> k <> K_Whitespace -> k <> K_Comment -> tells (if_kind k) (fun o u => bare u = opt_cursor o /\ forall c, o = Some c -> kind_of c = k).
Proof.
  intros k N1 N2 N3. unfold if_kind. eapply tells_imp; [apply tells_if_peek, c_kind; assumption |]. intros [c |] u K; cbn [opt_cursor] in *.
  - destruct K as (E & K). split; [exact E |]. intros d X. injection X as <-. exact K.
  - subst u. split; [reflexivity | discriminate].
Qed.
Lemma rd_comma_token : rd comma (one (peek_kind K_Comma)).
Proof.
  eapply tells_imp; [apply (c_one (peek_kind K_Comma) (fun c => kind_of c = K_Comma)); [apply solid_kind; discriminate | apply means_kind | intros c E; unfold lasts; rewrite E; split; [discriminate | split; discriminate]] |].
  intros a u (c & _ & -> & K). apply of_punct. left. auto.
Qed.
Lemma rd_opt_comma : rd (maybe comma) opt_comma.
Proof. unfold opt_comma, opt. apply rd_maybe. exact rd_comma_token. Qed.
Lemma rd_opt_slash : rd (maybe slash) opt_slash.
Proof.
  unfold opt_slash, opt. apply rd_maybe. eapply tells_imp; [apply (c_one (peek_delim 47) (fun c => kind_of c = K_Delim /\ tok_is_char (ctok c) 47 = true)); [apply solid_delim | apply means_delim | intros c (E & _); unfold lasts; rewrite E; split; [discriminate | split; discriminate]] |].
  intros a u (c & _ & -> & K). apply of_punct. right. exact K.
Qed.
(* arguments and the parenthesis, which may be missing *)
Definition closes (close : list cursor) : Prop := close = [] \/ exists c, close = [c] /\ kind_of c = K_RightParen.
Definition args_of (d : def) (l : list cursor) : Prop := exists args close, l = args ++ close /\ conforms d args /\ closes close.
Lemma c_close : tells close_paren (fun _ u => closes (bare u)).
Proof.
  intros p cs O. unfold close_paren. apply tv_pmap. eapply tv_use; [exact O | apply c_if_kind; discriminate |]. intros o u (E & K). unfold closes. rewrite E. destruct o as [c |]; [right; exists c; split; [reflexivity | exact (K c eq_refl)] | left; reflexivity].
Qed.
Lemma c_args_parts : forall l ms, Forall2 rd l ms -> tells (in_order (ms ++ [close_paren])) (fun _ u => exists parts close, Forall2 conforms l parts /\ closes close /\ bare u = concat parts ++ close).
Proof.
  intros l ms F. induction F as [| d m l ms H F IH]; intros p cs O; cbn [app in_order].
  - eapply tv_bind; [exact O | exact c_close |]. intros a u q r _ Oq K. cbv beta in K. apply tv_pmap. apply tv_ok; [exact Oq |]. exists [], (bare u). rewrite app_nil_r. split; [constructor |]. split; [exact K | reflexivity].
  - eapply tv_bind; [exact O | exact H |]. intros a u q r _ Oq K. cbv beta in K. apply tv_pmap. eapply tv_use; [exact Oq | exact IH |]. intros b v (parts & close & F' & C & E). exists (bare u :: parts), close. split; [constructor; assumption |]. split; [exact C |]. rewrite bare_app, E. apply app_assoc.
Qed.
Lemma c_args : forall l ms, Forall2 rd l ms -> tells (in_order (ms ++ [close_paren])) (fun _ u => args_of (seq l) (bare u)).
Proof.
  intros l ms F. eapply tells_imp; [exact (c_args_parts l ms F) |]. intros a u (parts & close & F' & C & ->). exists (concat parts), close. split; [reflexivity |]. split; [apply of_sequence; exact F' | exact C].
Qed.
Lemma rd_function_named : forall name d rest, tells rest (fun _ u => args_of d (bare u)) -> rd (DFunction name d) (function_named name rest).
Proof.
  intros name d rest H p cs O. unfold function_named. eapply tv_bind; [exact O | apply c_kind; discriminate |]. intros x u q r _ Oq (E & K). cbv beta. destruct (eq_ignore_ascii_case _ _ _) as [[] |] eqn:X; [| apply tells_fail_text; exact Oq | apply tv_none].
  apply tv_pmap. eapply tv_use; [exact Oq | exact H |]. intros a v (args & close & Ev & Ca & Cc). cbv beta. rewrite bare_app, E, Ev. cbn [app]. apply of_function; [| exact Ca | exact Cc]. split; [exact K |]. right. destruct Oq as (S & _). rewrite S in X. exact X.
Qed.
Lemma rd_function_of : forall name d inner, rd d inner -> rd (DFunction name d) (function_of name inner).
Proof.
  intros name d inner H. unfold function_of. apply rd_function_named. intros p cs O. eapply tv_bind; [exact O | exact H |]. intros a u q r _ Oq K. apply tv_pmap. eapply tv_use; [exact Oq | exact c_close |]. intros b v C. cbv beta in *. exists (bare u), (bare v). rewrite bare_app. auto.
Qed.
Lemma with_commas_cons : forall part c parts rest, kind_of c = K_Comma -> with_commas parts rest -> with_commas (part :: parts) (part ++ c :: rest).
Proof. intros part c parts rest K W. destruct parts as [| x parts]; [destruct W |]. cbn [with_commas]. exists c, rest. auto. Qed.
Lemma c_comma_items : forall d item, rd d item -> forall n, tells (comma_items item n) (fun _ u => exists parts, Forall (conforms d) parts /\ with_commas parts (bare u)).
Proof.
  intros d item H n. induction n as [| n IH]; intros p cs O; [apply tv_none |]. cbn [comma_items]. eapply tv_bind; [exact O | exact H |]. intros a u q r _ Oq K. cbv beta in K.
  eapply tv_bind; [exact Oq | apply c_if_kind; discriminate |]. intros o u2 q2 r2 _ O2 (E & Kc). destruct o as [x |]; cbn [opt_cursor] in E.
  - apply tv_pmap. eapply tv_use; [exact O2 | exact IH |]. intros l v (parts & F & W). exists (bare u :: parts). split; [constructor; assumption |]. rewrite !bare_app, E. cbn [app]. apply with_commas_cons; [exact (Kc x eq_refl) | exact W].
  - apply tv_ok; [exact O2 |]. exists [bare u]. split; [constructor; [exact K | constructor] |]. rewrite !bare_app, E. cbn [with_commas bare filter]. now rewrite !app_nil_r.
Qed.
Lemma rd_comma : forall d item, rd d item -> rd (DMult d (MuComma RgNone)) (comma_separated item).
Proof. intros d item H p cs O. unfold comma_separated. eapply tv_imp; [exact (c_comma_items d item H (sfuel p) p cs O) |]. intros a u (parts & F & W). apply (of_list _ _ d RgNone parts); [exact F | exact Logic.I | exact W]. Qed.

(* ---- the hand-written types ---- *)
Ltac written_ := cbn [HAND_WRITTEN map fst snd]; repeat first [left; reflexivity | right].
Ltac in_ := repeat first [left; reflexivity | right].
Lemma solid_words : forall l, solid (peek_words l).
Proof. intro l. apply solid_set. discriminate. Qed.
Lemma solid_named : forall k w, k <> K_Eof -> solid (peek_named k w).
Proof. intros k w N p o E. unfold peek_named in E. simpl ctok in E. rewrite tok_is_eof in E by exact N. discriminate. Qed.
Lemma solid_of : forall k, solo k -> solid k.
Proof. exact (solo_solid src f). Qed.
Lemma rd_lp : rd length_percentage (one peek_length_percentage).
Proof. apply rd_token; [exact (solid_of _ (solo_lp src f)) | apply means_lp | reflexivity]. Qed.
Lemma rd_length_as_lp : rd length_percentage (one peek_length).
Proof.
  apply rd_token; [exact (solid_of _ (solo_length src f)) | | reflexivity]. eapply means_imp; [apply (means_length RgNone) |]. intros c [Z | (u & I & U)]; [left; exact Z | right; exists u; split; [right; exact I | exact U]].
Qed.
Lemma rd_angle : rd angle (one peek_angle).
Proof. apply rd_token; [exact (solid_of _ (solo_angle src f)) | apply means_angle | reflexivity]. Qed.
Lemma rd_percent : rd (ty_ "PercentageToken") (one peek_percent).
Proof. apply rd_token; [apply solid_dimension | | reflexivity]. eapply means_imp; [exact means_percent |]. intros c U. do 2 right. left. auto. Qed.
Lemma named_word : forall w c, word_of K_Ident (chars w) c -> conforms (kw w) [c].
Proof. intros w c W. apply of_word. exact W. Qed.
(* one token of several types *)
Lemma rd_one_of : forall k l, solid k -> means k (fun c => lasts c /\ conforms (alt l) [c]) -> rd (alt l) (one k).
Proof. intros k l So M. eapply tells_imp; [apply (c_one k _ So M); intros c (L & _); exact L |]. intros a u (c & _ & -> & _ & C). exact C. Qed.
Lemma means_alt : forall ks (l : list def), Forall (fun k => exists d T, In d l /\ means k T /\ (forall c, T c -> lasts c /\ conforms d [c])) ks -> means (any_peek ks) (fun c => lasts c /\ conforms (alt l) [c]).
Proof.
  intros ks l F. apply means_any. eapply Forall_impl; [| exact F]. intros k (d & T & I & M & X). eapply means_imp; [exact M |]. intros c Tc. destruct (X c Tc) as (L & C). split; [exact L |]. apply (of_one _ _ l d); [exact I | exact C].
Qed.
Lemma token_fits : forall t c, type_checks t = RgNone -> token_of t c -> lasts c /\ conforms (DType t) [c].
Proof. intros t c E T. split; [exact (token_lasts t c T) |]. apply of_token; [exact T |]. intros _. rewrite E. exact Logic.I. Qed.
Lemma word_fits : forall w c, word_of K_Ident w c -> lasts c /\ conforms (DIdent w) [c].
Proof. intros w c W. split; [apply (word_lasts K_Ident w); [discriminate | discriminate | discriminate | exact W] | apply of_word; exact W]. Qed.
Lemma kws_fits : forall l c, (exists w, In w l /\ word_of K_Ident w c) -> lasts c /\ conforms (kws l) [c].
Proof. intros l c (w & I & W). split; [apply (word_lasts K_Ident w); [discriminate | discriminate | discriminate | exact W] | exact (kws_of l w c I W)]. Qed.
Lemma rd_channel : rd channel (one peek_channel).
Proof.
  unfold channel, peek_channel. apply rd_one_of; [apply solid_any; repeat constructor; [apply solid_kind; discriminate | apply solid_dimension | apply solid_named; discriminate] |]. apply means_alt. apply Forall_cons; [| apply Forall_cons; [| apply Forall_cons; [| apply Forall_nil]]].
  - exists (ty_ "NumberToken"), (fun c => kind_of c = K_Number). split; [in_ |]. split; [apply means_kind |]. intros c E. apply token_fits; [reflexivity |]. right. left. auto.
  - exists (ty_ "PercentageToken"), (has_unit src U_Percent). split; [in_ |]. split; [exact means_percent |]. intros c E. apply token_fits; [reflexivity |]. do 2 right. left. auto.
  - exists (kw "none"), (word_of K_Ident (chars "none")). split; [in_ |]. split; [apply means_named | apply word_fits].
Qed.
Lemma rd_hue : rd hue (one peek_hue).
Proof.
  unfold hue, peek_hue. apply rd_one_of; [apply solid_any; repeat constructor; [apply solid_kind; discriminate | apply solid_set; discriminate | apply solid_named; discriminate] |]. apply means_alt. apply Forall_cons; [| apply Forall_cons; [| apply Forall_cons; [| apply Forall_nil]]].
  - exists (ty_ "NumberToken"), (fun c => kind_of c = K_Number). split; [in_ |]. split; [apply means_kind |]. intros c E. apply token_fits; [reflexivity |]. right. left. auto.
  - exists angle, (token_of (DAngle RgNone)). split; [in_ |]. split; [apply means_angle |]. intros c E. apply token_fits; [reflexivity | exact E].
  - exists (kw "none"), (word_of K_Ident (chars "none")). split; [in_ |]. split; [apply means_named | apply word_fits].
Qed.
Lemma rd_opt : forall d k, rd d (one k) -> rd (maybe d) (opt k).
Proof. intros d k H. unfold opt. apply rd_maybe. exact H. Qed.
(* the arguments of each colour function *)
Definition color_def (s : color_syntax) : list def :=
  let last := [maybe slash; maybe channel] in
  match s with
  | CsColor => [kws COLOR_SPACES; channel; channel; channel] ++ last
  | CsRgb => [channel; maybe comma; channel; maybe comma; channel; maybe comma] ++ last
  | CsHsl => [hue; maybe comma; channel; maybe comma; channel; maybe comma] ++ last
  | CsHwb => [hue; channel; channel] ++ last
  | CsThree => [channel; channel; channel] ++ last
  | CsLch => [channel; channel; hue] ++ last
  end.
Lemma rd_color_arguments : forall s, rd (seq (color_def s)) (color_arguments s).
Proof.
  intro s. destruct s; cbn [color_arguments color_def app]; apply rd_order;
    repeat (first [apply Forall2_nil | apply Forall2_cons; [lazymatch goal with
      | |- rd (kws _) _ => apply rd_words | |- rd channel _ => exact rd_channel | |- rd hue _ => exact rd_hue | |- rd (maybe comma) _ => exact rd_opt_comma | |- rd (maybe slash) _ => exact rd_opt_slash
      | |- rd (maybe channel) _ => apply rd_opt; exact rd_channel end |]]).
Qed.

Lemma c_then_close : forall d m, rd d m -> tells (in_order [m; close_paren]) (fun _ u => args_of d (bare u)).
Proof.
  intros d m H p cs O. cbn [in_order]. eapply tv_bind; [exact O | exact H |]. intros a u q r _ Oq K. cbv beta in K. apply tv_pmap. eapply tv_bind; [exact Oq | exact c_close |]. intros b v q2 r2 _ O2 C. cbv beta in C. apply tv_pmap. apply tv_ok; [exact O2 |].
  exists (bare u), (bare v). rewrite !bare_app. cbn [bare filter]. rewrite app_nil_r. auto.
Qed.
(* a function that was found in a set *)
Lemma c_function : forall w c d m u, bare u = [c] -> word_of K_Function w c -> tells m (fun _ u => args_of d (bare u)) -> forall p cs, onto p cs -> tv cs (fun _ v => conforms (DFunction w d) (bare (u ++ v))) (pmap (cons c) m p).
Proof.
  intros w c d m u E W H p cs O. apply tv_pmap. eapply tv_use; [exact O | exact H |]. intros a v (args & close & Ev & Ca & Cc). cbv beta. rewrite bare_app, E, Ev. cbn [app]. apply of_function; assumption.
Qed.
Definition COLOR_DEFS : list def := [ty_ "HashToken"; kws COLOR_KEYWORDS; kws NAMED_COLORS; kws SYSTEM_COLORS] ++ map (fun x => DFunction (fst x) (seq (color_def (snd x)))) COLOR_FUNCTIONS.
Lemma color_written : In (chars "Color", alt COLOR_DEFS) HAND_WRITTEN.
Proof. written_. Qed.
Lemma rd_color_function : rd (alt COLOR_DEFS) parse_color_function.
Proof.
  intros p cs O. unfold parse_color_function. eapply tv_bind; [exact O | apply c_set; discriminate |]. intros x u q r _ Oq (E & w & I & W). eapply tv_imp; [exact (c_function w (snd x) _ _ u E W (c_then_close _ _ (rd_color_arguments (fst x))) q r Oq) |].
  intros a v C. cbv beta in *. refine (of_one _ _ _ _ _ _ C). unfold COLOR_DEFS. apply in_or_app. right. exact (in_map (fun x => DFunction (fst x) (seq (color_def (snd x)))) _ _ I).
Qed.
Lemma parse_words_next : forall l p cs d r q, onto p cs -> parse_words l p = Some (r, q) -> peek_next p = Some d -> forall a, r = Ok a -> a = [d].
Proof. intros l p cs d r q O E Pd a ->. exact (words_read src f l p cs d a q O Pd E). Qed.
Lemma rd_color_ident : rd (alt COLOR_DEFS) parse_color_ident.
Proof.
  intros p cs O. unfold parse_color_ident. destruct (peek_n p 1) as [d |]; [| apply tv_none]. eapply tv_bind; [exact O | apply tells_if_peek; exact (rd_words COLOR_KEYWORDS) |]. intros [x |] u q r _ Oq K; cbv beta iota in K.
  - apply tv_ok; [exact Oq |]. rewrite app_nil_r. apply (of_one _ _ _ (kws COLOR_KEYWORDS)); [right; left; reflexivity | exact K].
  - subst u. cbn [app]. apply rd_or; [| | exact Oq].
    + apply (rd_alt (kws NAMED_COLORS)); [do 2 right; left; reflexivity | apply rd_words].
    + apply (rd_alt (kws SYSTEM_COLORS)); [do 3 right; left; reflexivity | apply rd_words].
Qed.
Lemma rd_fails : forall d (m : P (list cursor)), (forall p, match m p with None => True | Some (Err _, q) => q = p | _ => False end) -> rd d m.
Proof. intros d m H p cs O. specialize (H p). destruct (m p) as [[[a | e] q] |]; [destruct H | subst q; apply tv_err; exact O | apply tv_none]. Qed.
Lemma rd_color : rd color parse_color.
Proof.
  apply (rd_type DColor (chars "Color") (alt COLOR_DEFS)); [reflexivity | exact color_written |]. unfold parse_color. apply rd_or; [apply (rd_alt (ty_ "HashToken")); [left; reflexivity |]; apply rd_token; [apply solid_kind; discriminate | | reflexivity] |].
  - eapply means_imp; [apply means_kind |]. intros c E. left. auto.
  - apply rd_or; [exact rd_color_ident |]. apply rd_or; [exact rd_color_function |]. apply rd_fails. intro p. destruct (peek_n p 1); auto.
Qed.
(* ---- positions ---- *)
Definition pos_def : def := alt [length_percentage; kws POSITION_KEYWORDS].
Lemma c_pos : tells parse_pos (fun v u => conforms pos_def (bare u)).
Proof.
  unfold parse_pos. eapply tells_imp; [apply c_built; exact (solid_of _ (solo_pos src f)) |]. intros v u (c & p & q & E & Kc & Pk & _ & S & _). rewrite E.
  assert (M : means peek_pos (fun c => lasts c /\ conforms pos_def [c])).
  { apply means_alt. apply Forall_cons; [| apply Forall_cons; [| apply Forall_nil]].
    - exists length_percentage, (token_of (DLengthPercentage RgNone)). split; [in_ |]. split; [apply means_lp |]. intros x X. apply token_fits; [reflexivity | exact X].
    - exists (kws POSITION_KEYWORDS), (fun c => exists w, In w POSITION_KEYWORDS /\ word_of K_Ident w c). split; [in_ |]. split; [apply means_words | apply kws_fits]. }
  destruct (M p c S Kc Pk) as (L & C). rewrite (bare_one c L). exact C.
Qed.
Lemma many_of : forall d r parts, Forall (conforms d) parts -> count_fits r (length parts) -> conforms (DMult d (MuRange r)) (concat parts).
Proof. intros d r parts F C. apply of_many; assumption. Qed.
Definition POSITION_DEF : def := DMult pos_def (MuRange (RgRange 1 4)).
Lemma rd_position : rd POSITION_DEF parse_position.
Proof.
  assert (M : forall parts l, Forall (conforms pos_def) parts -> l = concat parts -> (1 <= length parts <= 4)%nat -> conforms POSITION_DEF l) by (intros parts l F -> L; apply many_of; [exact F | exact L]).
  assert (Four : forall a b p cs u1 u2, onto p cs -> conforms pos_def (bare u1) -> conforms pos_def (bare u2) -> tv cs (fun _ v => conforms POSITION_DEF (bare (u1 ++ u2 ++ v))) (position_four a b p)).
  { intros a b p cs u1 u2 O E1 E2. unfold position_four. destruct (_ || _); [apply tells_fail; exact O |]. eapply tv_bind; [exact O | exact c_pos |]. intros x u3 q3 r3 _ O3 E3. cbv beta in E3.
    destruct (_ && _); [apply tells_fail_text; exact O3 |]. eapply tv_bind; [exact O3 | apply (c_single _ peek_length_percentage (fun c => c) (token_of (DLengthPercentage RgNone))); [exact (solid_of _ (solo_lp src f)) | apply means_lp | apply token_lasts] |]. intros y u4 q4 r4 _ O4 (d & -> & E4 & T).
    assert (W : conforms POSITION_DEF (bare (u1 ++ u2 ++ u3 ++ u4 ++ []))).
    { apply (M [bare u1; bare u2; bare u3; [d]]); [| rewrite !bare_app, E4; cbn [concat bare filter]; rewrite !app_nil_r; reflexivity | cbn; lia]. repeat (apply Forall_cons; [assumption |]). apply Forall_cons; [| apply Forall_nil].
      apply (of_one _ _ _ length_percentage); [left; reflexivity | apply token_fits; [reflexivity | exact T]]. }
    destruct (horizontal_keyword a).
    - destruct (vertical_keyword x); [apply tv_ok; [exact O4 | exact W] | apply tells_fail; exact O4].
    - destruct (horizontal_keyword x); [| apply tells_fail; exact O4]. destruct (vertical_keyword a); [apply tv_ok; [exact O4 | exact W] | apply tells_fail; exact O4]. }
  intros p cs O. unfold parse_position. eapply tv_bind; [exact O | exact c_pos |]. intros a u1 q1 r1 _ O1 E1. cbv beta in E1. apply tv_or_peek; intros _; [| apply tv_ok; [exact O1 |]; rewrite app_nil_r; apply (M [bare u1]); [constructor; [exact E1 | constructor] | cbn [concat]; now rewrite app_nil_r | cbn; lia]].
  eapply tv_bind; [exact O1 | exact c_pos |]. intros b u2 q2 r2 _ O2 E2. cbv beta in E2.
  assert (W : conforms POSITION_DEF (bare (u1 ++ u2 ++ []))) by (apply (M [bare u1; bare u2]); [constructor; [exact E1 | constructor; [exact E2 | constructor]] | rewrite !bare_app; cbn [concat bare filter]; reflexivity | cbn; lia]).
  apply tv_or_peek; intros _; [exact (Four _ _ _ _ _ _ O2 E1 E2) |]. destruct (horizontal a).
  - destruct (vertical b); [| exact (Four _ _ _ _ _ _ O2 E1 E2)]. apply tv_ok; [exact O2 | exact W].
  - destruct (horizontal b); [| exact (Four _ _ _ _ _ _ O2 E1 E2)]. destruct (vertical a); [| apply tells_fail; exact O2]. apply tv_ok; [exact O2 | exact W].
Qed.

(* ---- gradients ---- *)
Definition stop_def : def := seq [maybe (seq [length_percentage; comma]); color; maybe length_percentage].
Lemma rd_hint : forall b : bool, rd (maybe (seq [length_percentage; comma])) (if b then or_peek peek_length_percentage (in_order [one peek_length_percentage; one (peek_kind K_Comma)]) (ret []) else ret []).
Proof.
  intro b. destruct b; [| intros p cs O; apply tv_ok; [exact O | apply of_nothing]]. apply rd_maybe. apply rd_order. apply Forall2_cons; [exact rd_lp |]. apply Forall2_cons; [exact rd_comma_token | apply Forall2_nil].
Qed.
Lemma c_stops : forall n b, tells (stops_loop n b) (fun _ u => exists parts, Forall (conforms stop_def) parts /\ with_commas parts (bare u)).
Proof.
  intro n. induction n as [| n IH]; intros b p cs O; [apply tv_none |]. cbn [stops_loop].
  eapply tv_bind; [exact O | exact (rd_hint b) |]. intros h u1 q1 r1 _ O1 K1. eapply tv_bind; [exact O1 | exact rd_color |]. intros x u2 q2 r2 _ O2 K2. eapply tv_bind; [exact O2 | exact (rd_opt _ _ rd_lp) |]. intros l u3 q3 r3 _ O3 K3.
  eapply tv_bind; [exact O3 | apply c_if_kind; discriminate |]. intros o u4 q4 r4 _ O4 (E & Kc). cbv beta in *.
  assert (D : conforms stop_def (bare u1 ++ bare u2 ++ bare u3)).
  { replace (bare u1 ++ bare u2 ++ bare u3) with (concat [bare u1; bare u2; bare u3]) by (cbn [concat]; now rewrite app_nil_r). apply of_sequence. repeat (apply Forall2_cons; [assumption |]). apply Forall2_nil. }
  destruct o as [d |]; cbn [opt_cursor] in E.
  - apply tv_pmap. eapply tv_use; [exact O4 | apply IH |]. intros t v (parts & F & W). exists ((bare u1 ++ bare u2 ++ bare u3) :: parts). split; [constructor; assumption |]. rewrite !bare_app, E.
    replace (bare u1 ++ bare u2 ++ bare u3 ++ [d] ++ bare v) with ((bare u1 ++ bare u2 ++ bare u3) ++ d :: bare v) by (rewrite <- !app_assoc; reflexivity). apply with_commas_cons; [exact (Kc d eq_refl) | exact W].
  - apply tv_ok; [exact O4 |]. exists [bare u1 ++ bare u2 ++ bare u3]. split; [constructor; [exact D | constructor] |]. rewrite !bare_app, E. cbn [with_commas bare filter]. now rewrite !app_nil_r.
Qed.
Lemma rd_stops : rd stops parse_stops.
Proof. intros p cs O. unfold parse_stops. eapply tv_imp; [exact (c_stops (sfuel p) false p cs O) |]. intros a u (parts & F & W). apply of_group_list. apply (of_list _ _ _ RgNone parts); [exact F | exact Logic.I | exact W]. Qed.
Definition direction_def : def := alt [angle; seq [kw "to"; kws DIRECTIONS; maybe (kws DIRECTIONS)]].
Lemma rd_direction : rd direction_def parse_direction.
Proof.
  unfold parse_direction. apply rd_or; [apply (rd_alt angle); [left; reflexivity | exact rd_angle] |]. apply (rd_alt (seq [kw "to"; kws DIRECTIONS; maybe (kws DIRECTIONS)])); [right; left; reflexivity |].
  intros p cs O. eapply tv_bind; [exact O | apply c_kind; discriminate |]. intros x u q r _ Oq (E & K). cbv beta. destruct (eq_ignore_ascii_case _ _ _) as [[] |] eqn:X; [| apply tells_fail_text; exact Oq | apply tv_none].
  apply tv_pmap. eapply tv_use; [exact Oq | apply (c_order [kws DIRECTIONS; maybe (kws DIRECTIONS)]); apply Forall2_cons; [apply rd_words |]; apply Forall2_cons; [apply rd_opt_words | apply Forall2_nil] |]. intros a v (parts & F & Ev). cbv beta. rewrite bare_app, E, Ev.
  change ([x] ++ concat parts) with (concat ([x] :: parts)). apply of_sequence. apply Forall2_cons; [| exact F]. apply of_word. split; [exact K |]. right. destruct Oq as (S & _). rewrite S in X. exact X.
Qed.
Definition RADIAL_SIZE_DEF : def := alt [kws RADIAL_SIZES; DMult length_percentage (MuRange (RgRange 1 2))].
Lemma rd_two : forall d k (m : P (list cursor)) n, rd d (one k) -> rd d n -> (forall h, rd (DMult d (MuRange (RgRange 1 2))) (bind (one k) (fun a => pmap (h a) n))).
Proof.
  intros d k m n H1 H2 h p cs O. eapply tv_bind; [exact O | exact H1 |]. intros a u q r _ Oq K. cbv beta in K. apply tv_pmap. eapply tv_use; [exact Oq | exact H2 |]. intros b v Kb. cbv beta in *. rewrite bare_app.
  replace (bare u ++ bare v) with (concat [bare u; bare v]) by (cbn [concat]; now rewrite app_nil_r). apply many_of; [constructor; [exact K | constructor; [exact Kb | constructor]] | cbn; lia].
Qed.
Lemma two_of : forall d u v, conforms d u -> conforms d v -> conforms (DMult d (MuRange (RgRange 1 2))) (u ++ v).
Proof. intros d u v Hu Hv. replace (u ++ v) with (concat [u; v]) by (cbn [concat]; now rewrite app_nil_r). apply many_of; [constructor; [exact Hu | constructor; [exact Hv | constructor]] | cbn; lia]. Qed.
Lemma one_of_two : forall d u, conforms d u -> conforms (DMult d (MuRange (RgRange 1 2))) u.
Proof. intros d u Hu. replace u with (concat [u]) by (cbn [concat]; now rewrite app_nil_r). apply many_of; [constructor; [exact Hu | constructor] | cbn; lia]. Qed.
Lemma rd_radial_size : rd (ty_ "RadialSize") parse_radial_size.
Proof.
  apply (rd_type (DCustom (chars "RadialSize")) (chars "RadialSize") RADIAL_SIZE_DEF); [reflexivity | written_ |]. unfold parse_radial_size. apply rd_or; [apply (rd_alt (kws RADIAL_SIZES)); [left; reflexivity | apply rd_words] |].
  apply (rd_alt (DMult length_percentage (MuRange (RgRange 1 2)))); [right; left; reflexivity |]. apply rd_or.
  - intros p cs O. eapply tv_bind; [exact O | exact rd_lp |]. intros a u q r _ Oq K. cbv beta in K. apply tv_or_peek; intros _; [apply tv_pmap; eapply tv_use; [exact Oq | exact rd_lp |] | eapply tv_use; [exact Oq | exact rd_length_as_lp |]]; intros b v Kb; cbv beta in *; rewrite bare_app; apply two_of; assumption.
  - intros p cs O. eapply tv_use; [exact O | apply (c_order [length_percentage; length_percentage]); apply Forall2_cons; [exact rd_lp |]; apply Forall2_cons; [exact rd_lp | apply Forall2_nil] |]. intros a u (parts & F & ->). inversion F as [| d1 x l1 xs F1 F2 E1 E2]; subst. inversion F2 as [| d2 y l2 ys F3 F4 E1 E2]; subst. inversion F4; subst. cbn [concat]. rewrite app_nil_r. apply two_of; assumption.
Qed.
Definition at_def : def := seq [kw "at"; maybe (ty_ "Position")].
Lemma rd_position_type : rd (ty_ "Position") parse_position.
Proof. apply (rd_type (DCustom (chars "Position")) (chars "Position") POSITION_DEF); [reflexivity | written_ | exact rd_position]. Qed.
Lemma next_ident : forall p cs d r q, onto p cs -> peek_n p 1 = Some d -> tok_is (ctok d) K_Ident = true -> one (peek_kind K_Ident) p = Some (r, q) -> exists u rest, cs = u ++ rest /\ onto q rest /\ (bare u = [d] /\ kind_of d = K_Ident).
Proof.
  intros p cs d r q O Pn T E. pose proof (onto_peek_one src f p cs d O Pn) as Pd. unfold one, pmap, bind, parse_single in E. destruct (peek _ p) as [b |]; [| discriminate]. destruct (next p) as [[c q0] |] eqn:N; [| destruct b; discriminate].
  destruct (next_bare p cs c q0 O N) as (u & rest & -> & Oq & Pc & X). rewrite Pd in Pc. apply some_inj in Pc. subst c. assert (Q : q = q0) by (destruct b; [cbn [ret] in E; injection E as _ <-; reflexivity | injection E as _ <-; reflexivity]). subst q0. exists u, rest. split; [reflexivity |]. split; [exact Oq |].
  destruct X as [X | (Kc & B)]; [rewrite X in T; discriminate |]. pose proof (kind_is d _ Kc T) as Kd. split; [| exact Kd]. rewrite B. apply bare_one. unfold lasts. rewrite Kd. split; [discriminate | split; discriminate].
Qed.
Lemma rd_radial_at : rd (maybe at_def) (fun p => match peek_n p 1 with None => None | Some c => radial_at c p end).
Proof.
  intros p cs O. destruct (peek_n p 1) as [d |] eqn:Pn; [| apply tv_none]. unfold radial_at. destruct (tok_is (ctok d) K_Ident) eqn:T; [| apply tv_ok; [exact O | apply of_nothing]].
  destruct (eq_ignore_ascii_case d (lsrc (plex p)) (chars "at")) as [[] |] eqn:X; [| apply tv_ok; [exact O | apply of_nothing] | apply tv_none].
  match goal with |- context [in_order [?a; ?b]] => change (in_order [a; b]) with (bind a (fun x => pmap (app x) (in_order [b]))) end. unfold bind at 1. destruct (one (peek_kind K_Ident) p) as [[[a | e] q] |] eqn:E; [| | apply tv_none]; destruct (next_ident p cs d _ q O Pn T E) as (u & rest & -> & Oq & Eu & Kd).
  - apply (tv_shift _ _ _ _ u rest); [reflexivity |]. apply tv_pmap. eapply tv_use; [exact Oq | apply (c_order [maybe (ty_ "Position")]); apply Forall2_cons; [apply rd_maybe; exact rd_position_type | apply Forall2_nil] |]. intros b v (parts & F & Ev). cbv beta. rewrite bare_app, Eu, Ev. apply of_something.
    change ([d] ++ concat parts) with (concat ([d] :: parts)). apply of_sequence. apply Forall2_cons; [| exact F]. apply of_word. split; [exact Kd |]. right. destruct O as (S & _). rewrite S in X. exact X.
  - apply (tv_fails _ _ _ _ _ _ _ rest Oq). eauto.
Qed.
Lemma rd_no_at : forall d, kind_of d = K_Function -> rd (maybe at_def) (radial_at d).
Proof.
  intros d K p cs O. unfold radial_at. destruct (tok_is (ctok d) K_Ident) eqn:T; [| apply tv_ok; [exact O | apply of_nothing]]. exfalso. assert (N : kind_of d <> K_Eof) by (rewrite K; discriminate). pose proof (kind_is d _ N T) as X. rewrite K in X. discriminate.
Qed.
Lemma c_radial : forall at_p, rd (maybe at_def) at_p -> tells (parse_radial at_p) (fun _ u => args_of radial_arguments (bare u)).
Proof.
  intros at_p Ha p cs O. unfold parse_radial. eapply tv_bind; [exact O | apply tells_if_peek; exact rd_radial_size |]. intros s u1 q1 r1 _ O1 K1. eapply tv_bind; [exact O1 | exact (rd_opt_words RADIAL_SHAPES) |]. intros h u2 q2 r2 _ O2 K2. cbv beta in K2.
  assert (H1 : conforms (maybe (ty_ "RadialSize")) (bare u1)) by (destruct s; cbv beta iota in K1; [apply of_something; exact K1 | subst u1; apply of_nothing]).
  assert (X : rd (maybe (ty_ "RadialSize")) (match s, h with Some s, _ => ret s | None, [] => parse_radial_size | None, _ => ret [] end)).
  { assert (R : forall l : list cursor, rd (maybe (ty_ "RadialSize")) (ret l)) by (intros l p' cs' O'; apply tv_ok; [exact O' | apply of_nothing]). destruct s; [apply R |]. destruct h; [| apply R]. eapply tells_imp; [exact rd_radial_size |]. intros a u Y. cbv beta in *. apply of_something. exact Y. }
  eapply tv_bind; [exact O2 | exact X |]. intros s' u3 q3 r3 _ O3 K3. cbv beta in K3. apply tv_pmap.
  eapply tv_use; [exact O3 | apply (c_args_parts [maybe at_def; maybe comma; stops] [at_p; opt_comma; parse_stops]); apply Forall2_cons; [exact Ha |]; apply Forall2_cons; [exact rd_opt_comma |]; apply Forall2_cons; [exact rd_stops | apply Forall2_nil] |].
  intros b v (parts & close & F & C & Ev). cbv beta. exists (concat (bare u1 :: bare u2 :: bare u3 :: parts)), close. split; [| split; [| exact C]].
  - rewrite !bare_app, Ev. cbn [concat]. now rewrite <- !app_assoc.
  - apply of_sequence. repeat (apply Forall2_cons; [assumption |]). exact F.
Qed.
Definition GRADIENT_DEFS : list def := map (fun x => DFunction (fst x) (match snd x with GkLinear => linear_arguments | _ => radial_arguments end)) GRADIENTS.
Lemma rd_gradient : rd (alt GRADIENT_DEFS) parse_gradient.
Proof.
  intros p cs O. unfold parse_gradient. eapply tv_bind; [exact O | apply c_set; discriminate |]. intros x u q r _ Oq (E & w & I & W).
  assert (X : tells (match fst x with
     | GkLinear => in_order [or_peek peek_direction (in_order [parse_direction; opt_comma]) (ret []); parse_stops; close_paren]
     | GkRadial => parse_radial (fun p => match peek_n p 1 with None => None | Some c => radial_at c p end)
     | GkRepeatingRadial => parse_radial (radial_at (snd x))
     end) (fun _ u => args_of (match fst x with GkLinear => linear_arguments | _ => radial_arguments end) (bare u))).
  { destruct (fst x); [| exact (c_radial _ rd_radial_at) | exact (c_radial _ (rd_no_at _ (proj1 W)))].
    apply (c_args [maybe (seq [direction_def; maybe comma]); stops] [_; parse_stops]). apply Forall2_cons; [| apply Forall2_cons; [exact rd_stops | apply Forall2_nil]]. apply rd_maybe. apply rd_order. apply Forall2_cons; [exact rd_direction |]. apply Forall2_cons; [exact rd_opt_comma | apply Forall2_nil]. }
  eapply tv_imp; [exact (c_function w (snd x) _ _ u E W X q r Oq) |]. intros a v C. cbv beta in *. refine (of_one _ _ _ _ _ _ C). exact (in_map (fun x => DFunction (fst x) (match snd x with GkLinear => linear_arguments | _ => radial_arguments end)) _ _ I).
Qed.

(* ---- images ---- *)
Definition IMAGE_DEFS : list def := [ty_ "UrlToken"; fn "url" (ty_ "StringToken"); fn "linear-gradient" linear_arguments; fn "repeating-linear-gradient" linear_arguments;
  fn "radial-gradient" radial_arguments; fn "repeating-radial-gradient" radial_arguments].
Lemma gradient_in : forall d, In d GRADIENT_DEFS -> In d IMAGE_DEFS.
Proof. intros d I. unfold GRADIENT_DEFS, GRADIENTS in I. cbn [map fst snd] in I. destruct I as [<- | [<- | [<- | [<- | []]]]]; unfold IMAGE_DEFS; in_. Qed.
Lemma rd_kind_type : forall k w, k <> K_Eof -> (forall c, kind_of c = k -> token_of (DCustom (chars w)) c) -> rd (ty_ w) (one (peek_kind k)).
Proof. intros k w N H. apply rd_token; [apply solid_kind; exact N | | reflexivity]. eapply means_imp; [apply means_kind | exact H]. Qed.
Lemma rd_image : rd (DType DImage) parse_image.
Proof.
  apply (rd_type DImage (chars "Image") (alt IMAGE_DEFS)); [reflexivity | written_ |]. unfold parse_image. apply rd_or; [apply (rd_alt (ty_ "UrlToken")); [left; reflexivity |]; apply rd_kind_type; [discriminate |]; intros c E; do 3 right; left; auto |].
  apply rd_or.
  - eapply tells_imp; [exact rd_gradient |]. intros a u C. cbv beta in *. inversion C as [| | | | | | l d cs I Cd E1 E2 | | | | | | | | | | | |]; subst. exact (of_one _ _ _ d _ (gradient_in d I) Cd).
  - apply (rd_alt (fn "url" (ty_ "StringToken"))); [right; left; reflexivity |]. apply rd_function_named. intros p cs O. cbn [in_order]. eapply tv_bind; [exact O | apply (rd_kind_type K_String "StringToken"); [discriminate |]; intros c E; do 4 right; left; auto |]. intros a u q r _ Oq K. cbv beta in K. apply tv_pmap.
    eapply tv_bind; [exact Oq | apply (c_one (peek_kind K_RightParen) (fun c => kind_of c = K_RightParen)); [apply solid_kind; discriminate | apply means_kind |] |].
    + intros c E. unfold lasts. rewrite E. split; [discriminate | split; discriminate].
    + intros b v q2 r2 _ O2 (c & _ & Ev & Kc). apply tv_pmap. apply tv_ok; [exact O2 |]. exists (bare u), [c]. split; [rewrite !bare_app, Ev; reflexivity |]. split; [exact K |]. right. exists c. auto.
Qed.
Definition stripe_def : def := seq [maybe color; maybe (alt [length_percentage; ty_ "FlexToken"]); maybe color; maybe comma].
Lemma rd_length_or_flex : rd (alt [length_percentage; ty_ "FlexToken"]) (one peek_length_or_flex).
Proof.
  unfold peek_length_or_flex. apply rd_one_of; [exact (solid_of _ (solo_length_or_flex src f)) |]. apply means_alt. apply Forall_cons; [| apply Forall_cons; [| apply Forall_nil]].
  - exists (ty_ "FlexToken"), (has_unit src U_Fr). split; [in_ |]. split; [apply means_unit |]. intros c E. apply token_fits; [reflexivity |]. do 5 right. left. auto.
  - exists length_percentage, (token_of (DLengthPercentage RgNone)). split; [in_ |]. split; [apply means_lp |]. intros c E. apply token_fits; [reflexivity | exact E].
Qed.
Lemma rd_stripe : rd stripe_def parse_stripe.
Proof.
  intros p cs O. unfold parse_stripe. eapply tv_bind; [exact O | apply tells_if_peek; exact rd_color |]. intros o u1 q1 r1 _ O1 K1. eapply tv_bind; [exact O1 | exact (rd_opt _ _ rd_length_or_flex) |]. intros t u2 q2 r2 _ O2 K2. cbv beta in K2.
  assert (H1 : conforms (maybe color) (bare u1)) by (destruct o; cbv beta iota in K1; [apply of_something; exact K1 | subst u1; apply of_nothing]).
  assert (X : rd (maybe color) (match o with Some c => ret c | None => parse_color end)).
  { destruct o; [intros p' cs' O'; apply tv_ok; [exact O' | apply of_nothing] |]. eapply tells_imp; [exact rd_color |]. intros a u Y. cbv beta in *. apply of_something. exact Y. }
  eapply tv_bind; [exact O2 | exact X |]. intros x u3 q3 r3 _ O3 K3. cbv beta in K3. apply tv_pmap. eapply tv_use; [exact O3 | exact rd_opt_comma |]. intros y v Ky. cbv beta in *. rewrite !bare_app.
  replace (bare u1 ++ bare u2 ++ bare u3 ++ bare v) with (concat [bare u1; bare u2; bare u3; bare v]) by (cbn [concat]; now rewrite app_nil_r). apply of_sequence. repeat (apply Forall2_cons; [assumption |]). apply Forall2_nil.
Qed.
(* a list of items, to the parenthesis *)
Lemma args_more : forall d u l, conforms d u -> args_of (DMult d MuStar) l -> args_of (DMult d MuStar) (u ++ l).
Proof.
  intros d u l H (args & close & -> & C & Cc). inversion C as [| | | | | | | | | | | | | | d0 parts F E1 E2 | | | |]; subst. exists (u ++ concat parts), close. split; [apply app_assoc |]. split; [| exact Cc]. change (u ++ concat parts) with (concat (u :: parts)). apply of_any. constructor; assumption.
Qed.
Lemma args_none : forall d, args_of (DMult d MuStar) [].
Proof. intro d. exists [], []. split; [reflexivity |]. split; [apply (of_any _ _ d []); constructor | left; reflexivity]. Qed.
Lemma args_end : forall d c, kind_of c = K_RightParen -> args_of (DMult d MuStar) [c].
Proof. intros d c K. exists [], [c]. split; [reflexivity |]. split; [apply (of_any _ _ d []); constructor | right; exists c; auto]. Qed.
Lemma c_end : forall d, tells (one (peek_kind K_RightParen)) (fun _ u => args_of (DMult d MuStar) (bare u)).
Proof.
  intro d. eapply tells_imp; [apply (c_one (peek_kind K_RightParen) (fun c => kind_of c = K_RightParen)); [apply solid_kind; discriminate | apply means_kind |] |].
  - intros c E. unfold lasts. rewrite E. split; [discriminate | split; discriminate].
  - intros a u (c & _ & -> & K). apply args_end. exact K.
Qed.
Lemma c_stripes : forall n, tells (stripes_loop n) (fun _ u => args_of (DMult stripe_def MuStar) (bare u)).
Proof.
  intro n. induction n as [| n IH]; intros p cs O; [apply tv_none |]. cbn [stripes_loop]. apply tv_or_peek; intros _; [exact (c_end _ p cs O) |]. eapply tv_bind; [exact O | exact rd_stripe |]. intros a u q r _ Oq K. cbv beta in K. apply tv_pmap. eapply tv_use; [exact Oq | exact IH |]. intros b v C. cbv beta in *. rewrite bare_app. apply args_more; assumption.
Qed.
Lemma rd_image1d : rd (DType DImage1D) (ty_parse IMAGE_1D).
Proof.
  apply (rd_type DImage1D (chars "Image1D") (fn "stripes" (DMult stripe_def MuStar))); [reflexivity | written_ |]. cbn [ty_parse IMAGE_1D]. apply rd_function_named. intros p cs O. exact (c_stripes (sfuel p) p cs O).
Qed.

(* ---- the others ---- *)
Notation rdn := (fun w m => rd (DType (DCustom (chars w))) m).
Ltac named_ d := match goal with |- rd (DType (DCustom (chars ?w))) _ => apply (rd_type (DCustom (chars w)) (chars w) d); [reflexivity | written_ |] end.
Definition AREA_DEFS : list def := [some [kws AREA_HORIZONTAL; kws AREA_VERTICAL]; some [kws AREA_BLOCK; kws AREA_INLINE]; some [kws AREA_SELF_BLOCK; kws AREA_SELF_INLINE];
     DMult (kws AREA_POSITION) (MuRange (RgRange 1 2)); DMult (kws AREA_SELF_POSITION) (MuRange (RgRange 1 2))].
Lemma maybe_cases : forall d l, conforms (maybe d) l -> l = [] \/ conforms d l.
Proof. intros d l C. inversion C; subst; auto. Qed.
Lemma some_first : forall l1 l2 u v, conforms l1 u -> conforms (maybe l2) v -> conforms (some [l1; l2]) (u ++ v).
Proof.
  intros l1 l2 u v Hu Hv. apply maybe_cases in Hv. destruct Hv as [-> | Hv].
  - replace (u ++ []) with (concat [u]) by reflexivity. apply (of_some _ _ _ [l1] [l2]); [apply Permutation_refl | discriminate | constructor; [exact Hu | constructor]].
  - replace (u ++ v) with (concat [u; v]) by (cbn [concat]; now rewrite app_nil_r). apply (of_some _ _ _ [l1; l2] []); [apply Permutation_refl | discriminate | constructor; [exact Hu | constructor; [exact Hv | constructor]]].
Qed.
Lemma some_second : forall l1 l2 u v, conforms l2 u -> conforms (maybe l1) v -> conforms (some [l1; l2]) (u ++ v).
Proof.
  intros l1 l2 u v Hu Hv. apply maybe_cases in Hv. destruct Hv as [-> | Hv].
  - replace (u ++ []) with (concat [u]) by reflexivity. apply (of_some _ _ _ [l2] [l1]); [apply perm_swap | discriminate | constructor; [exact Hu | constructor]].
  - replace (u ++ v) with (concat [u; v]) by (cbn [concat]; now rewrite app_nil_r). apply (of_some _ _ _ [l2; l1] []); [apply perm_swap | discriminate | constructor; [exact Hu | constructor; [exact Hv | constructor]]].
Qed.
Lemma same_twice : forall d u v, conforms d u -> conforms (maybe d) v -> conforms (DMult d (MuRange (RgRange 1 2))) (u ++ v).
Proof. intros d u v Hu Hv. apply maybe_cases in Hv. destruct Hv as [-> | Hv]; [rewrite app_nil_r; apply one_of_two; exact Hu | apply two_of; assumption]. Qed.
Lemma rd_area_second : forall D l r e, (forall u v, conforms (kws l) u -> conforms (maybe (kws r)) v -> conforms D (u ++ v)) -> rd D e -> rd D (area_second l r e).
Proof.
  intros D l r e H He. unfold area_second. apply rd_or; [| exact He]. intros p cs O. cbn [in_order]. eapply tv_bind; [exact O | apply rd_words |]. intros a u q rr _ Oq K. cbv beta in K. apply tv_pmap. eapply tv_bind; [exact Oq | exact (rd_opt_words r) |]. intros b v q2 r2 _ O2 Kb. cbv beta in Kb. apply tv_pmap. apply tv_ok; [exact O2 |].
  rewrite !bare_app. cbn [bare filter]. rewrite app_nil_r. apply H; assumption.
Qed.
Lemma rd_area_swapped : forall D l r e, (forall u v, conforms (kws l) u -> conforms (maybe (kws r)) v -> conforms D (u ++ v)) -> rd D e -> rd D (area_swapped l r e).
Proof.
  intros D l r e H He. unfold area_swapped. apply rd_or; [| exact He]. intros p cs O. eapply tv_bind; [exact O | apply rd_words |]. intros a u q rr _ Oq K. cbv beta in K. apply tv_pmap. eapply tv_use; [exact Oq | exact (rd_opt_words r) |]. intros b v Kb. cbv beta in *. rewrite bare_app. apply H; assumption.
Qed.
Lemma alt_of : forall l d cs, In d l -> conforms d cs -> conforms (alt l) cs.
Proof. intros l d cs I C. exact (of_one _ _ l d cs I C). Qed.
Lemma rd_area : rdn "PositionArea"%string parse_area.
Proof.
  cbv beta. named_ (alt AREA_DEFS). unfold parse_area.
  apply rd_area_second; [intros u v Hu Hv; apply (alt_of _ (nth 3 AREA_DEFS (alt []))); [in_ | exact (same_twice _ u v Hu Hv)] |].
  apply rd_area_second; [intros u v Hu Hv; apply (alt_of _ (nth 4 AREA_DEFS (alt []))); [in_ | exact (same_twice _ u v Hu Hv)] |].
  apply rd_area_second; [intros u v Hu Hv; apply (alt_of _ (nth 1 AREA_DEFS (alt []))); [in_ | exact (some_first _ _ u v Hu Hv)] |].
  apply rd_area_swapped; [intros u v Hu Hv; apply (alt_of _ (nth 1 AREA_DEFS (alt []))); [in_ | exact (some_second _ _ u v Hu Hv)] |].
  apply rd_area_second; [intros u v Hu Hv; apply (alt_of _ (nth 2 AREA_DEFS (alt []))); [in_ | exact (some_first _ _ u v Hu Hv)] |].
  apply rd_area_swapped; [intros u v Hu Hv; apply (alt_of _ (nth 2 AREA_DEFS (alt []))); [in_ | exact (some_second _ _ u v Hu Hv)] |].
  apply rd_area_second; [intros u v Hu Hv; apply (alt_of _ (nth 0 AREA_DEFS (alt []))); [in_ | exact (some_first _ _ u v Hu Hv)] |].
  apply rd_area_swapped; [intros u v Hu Hv; apply (alt_of _ (nth 0 AREA_DEFS (alt []))); [in_ | exact (some_second _ _ u v Hu Hv)] |].
  apply t_unexpected_any.
Qed.
Lemma rd_iteration : rdn "SingleAnimationIterationCount"%string parse_iteration_count.
Proof.
  cbv beta. named_ (alt [kw "infinite"; DType (DNumber (RgFrom 0))]). intros p cs O. unfold parse_iteration_count. destruct (peek _ p) as [b |] eqn:Pk; [| apply tv_none]. destruct (peek_n p 1) as [d |] eqn:Pn; [| apply tv_none].
  destruct (if b then _ else _) as [[] |] eqn:X; [| | apply tv_none].
  - destruct b; [| discriminate]. assert (T : tok_is (ctok d) K_Ident = true) by (unfold peek in Pk; rewrite (onto_peek_one src f p cs d O Pn) in Pk; unfold peek_kind in Pk; apply some_inj in Pk; exact Pk).
    intros r q E. destruct (next_ident p cs d r q O Pn T E) as (u & rest & -> & Oq & Eu & Kd). exists u, rest. split; [reflexivity |]. split; [exact Oq |]. intros a _. rewrite Eu. apply (alt_of _ (kw "infinite")); [in_ |]. apply of_word. split; [exact Kd |]. right. destruct O as (S & _). rewrite S in X. exact X.
  - eapply tv_bind; [exact O | apply (c_single _ peek_float (fun c => c) (token_of (DNumber (RgFrom 0)))); [exact (solid_of _ (solo_float src f)) | apply means_float | apply token_lasts] |]. intros x u q r _ Oq (c & -> & E & T). destruct (f32_lt (tvalue (ctok c)) 0) eqn:L; [apply tells_fail; exact Oq |]. apply tv_ok; [exact Oq |]. rewrite app_nil_r, E.
    apply (alt_of _ (DType (DNumber (RgFrom 0)))); [in_ |]. apply of_token; [exact T |]. intros _. exact L.
Qed.
Lemma rd_repeat : rdn "RepeatStyle"%string parse_repeat_style.
Proof.
  cbv beta. named_ (alt [kws REPEAT_AXES; DMult (kws (map chars REPETITIONS)) (MuRange (RgRange 1 2))]). intros p cs O. unfold parse_repeat_style. eapply tv_bind; [exact O | apply c_kind; discriminate |]. intros x u q r _ Oq (E & K). cbv beta.
  assert (M : forall l, match look_up (words l) q x with Some (Some _) => conforms (kws l) (bare u) | _ => True end).
  { intro l. unfold look_up. destruct Oq as (S & _). rewrite S. destruct (parse_str_lower x src) as [w |] eqn:L; [| exact Logic.I]. destruct (map_get (words l) w) as [v |] eqn:Mg; [| exact Logic.I]. rewrite E. apply map_get_in in Mg. unfold words in Mg. apply in_map_iff in Mg. destruct Mg as (y & Ey & I). injection Ey as -> ->. apply (kws_of l v); [exact I |]. split; [exact K | left; exact L]. }
  pose proof (M REPEAT_AXES) as M1. destruct (look_up (words REPEAT_AXES) q x) as [[w |] |]; [| | apply tv_none].
  - apply tv_ok; [exact Oq |]. rewrite app_nil_r. apply (alt_of _ (kws REPEAT_AXES)); [in_ | exact M1].
  - pose proof (M (map chars REPETITIONS)) as M2. unfold peek_words, peek_set. destruct (tok_is (ctok x) K_Ident); [| apply tells_fail_text; exact Oq]. destruct (look_up (words (map chars REPETITIONS)) q x) as [[w |] |]; [| apply tells_fail_text; exact Oq | apply tv_none].
    apply tv_pmap. eapply tv_use; [exact Oq | exact (rd_opt_words (map chars REPETITIONS)) |]. intros a v Ka. cbv beta in *. rewrite bare_app. apply (alt_of _ (DMult (kws (map chars REPETITIONS)) (MuRange (RgRange 1 2)))); [in_ |]. apply same_twice; assumption.
Qed.
Definition mix_def : def := seq [DType DCustomIdent; ty_ "PercentageToken"; maybe comma].
Lemma c_mix : forall n, tells (mix_loop n) (fun _ u => args_of (DMult mix_def MuStar) (bare u)).
Proof.
  intro n. induction n as [| n IH]; intros p cs O; [apply tv_none |]. cbn [mix_loop]. destruct (p_at_end p); [apply tv_ok; [exact O | apply args_none] |]. apply tv_or_peek; intros _; [exact (c_end _ p cs O) |].
  eapply tv_bind; [exact O | apply c_kind; discriminate |]. intros x u q r _ Oq (E & K). eapply tv_bind; [exact Oq | apply (c_single _ peek_percent (fun c => c) (token_of (DCustom (chars "PercentageToken")))); [apply solid_dimension | | apply token_lasts] |].
  - eapply means_imp; [exact means_percent |]. intros c U. do 2 right. left. auto.
  - intros y u2 q2 r2 _ O2 (d & -> & E2 & T). destruct (negb _); [apply tells_fail; exact O2 |]. eapply tv_bind; [exact O2 | exact rd_opt_comma |]. intros z u3 q3 r3 _ O3 K3. apply tv_pmap. eapply tv_use; [exact O3 | exact IH |]. intros t v C. cbv beta in *. rewrite !bare_app, E, E2.
    replace ([x] ++ [d] ++ bare u3 ++ bare v) with (concat [[x]; [d]; bare u3] ++ bare v) by (cbn [concat app]; now rewrite app_nil_r). apply args_more; [| exact C]. apply of_sequence. apply Forall2_cons; [apply of_token; [exact K | intros _; exact Logic.I] |]. apply Forall2_cons; [apply of_token; [exact T | intros _; exact Logic.I] |]. apply Forall2_cons; [exact K3 | apply Forall2_nil].
Qed.
Lemma rd_mix : rdn "DynamicRangeLimitMix"%string (ty_parse RANGE_LIMIT_MIX).
Proof. cbv beta. named_ (fn "dynamic-range-limit-mix" (DMult mix_def MuStar)). cbn [ty_parse RANGE_LIMIT_MIX]. apply rd_function_named. intros p cs O. exact (c_mix (sfuel p) p cs O). Qed.
Lemma rd_snap : forall name l, rd (fn name (seq [length_percentage; maybe comma; maybe (kws (map chars l))])) (ty_parse (snap_ty name l)).
Proof. intros name l. cbn [ty_parse snap_ty]. apply rd_function_of. apply rd_order. apply Forall2_cons; [exact rd_lp |]. apply Forall2_cons; [exact rd_opt_comma |]. apply Forall2_cons; [apply rd_opt_words | apply Forall2_nil]. Qed.
Lemma rd_feature : rdn "AnimateableFeature"%string (ty_parse ANIMATEABLE_FEATURE).
Proof.
  cbv beta. named_ (DType DCustomIdent). cbn [ty_parse ANIMATEABLE_FEATURE]. intros p cs O. apply tv_pmap. eapply tv_use; [exact O | apply c_built; apply solid_kind; discriminate |]. intros x u (d & p' & q' & E & Kd & Pk & _). cbv beta. unfold peek_kind in Pk. apply some_inj in Pk. pose proof (kind_is d _ Kd Pk) as K. rewrite E.
  rewrite bare_one by (unfold lasts; rewrite K; split; [discriminate | split; discriminate]). apply of_token; [exact K | intros _; exact Logic.I].
Qed.
Lemma rd_calc_size : forall d, rd d (ty_parse CALC_SIZE).
Proof. intros d p cs O. cbn [ty_parse CALC_SIZE]. eapply tv_bind; [exact O | apply c_kind; discriminate |]. intros; apply tv_none. Qed.
Lemma rd_line_width : rdn "LineWidth"%string (ty_parse LINE_WIDTH).
Proof.
  cbv beta. named_ (alt [DType (DLength RgNone); kw "thin"; kw "medium"; kw "thick"]). cbn [ty_parse LINE_WIDTH token_ty]. apply rd_one_of; [apply solid_any; repeat constructor; [exact (solid_of _ (solo_length src f)) | apply solid_words] |].
  apply means_any. apply Forall_cons; [| apply Forall_cons; [| apply Forall_nil]].
  - eapply means_imp; [apply (means_length RgNone) |]. intros c T. destruct (token_fits (DLength RgNone) c eq_refl T) as (L & C). split; [exact L |]. refine (alt_of _ _ _ _ C). left. reflexivity.
  - eapply means_imp; [apply means_texts |]. intros c (w & I & W). destruct (word_fits (chars w) c W) as (L & C). split; [exact L |]. refine (alt_of _ _ _ _ C). destruct I as [<- | [<- | [<- | []]]]; in_.
Qed.
Lemma rd_words_type : forall w l, In (chars w, kws (map chars l)) HAND_WRITTEN -> rdn w (ty_parse (words_ty l)).
Proof. intros w l I. cbv beta. apply (rd_type _ (chars w) (kws (map chars l))); [reflexivity | exact I |]. cbn [ty_parse words_ty]. apply rd_words. Qed.
Ltac named_conforms := lazymatch goal with
  | |- rd _ (ty_parse (words_ty _)) => apply rd_words_type; written_
  | |- rd (DType (DCustom (chars ?w))) (ty_parse (snap_ty _ _)) => eapply (rd_type _ (chars w)); [reflexivity | | apply rd_snap]; written_
  | |- rd _ (ty_parse POSITION_AREA) => exact rd_area
  | |- rd _ (ty_parse ITERATION_COUNT) => exact rd_iteration
  | |- rd _ (ty_parse REPEAT_STYLE) => exact rd_repeat
  | |- rd _ (ty_parse RANGE_LIMIT_MIX) => exact rd_mix
  | |- rd _ (ty_parse ANIMATEABLE_FEATURE) => exact rd_feature
  | |- rd _ (ty_parse CALC_SIZE) => apply rd_calc_size
  | |- rd _ (ty_parse OPACITY) => apply rd_token; [exact (solid_of _ (solo_opacity src f)) | exact means_opacity | reflexivity]
  | |- rd (DType (DCustom (chars ?w))) (ty_parse (token_ty peek_dashed_ident)) => apply (rd_type _ (chars w) (DType DDashedIdent)); [reflexivity | written_ |]; apply rd_token; [exact solid_dashed | exact means_dashed | reflexivity]
  | |- rd _ (ty_parse LINE_WIDTH) => exact rd_line_width
  end.
Lemma named_types_conform : Forall (fun x => rd (DType (DCustom (fst x))) (ty_parse (snd x))) NAMED_TYPES.
Proof. unfold NAMED_TYPES. cbn [map fst snd]. repeat (apply Forall_cons; [cbn [fst snd]; named_conforms |]). apply Forall_nil. Qed.
End Logic.
