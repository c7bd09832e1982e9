(* Values without functions that are values of a definition are accepted: single tokens (SpecConforms.v says what values are). *)
From Coq Require Import ZifyBool ZifyNat ZifyN Permutation.
From Coq Require Import String.
From Coq Require Import List.
From Verif Require DimProofs.
From Verif Require Import AstSheet Values SpecSheet SpecLex SpecTrace SpecParser SpecSyntax SpecTraits SpecRules SpecFeatures SpecCursor SpecToken LexBase TokenProofs KindProofs LexFacts LexTrace CursorProofs CursorLex
  ParserProofs ParserProofs2 ParserProofs3 ParserProofs4 CompareProofs SyntaxProofs SyntaxTotal TraitsTotal RulesTotal FeatureProofs FaithProofs FaithTraits FaithRules Goes Goes2 Goes3 SheetTotal ValuesTotal Tells ValuesTold SpecSelectors SpecSelectorText SelectorProofs3 SelectorProofs9 SelectorGoes SpecConforms ValuesConform ValuesConform2 ValuesConform3.
Open Scope N_scope.
Open Scope list_scope.
Notation length := List.length.

(* names are described once *)
Definition DESCRIPTIONS : list (text * option def) := map (fun x => (fst x, Some (snd x))) HAND_WRITTEN ++ VALUE_DEFS.
Fixpoint apart (l : list text) : bool := match l with [] => true | w :: r => negb (existsb (text_eqb w) r) && apart r end.
Lemma described_once : apart (map fst DESCRIPTIONS) = true.
Proof. vm_compute. reflexivity. Qed.
Lemma apart_get : forall V (l : list (text * V)) w v, apart (map fst l) = true -> In (w, v) l -> map_get l w = Some v.
Proof.
  intros V l w v. induction l as [| (w0, v0) l IH]; intros A I; [destruct I |]. cbn [map fst apart] in A. apply andb_prop in A. destruct A as (A1 & A2). cbn [map_get]. destruct I as [E | I].
  - injection E as -> ->. rewrite text_eqb_refl. reflexivity.
  - destruct (text_eqb w0 w) eqn:E; [| exact (IH A2 I)]. apply text_eqb_spec in E. subst w0. apply negb_true_iff in A1. exfalso. assert (X : existsb (text_eqb w) (map fst l) = true) by (apply existsb_exists; exists w; split; [apply in_map_iff; exists (w, v); auto | apply text_eqb_refl]). rewrite X in A1. discriminate.
Qed.
Lemma described_get : forall name d, described name d -> map_get DESCRIPTIONS name = Some (Some d).
Proof.
  intros name d D. apply apart_get; [exact described_once |]. unfold DESCRIPTIONS. apply in_or_app. destruct D as [I | (w & s & I & -> & E)].
  - left. apply in_map_iff. exists (name, d). auto.
  - right. unfold VALUE_DEFS. apply in_map_iff. exists (w, s). split; [| exact I]. cbn [fst snd]. pose proof (maps_agree _ _ _ _ _ _ same_readings I) as X. cbn [snd] in X. rewrite <- X, E. reflexivity.
Qed.

Section Taken.
Variable src : text.
Context {mod_ : mode}.
Variable f : feature.
Notation stands := (stands src f).
Notation seen := (seen src).
Notation whole := (whole src f).
Notation solo := (solo src f).
Notation good := (good src f).
Notation conforms := (conforms src true).

(* inversions *)
Lemma inv_word : forall w cs, conforms (DIdent w) cs -> exists c, cs = [c] /\ word_of src K_Ident w c.
Proof. intros w cs C. inversion C; subst. eauto. Qed.
Lemma inv_alt : forall l cs, conforms (DComb l SAlternatives) cs -> exists d, In d l /\ conforms d cs.
Proof. intros l cs C. inversion C; subst. eauto. Qed.
Lemma inv_fn : forall w d cs, conforms (DFunction w d) cs -> exists c r, cs = c :: r /\ kind_of c = K_Function.
Proof. intros w d cs C. inversion C as [| name d0 f0 args close W _ _ | | | | | | | | | | | | | | | | |]; subst. exists f0, (args ++ close). split; [reflexivity | apply W]. Qed.
Lemma inv_type : forall t cs, conforms (DType t) cs -> (exists c, cs = [c] /\ token_of src t c /\ in_bounds (type_checks t) c) \/ exists name d, type_name t = Some name /\ map_get DESCRIPTIONS name = Some (Some d) /\ conforms d cs.
Proof. intros t cs C. inversion C; subst; [left; eauto 6 | right]. exists name, d. split; [assumption |]. split; [apply described_get; assumption | assumption]. Qed.
Lemma inv_many : forall d r cs, conforms (DMult d (MuRange r)) cs -> exists parts, cs = concat parts /\ Forall (conforms d) parts /\ count_fits r (length parts).
Proof. intros d r cs C. inversion C; subst. eauto. Qed.
Lemma inv_list : forall d r cs, conforms (DMult d (MuComma r)) cs -> exists parts, Forall (conforms d) parts /\ count_fits r (length parts) /\ with_commas parts cs.
Proof. intros d r cs C. inversion C; subst. eauto. Qed.
Lemma inv_sequence : forall l cs, conforms (DComb l SOrdered) cs -> exists parts, cs = concat parts /\ Forall2 conforms l parts.
Proof. intros l cs C. inversion C; subst. eauto. Qed.
Lemma inv_optional : forall d cs, conforms (DOptional d) cs -> cs = [] \/ conforms d cs.
Proof. intros d cs C. inversion C; subst; auto. Qed.

(* the two ways in which the code compares words agree on this token *)
Definition plainly (c : cursor) : Prop :=
  (forall w, lower_text w = w -> eq_ignore_ascii_case c src w = Some true -> parse_str_lower c src = Some w) /\
  (kind_of c = K_Ident -> forall w, lower_text w = w -> parse_str_lower c src = Some w -> eq_ignore_ascii_case c src w = Some true).
Lemma word_lower : forall k w c, plainly c -> lower_text w = w -> word_of src k w c -> kind_of c = k /\ parse_str_lower c src = Some w.
Proof. intros k w c (Pc & _) L (K & [E | E]); split; auto. Qed.

(* where the parser is *)
Definition here (p : parser) (cs : list cursor) : Prop := stands p cs /\ pskip p = KS_TRIVIA.
Lemma here_next : forall p g c rest, here p (g ++ c :: rest) -> gap g -> lasts c -> exists q, next p = Some (c, q) /\ peek_next p = Some c /\ here q rest /\ seen c.
Proof.
  intros p g c rest (S & K) G L. pose proof S as (S1 & S2 & A & (Sf & Sc) & T). assert (F : Forall (in_kinds (pskip p)) g) by (rewrite K; apply gap_trivia; exact G).
  assert (N : ~ in_kinds (pskip p) c) by (rewrite K, in_trivia; destruct L as (_ & L1 & L2); intros [X | X]; contradiction).
  destruct (next_token p g c rest A F N) as (q & E & Tk & A'). exists q. split; [exact E |]. split; [exact (peek_next_spec p g (c :: rest) A F N) |]. pose proof (took_mode _ _ _ Tk) as (M1 & M2 & M3 & M4 & M5). split.
  - split; [| rewrite M2; exact K]. split; [rewrite M4; exact S1 |]. split; [rewrite M5; exact S2 |]. split; [exact A' |]. split; [change (g ++ c :: rest) with (g ++ [c] ++ rest) in *; rewrite app_assoc in Sf, Sc; exact (supported_app src _ _ (conj Sf Sc)) |]. rewrite M2. exact T.
  - apply Forall_app in Sf. destruct Sf as (_ & Sf). inversion Sf; subst. assumption.
Qed.
(* peeks: true of the tokens T, false of what ends a value *)
Definition hits (k : peeker) (T : cursor -> Prop) : Prop := forall p cs c, stands p cs -> seen c -> lasts c -> plainly c -> T c -> k p c = Some true.
Definition ends_value (c : cursor) : Prop := ctok c = T_EOF \/ kind_of c = K_Semicolon \/ kind_of c = K_RightCurly \/ kind_of c = K_Delim.
Definition quiet (k : peeker) : Prop := forall p cs c, stands p cs -> seen c -> ends_value c -> k p c = Some false.
Definition sharp (k : peeker) : Prop := whole k /\ quiet k.
(* a parser of one token *)
Definition eats (T : cursor -> Prop) (m : P (list cursor)) : Prop := forall p g c rest, here p (g ++ c :: rest) -> gap g -> lasts c -> plainly c -> T c -> exists q, m p = Some (Ok [c], q) /\ here q rest.
Lemma hits_imp : forall k (T T' : cursor -> Prop), hits k T -> (forall c, T' c -> T c) -> hits k T'.
Proof. intros k T T' H X p cs c S Sc L Pc Tc. exact (H p cs c S Sc L Pc (X c Tc)). Qed.
Lemma eats_imp : forall m (T T' : cursor -> Prop), eats T m -> (forall c, T' c -> T c) -> eats T' m.
Proof. intros m T T' H X p g c rest Hh G L Pc Tc. exact (H p g c rest Hh G L Pc (X c Tc)). Qed.
Lemma here_peek : forall k p g c rest b, here p (g ++ c :: rest) -> gap g -> lasts c -> (forall cs, stands p cs -> seen c -> k p c = Some b) -> peek k p = Some b.
Proof. intros k p g c rest b H G L K. destruct (here_next p g c rest H G L) as (q & _ & Pn & _ & Sc). unfold peek. rewrite Pn. exact (K _ (proj1 H) Sc). Qed.
Lemma eats_one : forall k T, hits k T -> eats T (one k).
Proof.
  intros k T H p g c rest Hh G L Pc Tc. destruct (here_next p g c rest Hh G L) as (q & N & Pn & Hq & Sc). exists q. split; [| exact Hq]. unfold one, pmap, bind, parse_single, peek. rewrite Pn, (H p _ c (proj1 Hh) Sc L Pc Tc), N. reflexivity.
Qed.
Lemma hits_kind : forall k, hits (peek_kind k) (fun c => kind_of c = k).
Proof. intros k p cs c S Sc (L & _) Pc K. unfold peek_kind. rewrite (tok_kind k c K); [reflexivity | congruence]. Qed.
Lemma hits_words : forall k l, Forall (fun w => lower_text w = w) l -> hits (peek_set k (words l)) (fun c => exists w, In w l /\ word_of src k w c).
Proof.
  intros k l Fl p cs c S Sc (L & _) Pc (w & I & W). rewrite Forall_forall in Fl. destruct (word_lower k w c Pc (Fl w I) W) as (K & E). unfold peek_set. rewrite (tok_kind k c K) by congruence. unfold look_up. destruct S as (-> & _). rewrite E.
  pose proof (words_get l w) as G. destruct (map_get (words l) w); [reflexivity | contradiction].
Qed.
Lemma hits_any : forall l k T, Forall whole l -> In k l -> hits k T -> hits (any_peek l) T.
Proof.
  intros l k T F I H p cs c S Sc L Pc Tc. induction F as [| k0 l W F IH]; [destruct I |]. cbn [any_peek]. destruct I as [-> | I]; [rewrite (H p cs c S Sc L Pc Tc); reflexivity |]. pose proof (W p cs c S Sc) as N. destruct (k0 p c) as [[] |]; [reflexivity | exact (IH I) | contradiction].
Qed.
Lemma hits_unit : forall u, hits (peek_dimension u (unit_str u)) (has_unit src u).
Proof.
  intros u p cs c S Sc L Pc (K & E). unfold peek_dimension. rewrite (tok_kind K_Dimension c K) by discriminate. destruct S as (-> & _). destruct E as [E | E].
  - replace (unit_eqb (dimension_unit (ctok c)) u) with true by (symmetry; apply DimProofs.unit_eqb_eq; exact E). reflexivity.
  - destruct (unit_eqb _ _); [reflexivity |]. exact E.
Qed.
Lemma hits_units : forall l, hits (any_peek (map (fun u => peek_dimension u (unit_str u)) l)) (fun c => exists u, In u l /\ has_unit src u c).
Proof.
  intros l p cs c S Sc L Pc (u & I & H). apply (hits_any _ (peek_dimension u (unit_str u)) (has_unit src u)) with (cs := cs); try assumption; [| apply in_map_iff; eauto | apply hits_unit].
  apply Forall_forall. intros k Ik. apply in_map_iff in Ik. destruct Ik as (v & <- & _). apply solo_dimension.
Qed.
Lemma hits_zero_or : forall k T, hits k T -> hits (fun p c => if tok_is (ctok c) K_Number && f32_is_zero (tvalue (ctok c)) then Some true else k p c) (fun c => zero c \/ T c).
Proof.
  intros k T H p cs c S Sc L Pc [(K & Z) | Tc]; cbv beta; [rewrite (tok_kind K_Number c K), Z by discriminate; reflexivity |]. destruct (_ && _); [reflexivity | exact (H p cs c S Sc L Pc Tc)].
Qed.
Lemma lower_texts : forall l, forallb (fun s => text_eqb (lower_text (chars s)) (chars s)) l = true -> Forall (fun w => lower_text w = w) (map chars l).
Proof. intros l E. rewrite forallb_forall in E. apply Forall_forall. intros w I. apply in_map_iff in I. destruct I as (s & <- & I). apply text_eqb_spec. exact (E s I). Qed.
Lemma hits_texts : forall k l, forallb (fun s => text_eqb (lower_text (chars s)) (chars s)) l = true -> hits (peek_set k (words (map chars l))) (fun c => exists w, In w l /\ word_of src k (chars w) c).
Proof. intros k l E. eapply hits_imp; [apply hits_words, lower_texts; exact E |]. intros c (w & I & W). exists (chars w). split; [apply in_map; exact I | exact W]. Qed.
Lemma hits_token : forall t, leaf_token t = true -> hits (ty_peek (leaf_ty t)) (token_of src t).
Proof.
  intros t L. destruct t; try discriminate; cbn [leaf_ty ty_peek token_ty LENGTH LENGTH_PERCENTAGE FLOAT ANGLE TIME RESOLUTION INT].
  - exact (hits_zero_or _ _ (hits_units LENGTH_UNITS)).
  - exact (hits_zero_or _ _ (hits_units (U_Percent :: LENGTH_UNITS))).
  - apply hits_texts. reflexivity.
  - exact (hits_zero_or _ _ (hits_texts K_Dimension ["s"; "ms"]%string eq_refl)).
  - apply hits_texts. reflexivity.
  - intros p cs c S Sc Lc Pc (K & E). unfold peek_int. rewrite (tok_kind K_Number c K), E by discriminate. reflexivity.
  - intros p cs c S Sc Lc Pc (K & E). unfold peek_float. rewrite (tok_kind K_Number c K), E by discriminate. reflexivity.
  - intros p cs c S Sc Lc Pc (K & E). unfold peek_float. rewrite (tok_kind K_Number c K), E by discriminate. reflexivity.
  - exact (hits_kind K_Ident).
  - intros p cs c S Sc Lc Pc (K & E). unfold peek_dashed_ident. rewrite (tok_kind K_Ident c K), E by discriminate. reflexivity.
  - exact (hits_kind K_Ident).
Qed.
Lemma hits_opacity : hits peek_opacity (token_of src (DCustom (chars "OpacityValue"))).
Proof.
  intros p cs c S Sc L Pc T. assert (X : kind_of c = K_Number /\ f32_upto_1 (tvalue (ctok c)) = true \/ has_unit src U_Percent c /\ f32_upto_100 (tvalue (ctok c)) = true).
  { cbn [token_of] in T. repeat (destruct T as [(X & _) | T]; [vm_compute in X; discriminate X |]). exact (proj2 T). }
  unfold peek_opacity. destruct X as [(K & E) | (U & E)]; [rewrite (tok_kind K_Number c K), E by discriminate; reflexivity |]. destruct (_ && _); [reflexivity |]. pose proof (hits_unit U_Percent p cs c S Sc L Pc U) as Y. change (peek_dimension U_Percent (unit_str U_Percent)) with peek_percent in Y. rewrite Y, E. reflexivity.
Qed.
(* quiet *)
Lemma quiet_tok : forall c k, ends_value c -> k <> K_Eof -> k <> K_Semicolon -> k <> K_RightCurly -> k <> K_Delim -> tok_is (ctok c) k = false.
Proof. intros c k [E | E] N1 N2 N3 N4; [apply eof_is; assumption |]. apply tok_not; destruct E as [E | [E | E]]; rewrite E; congruence. Qed.
Lemma quiet_kind : forall k, k <> K_Eof -> k <> K_Semicolon -> k <> K_RightCurly -> k <> K_Delim -> quiet (peek_kind k).
Proof. intros k N1 N2 N3 N4 p cs c S Sc E. unfold peek_kind. rewrite quiet_tok; auto. Qed.
Lemma quiet_set : forall V k (m : list (text * V)), k <> K_Eof -> k <> K_Semicolon -> k <> K_RightCurly -> k <> K_Delim -> quiet (peek_set k m).
Proof. intros V k m N1 N2 N3 N4 p cs c S Sc E. unfold peek_set. rewrite quiet_tok; auto. Qed.
Lemma quiet_dimension : forall u w, quiet (peek_dimension u w).
Proof. intros u w p cs c S Sc E. unfold peek_dimension. rewrite quiet_tok; auto; discriminate. Qed.
Lemma quiet_any : forall l, Forall quiet l -> quiet (any_peek l).
Proof. intros l F p cs c S Sc E. induction F as [| k l Q F IH]; [reflexivity |]. cbn [any_peek]. rewrite (Q p cs c S Sc E). exact IH. Qed.
Lemma quiet_zero_or : forall k, quiet k -> quiet (fun p c => if tok_is (ctok c) K_Number && f32_is_zero (tvalue (ctok c)) then Some true else k p c).
Proof. intros k Q p cs c S Sc E. cbv beta. rewrite (quiet_tok c K_Number) by (auto; discriminate). exact (Q p cs c S Sc E). Qed.
Lemma quiet_units : forall l, quiet (any_peek (map (fun u => peek_dimension u (unit_str u)) l)).
Proof. intro l. apply quiet_any. apply Forall_forall. intros k I. apply in_map_iff in I. destruct I as (u & <- & _). apply quiet_dimension. Qed.
Lemma quiet_leaf : forall t, (forall w, t <> DCustom w) -> quiet (ty_peek (leaf_ty t)).
Proof.
  assert (S1 : forall V (m : list (text * V)), quiet (peek_set K_Dimension m)) by (intros; apply quiet_set; discriminate).
  assert (Nm : forall w, quiet (peek_named K_Function w)) by (intros w p cs c S Sc E; unfold peek_named; rewrite quiet_tok; auto; discriminate).
  intros t N. destruct t; cbn [leaf_ty ty_peek token_ty LENGTH LENGTH_PERCENTAGE FLOAT ANGLE TIME RESOLUTION INT COLOR IMAGE IMAGE_1D].
  - exact (quiet_zero_or _ (quiet_units LENGTH_UNITS)).
  - exact (quiet_zero_or _ (quiet_units (U_Percent :: LENGTH_UNITS))).
  - apply S1.
  - exact (quiet_zero_or _ (S1 _ _)).
  - apply S1.
  - intros p cs c S Sc E. unfold peek_int. rewrite quiet_tok; auto; discriminate.
  - intros p cs c S Sc E. unfold peek_float. rewrite quiet_tok; auto; discriminate.
  - intros p cs c S Sc E. unfold peek_float. rewrite quiet_tok; auto; discriminate.
  - apply quiet_any. repeat (apply Forall_cons; [apply quiet_kind; discriminate |]). apply Forall_nil.
  - apply quiet_kind; discriminate.
  - apply quiet_any. apply Forall_cons; [apply quiet_kind; discriminate |]. apply Forall_cons; [apply quiet_set; discriminate |]. apply Forall_cons; [apply Nm | apply Forall_nil].
  - apply Nm.
  - intros p cs c S Sc E. unfold peek_dashed_ident. rewrite quiet_tok; auto; discriminate.
  - apply quiet_kind; discriminate.
  - elim (N name). reflexivity.
Qed.
End Taken.
