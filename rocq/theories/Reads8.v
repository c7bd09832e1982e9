(* Stylesheets are read: blocks, stylesheets and all written rules. *)
From Coq Require Import ZifyBool ZifyNat ZifyN.
From Coq Require Import String.
From Coq Require Import List Lia.
From Verif Require Import SpecWords SpecFeatures SyntaxProofs.
From Verif Require Import LexTrace AstSheet Values SpecSheet SpecLex SpecTrace SpecParser SpecSyntax SpecTraits SpecRules KindProofs CursorProofs LexBase LexFacts ParserProofs ParserProofs3 CompareProofs
  ParserProofs2 FeatureProofs TraitsTotal SelectorProofs SelectorProofs2 SelectorProofs3 SelectorProofs9 SyntaxTotal SyntaxAccept Keeps RulesTotal SpecSelectors SpecConforms SpecTree SpecAccepts SpecDecl SpecRead SpecSelectorText SelectorGoes SelectorGoes2 SelectorGoes3 SelectorGoes5 SelectorGoes7 PropValues4 Reads Reads2 Reads3 Reads4 Reads5 Reads6 Reads7 ReadsPage.
Open Scope N_scope.
Open Scope list_scope.
Notation length := List.length.

Section Reads8.
Variable src : text.
Context {mod_ : mode}.
Variable f : feature.
Notation at_ := (at_ src f). Notation takes := (takes src f). Notation takesg := (takesg src f).
Arguments Reads.takes _ {mod_} _ {A}. Arguments Reads.takesg _ {mod_} _ {A}.
Notation p_rule := (p_rule src f). Notation p_items := (p_items src f). Notation p_rules := (p_rules src f).

Lemma has_decl : forall ds rs x d o l, outline_property x = d -> has ds rs l -> has ((d, o) :: ds) rs (IDecl x o :: l).
Proof. intros ds rs x d o l <- (<- & E2). split; [reflexivity | exact E2]. Qed.
Lemma has_rule : forall ds rs x r l, outline x = r -> has ds rs l -> has ds (r :: rs) (IRule x :: l).
Proof. intros ds rs x r l <- (E1 & <-). split; [exact E1 | reflexivity]. Qed.
Lemma takesg_weaken : forall A (m : P A) p (Q Q' : A -> Prop) rest, (forall x, Q x -> Q' x) -> takesg m p Q rest -> takesg m p Q' rest.
Proof. intros A m p Q Q' rest H (g & G & T). exists g. split; [exact G | exact (takes_weaken src f _ _ _ _ _ _ H T)]. Qed.
Lemma close_gap : forall R (rp : P R) g m p close rest, at_ p (g ++ close :: rest) -> gap g -> kind_of close = K_RightCurly -> (length g < m)%nat ->
  takesg (block_loop peek_declaration (parse_property VALUES) rp m) p (fun l => item_decls l = [] /\ item_rules l = []) (close :: rest).
Proof.
  intros R rp g m p close rest Ap G Kc Hm. apply (block_gap src f R rp _ close rest (close :: rest) 0 (solid_of _ _ Kc solid_right)) with (k := length g) (g := g).
  - intros l H. exact H.
  - intros m' g' q G' Aq T Hm'. destruct m' as [| m']; [lia |]. apply (takesg_weaken _ _ _ (eq [])); [intros x <-; split; reflexivity |]. exact (block_close src f _ _ m' q g' close rest Aq G' T Kc).
  - apply le_n.
  - exact G.
  - exact Ap.
  - lia.
Qed.
Lemma items_none : forall nested g, gap g -> p_items nested [] [] g.
Proof.
  intros nested g G n m p close rest Ap Kc Hn Hm. apply (takesg_weaken _ _ _ (fun l => item_decls l = [] /\ item_rules l = [])); [intros l (E1 & E2); unfold has, outline_declarations; rewrite E1, E2; split; reflexivity |]. exact (close_gap _ _ g m p close rest Ap G Kc Hm).
Qed.
Lemma items_semicolon : forall nested g semi decls rules toks, gap g -> kind_of semi = K_Semicolon -> p_items nested decls rules toks -> p_items nested decls rules (g ++ semi :: toks).
Proof.
  intros nested g semi decls rules toks G Ks H n m p close rest Ap Kc Hn Hm. rewrite <- app_assoc in Ap. cbn [app] in Ap. rewrite app_length in Hn, Hm. cbn [length] in Hn, Hm.
  apply (block_gap src f _ _ _ semi (toks ++ close :: rest) (close :: rest) (S (length toks)) (solid_of _ _ Ks solid_semicolon) (has_skip _ _)) with (k := length g) (g := g); [| apply le_n | exact G | exact Ap | lia].
  intros m' g' q G' Aq T Hm'. destruct m' as [| m']; [lia |]. apply (block_semi src f _ _ m' q g' semi (toks ++ close :: rest) _ _ Aq G' T Ks (has_skip _ _)). intros q2 Aq2. apply (H n m' q2 close rest Aq2 Kc); lia.
Qed.
Lemma items_decl : forall nested g d t g' c ts o ds rs rest n m m0, declaration_written src d t -> gap g -> gap g' -> (kind_of c = K_Semicolon /\ o = Some c \/ kind_of c = K_RightCurly /\ o = None) ->
  (forall mid q m', at_ q mid -> (kind_of c = K_Semicolon /\ mid = ts \/ kind_of c = K_RightCurly /\ exists g2, gap g2 /\ mid = g2 ++ c :: ts /\ (length g2 < length t + length g')%nat) -> (m0 <= m')%nat ->
    takesg (block_loop peek_declaration (parse_property VALUES) (css_rule_n VALUES n nested) m') q (has ds rs) rest) ->
  forall p, at_ p (g ++ t ++ g' ++ c :: ts) -> (length g + m0 < m)%nat -> takesg (block_loop peek_declaration (parse_property VALUES) (css_rule_n VALUES n nested) m) p (has ((d, o) :: ds) rs) rest.
Proof.
  intros nested g d t g' c ts o ds rs rest n m m0 Dw G G' Ho K p Ap Hm. destruct (written_name src d t Dw) as (name & g1 & colon & u & Et & Kn & _).
  assert (Es : forall h, h ++ t ++ g' ++ c :: ts = h ++ name :: (g1 ++ colon :: u) ++ g' ++ c :: ts) by (intro h; rewrite Et; reflexivity).
  apply (block_gap src f _ _ _ name ((g1 ++ colon :: u) ++ g' ++ c :: ts) rest m0 (name_solid _ Kn) (has_skip _ _)) with (k := length g) (g := g); [| apply le_n | exact G | rewrite <- Es; exact Ap | lia].
  intros m' h q Gh Aq T Hm'. destruct m' as [| m']; [lia |]. rewrite <- Es in Aq, T. apply (block_decl src f _ _ m' q h d t g' c ts o _ _ Aq Gh T Dw G' Ho). intros mid x q2 Ex Aq2 Hmid.
  apply (takesg_weaken _ _ _ (has ds rs)); [intros l; apply has_decl; exact Ex |]. apply (K mid q2 m' Aq2 Hmid). lia.
Qed.
Lemma items_last : forall nested g d t g', gap g -> declaration_written src d t -> gap g' -> p_items nested [(d, None)] [] (g ++ t ++ g').
Proof.
  intros nested g d t g' G Dw G' n m p close rest Ap Kc Hn Hm. rewrite <- !app_assoc in Ap. rewrite !app_length in Hn, Hm.
  apply (items_decl nested g d t g' close rest None [] [] (close :: rest) n m (length t + length g')); [exact Dw | exact G | exact G' | right; split; [exact Kc | reflexivity] | | exact Ap | lia].
  intros mid q m' Aq [(Ks & _) | (_ & g2 & G2 & -> & L2)] Hm'; [congruence |]. apply (takesg_weaken _ _ _ (fun l => item_decls l = [] /\ item_rules l = [])); [intros l (E1 & E2); unfold has, outline_declarations; rewrite E1, E2; split; reflexivity |]. apply (close_gap _ _ g2 m' q close rest Aq G2 Kc). lia.
Qed.
Lemma items_declaration : forall nested g d t g' semi decls rules toks, gap g -> declaration_written src d t -> gap g' -> kind_of semi = K_Semicolon -> p_items nested decls rules toks -> p_items nested ((d, Some semi) :: decls) rules (g ++ t ++ g' ++ semi :: toks).
Proof.
  intros nested g d t g' semi decls rules toks G Dw G' Ks H n m p close rest Ap Kc Hn Hm. rewrite <- !app_assoc in Ap. cbn [app] in Ap. rewrite !app_length in Hn, Hm. cbn [length] in Hn, Hm.
  apply (items_decl nested g d t g' semi (toks ++ close :: rest) (Some semi) decls rules (close :: rest) n m (S (length toks))); [exact Dw | exact G | exact G' | left; split; [exact Ks | reflexivity] | | exact Ap | lia].
  intros mid q m' Aq [(_ & ->) | (Kr & _)] Hm'; [| congruence]. apply (H n m' q close rest Aq Kc); lia.
Qed.
Lemma items_rule : forall nested g r t decls rules toks, gap g -> p_rule nested true r t -> p_items nested decls rules toks -> p_items nested decls (r :: rules) (g ++ t ++ toks).
Proof.
  intros nested g r t decls rules toks G (St & Nd & Hr) H n m p close rest Ap Kc Hn Hm. rewrite <- !app_assoc in Ap. rewrite !app_length in Hn, Hm.
  destruct St as (c & u & Et & Sc & N1 & N2 & _). destruct (Nd eq_refl) as (c' & u' & Et' & Nd'). rewrite Et in Et'. injection Et' as <- <-.
  assert (Es : forall h : list cursor, h ++ t ++ toks ++ close :: rest = h ++ c :: u ++ toks ++ close :: rest) by (intro h; rewrite Et; reflexivity).
  apply (block_gap src f _ _ _ c (u ++ toks ++ close :: rest) (close :: rest) (length t + length toks) Sc (has_skip _ _)) with (k := length g) (g := g); [| apply le_n | exact G | rewrite <- Es; exact Ap | lia].
  intros m' h q Gh Aq T Hm'. destruct m' as [| m']; [lia |]. assert (Lt : (1 <= length t)%nat) by (rewrite Et; cbn [length]; lia).
  assert (Run : forall q, at_ q (h ++ c :: u ++ toks ++ close :: rest) -> takes (css_rule_n VALUES n nested) q (fun x => outline x = r) (toks ++ close :: rest)).
  { intros q1 Aq1. rewrite <- Es in Aq1. apply (Hr n q1 h (toks ++ close :: rest) Aq1 Gh). lia. }
  assert (K : forall x q, outline x = r -> at_ q (toks ++ close :: rest) -> takesg (block_loop peek_declaration (parse_property VALUES) (css_rule_n VALUES n nested) m') q (fun l => has decls (r :: rules) (IRule x :: l)) (close :: rest)).
  { intros x q1 Ex Aq1. apply (takesg_weaken _ _ _ (has decls rules)); [intros l; apply has_rule; exact Ex |]. apply (H n m' q1 close rest Aq1 Kc); lia. }
  destruct Nd' as [Ka | (Na & Nc)].
  - exact (block_at_rule src f _ _ m' q h c _ (fun x => outline x = r) (toks ++ close :: rest) _ _ Aq Gh T Ka Run K).
  - refine (block_style src f _ _ m' q h c _ (fun x => outline x = r) (toks ++ close :: rest) _ _ Aq Gh T Sc Na N1 N2 _ Run K).
    intros Kc'. destruct (Nc Kc') as (g1 & d & ts & -> & G1 & Sd & Nd1). exists g1, d, (ts ++ toks ++ close :: rest). rewrite <- app_assoc. auto.
Qed.
(* ---- blocks of rules ---- *)
Lemma rules_none : forall g, gap g -> p_rules [] g.
Proof.
  intros g G. split.
  - intros close rest Kc. exists g, close, rest. split; [reflexivity |]. split; [exact G |]. split; [exact (solid_of _ _ Kc solid_right) | rewrite Kc; discriminate].
  - intros n m p close rest Ap Kc _ _. apply (takes_weaken src f _ _ _ (eq ([], Some close))); [intros x <-; split; reflexivity |]. exact (tail_end src f _ _ m p g close rest Ap G Kc).
Qed.
Lemma rules_cons : forall g r t rules toks, gap g -> p_rule false false r t -> p_rules rules toks -> p_rules (r :: rules) (g ++ t ++ toks).
Proof.
  intros g r t rules toks G (St & _ & Hr) (Hh & H). destruct St as (c & u & Et & Sc & N1 & N2 & _). split.
  - intros close rest Kc. exists g, c, (u ++ toks ++ close :: rest). rewrite Et, <- !app_assoc. cbn [app]. auto.
  - intros n m p close rest Ap Kc Hn Hm. rewrite <- !app_assoc in Ap. rewrite !app_length in Hn, Hm. assert (Lt : (1 <= length t)%nat) by (rewrite Et; cbn [length]; lia). destruct m as [| m]; [lia |].
    assert (Es : g ++ t ++ toks ++ close :: rest = g ++ c :: u ++ toks ++ close :: rest) by (rewrite Et; reflexivity). assert (Ap' := Ap). rewrite Es in Ap'.
    apply (tail_go src f _ _ (S m) p g c _ (fun x => outline x = r) (toks ++ close :: rest) _ rest Ap' G Sc N2).
    + apply (Hr n p g _ Ap G). lia.
    + intros x q Ex Aq. apply takes_map. destruct (Hh close rest Kc) as (g1 & c1 & r1 & E1 & G1 & S1 & M1). assert (Aq' := Aq). rewrite E1 in Aq'.
      apply (loop_tail src f _ _ m q g1 c1 r1 _ rest Aq' G1 S1 M1). intros q2 Aq2. rewrite <- E1 in Aq2. assert (Hl : (length toks <= n)%nat /\ (length toks <= m)%nat) by lia. destruct Hl as (Hl & Hk).
      refine (takes_weaken src f _ _ _ _ _ _ _ (H n m q2 close rest Aq2 Kc Hl Hk)). intros y (F1 & F2). cbn [fst snd map]. rewrite Ex, F1. split; [reflexivity | exact F2].
Qed.
(* ---- every written rule ---- *)
Theorem written_read : (forall nested inside r t, rule_written src nested inside r t -> p_rule nested inside r t) /\ (forall nested ds rs toks, items_written src nested ds rs toks -> p_items nested ds rs toks) /\
  (forall rs toks, rules_written src rs toks -> p_rules rs toks).
Proof.
  apply (written_mut src p_rule p_items p_rules).
  - intros. apply charset_rule; assumption.
  - intros. apply layer_names_rule; assumption.
  - intros. apply layer_rule; assumption.
  - intros. apply layer_unnamed_rule; assumption.
  - intros. apply media_rule; assumption.
  - intros. apply container_rule; assumption.
  - intros. apply supports_rule; assumption.
  - intros. apply document_rule; assumption.
  - intros. apply moz_document_rule; assumption.
  - intros. apply property_rule; assumption.
  - intros. apply webkit_keyframes_rule; assumption.
  - intros. apply keyframes_rule; assumption.
  - intros. apply font_face_rule; assumption.
  - intros. apply page_rule; assumption.
  - intros. apply page_selected_rule; assumption.
  - intros. apply style_rule; assumption.
  - intros. apply items_none; assumption.
  - intros. apply items_semicolon; assumption.
  - intros. apply items_last; assumption.
  - intros. apply items_declaration; assumption.
  - intros. apply items_rule; assumption.
  - intros. apply rules_none; assumption.
  - intros. apply rules_cons; assumption.
Qed.
(* ---- sheets ---- *)
Notation sheet := (sheet_loop (parse_css_rule VALUES)).
Lemma solid_cdo : solid_kind K_CdcOrCdo.
Proof. repeat split; discriminate. Qed.
Lemma sheet_gap : forall cs Q rest m0, solid_first cs ->
  (forall m g q, gap g -> at_ q (g ++ cs) -> takes if_whitespace q (eq None) (g ++ cs) -> (m0 < m)%nat -> takesg (sheet m) q Q rest) ->
  forall k g m p, (length g <= k)%nat -> gap g -> at_ p (g ++ cs) -> (length g + m0 < m)%nat -> takesg (sheet m) p Q rest.
Proof.
  intros cs Q rest m0 Sc K. induction k as [| k IH]; intros g m p Hk G Ap Hm.
  - destruct g; [| cbn [length] in Hk; lia]. apply (K m [] p G Ap); [| lia]. destruct (white src f [] p cs Ap G Sc) as [(ws & g' & L & _) | T]; [cbn [length] in L; lia | exact T].
  - destruct (white src f g p cs Ap G Sc) as [(ws & g' & L & G' & T) | T]; [| apply (K m g p G Ap T); lia]. destruct m as [| m]; [lia |].
    cbn [sheet_loop]. apply (takesg_bind2 src f _ _ _ _ p (eq (Some ws)) _ (g' ++ cs) _ T). intros x q <- Aq _. apply (IH g' m q); [lia | exact G' | exact Aq | lia].
Qed.
Lemma eof_here : forall p g, at_ p (g ++ []) -> gap g -> peek_next p = Some (Cursor (blen (lsrc (plex p))) T_EOF).
Proof. intros p g Ap G. exact (peek_next_spec p g [] (at_ahead src f _ _ Ap) (gap_kinds p g (at_ready src f _ _ Ap) G) Logic.I). Qed.
Lemma sheet_none : forall g m p, gap g -> at_ p (g ++ []) -> (length g < m)%nat -> takesg (sheet m) p (fun l => map outline l = []) [].
Proof.
  intros g m p G Ap Hm. apply (sheet_gap [] _ [] 0 Logic.I) with (k := length g) (g := g); [| apply le_n | exact G | exact Ap | lia].
  intros m' h q Gh Aq T Hm'. destruct m' as [| m']; [lia |]. apply (takesg_takes src f _ _ _ _ h _ Gh). cbn [sheet_loop].
  apply (takes_bind src f _ _ _ _ q (eq None) _ _ _ T). intros x q1 <- Aq1 _. apply (takes_bind src f _ _ _ _ q1 (eq None) _ (h ++ [])).
  { apply takes_if_not; [unfold peek; rewrite (eof_here q1 h Aq1 Gh); reflexivity | exact Aq1 | reflexivity]. }
  intros x q2 <- Aq2 _. unfold Reads.takes. rewrite (eof_here q2 h Aq2 Gh). change (tok_is (ctok (Cursor (blen (lsrc (plex q2))) T_EOF)) K_Eof) with true. exists [], q2. split; [destruct (p_at_end q2); reflexivity |]. split; [reflexivity |]. split; [exact Aq2 | apply mode_refl].
Qed.
Theorem sheet_read : forall rs toks, sheet_written src rs toks -> forall m p, at_ p toks -> (length toks < m)%nat -> takesg (sheet m) p (fun l => map outline l = rs) [].
Proof.
  intros rs toks W. induction W as [g G | g c rules toks G Kc W IH | g r t rules toks G Wr W IH]; intros m p Ap Hm.
  - rewrite <- (app_nil_r g) in Ap. exact (sheet_none g m p G Ap Hm).
  - rewrite app_length in Hm. cbn [length] in Hm. pose proof (solid_of _ _ Kc solid_cdo) as Sc. apply (sheet_gap (c :: toks) _ [] (S (length toks)) Sc) with (k := length g) (g := g); [| apply le_n | exact G | exact Ap | lia].
    intros m' h q Gh Aq T Hm'. destruct m' as [| m']; [lia |]. cbn [sheet_loop]. apply (takesg_bind2 src f _ _ _ _ q (eq None) _ _ _ T). intros x q1 <- Aq1 _. apply (takesg_bind2 src f _ _ _ _ q1 (eq (Some c)) _ toks); [exact (take_if_kind src f K_CdcOrCdo q1 h c toks Aq1 Gh Kc solid_cdo) |].
    intros x q2 <- Aq2 _. apply (IH m' q2 Aq2). lia.
  - destruct (proj1 written_read _ _ _ _ Wr) as (St & _ & Hr). destruct St as (c & u & Et & Sc & _ & _ & N3 & N4). rewrite !app_length in Hm. assert (Lt : (1 <= length t)%nat) by (rewrite Et; cbn [length]; lia).
    assert (Es : forall h : list cursor, h ++ t ++ toks = h ++ c :: u ++ toks) by (intro h; rewrite Et; reflexivity). rewrite Es in Ap.
    apply (sheet_gap (c :: u ++ toks) _ [] (S (length toks)) Sc) with (k := length g) (g := g); [| apply le_n | exact G | exact Ap | lia].
    intros m' h q Gh Aq T Hm'. destruct m' as [| m']; [lia |]. cbn [sheet_loop]. apply (takesg_bind2 src f _ _ _ _ q (eq None) _ _ _ T). intros x q1 <- Aq1 _. apply (takesg_bind2 src f _ _ _ _ q1 (eq None) _ _ _ (take_if_not_kind src f K_CdcOrCdo q1 h c _ Aq1 Gh Sc N3)).
    intros x q2 <- Aq2 _. unfold Reads.takesg, Reads.takes. rewrite (more_ahead src f q2 _ Aq2 (app_not_nil _ _ _)), (next_here src f q2 h c _ Aq2 Gh Sc), (tok_not K_Eof c N4 N4).
    rewrite <- Es in Aq2. assert (Hl : (length t <= sfuel q2)%nat) by (pose proof (sfuel_more q2 _ (at_ahead src f _ _ Aq2)) as X; rewrite !app_length in X; lia).
    apply (takesg_bind2 src f _ _ _ _ q2 (fun x => outline x = r) _ toks _ (Hr (sfuel q2) q2 h toks Aq2 Gh Hl)). intros x q3 Ex Aq3 _. apply takesg_map.
    apply (takesg_weaken _ _ _ (fun l => map outline l = rules)); [intros l El; cbn [map]; rewrite Ex, El; reflexivity |]. apply (IH m' q3 Aq3). lia.
Qed.
End Reads8.
