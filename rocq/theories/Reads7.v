(* Stylesheets are read: every rule, and sheets. *)
From Coq Require Import ZifyBool ZifyNat ZifyN.
From Coq Require Import String.
From Coq Require Import List Lia.
From Verif Require Import SpecWords SpecFeatures SyntaxProofs.
From Verif Require Import LexTrace AstSheet Values SpecSheet SpecLex SpecTrace SpecParser SpecSyntax SpecTraits SpecRules KindProofs CursorProofs LexBase LexFacts ParserProofs ParserProofs3 CompareProofs
  ParserProofs2 FeatureProofs TraitsTotal SelectorProofs SelectorProofs2 SelectorProofs3 SelectorProofs9 SyntaxTotal SyntaxAccept Keeps RulesTotal SpecSelectors SpecConforms SpecTree SpecAccepts SpecDecl SpecRead SpecSelectorText SelectorGoes SelectorGoes2 SelectorGoes3 SelectorGoes5 SelectorGoes7 PropValues4 Reads Reads2 Reads3 Reads4 ReadsFeature Reads5 Reads6.
Open Scope N_scope.
Open Scope list_scope.
Notation length := List.length.

Section Tables.
Variable props : properties.
Variable rp : P css_rule.
Definition table (nested : bool) : list (text * P css_rule) := if nested then NESTED_AT_RULES props rp else AT_RULES props rp.
Lemma get_charset : map_get (table false) (chars "charset") = Some parse_charset. Proof. reflexivity. Qed.
Lemma get_keyframes : map_get (table false) (chars "keyframes") = Some (parse_keyframes props). Proof. reflexivity. Qed.
Lemma get_font_face : map_get (table false) (chars "font-face") = Some (parse_font_face props). Proof. reflexivity. Qed.
Lemma get_webkit : map_get (table false) (chars "-webkit-keyframes") = Some (parse_webkit_keyframes props). Proof. reflexivity. Qed.
Lemma get_document : map_get (table false) (chars "document") = Some (parse_document rp). Proof. reflexivity. Qed.
Lemma get_moz : map_get (table false) (chars "-moz-document") = Some (parse_moz_document rp). Proof. reflexivity. Qed.
Lemma get_property : map_get (table false) (chars "property") = Some parse_property_rule. Proof. reflexivity. Qed.
Lemma get_layer : forall nested, map_get (table nested) (chars "layer") = Some (parse_layer rp). Proof. intros []; reflexivity. Qed.
Lemma get_media : forall nested, map_get (table nested) (chars "media") = Some (parse_media props rp). Proof. intros []; reflexivity. Qed.
Lemma get_container : forall nested, map_get (table nested) (chars "container") = Some (parse_container rp). Proof. intros []; reflexivity. Qed.
Lemma get_supports : forall nested, map_get (table nested) (chars "supports") = Some (parse_supports props rp). Proof. intros []; reflexivity. Qed.
Lemma get_page : map_get (table false) (chars "page") = Some (parse_page props). Proof. reflexivity. Qed.
End Tables.

Section Reads7.
Variable src : text.
Context {mod_ : mode}.
Variable f : feature.
Notation at_ := (at_ src f). Notation takes := (takes src f). Notation takesg := (takesg src f).
Arguments Reads.takes _ {mod_} _ {A}. Arguments Reads.takesg _ {mod_} _ {A}.

Lemma takes_opt : forall A (m : P A) p Q rest, takes m p Q rest -> takes (opt_ok m) p (fun o => exists x, o = Some x /\ Q x) rest.
Proof. intros A m p Q rest (x & q & E & H & K). exists (Some x), q. split; [unfold opt_ok; rewrite E; reflexivity |]. split; [exists x; split; [reflexivity | exact H] | exact K]. Qed.
Lemma css_rule_at : forall n nested p g a ts w m Q rest, at_ p (g ++ a :: ts) -> gap g -> SpecRead.at_word src w a -> map_get (table VALUES (css_rule_n VALUES n false) nested) (chars w) = Some m -> takes m p Q rest -> takes (css_rule_n VALUES (S n) nested) p Q rest.
Proof.
  intros n nested p g a ts w m Q rest Ap G (Ka & El & _) Em (x & q & E & H & K). pose proof (solid_of _ _ Ka solid_at) as Sa. cbn [css_rule_n]. apply (takes_or src f _ _ _ _ p true); [rewrite (peek_kind_here src f K_AtKeyword p g a ts Ap G Sa), Ka; reflexivity |].
  exists x, q. split; [| split; [exact H | exact K]]. unfold at_rule_by_name. rewrite (first_here src f p g a ts Ap G Sa). unfold look_up. rewrite (at_src src f _ _ Ap), El. unfold table in Em. rewrite Em, E. reflexivity.
Qed.
Lemma takes_prelude : forall Pr B A (build : cursor -> Pr -> B -> A) m p a Qp Qb (Q : A -> Prop) rest, takes m p (fun x => let '(a', pr, b) := x in a' = a /\ (exists v, pr = Some v /\ Qp v) /\ Qb b) rest -> (forall v b, Qp v -> Qb b -> Q (build a v b)) -> takes (with_prelude build m) p Q rest.
Proof.
  intros Pr B A build m p a Qp Qb Q rest T H. unfold with_prelude. apply (takes_bind src f _ _ _ _ p _ _ rest _ T). intros ((a' & pr) & b) q (-> & (v & -> & Hv) & Hb) Aq _. apply takes_ret; [exact Aq | exact (H v b Hv Hb)].
Qed.

(* ---- what is proved of rules, of blocks with declarations, and of blocks of rules ---- *)
Definition starts (t : list cursor) : Prop := exists c r, t = c :: r /\ solid c /\ kind_of c <> K_Semicolon /\ kind_of c <> K_RightCurly /\ kind_of c <> K_CdcOrCdo /\ kind_of c <> K_Eof.
Definition no_decl_start (t : list cursor) : Prop := exists c r, t = c :: r /\ (kind_of c = K_AtKeyword \/ kind_of c <> K_AtKeyword /\ (kind_of c = K_Ident -> exists g' d ts', r = g' ++ d :: ts' /\ gap g' /\ solid d /\ kind_of d <> K_Colon)).
Definition p_rule (nested inside : bool) (r : css_rule) (t : list cursor) : Prop := starts t /\ (inside = true -> no_decl_start t) /\
  forall n p g rest, at_ p (g ++ t ++ rest) -> gap g -> (length t <= n)%nat -> takes (css_rule_n VALUES n nested) p (fun x => outline x = r) rest.
Definition p_items (nested : bool) (ds : list (property * option cursor)) (rs : list css_rule) (toks : list cursor) : Prop := forall n m p close rest, at_ p (toks ++ close :: rest) -> kind_of close = K_RightCurly -> (length toks <= n)%nat -> (length toks < m)%nat ->
  takesg (block_loop peek_declaration (parse_property VALUES) (css_rule_n VALUES n nested) m) p (has ds rs) (close :: rest).
Definition p_rules (rs : list css_rule) (toks : list cursor) : Prop := (forall close rest, kind_of close = K_RightCurly -> exists g c r, toks ++ close :: rest = g ++ c :: r /\ gap g /\ solid c /\ kind_of c <> K_Semicolon) /\
  forall n m p close rest, at_ p (toks ++ close :: rest) -> kind_of close = K_RightCurly -> (length toks <= n)%nat -> (length toks <= m)%nat -> takes (rules_tail (css_rule_n VALUES n false) m) p (fun x => map outline (fst x) = rs /\ snd x = Some close) rest.

Lemma rules_block : forall rs body, p_rules rs body -> forall n p g open close rest, at_ p (g ++ open :: body ++ close :: rest) -> gap g -> kind_of open = K_LeftCurly -> kind_of close = K_RightCurly -> (length body <= n)%nat ->
  takes (rule_list_t (css_rule_n VALUES n false)) p (fun x => let '(o, l, c) := x in o = open /\ map outline l = rs /\ c = Some close) rest.
Proof.
  intros rs body (Hh & H) n p g open close rest Ap G Ko Kc Hn. refine (takes_weaken src f _ _ _ _ _ _ _ (rule_list_reads src f _ _ p g open body close rest (fun x => map outline (fst x) = rs /\ snd x = Some close) Ap G Ko (Hh close rest Kc) _)).
  - intros ((o & l) & c) (E1 & E2 & E3). cbn [fst snd] in *. auto.
  - intros m q Aq Hm. exact (H n m q close rest Aq Kc Hn Hm).
Qed.
Lemma items_block : forall nested ds rs body, p_items nested ds rs body -> forall n p g open close rest, at_ p (g ++ open :: body ++ close :: rest) -> gap g -> kind_of open = K_LeftCurly -> kind_of close = K_RightCurly -> (length body <= n)%nat ->
  takes (block_t peek_declaration (parse_property VALUES) (css_rule_n VALUES n nested)) p (fun x => let '(o, d, l, c) := x in o = open /\ outline_declarations d = ds /\ map outline l = rs /\ c = Some close) rest.
Proof.
  intros nested ds rs body H n p g open close rest Ap G Ko Kc Hn. unfold block_t. apply (takes_bind src f _ _ _ _ p (eq open) _ (body ++ close :: rest)); [exact (take_kind src f K_LeftCurly p g open _ Ap G Ko solid_left) |]. intros x q <- Aq _.
  assert (Hl : (length body < sfuel q)%nat) by (pose proof (sfuel_more q _ (at_ahead src f _ _ Aq)) as X; rewrite app_length in X; lia).
  apply (takesg_bind src f _ _ _ _ q (has ds rs) _ (close :: rest)); [exact (H n (sfuel q) q close rest Aq Kc Hn Hl) |]. intros g2 items q2 G2 (E1 & E2) Aq2 _.
  apply (takes_bind src f _ _ _ _ q2 (eq (Some close)) _ rest); [exact (take_if_kind src f K_RightCurly q2 g2 close rest Aq2 G2 Kc solid_right) |]. intros x q3 <- Aq3 _. apply takes_ret; [exact Aq3 |]. auto.
Qed.
Lemma at_starts : forall w a ts, SpecRead.at_word src w a -> starts (a :: ts).
Proof. intros w a ts (K & _). exists a, ts. split; [reflexivity |]. split; [exact (solid_of _ _ K solid_at) |]. rewrite K. repeat split; discriminate. Qed.
Lemma at_no_decl : forall w a ts, SpecRead.at_word src w a -> no_decl_start (a :: ts).
Proof. intros w a ts (K & _). exists a, ts. split; [reflexivity | left; exact K]. Qed.

Lemma charset_rule : forall inside a space g string g' semi, SpecRead.at_word src "charset" a -> kind_of space = K_Whitespace -> gap g -> kind_of string = K_String -> gap g' -> kind_of semi = K_Semicolon ->
  p_rule false inside (RCharset a space string (Some semi)) (a :: space :: g ++ string :: g' ++ [semi]).
Proof.
  intros inside a space g string g' semi W Ks G Kst G' Kse. split; [exact (at_starts _ _ _ W) |]. split; [intros _; exact (at_no_decl _ _ _ W) |]. intros n p g0 rest Ap G0 Hn. destruct n as [| n]; [cbn [length] in Hn; lia |].
  cbn [app] in Ap. rewrite <- app_assoc in Ap. cbn [app] in Ap. rewrite <- app_assoc in Ap. cbn [app] in Ap. apply (css_rule_at n false p g0 a _ "charset" parse_charset _ _ Ap G0 W (get_charset _ _)). pose proof W as (Ka & _ & E).
  unfold parse_charset. apply (takes_bind src f _ _ _ _ p (eq a) _ (space :: g ++ string :: g' ++ semi :: rest)); [exact (take_kind src f K_AtKeyword p g0 a _ Ap G0 Ka solid_at) |]. intros x q <- Aq _.
  apply (takes_bind src f _ _ _ _ q (fun _ => True) _ (space :: g ++ string :: g' ++ semi :: rest)); [exists Datatypes.tt, q; rewrite (at_src src f _ _ Aq), E; split; [reflexivity |]; split; [exact Logic.I |]; split; [exact Aq | apply mode_refl] |]. intros u0 q2 _ Aq2 _.
  apply (takes_bind src f _ _ _ _ q2 (eq space) _ (g ++ string :: g' ++ semi :: rest)); [exact (raw_space src f q2 space _ Aq2 Ks) |]. intros x q3 <- Aq3 _.
  apply (takes_bind src f _ _ _ _ q3 (eq string) _ (g' ++ semi :: rest)); [exact (take_kind src f K_String q3 g string _ Aq3 G Kst solid_string) |]. intros x q4 <- Aq4 _.
  apply (takes_bind src f _ _ _ _ q4 (fun o => exists x, o = Some x /\ semi = x) _ rest); [exact (takes_opt _ _ _ _ _ (take_kind src f K_Semicolon q4 g' semi _ Aq4 G' Kse solid_semicolon)) |]. intros x q5 (y & -> & <-) Aq5 _. apply takes_ret; [exact Aq5 | reflexivity].
Qed.
Lemma layer_prelude : forall names ts g c rest, commas_written layer_written names ts -> gap g -> ends_prelude c -> exists g0 h r, ts ++ g ++ c :: rest = g0 ++ h :: r /\ gap g0 /\ solid h /\ ~ ends_prelude h.
Proof. intros names ts g c rest W G Hc. destruct (commas_head src f _ _ _ _ _ (layer_names_read src f) W) as (g0 & h & r & -> & G0 & S0 & N0). exists g0, h, (r ++ g ++ c :: rest). rewrite <- app_assoc. auto. Qed.
Lemma layer_names_rule : forall nested inside a names ts g semi, SpecRead.at_word src "layer" a -> commas_written layer_written names ts -> gap g -> kind_of semi = K_Semicolon -> p_rule nested inside (RLayerNames a (Some names) semi) (a :: ts ++ g ++ [semi]).
Proof.
  intros nested inside a names ts g semi W Wn G Ks. split; [exact (at_starts _ _ _ W) |]. split; [intros _; exact (at_no_decl _ _ _ W) |]. intros n p g0 rest Ap G0 Hn. destruct n as [| n]; [cbn [length] in Hn; lia |].
  cbn [app] in Ap. rewrite <- !app_assoc in Ap. cbn [app] in Ap. apply (css_rule_at n nested p g0 a _ "layer" _ _ _ Ap G0 W (get_layer _ _ nested)).
  destruct (layer_prelude names ts g semi rest Wn G (or_intror Ks)) as (g1 & h & r & E & G1 & Sh & Nh). assert (Ap' := Ap). rewrite E in Ap'. unfold parse_layer.
  apply (takes_bind src f _ _ _ _ p (fun x => let '(a', pr, b) := x in a' = a /\ (exists v, pr = Some v /\ names = v) /\ inl semi = b) _ rest).
  - apply (at_rule_reads src f _ _ _ _ "layer" p g0 a g1 h r (eq names) (g ++ semi :: rest) (eq (inl semi)) rest Ap' G0 W G1 Sh Nh).
    + intros q Aq. rewrite <- E in Aq. exact (comma_list_reads src f _ _ _ (layer_names_read src f) names ts Wn q g semi rest Aq G (or_intror Ks)).
    + intros q Aq. unfold optional_layer_block. apply (takes_bind src f _ _ _ _ q (eq (Some semi)) _ rest); [exact (take_if_kind src f K_Semicolon q g semi rest Aq G Ks solid_semicolon) |]. intros x q2 <- Aq2 _. apply takes_ret; [exact Aq2 | reflexivity].
  - intros ((a' & pr) & b) q (-> & (v & -> & <-) & <-) Aq _. apply takes_ret; [exact Aq | reflexivity].
Qed.
Lemma layer_body : forall rs body n q g open close rest, p_rules rs body -> at_ q (g ++ open :: body ++ close :: rest) -> gap g -> kind_of open = K_LeftCurly -> kind_of close = K_RightCurly -> (length body <= n)%nat ->
  takes (optional_layer_block (css_rule_n VALUES n false)) q (fun b => exists l, b = inr (open, l, Some close) /\ map outline l = rs) rest.
Proof.
  intros rs body n q g open close rest Pr Aq G Ko Kc Hn. unfold optional_layer_block. apply (takes_bind src f _ _ _ _ q (eq None) _ (g ++ open :: body ++ close :: rest)); [apply (take_if_not_kind src f K_Semicolon q g open _ Aq G (solid_of _ _ Ko solid_left)); rewrite Ko; discriminate |]. intros x q2 <- Aq2 _. apply takes_map.
  refine (takes_weaken src f _ _ _ _ _ _ _ (rules_block rs body Pr n q2 g open close rest Aq2 G Ko Kc Hn)). intros ((o & l) & c) (-> & El & ->). exists l. split; [reflexivity | exact El].
Qed.
Lemma layer_rule : forall nested inside a name ts g open rules body close, SpecRead.at_word src "layer" a -> commas_written layer_written [(name, None)] ts -> gap g -> kind_of open = K_LeftCurly -> p_rules rules body -> kind_of close = K_RightCurly ->
  p_rule nested inside (RLayer a (Some [(name, None)]) open rules (Some close)) (a :: ts ++ g ++ open :: body ++ [close]).
Proof.
  intros nested inside a name ts g open rules body close W Wn G Ko Pr Kc. split; [exact (at_starts _ _ _ W) |]. split; [intros _; exact (at_no_decl _ _ _ W) |]. intros n p g0 rest Ap G0 Hn. destruct n as [| n]; [cbn [length] in Hn; lia |].
  cbn [app] in Ap. rewrite <- !app_assoc in Ap. cbn [app] in Ap. rewrite <- !app_assoc in Ap. cbn [app] in Ap. apply (css_rule_at n nested p g0 a _ "layer" _ _ _ Ap G0 W (get_layer _ _ nested)).
  destruct (layer_prelude _ ts g open (body ++ close :: rest) Wn G (or_introl Ko)) as (g1 & h & r & E & G1 & Sh & Nh). assert (Ap' := Ap). rewrite E in Ap'. unfold parse_layer.
  apply (takes_bind src f _ _ _ _ p (fun x => let '(a', pr, b) := x in a' = a /\ (exists v, pr = Some v /\ [(name, None)] = v) /\ exists l, b = inr (open, l, Some close) /\ map outline l = rules) _ rest).
  - apply (at_rule_reads src f _ _ _ _ "layer" p g0 a g1 h r (eq [(name, None)]) (g ++ open :: body ++ close :: rest) _ rest Ap' G0 W G1 Sh Nh).
    + intros q Aq. rewrite <- E in Aq. exact (comma_list_reads src f _ _ _ (layer_names_read src f) _ ts Wn q g open _ Aq G (or_introl Ko)).
    + intros q Aq. assert (Hl : (length body <= n)%nat) by (cbn [length] in Hn; rewrite !app_length in Hn; cbn [length] in Hn; rewrite app_length in Hn; lia). exact (layer_body rules body n q g open close rest Pr Aq G Ko Kc Hl).
  - intros ((a' & pr) & b) q (-> & (v & -> & <-) & (l & -> & El)) Aq _. apply takes_ret; [exact Aq |]. cbn [outline]. rewrite El. reflexivity.
Qed.
Lemma layer_unnamed_rule : forall nested inside a g open rules body close, SpecRead.at_word src "layer" a -> gap g -> kind_of open = K_LeftCurly -> p_rules rules body -> kind_of close = K_RightCurly ->
  p_rule nested inside (RLayer a None open rules (Some close)) (a :: g ++ open :: body ++ [close]).
Proof.
  intros nested inside a g open rules body close W G Ko Pr Kc. split; [exact (at_starts _ _ _ W) |]. split; [intros _; exact (at_no_decl _ _ _ W) |]. intros n p g0 rest Ap G0 Hn. destruct n as [| n]; [cbn [length] in Hn; lia |].
  cbn [app] in Ap. rewrite <- !app_assoc in Ap. cbn [app] in Ap. rewrite <- !app_assoc in Ap. cbn [app] in Ap. apply (css_rule_at n nested p g0 a _ "layer" _ _ _ Ap G0 W (get_layer _ _ nested)). unfold parse_layer.
  apply (takes_bind src f _ _ _ _ p (fun x => let '(a', pr, b) := x in a' = a /\ pr = None /\ exists l, b = inr (open, l, Some close) /\ map outline l = rules) _ rest).
  - apply (at_rule_bare src f _ _ _ _ "layer" p g0 a g open _ _ rest Ap G0 W G (or_introl Ko)).
    intros q Aq. assert (Hl : (length body <= n)%nat) by (cbn [length] in Hn; rewrite !app_length in Hn; cbn [length] in Hn; rewrite app_length in Hn; lia). exact (layer_body rules body n q g open close rest Pr Aq G Ko Kc Hl).
  - intros ((a' & pr) & b) q (-> & -> & (l & -> & El)) Aq _. apply takes_ret; [exact Aq |]. cbn [outline]. rewrite El. reflexivity.
Qed.
Lemma opens_head : forall ts, opens ts -> exists g c r, ts = g ++ c :: r /\ gap g /\ solid c /\ ~ ends_prelude c.
Proof. intros ts (g & c & r & E & G & Sc & K). exists g, c, r. split; [exact E |]. split; [exact G |]. split; [exact Sc | intros [X | X]; congruence]. Qed.
Lemma query_head : forall q ts, query_written src q ts -> exists g c r, ts = g ++ c :: r /\ gap g /\ solid c /\ ~ ends_prelude c.
Proof.
  assert (T : forall pre t ts rest, media_type_written src pre t ts -> exists g c r, ts ++ rest = g ++ c :: r /\ gap g /\ solid c /\ ~ ends_prelude c).
  { intros pre t ts rest [t' (K & _) | w g t' (K & _) G Ft]; [exists [], (snd t'), rest | exists [], (snd w), ((g ++ [snd t']) ++ rest)]; (split; [reflexivity |]; split; [constructor |]; split; [exact (name_solid _ K) | intros [X | X]; congruence]). }
  intros q ts [pre t us W | pre t us g1 a x vs W G1 Ka Ea Wx | x us Wx].
  - rewrite <- (app_nil_r us). exact (T pre t us [] W).
  - exact (T pre t us _ W).
  - exact (opens_head _ (proj1 (media_condition_reads src f x us Wx))).
Qed.
Lemma container_head : forall q ts, container_written src q ts -> exists g c r, ts = g ++ c :: r /\ gap g /\ solid c /\ ~ ends_prelude c.
Proof.
  intros q ts [name w K E N | y us Wy].
  - exists [], name, []. split; [reflexivity |]. split; [constructor |]. split; [exact (name_solid _ K) | intros [X | X]; congruence].
  - exact (opens_head _ (proj1 (container_condition_reads src f y us Wy))).
Qed.
Lemma media_rule : forall nested inside a g0 q ts g open decls rules body close, SpecRead.at_word src "media" a -> gap g0 -> query_written src q ts -> gap g -> kind_of open = K_LeftCurly -> p_items false decls rules body -> kind_of close = K_RightCurly ->
  p_rule nested inside (RMedia a [q] open decls rules (Some close)) (a :: g0 ++ ts ++ g ++ open :: body ++ [close]).
Proof.
  intros nested inside a g0 mq ts g open decls rules body close W G0 Wq G Ko Pi Kc. split; [exact (at_starts _ _ _ W) |]. split; [intros _; exact (at_no_decl _ _ _ W) |]. intros n p g1 rest Ap G1 Hn. destruct n as [| n]; [cbn [length] in Hn; lia |].
  cbn [app] in Ap. rewrite <- !app_assoc in Ap. cbn [app] in Ap. rewrite <- !app_assoc in Ap. cbn [app] in Ap. apply (css_rule_at n nested p g1 a _ "media" _ _ _ Ap G1 W (get_media _ _ nested)).
  destruct (query_head mq ts Wq) as (g2 & h & r & E & G2 & Sh & Nh). assert (E' : forall l, g0 ++ ts ++ l = (g0 ++ g2) ++ h :: r ++ l) by (intro l; rewrite E, <- !app_assoc; reflexivity). assert (Ap' := Ap). rewrite E' in Ap'. unfold parse_media.
  apply (takes_prelude _ _ _ _ _ p a (eq [mq]) (fun x => let '(o, d, l, c) := x in o = open /\ outline_declarations d = decls /\ map outline l = rules /\ c = Some close)).
  - apply (at_rule_reads src f _ _ _ _ "media" p g1 a (g0 ++ g2) h _ (eq [mq]) (g ++ open :: body ++ close :: rest) _ rest Ap' G1 W (gap_app _ _ G0 G2) Sh Nh).
    + intros q Aq. unfold parse_media_queries. apply (one_prelude src f _ _ mq q g open _); [| exact G | left; exact Ko]. assert (Aq' : at_ q (g0 ++ ts ++ g ++ open :: body ++ close :: rest)) by (rewrite E'; exact Aq). exact (query_reads src f mq ts Wq q g0 g open _ Aq' G0 G Ko).
    + intros q Aq. assert (Hl : (length body <= n)%nat) by (cbn [length] in Hn; rewrite !app_length in Hn; cbn [length] in Hn; rewrite app_length in Hn; lia). exact (items_block false decls rules body Pi n q g open close rest Aq G Ko Kc Hl).
  - intros v (((o & d) & l) & c) <- (-> & E1 & E2 & ->). cbn [outline]. rewrite E1, E2. reflexivity.
Qed.
Lemma container_rule : forall nested inside a g0 q ts g open rules body close, SpecRead.at_word src "container" a -> gap g0 -> container_written src q ts -> gap g -> kind_of open = K_LeftCurly -> p_rules rules body -> kind_of close = K_RightCurly ->
  p_rule nested inside (RContainer a [q] open rules (Some close)) (a :: g0 ++ ts ++ g ++ open :: body ++ [close]).
Proof.
  intros nested inside a g0 mq ts g open rules body close W G0 Wq G Ko Pi Kc. split; [exact (at_starts _ _ _ W) |]. split; [intros _; exact (at_no_decl _ _ _ W) |]. intros n p g1 rest Ap G1 Hn. destruct n as [| n]; [cbn [length] in Hn; lia |].
  cbn [app] in Ap. rewrite <- !app_assoc in Ap. cbn [app] in Ap. rewrite <- !app_assoc in Ap. cbn [app] in Ap. apply (css_rule_at n nested p g1 a _ "container" _ _ _ Ap G1 W (get_container _ _ nested)).
  destruct (container_head mq ts Wq) as (g2 & h & r & E & G2 & Sh & Nh). assert (E' : forall l, g0 ++ ts ++ l = (g0 ++ g2) ++ h :: r ++ l) by (intro l; rewrite E, <- !app_assoc; reflexivity). assert (Ap' := Ap). rewrite E' in Ap'. unfold parse_container.
  apply (takes_prelude _ _ _ _ _ p a (eq [mq]) (fun x => let '(o, l, c) := x in o = open /\ map outline l = rules /\ c = Some close)).
  - apply (at_rule_reads src f _ _ _ _ "container" p g1 a (g0 ++ g2) h _ (eq [mq]) (g ++ open :: body ++ close :: rest) _ rest Ap' G1 W (gap_app _ _ G0 G2) Sh Nh).
    + intros q Aq. unfold parse_container_conditions. apply (one_prelude src f _ _ mq q g open _); [| exact G | left; exact Ko]. assert (Aq' : at_ q (g0 ++ ts ++ g ++ open :: body ++ close :: rest)) by (rewrite E'; exact Aq). exact (container_reads src f mq ts Wq q g0 g open _ Aq' G0 G Ko).
    + intros q Aq. assert (Hl : (length body <= n)%nat) by (cbn [length] in Hn; rewrite !app_length in Hn; cbn [length] in Hn; rewrite app_length in Hn; lia). exact (rules_block rules body Pi n q g open close rest Aq G Ko Kc Hl).
  - intros v ((o & l) & c) <- (-> & E1 & ->). cbn [outline]. rewrite E1. reflexivity.
Qed.
Lemma supports_rule : forall nested inside a g0 x ts g open rules body close, SpecRead.at_word src "supports" a -> gap g0 -> supports_written src x ts -> gap g -> kind_of open = K_LeftCurly -> p_rules rules body -> kind_of close = K_RightCurly ->
  p_rule nested inside (RSupports a (CIs x) open rules (Some close)) (a :: g0 ++ ts ++ g ++ open :: body ++ [close]).
Proof.
  intros nested inside a g0 x ts g open rules body close W G0 Ws G Ko Pr Kc. split; [exact (at_starts _ _ _ W) |]. split; [intros _; exact (at_no_decl _ _ _ W) |]. intros n p g2 rest Ap G2 Hn. destruct n as [| n]; [cbn [length] in Hn; lia |].
  cbn [app] in Ap. repeat (rewrite <- app_assoc in Ap; cbn [app] in Ap). apply (css_rule_at n nested p g2 a _ "supports" _ _ _ Ap G2 W (get_supports _ _ nested)). unfold parse_supports.
  destruct (supports_reads src f x ts Ws) as ((h & r & E & Kh) & Hs). assert (Sh : solid h) by (intros [X | X]; destruct Kh as [K | K]; congruence). assert (Nh : ~ ends_prelude h) by (intros [X | X]; destruct Kh as [K | K]; congruence).
  assert (Ap' := Ap). rewrite E in Ap'. cbn [app] in Ap'.
  apply (takes_prelude _ _ _ _ _ p a (fun y => outline_query y = CIs x) (fun y => let '(o, l, c) := y in o = open /\ map outline l = rules /\ c = Some close)).
  - apply (at_rule_reads src f _ _ _ _ "supports" p g2 a g0 h _ (fun y => outline_query y = CIs x) (g ++ open :: body ++ close :: rest) _ rest Ap' G2 W G0 Sh Nh).
    + intros q Aq. assert (Aq' : at_ q (g0 ++ ts ++ g ++ open :: body ++ close :: rest)) by (rewrite E; exact Aq). exact (Hs q g0 _ Aq' G0).
    + intros q Aq. assert (Hl : (length body <= n)%nat) by (cbn [length] in Hn; repeat (rewrite !app_length in Hn; cbn [length] in Hn); lia). exact (rules_block rules body Pr n q g open close rest Aq G Ko Kc Hl).
  - intros v ((o & l) & c) Ev (-> & E1 & ->). cbn [outline]. rewrite E1, Ev. reflexivity.
Qed.
Lemma document_prelude : forall l ts g c rest, commas_written (document_written src) l ts -> exists g0 h r, ts ++ g ++ c :: rest = g0 ++ h :: r /\ gap g0 /\ solid h /\ ~ ends_prelude h.
Proof. intros l ts g c rest W. destruct (commas_head src f _ _ _ _ _ (documents_read src f) W) as (g0 & h & r & -> & G0 & S0 & N0). exists g0, h, (r ++ g ++ c :: rest). rewrite <- app_assoc. auto. Qed.
Lemma document_rule : forall inside a l ts g open rules body close, SpecRead.at_word src "document" a -> commas_written (document_written src) l ts -> gap g -> kind_of open = K_LeftCurly -> p_rules rules body -> kind_of close = K_RightCurly ->
  p_rule false inside (RDocument a l open rules (Some close)) (a :: ts ++ g ++ open :: body ++ [close]).
Proof.
  intros inside a l ts g open rules body close W Wn G Ko Pr Kc. split; [exact (at_starts _ _ _ W) |]. split; [intros _; exact (at_no_decl _ _ _ W) |]. intros n p g0 rest Ap G0 Hn. destruct n as [| n]; [cbn [length] in Hn; lia |].
  cbn [app] in Ap. rewrite <- !app_assoc in Ap. cbn [app] in Ap. rewrite <- !app_assoc in Ap. cbn [app] in Ap. apply (css_rule_at n false p g0 a _ "document" _ _ _ Ap G0 W (get_document _ _)).
  destruct (document_prelude _ ts g open (body ++ close :: rest) Wn) as (g1 & h & r & E & G1 & Sh & Nh). assert (Ap' := Ap). rewrite E in Ap'. unfold parse_document.
  apply (takes_prelude _ _ _ _ _ p a (eq l) (fun x => let '(o, l', c) := x in o = open /\ map outline l' = rules /\ c = Some close)).
  - apply (at_rule_reads src f _ _ _ _ "document" p g0 a g1 h r (eq l) (g ++ open :: body ++ close :: rest) _ rest Ap' G0 W G1 Sh Nh).
    + intros q Aq. rewrite <- E in Aq. exact (comma_list_reads src f _ _ _ (documents_read src f) l ts Wn q g open _ Aq G (or_introl Ko)).
    + intros q Aq. assert (Hl : (length body <= n)%nat) by (cbn [length] in Hn; rewrite !app_length in Hn; cbn [length] in Hn; rewrite app_length in Hn; lia). exact (rules_block rules body Pr n q g open close rest Aq G Ko Kc Hl).
  - intros v ((o & l') & c) <- (-> & E1 & ->). cbn [outline]. rewrite E1. reflexivity.
Qed.
Lemma property_rule : forall inside a g0 name g open l body close, SpecRead.at_word src "property" a -> gap g0 -> custom_name name -> kind_of name = K_Ident -> gap g -> kind_of open = K_LeftCurly -> descriptors_written src l body -> kind_of close = K_RightCurly ->
  p_rule false inside (RProperty a name open l (Some close)) (a :: g0 ++ name :: g ++ open :: body ++ [close]).
Proof.
  intros inside a g0 name g open l body close W G0 Dn Kn G Ko Wd Kc. split; [exact (at_starts _ _ _ W) |]. split; [intros _; exact (at_no_decl _ _ _ W) |]. intros n p g1 rest Ap G1 Hn. destruct n as [| n]; [cbn [length] in Hn; lia |].
  cbn [app] in Ap. repeat (rewrite <- app_assoc in Ap; cbn [app] in Ap). apply (css_rule_at n false p g1 a _ "property" _ _ _ Ap G1 W (get_property _ _)). unfold parse_property_rule.
  assert (Nh : ~ ends_prelude name) by (intros [X | X]; congruence).
  apply (takes_prelude _ _ _ _ _ p a (eq name) (eq (open, l, Some close))).
  - apply (at_rule_reads src f _ _ _ _ "property" p g1 a g0 name _ (eq name) (g ++ open :: body ++ close :: rest) _ rest Ap G1 W G0 (name_solid _ Kn) Nh).
    + intros q Aq. unfold parse_dashed_ident. apply (take_single src f _ peek_dashed_ident (fun c => c) q g0 name _ Aq G0 (name_solid _ Kn)). unfold peek_dashed_ident. unfold custom_name in Dn. rewrite (tok_kind K_Ident _ Kn), Dn by discriminate. reflexivity.
    + intros q Aq. exact (registered_block_reads src f l body Wd q g open close rest Aq G Ko Kc).
  - intros v b <- <-. cbn [outline]. rewrite (registered_outline src l body Wd). reflexivity.
Qed.
Lemma moz_document_rule : forall inside a l ts g open rules body close, SpecRead.at_word src "-moz-document" a -> commas_written (document_written src) l ts -> gap g -> kind_of open = K_LeftCurly -> p_rules rules body -> kind_of close = K_RightCurly ->
  p_rule false inside (RMozDocument a l open rules (Some close)) (a :: ts ++ g ++ open :: body ++ [close]).
Proof.
  intros inside a l ts g open rules body close W Wn G Ko Pr Kc. split; [exact (at_starts _ _ _ W) |]. split; [intros _; exact (at_no_decl _ _ _ W) |]. intros n p g0 rest Ap G0 Hn. destruct n as [| n]; [cbn [length] in Hn; lia |].
  cbn [app] in Ap. rewrite <- !app_assoc in Ap. cbn [app] in Ap. rewrite <- !app_assoc in Ap. cbn [app] in Ap. apply (css_rule_at n false p g0 a _ "-moz-document" _ _ _ Ap G0 W (get_moz _ _)).
  destruct (document_prelude _ ts g open (body ++ close :: rest) Wn) as (g1 & h & r & E & G1 & Sh & Nh). assert (Ap' := Ap). rewrite E in Ap'. unfold parse_moz_document.
  apply (takes_prelude _ _ _ _ _ p a (eq l) (fun x => let '(o, l', c) := x in o = open /\ map outline l' = rules /\ c = Some close)).
  - apply (at_rule_reads src f _ _ _ _ "-moz-document" p g0 a g1 h r (eq l) (g ++ open :: body ++ close :: rest) _ rest Ap' G0 W G1 Sh Nh).
    + intros q Aq. rewrite <- E in Aq. exact (comma_list_reads src f _ _ _ (documents_read src f) l ts Wn q g open _ Aq G (or_introl Ko)).
    + intros q Aq. assert (Hl : (length body <= n)%nat) by (cbn [length] in Hn; rewrite !app_length in Hn; cbn [length] in Hn; rewrite app_length in Hn; lia). exact (rules_block rules body Pr n q g open close rest Aq G Ko Kc Hl).
  - intros v ((o & l') & c) <- (-> & E1 & ->). cbn [outline]. rewrite E1. reflexivity.
Qed.
Lemma keyframes_rule : forall inside a g0 name g open frames body close, SpecRead.at_word src "keyframes" a -> gap g0 -> keyframes_name_fits src name -> gap g -> kind_of open = K_LeftCurly -> frames_written src frames body -> kind_of close = K_RightCurly ->
  p_rule false inside (RKeyframes a (Some name) open frames (Some close)) (a :: g0 ++ name :: g ++ open :: body ++ [close]).
Proof.
  intros inside a g0 name g open frames body close W G0 Fn G Ko Wf Kc. split; [exact (at_starts _ _ _ W) |]. split; [intros _; exact (at_no_decl _ _ _ W) |]. intros n p g1 rest Ap G1 Hn. destruct n as [| n]; [cbn [length] in Hn; lia |].
  cbn [app] in Ap. repeat (rewrite <- app_assoc in Ap; cbn [app] in Ap). apply (css_rule_at n false p g1 a _ "keyframes" _ _ _ Ap G1 W (get_keyframes _ _)). unfold parse_keyframes.
  assert (Sh : solid name /\ ~ ends_prelude name) by (destruct Fn as [K | (K & _)]; (split; [first [exact (solid_of _ _ K solid_string) | exact (name_solid _ K)] | intros [X | X]; congruence])). destruct Sh as (Sh & Nh). apply takes_map.
  refine (takes_weaken src f _ _ _ _ _ _ _ (at_rule_reads src f _ _ _ _ "keyframes" p g1 a g0 name _ (eq name) (g ++ open :: body ++ close :: rest) (fun x => let '(o, l, c) := x in o = open /\ map outline_frame l = frames /\ c = Some close) rest Ap G1 W G0 Sh Nh _ _)).
  - intros ((a' & pr) & ((o & l) & c)) (-> & (v & -> & <-) & -> & E1 & ->). cbn [outline]. rewrite E1. reflexivity.
  - intros q Aq. exact (keyframes_name_reads src f name q g0 _ Fn Aq G0).
  - intros q Aq. refine (takes_weaken src f _ _ _ _ _ _ _ (rule_list_reads src f _ _ q g open body close rest (fun x => map outline_frame (fst x) = frames /\ snd x = Some close) Aq G Ko (frames_head src frames body close rest Wf Kc) _)).
    + intros ((o & l) & c) (E1 & E2 & E3). cbn [fst snd] in *. auto.
    + intros m q2 Aq2 Hm. exact (frames_read src f frames body Wf m q2 close rest Aq2 Kc Hm).
Qed.
Lemma webkit_keyframes_rule : forall inside a g0 name g open frames body close, SpecRead.at_word src "-webkit-keyframes" a -> gap g0 -> keyframes_name_fits src name -> gap g -> kind_of open = K_LeftCurly -> frames_written src frames body -> kind_of close = K_RightCurly ->
  p_rule false inside (RWebkitKeyframes a name open frames (Some close)) (a :: g0 ++ name :: g ++ open :: body ++ [close]).
Proof.
  intros inside a g0 name g open frames body close W G0 Fn G Ko Wf Kc. split; [exact (at_starts _ _ _ W) |]. split; [intros _; exact (at_no_decl _ _ _ W) |]. intros n p g1 rest Ap G1 Hn. destruct n as [| n]; [cbn [length] in Hn; lia |].
  cbn [app] in Ap. repeat (rewrite <- app_assoc in Ap; cbn [app] in Ap). apply (css_rule_at n false p g1 a _ "-webkit-keyframes" _ _ _ Ap G1 W (get_webkit _ _)). unfold parse_webkit_keyframes.
  assert (Sh : solid name /\ ~ ends_prelude name) by (destruct Fn as [K | (K & _)]; (split; [first [exact (solid_of _ _ K solid_string) | exact (name_solid _ K)] | intros [X | X]; congruence])). destruct Sh as (Sh & Nh).
  apply (takes_prelude _ _ _ _ _ p a (eq name) (fun x => let '(o, l, c) := x in o = open /\ map outline_frame l = frames /\ c = Some close)).
  - apply (at_rule_reads src f _ _ _ _ "-webkit-keyframes" p g1 a g0 name _ (eq name) (g ++ open :: body ++ close :: rest) _ rest Ap G1 W G0 Sh Nh).
    + intros q Aq. exact (keyframes_name_reads src f name q g0 _ Fn Aq G0).
    + intros q Aq. refine (takes_weaken src f _ _ _ _ _ _ _ (rule_list_reads src f _ _ q g open body close rest (fun x => map outline_frame (fst x) = frames /\ snd x = Some close) Aq G Ko (frames_head src frames body close rest Wf Kc) _)).
      * intros ((o & l) & c) (E1 & E2 & E3). cbn [fst snd] in *. auto.
      * intros m q2 Aq2 Hm. exact (frames_read src f frames body Wf m q2 close rest Aq2 Kc Hm).
  - intros v ((o & l) & c) <- (-> & E1 & ->). cbn [outline]. rewrite E1. reflexivity.
Qed.
Lemma declarations_head : forall l toks close rest, declarations_written src l toks -> kind_of close = K_RightCurly -> exists g c r, toks ++ close :: rest = g ++ c :: r /\ gap g /\ solid c /\ kind_of c <> K_Semicolon.
Proof.
  intros l toks close rest W Kc. destruct W as [g G | g d t g' G Dw G' | g d t g' semi l toks G Dw G' Ks W].
  - exists g, close, rest. split; [reflexivity |]. split; [exact G |]. split; [exact (solid_of _ _ Kc solid_right) | rewrite Kc; discriminate].
  - destruct (written_name src d t Dw) as (name & g1 & colon & u & -> & Kn & _). exists g, name, ((g1 ++ colon :: u) ++ g' ++ close :: rest). rewrite <- !app_assoc; cbn [app]; rewrite <- ?app_assoc; cbn [app]. split; [reflexivity |]. split; [exact G |]. split; [exact (name_solid _ Kn) | rewrite Kn; discriminate].
  - destruct (written_name src d t Dw) as (name & g1 & colon & u & -> & Kn & _). exists g, name, ((g1 ++ colon :: u) ++ g' ++ semi :: toks ++ close :: rest). rewrite <- !app_assoc; cbn [app]; rewrite <- ?app_assoc; cbn [app]. split; [reflexivity |]. split; [exact G |]. split; [exact (name_solid _ Kn) | rewrite Kn; discriminate].
Qed.
Lemma font_face_rule : forall inside a g open l body close, SpecRead.at_word src "font-face" a -> gap g -> kind_of open = K_LeftCurly -> declarations_written src l body -> Forall (fun x => a_word src css_font_descriptors (pr_name (fst x))) l ->
  kind_of close = K_RightCurly -> p_rule false inside (RFontFace a open (map fst l) (Some close)) (a :: g ++ open :: body ++ [close]).
Proof.
  intros inside a g open l body close W G Ko Wd Fa Kc. split; [exact (at_starts _ _ _ W) |]. split; [intros _; exact (at_no_decl _ _ _ W) |]. intros n p g1 rest Ap G1 Hn. destruct n as [| n]; [cbn [length] in Hn; lia |].
  cbn [app] in Ap. repeat (rewrite <- app_assoc in Ap; cbn [app] in Ap). apply (css_rule_at n false p g1 a _ "font-face" _ _ _ Ap G1 W (get_font_face _ _)). unfold parse_font_face. apply takes_map.
  refine (takes_weaken src f _ _ _ _ _ _ _ (at_rule_bare src f _ _ _ _ "font-face" p g1 a g open _ (fun x => let '(o, d, c) := x in o = open /\ map outline_property d = map fst l /\ c = Some close) rest Ap G1 W G (or_introl Ko) _)).
  - intros ((a' & pr) & ((o & d) & c)) (-> & -> & -> & E1 & ->). cbn [outline]. rewrite E1. reflexivity.
  - intros q Aq. refine (takes_weaken src f _ _ _ _ _ _ _ (rule_list_reads src f _ _ q g open body close rest (fun x => map outline_property (fst x) = map fst l /\ snd x = Some close) Aq G Ko (declarations_head l body close rest Wd Kc) _)).
    + intros ((o & d) & c) (E1 & E2 & E3). cbn [fst snd] in *. auto.
    + intros m q2 Aq2 Hm. exact (descriptors_read src f l body Wd Fa m q2 close rest Aq2 Kc Hm).
Qed.
(* ---- style rules ---- *)
Lemma list_head : forall l ts, list_laid src l ts -> exists g c r, ts = g ++ c :: r /\ gap g /\ head_kind c.
Proof.
  assert (H : forall x toks, complex_laid src x toks -> exists c r, toks = c :: r /\ head_kind c).
  { intros x toks [l' toks' C Hd]. destruct (chain_head src l' toks' C) as (y & r & El & ws & c & ts & -> & _ & Hc & Hw). rewrite (Hw (Hd y r El)). exists c, ts. split; [reflexivity | exact Hc]. }
  intros l ts [g x toks G C | g x toks g' comma l' toks' G C G' Kc L]; destruct (H x toks C) as (c & r & -> & Hc).
  - exists g, c, r. auto.
  - exists g, c, (r ++ g' ++ comma :: toks'). auto.
Qed.
Lemma list_gap : forall l ts g, list_laid src l ts -> gap g -> list_laid src l (g ++ ts).
Proof. intros l ts g [g1 x toks G1 C | g1 x toks g' comma l' toks' G1 C G' Kc L] G; rewrite app_assoc; [apply laid_one | apply laid_more]; try assumption; exact (gap_app _ _ G G1). Qed.
Lemma head_not : forall c, head_kind c -> kind_of c <> K_AtKeyword /\ kind_of c <> K_Semicolon /\ kind_of c <> K_RightCurly /\ kind_of c <> K_CdcOrCdo /\ kind_of c <> K_Eof.
Proof. intros c H. unfold head_kind in H. destruct H as [H | [H | [H | [H | [H | []]]]]]; rewrite <- H; repeat split; discriminate. Qed.
Lemma style_rule : forall nested inside sel ts g open decls rules body close, list_laid src sel ts -> no_declaration inside ts -> gap g -> kind_of open = K_LeftCurly -> p_items true decls rules body -> kind_of close = K_RightCurly ->
  p_rule nested inside (RStyle sel open decls rules (Some close)) (ts ++ g ++ open :: body ++ [close]).
Proof.
  intros nested inside sel ts g open decls rules body close L (c & r & E & Nt & Nd & Ni) G Ko Pi Kc.
  assert (Hc : head_kind c). { destruct (list_head sel ts L) as (g0 & c0 & r0 & E0 & G0 & H0). rewrite E in E0. destruct g0 as [| d g0]; cbn [app] in E0; injection E0 as -> _; [exact H0 | elim Nt; exact (Forall_inv G0)]. }
  destruct (head_not c Hc) as (N1 & N2 & N3 & N4 & N5). pose proof (head_solid c Hc) as Sc.
  split; [exists c, (r ++ g ++ open :: body ++ [close]); rewrite E; cbn [app]; auto 8 |]. split.
  - intros Hi. exists c, (r ++ g ++ open :: body ++ [close]). rewrite E. split; [reflexivity |]. right. split; [exact N1 |]. intro Kc'. destruct (gap_dec r) as [(g' & d & r' & -> & G' & Sd) | G'].
    + exists g', d, (r' ++ g ++ open :: body ++ [close]). rewrite <- app_assoc. split; [reflexivity |]. split; [exact G' |]. split; [exact Sd |]. exact (Ni Hi Kc' g' d r' eq_refl G' Sd).
    + exists (r ++ g), open, (body ++ [close]). rewrite <- app_assoc. split; [reflexivity |]. split; [exact (gap_app _ _ G' G) |]. split; [exact (solid_of _ _ Ko solid_left) | rewrite Ko; discriminate].
  - intros n p g0 rest Ap G0 Hn. destruct n as [| n]; [rewrite E in Hn; cbn [length app] in Hn; lia |]. rewrite <- !app_assoc in Ap. cbn [app] in Ap. rewrite <- app_assoc in Ap. cbn [app] in Ap.
    assert (Ap' := Ap). rewrite E in Ap'. cbn [app] in Ap'. cbn [css_rule_n]. apply (takes_or src f _ _ _ _ p false); [rewrite (peek_kind_here src f K_AtKeyword p g0 c _ Ap' G0 Sc), (kind_not c _ N1); reflexivity |].
    assert (T : takes (parse_style_rule VALUES (css_rule_n VALUES n true)) p (fun x => outline x = RStyle sel open decls rules (Some close)) rest).
    { unfold parse_style_rule. apply takes_map.
      refine (takes_weaken src f _ _ _ _ _ _ _ (qualified_reads src f _ _ _ _ _ _ p g0 c _ (eq sel) (g ++ open :: body ++ close :: rest) (fun x => let '(o, d, l, cl) := x in o = open /\ outline_declarations d = decls /\ map outline l = rules /\ cl = Some close) rest Ap' G0 Sc N3 (or_introl Nd) _ _)).
      - intros (s & (((o & d) & l) & cl)) H. cbn [fst snd] in H. destruct H as (E1 & E2 & E3 & E4 & E5). subst. reflexivity.
      - intros q Aq. assert (Aq' : at_ q ((g0 ++ ts) ++ g ++ open :: body ++ close :: rest)) by (rewrite <- app_assoc, E; exact Aq). apply (takes_goes src f _ _ _ _ (g0 ++ ts) _ Aq').
        apply (selectors_read src sel (g0 ++ ts) q _ (list_gap _ _ _ L G0) (at_src src f _ _ Aq') (at_ready src f _ _ Aq') (at_ahead src f _ _ Aq')). right. exists g, open, (body ++ close :: rest). auto.
      - intros q Aq. assert (Hl : (length body <= n)%nat) by (repeat (rewrite !app_length in Hn; cbn [length] in Hn); lia). exact (items_block true decls rules body Pi n q g open close rest Aq G Ko Kc Hl). }
    destruct T as (x & q & Ex & H & K). exists x, q. split; [| split; [exact H | exact K]]. destruct nested; unfold nested_by_selector, rule_by_selector; rewrite Ex; reflexivity.
Qed.
End Reads7.
