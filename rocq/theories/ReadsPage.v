(* Stylesheets are read: @page. *)
From Coq Require Import ZifyBool ZifyNat ZifyN.
From Coq Require Import String.
From Coq Require Import List Lia.
From Verif Require Import SpecWords SpecFeatures SyntaxProofs.
From Verif Require Import LexTrace AstSheet Values SpecSheet SpecLex SpecTrace SpecParser SpecSyntax SpecTraits SpecRules KindProofs CursorProofs LexBase LexFacts ParserProofs ParserProofs3 CompareProofs
  ParserProofs2 FeatureProofs TraitsTotal SelectorProofs SelectorProofs2 SelectorProofs3 SelectorProofs9 SyntaxTotal SyntaxAccept Keeps RulesTotal SpecSelectors SpecConforms SpecTree SpecAccepts SpecDecl SpecPage SpecRead SpecSelectorText SelectorGoes SelectorGoes2 SelectorGoes3 SelectorGoes5 SelectorGoes7 PropValues4 PageProofs Reads Reads2 Reads3 Reads4 Reads5 Reads6 Reads7.
Open Scope N_scope.
Open Scope list_scope.
Notation length := List.length.

Section ReadsPage.
Variable src : text.
Context {mod_ : mode}.
Variable f : feature.
Notation at_ := (at_ src f). Notation takes := (takes src f). Notation takesg := (takesg src f).
Arguments Reads.takes _ {mod_} _ {A}. Arguments Reads.takesg _ {mod_} _ {A}.
Notation p_rule := (p_rule src f).

Lemma margins_same : MARGIN_NAMES = css_page_margins. Proof. reflexivity. Qed.
Lemma margin_reads : forall m t, margin_written src m t -> forall p g rest, at_ p (g ++ t ++ rest) -> gap g -> takes (parse_margin_rule VALUES) p (fun y => outline_margin y = m) rest.
Proof.
  intros m t [a name g0 open l body close Ka El In0 G0 Ko Wd Kc] p g rest Ap G. cbn [app] in Ap. repeat (rewrite <- app_assoc in Ap; cbn [app] in Ap). unfold parse_margin_rule.
  assert (Eo : ends_prelude open) by (left; exact Ko). pose proof (ends_solid open Eo) as So.
  apply (takes_bind src f _ _ _ _ p (fun x => let '(a', _, b) := x in a' = a /\ outline_margin (MarginRule a b) = MarginRule a (open, l, Some close)) _ rest).
  - unfold at_rule_t. apply (takes_bind src f _ _ _ _ p (eq a) _ (g0 ++ open :: body ++ close :: rest)); [exact (take_kind src f K_AtKeyword p g a _ Ap G Ka solid_at) |]. intros x q <- Aq _.
    apply (takes_bind src f _ _ _ _ q (fun _ => True) _ (g0 ++ open :: body ++ close :: rest)); [exists Datatypes.tt, q; split; [reflexivity |]; split; [exact Logic.I |]; split; [exact Aq | apply mode_refl] |]. intros x q2 _ Aq2 _.
    unfold Reads.takes. rewrite (next_here src f q2 g0 open _ Aq2 G0 So), (prelude_stop open Eo), Bool.orb_true_r.
    apply (takes_bind src f _ _ _ _ q2 (eq None) _ (g0 ++ open :: body ++ close :: rest)); [apply takes_ret; [exact Aq2 | reflexivity] |]. intros o q3 <- Aq3 _.
    apply (takes_bind src f _ _ _ _ q3 _ _ rest _ (declaration_block_reads src f l body Wd q3 g0 open close rest Aq3 G0 Ko Kc)). intros ((o & d) & c) q4 (-> & E1 & ->) Aq4 _. apply takes_ret; [exact Aq4 |]. split; [reflexivity |]. unfold outline_margin. cbn [mg_block mg_at]. rewrite E1. reflexivity.
  - intros ((a' & pr) & b) q (-> & Eb) Aq _. unfold Reads.takes. assert (Pk : peek_set K_AtKeyword (words MARGIN_NAMES) q a = Some true).
    { unfold peek_set. rewrite (tok_kind K_AtKeyword a Ka) by discriminate. unfold look_up. rewrite (at_src src f _ _ Aq), El, margins_same.
      assert (M : forall L n, In n L -> map_get (words L) n = Some n) by (clear; induction L as [| x L IH]; intros n I; [destruct I |]; cbn [words map map_get]; destruct (text_eqb x n) eqn:E; [apply text_eqb_spec in E; subst; reflexivity |]; destruct I as [-> | I]; [rewrite text_eqb_refl in E; discriminate | exact (IH n I)]).
      rewrite (M _ _ In0). reflexivity. }
    rewrite Pk. exists (MarginRule a b), q. split; [reflexivity |]. split; [exact Eb |]. split; [exact Aq | apply mode_refl].
Qed.
Definition page_has (ds : list (property * option cursor)) (ms : list margin_rule) (close : cursor) (x : list (item property margin_rule) * option cursor) : Prop :=
  outline_declarations (item_decls (fst x)) = ds /\ map outline_margin (item_rules (fst x)) = ms /\ snd x = Some close.
Notation loop := (decl_rules_loop (parse_property VALUES) (parse_margin_rule VALUES)).
Lemma page_end_ : forall n p g close rest, at_ p (g ++ close :: rest) -> gap g -> kind_of close = K_RightCurly -> takes (loop (S n)) p (page_has [] [] close) rest.
Proof.
  intros n p g close rest Ap G K. unfold Reads.takes. cbn [decl_rules_loop]. rewrite (more_ahead src f p _ Ap (app_not_nil _ _ _)). apply (takes_or src f _ _ _ _ p true).
  - rewrite (peek_kind_here src f K_RightCurly p g close rest Ap G (solid_of _ _ K solid_right)), K. reflexivity.
  - apply takes_map. apply (takes_weaken src f _ _ _ (eq close)); [intros x <-; split; [reflexivity | split; reflexivity] | exact (take_kind src f K_RightCurly p g close rest Ap G K solid_right)].
Qed.
Lemma page_decl : forall n p g d t g' c ts o ds ms close rest, at_ p (g ++ t ++ g' ++ c :: ts) -> gap g -> declaration_written src d t -> gap g' -> (kind_of c = K_Semicolon /\ o = Some c \/ kind_of c = K_RightCurly /\ o = None) ->
  (forall mid q, at_ q mid -> (kind_of c = K_Semicolon /\ mid = ts \/ kind_of c = K_RightCurly /\ exists g2, gap g2 /\ mid = g2 ++ c :: ts) -> takes (loop n) q (page_has ds ms close) rest) ->
  takes (loop (S n)) p (page_has ((d, o) :: ds) ms close) rest.
Proof.
  intros n p g d t g' c ts o ds ms close rest Ap G Dw G' Ho K. destruct (written_name src d t Dw) as (name & g1 & colon & u & Et & Kn & _).
  assert (Ap' := Ap). rewrite Et in Ap'. cbn [app] in Ap'. assert (Hc : stops c) by (destruct Ho as [(X & _) | (X & _)]; [left | right]; exact X).
  unfold Reads.takes. cbn [decl_rules_loop]. rewrite (more_ahead src f p _ Ap' (app_not_nil _ _ _)).
  apply (takes_or src f _ _ _ _ p false); [rewrite (peek_kind_here src f K_RightCurly p g name _ Ap' G (name_solid _ Kn)), Kn; reflexivity |].
  apply (takes_or src f _ _ _ _ p false); [rewrite (peek_kind_here src f K_AtKeyword p g name _ Ap' G (name_solid _ Kn)), Kn; reflexivity |].
  apply (takes_or src f _ _ _ _ p true); [rewrite (peek_kind_here src f K_Ident p g name _ Ap' G (name_solid _ Kn)), Kn; reflexivity |].
  apply (takesg_bind src f _ _ _ _ p (fun x => outline_property x = d) _ (c :: ts) _ (property_reads src f d t Dw p g g' c ts Ap G G' Hc)). intros g'' x q G'' Ex Aq _.
  destruct Ho as [(Ks & ->) | (Kr & ->)].
  - apply (takes_bind src f _ _ _ _ q (eq (Some c)) _ ts); [exact (take_if_kind src f K_Semicolon q g'' c _ Aq G'' Ks solid_semicolon) |]. intros o q2 <- Aq2 _. apply takes_map.
    refine (takes_weaken src f _ _ _ _ _ _ _ (K ts q2 Aq2 (or_introl (conj Ks eq_refl)))). intros y (E1 & E2 & E3). unfold page_has in *. cbn [fst snd item_decls item_rules outline_declarations map]. rewrite <- Ex, <- E1. split; [reflexivity |]. split; [exact E2 | exact E3].
  - apply (takes_bind src f _ _ _ _ q (eq None) _ (g'' ++ c :: ts)); [apply (take_if_not_kind src f K_Semicolon q g'' c ts Aq G'' (solid_of _ _ Kr solid_right)); rewrite Kr; discriminate |]. intros o q2 <- Aq2 _. apply takes_map.
    assert (X : kind_of c = K_Semicolon /\ g'' ++ c :: ts = ts \/ kind_of c = K_RightCurly /\ exists g2, gap g2 /\ g'' ++ c :: ts = g2 ++ c :: ts) by (right; split; [exact Kr | exists g''; split; [exact G'' | reflexivity]]).
    refine (takes_weaken src f _ _ _ _ _ _ _ (K _ q2 Aq2 X)). intros y (E1 & E2 & E3). unfold page_has in *. cbn [fst snd item_decls item_rules outline_declarations map]. rewrite <- Ex, <- E1. split; [reflexivity |]. split; [exact E2 | exact E3].
Qed.
Lemma page_items_read : forall ds ms toks, page_items_written src ds ms toks -> forall n p close rest, at_ p (toks ++ close :: rest) -> kind_of close = K_RightCurly -> (length toks < n)%nat -> takes (loop n) p (page_has ds ms close) rest.
Proof.
  intros ds ms toks W. induction W as [g G | g d t g' G Dw G' | g d t g' semi decls margins toks G Dw G' Ks W IH | g m t decls margins toks G Mw W IH]; intros n p close rest Ap Kc Hn; (destruct n as [| n]; [lia |]).
  - exact (page_end_ n p g close rest Ap G Kc).
  - rewrite <- !app_assoc in Ap. destruct n as [| n]; [destruct (written_name src d t Dw) as (name & g1 & colon & u & Et & _); rewrite Et, !app_length in Hn; cbn [length] in Hn; lia |].
    apply (page_decl (S n) p g d t g' close rest None [] [] close rest Ap G Dw G'); [right; split; [exact Kc | reflexivity] |]. intros mid q Aq [(X & _) | (_ & g2 & G2 & ->)]; [congruence |]. exact (page_end_ n q g2 close rest Aq G2 Kc).
  - rewrite <- !app_assoc in Ap. cbn [app] in Ap. apply (page_decl n p g d t g' semi (toks ++ close :: rest) (Some semi) decls margins close rest Ap G Dw G'); [left; split; [exact Ks | reflexivity] |].
    intros mid q Aq [(_ & ->) | (X & _)]; [| congruence]. apply (IH n q close rest Aq Kc). rewrite !app_length in Hn. cbn [length] in Hn. lia.
  - rewrite <- !app_assoc in Ap. assert (Ht : exists a r, t = a :: r /\ kind_of a = K_AtKeyword) by (destruct Mw; eexists _, _; split; [reflexivity | assumption]). destruct Ht as (a & r & Et & Ka). pose proof (solid_of _ _ Ka solid_at) as Sa.
    assert (Ap' := Ap). rewrite Et in Ap'. cbn [app] in Ap'. unfold Reads.takes. cbn [decl_rules_loop]. rewrite (more_ahead src f p _ Ap' (app_not_nil _ _ _)).
    apply (takes_or src f _ _ _ _ p false); [rewrite (peek_kind_here src f K_RightCurly p g a _ Ap' G Sa), Ka; reflexivity |].
    apply (takes_or src f _ _ _ _ p true); [rewrite (peek_kind_here src f K_AtKeyword p g a _ Ap' G Sa), Ka; reflexivity |].
    apply (takes_bind src f _ _ _ _ p _ _ _ _ (margin_reads m t Mw p g (toks ++ close :: rest) Ap G)). intros y q Ey Aq _. apply takes_map.
    assert (Hl : (length toks < n)%nat) by (rewrite Et, !app_length in Hn; cbn [length] in Hn; lia).
    refine (takes_weaken src f _ _ _ _ _ _ _ (IH n q close rest Aq Kc Hl)). intros z (E1 & E2 & E3). unfold page_has in *. split; [exact E1 |]. split; [| exact E3]. change (outline_margin y :: map outline_margin (item_rules (fst z)) = m :: margins). rewrite Ey, E2. reflexivity.
Qed.
Lemma page_block_reads : forall ds ms body, page_items_written src ds ms body -> forall p g open close rest, at_ p (g ++ open :: body ++ close :: rest) -> gap g -> kind_of open = K_LeftCurly -> kind_of close = K_RightCurly ->
  takes (declaration_rule_list_t (parse_property VALUES) (parse_margin_rule VALUES)) p (fun x => let '(o, d, r, c) := x in o = open /\ outline_declarations d = ds /\ map outline_margin r = ms /\ c = Some close) rest.
Proof.
  intros ds ms body W p g open close rest Ap G Ko Kc. unfold declaration_rule_list_t. apply (takes_bind src f _ _ _ _ p (eq open) _ (body ++ close :: rest)); [exact (take_kind src f K_LeftCurly p g open _ Ap G Ko solid_left) |]. intros x q <- Aq _. apply takes_map.
  assert (Hl : (length body < sfuel q)%nat) by (pose proof (sfuel_more q _ (at_ahead src f _ _ Aq)) as X; rewrite app_length in X; lia). refine (takes_weaken src f _ _ _ _ _ _ _ (page_items_read ds ms body W (sfuel q) q close rest Aq Kc Hl)). intros y (E1 & E2 & E3). auto.
Qed.
Lemma page_rule : forall inside a g open decls margins body close, SpecRead.at_word src "page" a -> gap g -> kind_of open = K_LeftCurly -> page_items_written src decls margins body -> kind_of close = K_RightCurly ->
  p_rule false inside (RPage a None open decls margins (Some close)) (a :: g ++ open :: body ++ [close]).
Proof.
  intros inside a g open decls margins body close W G Ko Wd Kc. split; [exact (at_starts src _ _ _ W) |]. split; [intros _; exact (at_no_decl src _ _ _ W) |]. intros n p g1 rest Ap G1 Hn. destruct n as [| n]; [cbn [length] in Hn; lia |].
  cbn [app] in Ap. repeat (rewrite <- app_assoc in Ap; cbn [app] in Ap). apply (css_rule_at src f n false p g1 a _ "page" _ _ _ Ap G1 W (get_page _ _)). unfold parse_page. apply takes_map.
  refine (takes_weaken src f _ _ _ _ _ _ _ (at_rule_bare src f _ _ _ _ "page" p g1 a g open _ (fun x => let '(o, d, l, c) := x in o = open /\ outline_declarations d = decls /\ map outline_margin l = margins /\ c = Some close) rest Ap G1 W G (or_introl Ko) _)).
  - intros ((a' & pr) & (((o & d) & l) & c)) (-> & -> & -> & E1 & E2 & ->). cbn [outline]. rewrite E1, E2. reflexivity.
  - intros q Aq. exact (page_block_reads decls margins body Wd q g open close rest Aq G Ko Kc).
Qed.
Lemma page_selected_rule : forall inside a l ts g open decls margins body close, SpecRead.at_word src "page" a -> pages_written src l ts -> gap g -> kind_of open = K_LeftCurly -> page_items_written src decls margins body -> kind_of close = K_RightCurly ->
  p_rule false inside (RPage a (Some l) open decls margins (Some close)) (a :: ts ++ g ++ open :: body ++ [close]).
Proof.
  intros inside a l ts g open decls margins body close W Wl G Ko Wd Kc. split; [exact (at_starts src _ _ _ W) |]. split; [intros _; exact (at_no_decl src _ _ _ W) |]. intros n p g1 rest Ap G1 Hn. destruct n as [| n]; [cbn [length] in Hn; lia |].
  cbn [app] in Ap. rewrite <- !app_assoc in Ap. cbn [app] in Ap. rewrite <- !app_assoc in Ap. cbn [app] in Ap. apply (css_rule_at src f n false p g1 a _ "page" _ _ _ Ap G1 W (get_page _ _)). unfold parse_page. apply takes_map.
  destruct (pages_head src l ts Wl) as (g2 & h & r & E & G2 & Sh & Th). assert (Nh : ~ ends_prelude h) by (intro X; rewrite (prelude_stop h X) in Th; discriminate).
  assert (Ap' := Ap). rewrite E, <- app_assoc in Ap'. cbn [app] in Ap'.
  refine (takes_weaken src f _ _ _ _ _ _ _ (at_rule_reads src f _ _ _ _ "page" p g1 a g2 h _ (eq l) (g ++ open :: body ++ close :: rest) (fun x => let '(o, d, l, c) := x in o = open /\ outline_declarations d = decls /\ map outline_margin l = margins /\ c = Some close) rest Ap' G1 W G2 Sh Nh _ _)).
  - intros ((a' & pr) & (((o & d) & k) & c)) (-> & (v & -> & <-) & -> & E1 & E2 & ->). cbn [outline]. rewrite E1, E2. reflexivity.
  - intros q Aq. assert (Aq' : at_ q (ts ++ g ++ open :: body ++ close :: rest)) by (rewrite E, <- app_assoc; exact Aq). apply (takes_goes src f _ _ q l ts _ Aq').
    exact (pages_read l ts q g open _ ltac:(rewrite (at_src src f _ _ Aq'); exact Wl) (at_ready src f _ _ Aq') (at_ahead src f _ _ Aq') G (or_introl Ko)).
  - intros q Aq. exact (page_block_reads decls margins body Wd q g open close rest Aq G Ko Kc).
Qed.
End ReadsPage.
