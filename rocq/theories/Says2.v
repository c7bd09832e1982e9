(* The logic of Says.v: the provided methods of the traits. *)
From Coq Require Import ZifyBool ZifyNat ZifyN.
From Coq Require Import String.
From Coq Require Import List.
From Verif Require Import AstSheet SpecSheet SpecLex SpecParser SpecSyntax SpecTraits SpecRules SpecFeatures SpecSelectors SpecCursor SpecToken LexBase TokenProofs ParserProofs ParserProofs2 ParserProofs4 CompareProofs Goes Tells Tells2 Tells3 Tells4 Shows Says SpecTree.
Open Scope N_scope.
Open Scope list_scope.

(* no K_Eof *)
Ltac nk := discriminate.
Section Traits.
Variable src : text.
Variable f : feature.
Variable all : list cursor.
Notation says := (says src f all).
Notation sv := (sv src f all).
Notation here := (here src f all).

Lemma y_important : says (parse_if_peek peek_important parse_important) (fun _ => True).
Proof.
  eapply says_imp; [apply says_if_peek; instantiate (1 := fun _ => True) | intros; exact Logic.I]. unfold parse_important. eapply says_bind; [apply y_delim |]. intros b _. eapply says_bind; [apply y_kind; nk |]. intros i _ p H.
  destruct (eq_ignore_ascii_case _ _ _) as [[] |]; [apply sv_ok; [exact H | exact Logic.I] | apply sv_err; exact H | apply sv_none].
Qed.
Lemma y_declaration : forall V (valid : parser -> cursor -> option bool) (value_p : cursor -> P V) (Qn : cursor -> Prop) (QV : cursor -> V -> Prop), (forall p n, here p -> kind_of n = K_Ident -> valid p n = Some true -> Qn n) -> (forall n, kind_of n = K_Ident -> Qn n -> says (value_p n) (QV n)) ->
  says (declaration_t valid value_p) (fun x => let '(n, c, v, i) := x in kind_of n = K_Ident /\ kind_of c = K_Colon /\ Qn n /\ QV n v).
Proof.
  intros V valid value_p Qn QV Hn Hv. unfold declaration_t. eapply says_bind; [apply y_kind; nk |]. intros n Kn p H. destruct (valid p n) as [[] |] eqn:Ev; [| apply sv_err; exact H | apply sv_none]. pose proof (Hn p n H Kn Ev) as Xn.
  refine (says_bind src f all _ _ _ _ _ _ (y_kind src f all K_Colon ltac:(nk)) _ p H). intros c Kc. eapply says_bind; [exact (Hv n Kn Xn) |]. intros v Qv. eapply says_bind; [exact y_important |]. intros i _. apply says_ret. auto.
Qed.

Section Blocks.
Context {D R : Type}.
Variable peek_d : peeker.
Variable decl_p : P D.
Variable rule_p : P R.
Variable QD : D -> Prop.
Variable QR : R -> Prop.
Hypothesis HD : says decl_p QD.
Hypothesis HR : says rule_p QR.
Definition item_ok (i : item D R) : Prop := match i with ISkip => True | IDecl d s => QD d /\ opt_kind K_Semicolon s | IRule r => QR r end.
Lemma y_try_if : forall k, says (try_parse_if_peek k decl_p) (fun o => match o with Some d => QD d | None => True end).
Proof.
  intros k p H. unfold try_parse_if_peek. destruct (peek k p) as [[] |]; [| apply sv_ok; [exact H | exact Logic.I] | apply sv_none]. apply sv_pmap. exact (says_try src f all _ _ _ HD p H).
Qed.
Lemma y_turn : says (block_turn peek_d decl_p rule_p) (fun o => match o with Some i => item_ok i | None => True end).
Proof.
  unfold block_turn. eapply says_bind; [apply y_if_whitespace |]. intros [w |] _; [apply says_ret; exact Logic.I |]. eapply says_bind; [apply y_if_kind; nk |]. intros [s |] _; [apply says_ret; exact Logic.I |]. intros p H.
  destruct (p_at_end p); [apply sv_ok; [exact H | exact Logic.I] |]. unfold or_peek. destruct (peek (peek_kind K_RightCurly) p) as [[] |]; [apply sv_ok; [exact H | exact Logic.I] | | apply sv_none].
  destruct (peek (peek_kind K_AtKeyword) (set_state p ST_NESTED)) as [[] |]; [| | apply sv_none].
  - apply sv_pmap. exact (says_in_state src f all _ _ _ _ HR p H).
  - pose proof (y_try_if peek_d (set_state p ST_NESTED) H) as T. destruct (try_parse_if_peek peek_d decl_p (set_state p ST_NESTED)) as [[[[d |] | e] q] |] eqn:E; [| | | apply sv_none]; destruct (T _ _ eq_refl) as (Hq & X).
    + apply sv_pmap. eapply sv_imp; [exact (y_if_kind src f all K_Semicolon ltac:(nk) (set_state q (pstate p)) Hq) |]. intros o Ko. split; [exact (X _ eq_refl) | exact Ko].
    + pose proof (HR q Hq) as Y. destruct (rule_p q) as [[[r | e] q'] |] eqn:Er; [| | apply sv_none]; destruct (Y _ _ eq_refl) as (Hq' & Z); [apply sv_ok; [exact Hq' | exact (Z _ eq_refl)] | apply sv_err; exact Hq'].
    + pose proof (HR q Hq) as Y. destruct (rule_p q) as [[[r | e'] q'] |] eqn:Er; [| | apply sv_none]; destruct (Y _ _ eq_refl) as (Hq' & Z); [apply sv_ok; [exact Hq' | exact (Z _ eq_refl)] | apply sv_err; exact Hq'].
Qed.
Lemma y_block_loop : forall n, says (block_loop peek_d decl_p rule_p n) (Forall item_ok).
Proof.
  induction n as [| n IH]; cbn [block_loop]; [apply says_none |]. eapply says_bind; [exact y_turn |]. intros [i |] K; [| apply says_ret; constructor]. apply says_pmap. eapply says_imp; [exact IH |]. intros l F. constructor; assumption.
Qed.
Lemma items_ok : forall l, Forall item_ok l -> ended QD (item_decls l) /\ Forall QR (item_rules l).
Proof.
  intros l F. induction F as [| i l K _ (A & B)]; [split; constructor |]. destruct i as [| d s | r]; cbn [item_decls item_rules flat_map app]; [auto | | auto]. split; [| exact B]. unfold ended. constructor; [exact K | exact A].
Qed.
Lemma y_block : says (block_t peek_d decl_p rule_p) (fun x => let '(o, ds, rs, c) := x in curly o c /\ ended QD ds /\ Forall QR rs).
Proof.
  unfold block_t. eapply says_bind; [apply y_kind; nk |]. intros o Ko. eapply (says_bind src f all _ _ _ _ (Forall item_ok)); [intros q Hq; exact (y_block_loop _ q Hq) |]. intros l F. eapply says_bind; [apply y_if_kind; nk |]. intros c Kc. apply says_ret. destruct (items_ok l F). unfold curly. auto.
Qed.
Lemma y_rules_loop : forall n, says (rules_loop rule_p n) (fun x => Forall QR (fst x) /\ opt_kind K_RightCurly (snd x)).
Proof.
  induction n as [| n IH]; cbn [rules_loop]; [apply says_none |]. eapply says_bind; [apply says_opt_ok, y_if_kind; nk |]. intros _ _ p H. destruct (p_at_end p); [apply sv_ok; [exact H | split; [constructor | exact Logic.I]] |].
  revert p H. apply says_or_peek.
  - apply says_pmap. eapply says_imp; [apply y_kind; nk |]. intros c K. split; [constructor | exact K].
  - eapply says_bind; [exact HR |]. intros r Kr. apply says_pmap. eapply says_imp; [exact IH |]. intros l (F & K). split; [constructor; assumption | exact K].
Qed.
Lemma y_rule_list : says (rule_list_t rule_p) (fun x => let '(o, rs, c) := x in curly o c /\ Forall QR rs).
Proof.
  unfold rule_list_t. eapply says_bind; [apply y_kind; nk |]. intros o Ko. apply says_pmap. intros q Hq. eapply sv_imp; [exact (y_rules_loop _ q Hq) |]. intros l (F & K). unfold curly. auto.
Qed.
Lemma y_decls_loop : forall n, says (decls_loop decl_p n) (fun x => ended QD (fst x) /\ opt_kind K_RightCurly (snd x)).
Proof.
  induction n as [| n IH]; cbn [decls_loop]; [apply says_none |]. intros p H. destruct (p_at_end p); [apply sv_ok; [exact H | split; [constructor | exact Logic.I]] |]. revert p H. apply says_or_peek.
  - apply says_pmap. eapply says_imp; [apply y_kind; nk |]. intros c K. split; [constructor | exact K].
  - eapply says_bind; [exact HD |]. intros d Kd. eapply says_bind; [apply y_if_kind; nk |]. intros s Ks. apply says_pmap. eapply says_imp; [exact IH |]. intros l (F & K). split; [constructor; [split; assumption | exact F] | exact K].
Qed.
Lemma y_declaration_list : says (declaration_list_t decl_p) (fun x => let '(o, ds, c) := x in curly o c /\ ended QD ds).
Proof.
  unfold declaration_list_t. eapply says_bind; [apply y_kind; nk |]. intros o Ko. apply says_pmap. intros q Hq. eapply sv_imp; [exact (y_decls_loop _ q Hq) |]. intros l (F & K). unfold curly. auto.
Qed.
Lemma y_decl_rules_loop : forall n, says (decl_rules_loop decl_p rule_p n) (fun x => Forall item_ok (fst x) /\ opt_kind K_RightCurly (snd x)).
Proof.
  induction n as [| n IH]; cbn [decl_rules_loop]; [apply says_none |]. intros p H. cbv zeta. destruct (p_at_end p); [apply sv_ok; [exact H | split; [constructor | exact Logic.I]] |]. revert p H. apply says_or_peek; [| apply says_or_peek; [| apply says_or_peek]].
  - apply says_pmap. eapply says_imp; [apply y_kind; nk |]. intros c K. split; [constructor | exact K].
  - eapply says_bind; [exact HR |]. intros r Kr. apply says_pmap. eapply says_imp; [exact IH |]. intros l (F & K). split; [constructor; assumption | exact K].
  - eapply says_bind; [exact HD |]. intros d Kd. eapply says_bind; [apply y_if_kind; nk |]. intros s Ks. apply says_pmap. eapply says_imp; [exact IH |]. intros l (F & K). split; [constructor; [split; assumption | exact F] | exact K].
  - intros p H. destruct (peek_n p 1); [apply sv_err; exact H | apply sv_none].
Qed.
Lemma y_declaration_rule_list : says (declaration_rule_list_t decl_p rule_p) (fun x => let '(o, ds, rs, c) := x in curly o c /\ ended QD ds /\ Forall QR rs).
Proof.
  unfold declaration_rule_list_t. eapply says_bind; [apply y_kind; nk |]. intros o Ko. apply says_pmap. intros q Hq. eapply sv_imp; [exact (y_decl_rules_loop _ q Hq) |]. intros l (F & K). destruct (items_ok _ F). unfold curly. auto.
Qed.
Lemma y_prelude_list : forall stop, says (prelude_list_t stop rule_p) (fun l => Forall QR l /\ l <> []).
Proof.
  intro stop. unfold prelude_list_t. intros p0 H0. revert p0 H0. enough (forall n, says (prelude_loop stop rule_p n) (fun l => Forall QR l /\ l <> [])) as X by (intros p0 H0; exact (X _ p0 H0)). induction n as [| n IH]; cbn [prelude_loop]; [apply says_none |]. eapply says_bind; [exact HR |]. intros i Ki p H. destruct (peek_next p) as [c |]; [| apply sv_none].
  destruct (tok_in (ctok c) stop); [apply sv_ok; [exact H | split; [repeat constructor; exact Ki | discriminate]] |]. apply sv_pmap. eapply sv_imp; [exact (IH p H) |]. intros l (F & _). split; [constructor; assumption | discriminate].
Qed.
Lemma y_comma_list : forall stop, says (comma_list_t stop rule_p) (fun l => listed QR l /\ l <> []).
Proof.
  intro stop. unfold comma_list_t. intros p0 H0. revert p0 H0. enough (forall n, says (comma_loop stop rule_p n) (fun l => listed QR l /\ l <> [])) as X by (intros p0 H0; exact (X _ p0 H0)). induction n as [| n IH]; cbn [comma_loop]; [apply says_none |]. eapply says_bind; [exact HR |]. intros i Ki. eapply says_bind; [apply y_if_kind; nk |]. intros o Ko p H. destruct (peek_next p) as [c |]; [| apply sv_none].
  destruct (tok_in (ctok c) stop); [apply sv_ok; [exact H | split; [constructor; [split; assumption | constructor] | discriminate]] |]. apply sv_pmap. eapply sv_imp; [exact (IH p H) |]. intros l (F & _). split; [constructor; [split; assumption | exact F] | discriminate].
Qed.
Lemma y_sheet : says (sheet_t rule_p) (Forall QR).
Proof.
  unfold sheet_t. intros p0 H0. revert p0 H0. enough (forall n, says (sheet_loop rule_p n) (Forall QR)) as X by (intros p0 H0; exact (X _ p0 H0)). induction n as [| n IH]; cbn [sheet_loop]; [apply says_none |]. eapply says_bind; [apply y_if_whitespace |]. intros [w |] _; [exact IH |]. eapply says_bind; [apply y_if_kind; nk |]. intros [s |] _; [exact IH |]. intros p H.
  destruct (p_at_end p); [apply sv_ok; [exact H | constructor] |]. destruct (peek_next p) as [c |]; [| apply sv_none]. destruct (tok_is (ctok c) K_Eof); [apply sv_ok; [exact H | constructor] |]. revert p H. eapply says_bind; [exact HR |]. intros r Kr. apply says_pmap. eapply says_imp; [exact IH |]. intros l F. constructor; assumption.
Qed.
End Blocks.

Lemma y_at_rule : forall Pr B name (prelude_p : P Pr) (block_p : P B) (QP : Pr -> Prop) QB, says prelude_p QP -> says block_p QB ->
  says (at_rule_t name prelude_p block_p) (fun x => let '(a, pr, b) := x in kind_of a = K_AtKeyword /\ (forall n, name = Some n -> eq_ignore_ascii_case a src n = Some true) /\ (forall v, pr = Some v -> QP v) /\ QB b).
Proof.
  intros Pr B name prelude_p block_p QP QB HP HB. unfold at_rule_t. eapply says_bind; [apply y_kind; nk |]. intros a Ka. eapply (says_bind src f all unit _ _ _ (fun _ => forall n, name = Some n -> eq_ignore_ascii_case a src n = Some true)).
  - intros p H. destruct name as [n |]; [| apply sv_ok; [exact H | intros n E; discriminate E]]. rewrite (here_src _ _ _ _ H). destruct (eq_ignore_ascii_case a src n) as [[] |] eqn:E; [apply sv_ok; [exact H |] | apply sv_err; exact H | apply sv_none]. intros n' E'. apply some_inj in E'. subst n'. exact E.
  - intros _ Kn p H. destruct (peek_next p) as [c |]; [| apply sv_none]. revert p H. intros p H. eapply (sv_bind src f all _ _ _ _ (fun o => forall v, o = Some v -> QP v)); [exact H | |].
    + destruct (p_at_end p || tok_in (ctok c) KS_LEFT_CURLY_OR_SEMICOLON); [apply says_ret; intros v E; discriminate E |]. apply says_pmap. eapply says_imp; [exact HP |]. intros v Kv v' E. apply some_inj in E. subst v'. exact Kv.
    + intros pr q Hq Kp. eapply sv_bind; [exact Hq | exact HB |]. intros b q2 H2 Kb. apply sv_ok; [exact H2 |]. auto.
Qed.
Lemma y_with_prelude : forall Pr B A (build : cursor -> Pr -> B -> A) n (prelude_p : P Pr) (block_p : P B) (QP : Pr -> Prop) (QB : B -> Prop) (Q : A -> Prop), says prelude_p QP -> says block_p QB ->
  (forall a v b, at_named src n a -> QP v -> QB b -> Q (build a v b)) -> says (with_prelude build (at_rule_t (Some (chars n)) prelude_p block_p)) Q.
Proof.
  intros Pr B A build n prelude_p block_p QP QB Q HP HB I. unfold with_prelude. eapply says_bind; [exact (y_at_rule _ _ _ _ _ _ _ HP HB) |]. intros [[a pr] b] (Ka & Kn & Kp & Kb). destruct pr as [v |]; [| apply says_fail]. apply says_ret. apply I; [split; [exact Ka | exact (Kn _ eq_refl)] | exact (Kp v eq_refl) | exact Kb].
Qed.
Lemma y_no_prelude : says no_prelude_allowed (fun _ => True).
Proof.
  unfold no_prelude_allowed. apply says_or_peek; [apply says_ret; exact Logic.I |]. apply says_or_peek; [apply says_ret; exact Logic.I |]. intros p H. unfold unexpected_peek. destruct (peek_next p); [apply sv_err; exact H | apply sv_none].
Qed.
Lemma y_qualified_rule : forall Pr B X (prelude_p : P Pr) (block_p : P B) (bad_p : P X) (QP : Pr -> Prop) (QB : B -> Prop) QX, says prelude_p QP -> says block_p QB -> says bad_p QX ->
  says (qualified_rule_t prelude_p block_p bad_p) (fun x => QP (fst x) /\ QB (snd x)).
Proof.
  intros Pr B X prelude_p block_p bad_p QP QB QX HP HB HX p H. unfold qualified_rule_t. destruct (p_at_end p); [apply sv_err; exact H |].
  assert (Rest : says (bind (in_stop (kindset_new [K_LeftCurly]) prelude_p) (fun prelude => pmap (fun b => (prelude, b)) block_p)) (fun x => QP (fst x) /\ QB (snd x))).
  { eapply says_bind; [apply says_in_stop; exact HP |]. intros v Kv. apply says_pmap. eapply says_imp; [exact HB |]. intros b Kb. split; assumption. }
  assert (Da : forall q, here q -> sv (fun x => QP (fst x) /\ QB (snd x)) (or_peek peek_dashed_ident
      (fun p0 => match parse_dashed_ident p0 with
        | None => None
        | Some (_, p1) => match peek (peek_kind K_Colon) p1 with
            | None => None
            | Some false => bind (in_stop (kindset_new [K_LeftCurly]) prelude_p) (fun prelude => pmap (fun b => (prelude, b)) block_p) (rewind p1 (checkpoint p))
            | Some true => if is_nested p1 then bind bad_p (fun _ => fail (D_Other E_BAD_DECLARATION (ckcursor (checkpoint p)))) (rewind p1 (checkpoint p))
                else match block_p p1 with None => None | Some (_, p2) => Some (Err (D_Other E_BAD_DECLARATION (ckcursor (checkpoint p))), p2) end
            end
        end) (bind (in_stop (kindset_new [K_LeftCurly]) prelude_p) (fun prelude => pmap (fun b => (prelude, b)) block_p)) q)).
  { intros q Hq. unfold or_peek. destruct (peek peek_dashed_ident q) as [[] |]; [| exact (Rest q Hq) | apply sv_none]. destruct (parse_dashed_ident q) as [[r1 p1] |] eqn:E1; [| apply sv_none]. destruct (y_dashed src f all q Hq _ _ E1) as (H1 & _).
    destruct (peek (peek_kind K_Colon) p1) as [[] |]; [| exact (Rest _ (here_back _ _ _ _ _ H H1)) | apply sv_none]. destruct (is_nested p1).
    - eapply sv_bind; [exact (here_back _ _ _ _ _ H H1) | exact HX |]. intros x q2 H2 _. apply sv_err. exact H2.
    - destruct (block_p p1) as [[r2 p2] |] eqn:E2; [| apply sv_none]. apply sv_err. exact (proj1 (HB p1 H1 _ _ E2)). }
  cbv zeta. destruct (is_nested p); [| exact (Da p H)]. unfold or_peek at 1. destruct (peek (peek_kind K_RightCurly) p) as [[] |]; [| exact (Da p H) | apply sv_none]. destruct (peek_n p 1); [apply sv_err; exact H | apply sv_none].
Qed.

(* conditions *)
Lemma built_keyword : forall p c kw c2, here p -> tok_is (ctok c) K_Ident = true -> kind_of c <> K_Eof -> build_set CONDITION_KEYWORDS p c = Some (kw, c2) -> keyword_at src kw c2.
Proof.
  intros p c kw c2 H T N B. unfold build_set, look_up in B. rewrite (here_src _ _ _ _ H) in B. destruct (parse_str_lower c src) as [w |] eqn:E; [| discriminate B]. destruct (map_get CONDITION_KEYWORDS w) as [v |] eqn:G; [| discriminate B]. injection B as <- <-.
  unfold keyword_at, is_word. split; [exact (kind_is c _ N T) |]. exists w. split; [exact E | exact (map_get_in _ _ _ _ G)].
Qed.
Lemma eof_no_word : forall p c, ctok c = T_EOF -> peek_set K_Ident CONDITION_KEYWORDS p c = Some false.
Proof. intros p [o t] E. simpl in E. subst t. reflexivity. Qed.
Lemma here_peeked : forall p c, here p -> peek_next p = Some c -> ctok c = T_EOF \/ kind_of c <> K_Eof.
Proof.
  intros p c (pre & cs & _ & (_ & _ & A & _)) Pn. destruct (next_total p cs A) as (c1 & q1 & sk & rest & N1 & E & F & St & Hc & _). pose proof (peek_next_spec p sk rest) as X. rewrite <- E in X. specialize (X A F St). rewrite Pn in X. apply some_inj in X. destruct rest as [| d r]; cbn [hd_or_eof] in X; subst c; [left; reflexivity | right].
  apply (ahead_kind _ _ A). rewrite E. apply in_or_app. right. now left.
Qed.
Section Conditions.
Context {F : Type}.
Variable feature_p : P F.
Variable okf : F -> Prop.
Hypothesis HF : says feature_p okf.
Lemma y_condition_loop : forall n x kw k, okf x -> keyword_at src kw k -> says (condition_loop feature_p n x (kw, k)) (fun l => chained src okf l /\ exists r, l = (x, Some (kw, k)) :: r /\ r <> []).
Proof.
  induction n as [| n IH]; intros x kw k Kx Kk; cbn [condition_loop]; [apply says_none |]. eapply says_bind; [exact HF |]. intros y Ky p H. destruct (peek_next p) as [c |] eqn:Pn; [| apply sv_none].
  assert (Two : chained src okf [(x, Some (kw, k)); (y, None)] /\ exists r, [(x, Some (kw, k)); (y, None)] = (x, Some (kw, k)) :: r /\ r <> []) by (split; [cbn [chained]; split; [exact Kx |]; split; [eauto | auto] | eexists; split; [reflexivity | discriminate]]).
  destruct (peek_set K_Ident CONDITION_KEYWORDS p c) as [[] |] eqn:Pk; [| apply sv_ok; [exact H | exact Two] | apply sv_none]. destruct (build_set CONDITION_KEYWORDS p c) as [[kw2 c2] |] eqn:B; [| apply sv_none].
  destruct (here_peeked p c H Pn) as [Ec | Nc]; [rewrite (eof_no_word p c Ec) in Pk; discriminate Pk |]. assert (T : tok_is (ctok c) K_Ident = true) by (unfold peek_set in Pk; destruct (tok_is (ctok c) K_Ident); [reflexivity | discriminate Pk]).
  pose proof (built_keyword p c kw2 c2 H T Nc B) as K2. destruct kw2; [| apply sv_ok; [exact H | exact Two] | apply sv_ok; [exact H | exact Two]]. apply sv_pmap. eapply sv_imp; [exact (IH y KwAnd c2 Ky K2 p H) |]. intros l (Ch & r & -> & Nr). split.
  - cbn [chained]. cbn [chained] in Ch. split; [exact Kx |]. split; [eauto | exact Ch].
  - eexists. split; [reflexivity | discriminate].
Qed.
Lemma y_condition : says (condition_t feature_p) (condition_fits src okf).
Proof.
  intros p H. unfold condition_t. destruct (peek_next p) as [c |] eqn:Pn; [| apply sv_none]. destruct (peek_set K_Ident CONDITION_KEYWORDS p c) as [[] |] eqn:Pk; [| | apply sv_none].
  - destruct (build_set CONDITION_KEYWORDS p c) as [[[] k] |]; [apply says_fail_text; exact H | | apply says_fail_text; exact H | apply sv_none]. apply sv_pmap. eapply sv_imp; [exact (HF p H) |]. intros x K. exact K.
  - revert p H Pn Pk. intros p H _ _. eapply sv_bind; [exact H | exact HF |]. intros x q Hq Kx. eapply sv_bind; [exact Hq | apply says_if_peek, y_set; nk |]. intros [[kw k] |] q2 H2 Kk; [| apply sv_ok; [exact H2 | exact Kx]]. cbn [fst snd] in Kk. destruct kw.
    + apply sv_pmap. eapply sv_imp; [exact (y_condition_loop _ x KwAnd k Kx Kk q2 H2) |]. intros l (Ch & r & E & Nr). split; [exact Ch | eauto].
    + apply sv_pmap. eapply sv_imp; [exact (HF q2 H2) |]. intros y Ky. cbn [condition_fits]. auto.
    + apply sv_pmap. eapply sv_imp; [exact (y_condition_loop _ x KwOr k Kx Kk q2 H2) |]. intros l (Ch & r & E & Nr). split; [exact Ch | eauto].
Qed.
End Conditions.
End Traits.
