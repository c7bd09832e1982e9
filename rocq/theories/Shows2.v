(* The logic of Shows.v: the traits of css_parse, declarations and selectors. *)
From Coq Require Import ZifyBool ZifyNat ZifyN Permutation.
From Coq Require Import String.
From Coq Require Import List.
From Verif Require Import AstSheet SpecSheet SpecLex SpecTrace SpecParser SpecSyntax SpecTraits SpecRules SpecFeatures SpecSelectors SpecCursor SpecToken LexBase TokenProofs KindProofs LexFacts LexTrace CursorProofs CursorLex
  ParserProofs ParserProofs2 ParserProofs3 ParserProofs4 CompareProofs SyntaxProofs SyntaxTotal TraitsTotal RulesTotal FeatureProofs FaithProofs FaithTraits FaithRules SelectorProofs3 SelectorProofs4 SelectorProofs9 Goes
  Tells Tells2 Tells3 Tells4 Tells5 Tells6 Tells7 Tells8 Tells9 SpecHighlight Shows.
Open Scope N_scope.
Open Scope list_scope.

Definition anything {A} : A -> list cursor -> Prop := fun _ _ => True.
Lemma tells_any_out : forall src f A (m : P A) K, tells src f m K -> tells src f m anything.
Proof. intros src f A m K T. eapply tells_imp; [exact T |]. intros; exact Logic.I. Qed.
(* [sh src L U] from what is known of the parts of L and U *)
Ltac split_marks := repeat match goal with |- context [@cons mark ?x ?l] => lazymatch l with [] => fail | _ => change (@cons mark x l) with (@app mark [x] l) end end.
Ltac shw := cbv beta iota zeta in *; repeat match goal with H : _ /\ _ |- _ => destruct H end; shows_facts;
  split_marks; split;
  [repeat first [assumption | apply Forall_nil | apply Forall_app; split]
  | let c := fresh "c" in intro c; repeat match goal with H : among _ _ |- _ => specialize (H c); revert H end; rewrite ?marked_app, ?count_app, ?app_nil_r; rewrite ?count_app; change (marked []) with (@nil cursor); change (count [] c) with 0%nat; intros; lia].

Section Traits.
Variable src : text.
Variable f : feature.
Notation tells := (tells src f).
Notation onto := (onto src f).
Notation tv := (tv src f).
Notation shows g := (fun a u => sh src (g a) u).

Definition curly (o : option cursor) : list mark := match o with Some c => [MPunctuation c] | None => [] end.
Lemma s_punctuation : forall k, In k [K_LeftCurly; K_RightCurly; K_Colon] -> tells (parse_kind k) (fun c u => sh src [MPunctuation c] u).
Proof.
  intros k I. eapply tells_imp; [apply s_kind; intros ->; cbn in I; intuition discriminate |]. intros c u (A & K). apply sh_one; [cbn [true_mark]; rewrite K; exact I | exact A].
Qed.
Lemma s_close : tells (if_kind K_RightCurly) (fun o u => sh src (curly o) u).
Proof.
  eapply tells_imp; [apply s_if_kind; discriminate |]. intros [c |] u K; [| apply sh_nil]. destruct K as (A & K). apply sh_one; [cbn [true_mark]; rewrite K; cbn; auto | exact A].
Qed.
Lemma s_name : tells (parse_kind K_Ident) (fun c u => forall b, sh src [MName c b] u).
Proof. eapply tells_imp; [apply s_kind; discriminate |]. intros c u (A & K) b. apply sh_one; [exact K | exact A]. Qed.
Lemma s_declaration : forall V (valid : parser -> cursor -> option bool) (value_p : cursor -> P V), (forall n, tells (value_p n) anything) ->
  tells (declaration_t valid value_p) (fun x u => let '(name, colon, v, i) := x in forall b, sh src [MName name b; MPunctuation colon] u).
Proof.
  intros V valid value_p H p cs O. unfold declaration_t. eapply tv_bind; [exact O | apply s_name |]. intros name u q r E Oq K. destruct (valid q name) as [[] |]; [| apply tv_err; exact Oq | apply tv_none].
  eapply tv_bind; [exact Oq | apply (s_punctuation K_Colon); cbn; auto |]. intros colon u2 q2 r2 E2 O2 K2. eapply tv_bind; [exact O2 | apply H |]. intros v u3 q3 r3 E3 O3 K3.
  eapply tv_bind; [exact O3 | apply w_important |]. intros i u4 q4 r4 E4 O4 K4. apply tv_ok; [exact O4 |]. intro b. specialize (K b). shw.
Qed.

Context {D R : Type} (peek_d : peeker) (decl_p : P D) (rule_p : P R) (dm : D -> list mark) (rm : R -> list mark).
Context (HD : tells decl_p (shows dm)) (HR : tells rule_p (shows rm)).
Definition item_marks (i : item D R) : list mark := match i with ISkip => [] | IDecl d _ => dm d | IRule r => rm r end.
Definition decls_marks (l : list (D * option cursor)) : list mark := flat_map (fun d => dm (fst d)) l.
Lemma s_turn : tells (block_turn peek_d decl_p rule_p) (fun o u => match o with None => True | Some i => sh src (item_marks i) u end).
Proof.
  intros p cs O. unfold block_turn. eapply tv_bind; [exact O | apply w_drop_whitespace |]. intros w u q r E Oq K. destruct w; [apply tv_ok; [exact Oq |]; apply sh_nil |].
  eapply tv_bind; [exact Oq | apply w_drop_kind; [discriminate | cbn; tauto] |]. intros s u2 q2 r2 E2 O2 K2. destruct s; [apply tv_ok; [exact O2 |]; apply sh_nil |]. destruct (p_at_end q2); [apply tv_ok; [exact O2 |]; exact Logic.I |].
  apply tv_or_peek; intro Pk; [apply tv_ok; [exact O2 |]; exact Logic.I |]. destruct (peek (peek_kind K_AtKeyword) (set_state q2 ST_NESTED)) as [[] |]; [| | apply tv_none].
  - apply tv_pmap. eapply tv_use; [exact O2 | apply tells_in_state; exact HR |]. intros x v Kx. cbn [item_marks]. shw.
  - pose proof (onto_state src f q2 r2 ST_NESTED O2) as O2'.
    assert (Rl : forall q3, onto q3 r2 -> tv r2 (fun b v => match b with None => True | Some i => sh src (item_marks i) (u ++ u2 ++ v) end)
        (match rule_p q3 with None => None | Some (Ok r, q') => Some (Ok (Some (IRule r)), set_state q' (pstate q2)) | Some (Err e, q') => Some (Err e, set_state q' (pstate q2)) end)).
    { intros q3 O3. eapply tv_call; [exact O3 | exact HR | |].
      - intros x v q4 r4 E4 O4 Kx. cbv beta iota. apply tv_ok; [exact O4 |]. cbn [item_marks]. shw.
      - intros e v q4 r4 E4 O4. cbv beta iota. apply tv_err. exact O4. }
    unfold try_parse_if_peek. destruct (peek peek_d (set_state q2 ST_NESTED)) as [[] |]; [| exact (Rl _ O2') | apply tv_none].
    unfold pmap at 1, bind at 1. pose proof (tells_try src f _ _ _ HD (set_state q2 ST_NESTED) r2 O2') as T. unfold try_parse in *. destruct (decl_p (set_state q2 ST_NESTED)) as [[[d | e] q3] |] eqn:Ed; [| | apply tv_none].
    + destruct (T _ _ eq_refl) as (v & r3 & E3 & O3 & Kd). specialize (Kd d eq_refl). cbv beta in Kd. cbn [ret]. apply (tv_shift _ _ _ _ v r3 _ _ E3). apply tv_pmap. eapply tv_use; [exact (onto_state src f q3 r3 _ O3) | apply tells_if_kind; discriminate |].
      intros s w Ks. clear Ks. cbn [item_marks]. shw.
    + destruct (HD (set_state q2 ST_NESTED) r2 O2' _ _ Ed) as (v & r3 & E3 & O3 & _). cbv beta iota. apply Rl. exact (onto_back src f _ _ _ _ O2' O3).
Qed.
Lemma s_block_loop : forall n, tells (block_loop peek_d decl_p rule_p n) (fun l u => sh src (flat_map item_marks l) u).
Proof.
  induction n as [| n IH]; intros p cs O; [apply tv_none |]. cbn [block_loop]. eapply tv_bind; [exact O | apply s_turn |]. intros o u q r E Oq K. destruct o as [i |].
  - apply tv_pmap. eapply tv_use; [exact Oq | exact IH |]. intros l v Kl. cbn [flat_map]. shw.
  - apply tv_ok; [exact Oq |]. apply sh_nil.
Qed.
Lemma items_marks : forall l, Permutation (flat_map item_marks l) (decls_marks (item_decls l) ++ flat_map rm (item_rules l)).
Proof.
  induction l as [| [| d s | r] l IH]; cbn [flat_map item_marks]; [constructor | exact IH | |].
  - change (item_decls (IDecl d s :: l)) with ((d, s) :: item_decls l). change (item_rules (IDecl d s :: l)) with (item_rules l). unfold decls_marks in *. cbn [flat_map fst]. rewrite <- app_assoc. now apply Permutation_app_head.
  - change (item_decls (IRule r :: l)) with (item_decls l). change (item_rules (IRule r :: l)) with (r :: item_rules l). cbn [flat_map]. rewrite Permutation_app_swap_app. now apply Permutation_app_head.
Qed.
Lemma s_sorted : forall l u, sh src (flat_map item_marks l) u -> sh src (decls_marks (item_decls l) ++ flat_map rm (item_rules l)) u.
Proof. intros l u. apply sh_perm, items_marks. Qed.
Lemma s_block : tells (block_t peek_d decl_p rule_p) (fun x u => let '(o, ds, rs, c) := x in sh src (MPunctuation o :: curly c ++ decls_marks ds ++ flat_map rm rs) u).
Proof.
  intros p cs O. unfold block_t. eapply tv_bind; [exact O | apply s_punctuation; cbn; auto |]. intros o u q r E Oq K. eapply tv_bind; [exact Oq | apply (tells_fun src f _ (fun p0 => block_loop peek_d decl_p rule_p (sfuel p0))); intro; apply s_block_loop |].
  intros l u2 q2 r2 E2 O2 K2. cbv beta in K2. apply s_sorted in K2. eapply tv_bind; [exact O2 | apply s_close |]. intros c u3 q3 r3 E3 O3 K3. apply tv_ok; [exact O3 |]. shw.
Qed.
Lemma s_rule_list : tells (rule_list_t rule_p) (fun x u => let '(o, rs, c) := x in sh src (flat_map rm rs) u).
Proof.
  assert (G : forall n, tells (rules_loop rule_p n) (fun l u => sh src (flat_map rm (fst l)) u)).
  { induction n as [| n IH]; intros p cs O; [apply tv_none |]. cbn [rules_loop]. eapply tv_bind; [exact O | apply w_opt_semicolon |]. intros s u q r E Oq K. destruct (p_at_end q); [apply tv_ok; [exact Oq |]; apply sh_nil |].
    apply tv_or_peek; intro Pk.
    - apply tv_pmap. eapply tv_use; [exact Oq | apply tells_kind; discriminate |]. intros c v Kc. apply sh_nil.
    - eapply tv_bind; [exact Oq | exact HR |]. intros x u2 q2 r2 E2 O2 Kx. apply tv_pmap. eapply tv_use; [exact O2 | exact IH |]. intros [l c] v Kl. cbn [fst flat_map] in *. clear K. shw. }
  intros p cs O. unfold rule_list_t. eapply tv_bind; [exact O | apply tells_kind; discriminate |]. intros o u q r E Oq K. apply tv_pmap. eapply tv_use; [exact Oq | apply G |].
  intros [l c] v Kl. cbn [fst snd] in *. apply sh_left. exact Kl.
Qed.
Lemma s_declaration_list : tells (declaration_list_t decl_p) (fun x u => let '(o, ds, c) := x in sh src (decls_marks ds) u).
Proof.
  assert (G : forall n, tells (decls_loop decl_p n) (fun l u => sh src (decls_marks (fst l)) u)).
  { induction n as [| n IH]; intros p cs O; [apply tv_none |]. cbn [decls_loop]. destruct (p_at_end p); [apply tv_ok; [exact O |]; apply sh_nil |].
    apply tv_or_peek; intro Pk.
    - apply tv_pmap. eapply tv_use; [exact O | apply tells_kind; discriminate |]. intros c v Kc. apply sh_nil.
    - eapply tv_bind; [exact O | exact HD |]. intros x u2 q2 r2 E2 O2 Kx. eapply tv_bind; [exact O2 | apply tells_if_kind; discriminate |]. intros s u3 q3 r3 E3 O3 K3. clear K3. apply tv_pmap. eapply tv_use; [exact O3 | exact IH |].
      intros [l c] v Kl. unfold decls_marks in *. cbn [fst snd flat_map] in *. shw. }
  intros p cs O. unfold declaration_list_t. eapply tv_bind; [exact O | apply tells_kind; discriminate |]. intros o u q r E Oq K. apply tv_pmap. eapply tv_use; [exact Oq | apply G |].
  intros [l c] v Kl. cbn [fst snd] in *. apply sh_left. exact Kl.
Qed.
Lemma s_declaration_rule_list : tells (declaration_rule_list_t decl_p rule_p) (fun x u => let '(o, ds, rs, c) := x in sh src (decls_marks ds ++ flat_map rm rs) u).
Proof.
  assert (G : forall n, tells (decl_rules_loop decl_p rule_p n) (fun l u => sh src (flat_map item_marks (fst l)) u)).
  { induction n as [| n IH]; intros p cs O; [apply tv_none |]. cbn [decl_rules_loop]. destruct (p_at_end p); [apply tv_ok; [exact O |]; apply sh_nil |].
    apply tv_or_peek; intro Pk.
    - apply tv_pmap. eapply tv_use; [exact O | apply tells_kind; discriminate |]. intros c v Kc. apply sh_nil.
    - apply tv_or_peek; intro Pk2.
      + eapply tv_bind; [exact O | exact HR |]. intros x u2 q2 r2 E2 O2 Kx. apply tv_pmap. eapply tv_use; [exact O2 | exact IH |].
        intros [l c] v Kl. cbn [fst snd flat_map item_marks] in *. shw.
      + apply tv_or_peek; intro Pk3.
        * eapply tv_bind; [exact O | exact HD |]. intros x u2 q2 r2 E2 O2 Kx. eapply tv_bind; [exact O2 | apply tells_if_kind; discriminate |]. intros s u3 q3 r3 E3 O3 K3. clear K3. apply tv_pmap. eapply tv_use; [exact O3 | exact IH |].
          intros [l c] v Kl. cbn [fst snd flat_map item_marks] in *. shw.
        * destruct (peek_n p 1); [apply tv_err; exact O | apply tv_none]. }
  intros p cs O. unfold declaration_rule_list_t. eapply tv_bind; [exact O | apply tells_kind; discriminate |]. intros o u q r E Oq K. apply tv_pmap. eapply tv_use; [exact Oq | apply G |].
  intros [l c] v Kl. cbv beta in Kl. cbn [fst snd] in *. apply s_sorted in Kl. apply sh_left. exact Kl.
Qed.
Lemma s_sheet : tells (sheet_t rule_p) (fun l u => sh src (flat_map rm l) u).
Proof.
  assert (G : forall n, tells (sheet_loop rule_p n) (fun l u => sh src (flat_map rm l) u)).
  { induction n as [| n IH]; intros p cs O; [apply tv_none |]. cbn [sheet_loop]. eapply tv_bind; [exact O | apply w_drop_whitespace |]. intros w u q r E Oq K. clear K. destruct w; [eapply tv_use; [exact Oq | exact IH |]; intros l v Kl; apply sh_left; exact Kl |].
    eapply tv_bind; [exact Oq | apply w_drop_kind; [discriminate | cbn; tauto] |]. intros s u2 q2 r2 E2 O2 K2. clear K2. destruct s; [eapply tv_use; [exact O2 | exact IH |]; intros l v Kl; shw |]. destruct (p_at_end q2); [apply tv_ok; [exact O2 |]; apply sh_nil |].
    destruct (peek_next q2); [| apply tv_none]. destruct (tok_is _ _); [apply tv_ok; [exact O2 |]; apply sh_nil |]. eapply tv_bind; [exact O2 | exact HR |]. intros x u3 q3 r3 E3 O3 Kx. apply tv_pmap.
    eapply tv_use; [exact O3 | exact IH |]. intros l v Kl. cbn [flat_map]. shw. }
  apply (tells_fun src f _ (fun p0 => sheet_loop rule_p (sfuel p0))). intro; apply G.
Qed.
End Traits.

Section Rules.
Variable src : text.
Variable f : feature.
Notation tells := (tells src f).
Notation onto := (onto src f).
Notation tv := (tv src f).
Lemma s_at_rule : forall Pr B name (prelude_p : P Pr) (block_p : P B) KP KB, tells prelude_p KP -> tells block_p KB ->
  tells (at_rule_t name prelude_p block_p) (fun x u => let '(at_, pr, b) := x in exists u0 u1 u2, u = u0 ++ u1 ++ u2 /\ match pr with Some y => KP y u1 | None => True end /\ KB b u2).
Proof.
  intros Pr B name prelude_p block_p KP KB Hp Hb p cs O. unfold at_rule_t. eapply tv_bind; [exact O | apply tells_kind; discriminate |]. intros a u q r E Oq _.
  eapply tv_bind; [exact Oq | instantiate (1 := fun _ u => u = []) |].
  { intros p' cs' O'. destruct name as [w |]; [| apply tv_ok; [exact O' | reflexivity]]. destruct (eq_ignore_ascii_case _ _ _) as [[] |]; [apply tv_ok; [exact O' | reflexivity] | apply tv_err; exact O' | apply tv_none]. }
  intros x u2 q2 r2 E2 O2 K2. cbv beta in K2. subst u2. destruct (peek_next q2); [| apply tv_none]. eapply tv_bind; [exact O2 | instantiate (1 := fun pr u => match pr with Some y => KP y u | None => True end) |].
  { intros p' cs' O'. destruct (_ || _); [apply tv_ok; [exact O' |]; exact Logic.I |]. apply tv_pmap. eapply tv_use; [exact O' | exact Hp |]. intros y v Ky. exact Ky. }
  intros pr u3 q3 r3 E3 O3 K3. cbv beta in K3. eapply tv_bind; [exact O3 | exact Hb |]. intros b u4 q4 r4 E4 O4 K4. apply tv_ok; [exact O4 |]. exists u, u3, u4. rewrite app_nil_r. cbn [app]. auto.
Qed.
Lemma s_qualified_rule : forall Pr B X (prelude_p : P Pr) (block_p : P B) (bad_p : P X) KP KB KX, tells prelude_p KP -> tells block_p KB -> tells bad_p KX ->
  tells (qualified_rule_t prelude_p block_p bad_p) (fun x u => exists u1 u2, u = u1 ++ u2 /\ KP (fst x) u1 /\ KB (snd x) u2).
Proof.
  intros Pr B X prelude_p block_p bad_p KP KB KX Hp Hb Hx p cs O. unfold qualified_rule_t. destruct (p_at_end p); [apply tv_err; exact O |].
  set (rest := bind (in_stop (kindset_new [K_LeftCurly]) prelude_p) (fun prelude => pmap (fun b => (prelude, b)) block_p)).
  set (K := fun x u => exists u1 u2, u = u1 ++ u2 /\ KP (fst x) u1 /\ KB (snd x) u2).
  assert (Rest : tells rest K).
  { intros p' cs' O'. unfold rest. eapply tv_bind; [exact O' | apply tells_in_stop; exact Hp |]. intros pr u q r E Oq Kp. apply tv_pmap. eapply tv_use; [exact Oq | exact Hb |]. intros b v Kb. exists u, v. auto. }
  set (dashed := or_peek peek_dashed_ident _ rest).
  assert (Dashed : tv cs K (dashed p)).
  { apply tv_or_peek; intro Pk; [| exact (Rest p cs O)]. destruct (parse_dashed_ident p) as [[r1 p1] |] eqn:E1; [| apply tv_none]. destruct (tells_dashed src f p cs O _ _ E1) as (u & r & E & O1 & _).
    pose proof (onto_back src f _ _ _ _ O O1) as O2. destruct (peek (peek_kind K_Colon) p1) as [[] |]; [| exact (Rest _ cs O2) | apply tv_none]. destruct (is_nested p1).
    - eapply tv_bind; [exact O2 | exact Hx |]. intros. apply tv_err. assumption.
    - apply (tv_shift _ _ _ _ u r _ _ E). destruct (block_p p1) as [[r2 p2] |] eqn:E2; [| apply tv_none]. destruct (Hb p1 r O1 _ _ E2) as (v & r3 & E3 & O3 & _). apply (tv_fails _ _ _ _ _ _ _ r3 O3). eauto. }
  destruct (is_nested p); [| exact Dashed]. apply tv_or_peek; intro Pk; [| exact Dashed]. destruct (peek_n p 1); [apply tv_err; exact O | apply tv_none].
Qed.
(* conditions: the features that are kept *)
Lemma s_condition : forall F (feature_p : P F) (g : F -> list mark), tells feature_p (fun a u => sh src (g a) u) ->
  tells (condition_t feature_p) (fun x u => sh src (flat_map g (match x with CIs y | CNot _ y => [y] | CAnd l | COr l => map fst l end)) u).
Proof.
  intros F feature_p g H. assert (G : forall n feature kw, tells (condition_loop feature_p n feature kw) (fun l u => exists l', map fst l = feature :: l' /\ sh src (flat_map g l') u)).
  { induction n as [| n IH]; intros feature kw p cs O; [apply tv_none |]. cbn [condition_loop]. eapply tv_bind; [exact O | exact H |]. intros f2 u q r E Oq K. destruct (peek_next q) as [c |] eqn:N; [| apply tv_none].
    assert (Done : tv r (fun b v => (fun l u => exists l', map fst l = feature :: l' /\ sh src (flat_map g l') u) b (u ++ v)) (Some (Ok [(feature, Some kw); (f2, None)], q))).
    { apply tv_ok; [exact Oq |]. exists [f2]. split; [reflexivity |]. cbn [flat_map]. rewrite !app_nil_r. exact K. }
    destruct (peek_set K_Ident CONDITION_KEYWORDS q c) as [[] |] eqn:Pk; [| exact Done | apply tv_none]. destruct (build_set CONDITION_KEYWORDS q c) as [[[] c2] |]; [| exact Done | exact Done | apply tv_none].
    apply tv_pmap. eapply tv_use; [exact Oq | apply IH |]. intros l v (l' & El & Kl). exists (f2 :: l'). cbn [map fst flat_map]. rewrite El. split; [reflexivity |]. cbn [flat_map]. shw. }
  intros p cs O. unfold condition_t. destruct (peek_next p) as [c |] eqn:N; [| apply tv_none]. destruct (peek_set K_Ident CONDITION_KEYWORDS p c) as [[] |] eqn:Pk; [| | apply tv_none].
  - destruct (build_set CONDITION_KEYWORDS p c) as [[[] c2] |]; [apply tells_fail_text; exact O | | apply tells_fail_text; exact O | apply tv_none]. apply tv_pmap. eapply tv_use; [exact O | exact H |]. intros y v Ky. cbn [flat_map]. rewrite app_nil_r. exact Ky.
  - eapply tv_bind; [exact O | exact H |]. intros f1 u q r E Oq K. eapply tv_bind; [exact Oq | apply tells_if_peek, tells_set; discriminate |]. intros [[[] k] |] u2 q2 r2 E2 O2 K2; clear K2.
    + apply tv_pmap. eapply tv_use; [exact O2 | apply G |]. intros l v (l' & El & K3). rewrite El. cbn [flat_map]. shw.
    + apply tv_pmap. eapply tv_use; [exact O2 | exact H |]. intros l v K3. cbn [flat_map]. rewrite app_nil_r. shw.
    + apply tv_pmap. eapply tv_use; [exact O2 | apply G |]. intros l v (l' & El & K3). rewrite El. cbn [flat_map]. shw.
    + apply tv_ok; [exact O2 |]. cbn [flat_map]. rewrite app_nil_r. shw.
Qed.
End Rules.
