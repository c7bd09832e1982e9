(* The logic of Tells.v: the traits of css_parse. *)
From Coq Require Import ZifyBool ZifyNat ZifyN Permutation.
From Coq Require Import List.
From Verif Require Import AstSheet SpecSheet SpecLex SpecTrace SpecParser SpecSyntax SpecTraits SpecRules SpecFeatures SpecCursor SpecToken LexBase TokenProofs KindProofs LexFacts LexTrace CursorProofs CursorLex
  ParserProofs ParserProofs2 ParserProofs3 ParserProofs4 CompareProofs SyntaxProofs SyntaxTotal TraitsTotal RulesTotal FeatureProofs FaithProofs FaithTraits FaithRules Goes Tells Tells2.
Open Scope N_scope.
Open Scope list_scope.
#[export] Hint Resolve w_value w_values w_bad : tells.

(* what a parser's result writes *)
Definition wri {A} (c m : A -> bool) (em : A -> list cursor) : A -> list cursor -> Prop := fun a u => wr (c a) (m a) u (em a).

Section Traits.
Variable src : text.
Variable f : feature.
Notation tells := (tells src f).
Notation onto := (onto src f).
Notation tv := (tv src f).
Context {D R : Type} (peek_d : peeker) (decl_p : P D) (rule_p : P R) (cd md : D -> bool) (ed : D -> list cursor) (cr mr : R -> bool) (er : R -> list cursor).
Context (HD : tells decl_p (wri cd md ed)) (HR : tells rule_p (wri cr mr er)).
Definition item_cl (i : item D R) : bool := match i with ISkip => true | IDecl d _ => cd d | IRule r => cr r end.
Notation item_mx := (item_mx md mr).
Notation item_out := (item_out ed er).
Lemma w_turn : tells (block_turn peek_d decl_p rule_p) (fun o u => match o with None => wr true false u [] | Some i => wr (item_cl i) (item_mx i) u (item_out i) end).
Proof.
  intros p cs O. unfold block_turn. eapply tv_bind; [exact O | apply w_drop_whitespace |]. intros w u q r E Oq K. destruct w; [apply tv_ok; [exact Oq |]; em |].
  eapply tv_bind; [exact Oq | apply w_drop_kind; [discriminate | cbn; tauto] |]. intros s u2 q2 r2 E2 O2 K2. destruct s; [apply tv_ok; [exact O2 |]; em |]. destruct (p_at_end q2); [apply tv_ok; [exact O2 |]; em |].
  apply tv_or_peek; intro Pk; [apply tv_ok; [exact O2 |]; em |]. destruct (peek (peek_kind K_AtKeyword) (set_state q2 ST_NESTED)) as [[] |]; [| | apply tv_none].
  - apply tv_pmap. eapply tv_use; [exact O2 | apply tells_in_state; exact HR |]. intros x v Kx. unfold wri in Kx. cbn [item_cl FaithTraits.item_mx FaithTraits.item_out]. em.
  - pose proof (onto_state src f q2 r2 ST_NESTED O2) as O2'.
    assert (Rl : forall q3, onto q3 r2 -> tv r2 (fun b v => (fun b0 v0 => match b0 with None => wr true false (u ++ u2 ++ v0) [] | Some i => wr (item_cl i) (item_mx i) (u ++ u2 ++ v0) (item_out i) end) b v)
        (match rule_p q3 with None => None | Some (Ok r, q') => Some (Ok (Some (IRule r)), set_state q' (pstate q2)) | Some (Err e, q') => Some (Err e, set_state q' (pstate q2)) end)).
    { intros q3 O3. eapply tv_call; [exact O3 | exact HR | |].
      - intros x v q4 r4 E4 O4 Kx. unfold wri in Kx. cbv beta iota. apply tv_ok; [exact O4 |]. cbn [item_cl FaithTraits.item_mx FaithTraits.item_out]. em.
      - intros e v q4 r4 E4 O4. cbv beta iota. apply tv_err. exact O4. }
    unfold try_parse_if_peek. destruct (peek peek_d (set_state q2 ST_NESTED)) as [[] |]; [| exact (Rl _ O2') | apply tv_none].
    unfold pmap at 1, bind at 1. pose proof (tells_try src f _ _ _ HD (set_state q2 ST_NESTED) r2 O2') as T. unfold try_parse in *. destruct (decl_p (set_state q2 ST_NESTED)) as [[[d | e] q3] |] eqn:Ed; [| | apply tv_none].
    + destruct (T _ _ eq_refl) as (v & r3 & E3 & O3 & Kd). specialize (Kd d eq_refl). unfold wri in Kd. cbn [ret]. apply (tv_shift _ _ _ _ v r3 _ _ E3). apply tv_pmap. eapply tv_use; [exact (onto_state src f q3 r3 _ O3) | apply tells_if_kind; discriminate |].
      intros s w (Ks & _). cbn [item_cl FaithTraits.item_mx FaithTraits.item_out]. em.
    + destruct (HD (set_state q2 ST_NESTED) r2 O2' _ _ Ed) as (v & r3 & E3 & O3 & _). cbv beta iota. apply Rl. exact (onto_back src f _ _ _ _ O2' O3).
Qed.
Lemma w_block_loop : forall n, tells (block_loop peek_d decl_p rule_p n) (fun l u => wr (forallb item_cl l) (existsb item_mx l) u (flat_map item_out l)).
Proof.
  induction n as [| n IH]; intros p cs O; [apply tv_none |]. cbn [block_loop]. eapply tv_bind; [exact O | apply w_turn |]. intros o u q r E Oq K. destruct o as [i |].
  - apply tv_pmap. eapply tv_use; [exact Oq | exact IH |]. intros l v Kl. cbn [forallb existsb flat_map]. em.
  - apply tv_ok; [exact Oq |]. cbn [forallb existsb flat_map]. em.
Qed.
Definition decls_cl (ds : list (D * option cursor)) : bool := forallb (fun d => cd (fst d)) ds.
Lemma items_cl : forall l, forallb item_cl l = decls_cl (item_decls l) && forallb cr (item_rules l).
Proof.
  induction l as [| [| d s | r] l IH]; cbn; auto.
  - fold (item_decls l). fold (item_rules l). now rewrite IH, andb_assoc.
  - fold (item_decls l). fold (item_rules l). rewrite IH. unfold decls_cl. destruct (cr r), (forallb (fun d => cd (fst d)) (item_decls l)); reflexivity.
Qed.
Lemma w_sorted : forall l u tail, wr (forallb item_cl l) (existsb item_mx l) u (flat_map item_out l ++ tail) ->
  wr (decls_cl (item_decls l) && forallb cr (item_rules l)) (pile_mx md mr (item_decls l) (item_rules l)) u (decls_out ed (item_decls l) ++ flat_map er (item_rules l) ++ tail).
Proof.
  intros l u tail X C. rewrite <- items_cl in C. specialize (X C). unfold pile_mx. rewrite <- items_mx. destruct (both (item_decls l) (item_rules l)) eqn:B; cbn [orb].
  - apply (emits_perm _ _ _ _ X). rewrite app_assoc. apply Permutation_app_tail, items_perm.
  - rewrite app_assoc, <- (items_same ed er l B). exact X.
Qed.
Definition pile_cl (ds : list (D * option cursor)) (rs : list R) : bool := decls_cl ds && forallb cr rs.
Lemma w_block : tells (block_t peek_d decl_p rule_p) (fun x u => let '(o, ds, rs, c) := x in kind_of o = K_LeftCurly /\ wr (pile_cl ds rs) (pile_mx md mr ds rs) u (o :: decls_out ed ds ++ flat_map er rs ++ opt_cursor c)).
Proof.
  intros p cs O. unfold block_t. eapply tv_bind; [exact O | apply tells_kind; discriminate |]. intros o u q r E Oq (K & Ko). eapply tv_bind; [exact Oq | apply (tells_fun src f _ (fun p0 => block_loop peek_d decl_p rule_p (sfuel p0))); intro; apply w_block_loop |].
  intros l u2 q2 r2 E2 O2 K2. cbv beta in K2. eapply tv_bind; [exact O2 | apply tells_if_kind; discriminate |]. intros c u3 q3 r3 E3 O3 (K3 & _). apply tv_ok; [exact O3 |]. split; [exact Ko |]. rewrite app_nil_r.
  pose proof (w_sorted l (u2 ++ u3) (opt_cursor c)) as S. unfold pile_cl. assert (X : wr (forallb item_cl l) (existsb item_mx l) (u2 ++ u3) (flat_map item_out l ++ opt_cursor c)) by em. specialize (S X). clear X. em.
Qed.
Lemma w_rule_list : tells (rule_list_t rule_p) (fun x u => let '(o, rs, c) := x in wr (forallb cr rs) (existsb mr rs) u (o :: flat_map er rs ++ opt_cursor c)).
Proof.
  assert (G : forall n, tells (rules_loop rule_p n) (fun l u => wr (forallb cr (fst l)) (existsb mr (fst l)) u (flat_map er (fst l) ++ opt_cursor (snd l)))).
  { induction n as [| n IH]; intros p cs O; [apply tv_none |]. cbn [rules_loop]. eapply tv_bind; [exact O | apply w_opt_semicolon |]. intros s u q r E Oq K. destruct (p_at_end q); [apply tv_ok; [exact Oq |]; em |].
    apply tv_or_peek; intro Pk.
    - apply tv_pmap. eapply tv_use; [exact Oq | apply tells_kind; discriminate |]. intros c v (Kc & _). em.
    - eapply tv_bind; [exact Oq | exact HR |]. intros x u2 q2 r2 E2 O2 Kx. unfold wri in Kx. apply tv_pmap. eapply tv_use; [exact O2 | exact IH |]. intros [l c] v Kl. cbn [fst snd forallb existsb flat_map] in *. em. }
  intros p cs O. unfold rule_list_t. eapply tv_bind; [exact O | apply tells_kind; discriminate |]. intros o u q r E Oq (K & _). apply tv_pmap. eapply tv_use; [exact Oq | apply G |].
  intros [l c] v Kl. cbn [fst snd] in *. em.
Qed.
Lemma w_declaration_list : tells (declaration_list_t decl_p) (fun x u => let '(o, ds, c) := x in wr (decls_cl ds) (decls_mx md ds) u (o :: decls_out ed ds ++ opt_cursor c)).
Proof.
  assert (G : forall n, tells (decls_loop decl_p n) (fun l u => wr (decls_cl (fst l)) (decls_mx md (fst l)) u (decls_out ed (fst l) ++ opt_cursor (snd l)))).
  { induction n as [| n IH]; intros p cs O; [apply tv_none |]. cbn [decls_loop]. destruct (p_at_end p); [apply tv_ok; [exact O |]; em |].
    apply tv_or_peek; intro Pk.
    - apply tv_pmap. eapply tv_use; [exact O | apply tells_kind; discriminate |]. intros c v (Kc & _). em.
    - eapply tv_bind; [exact O | exact HD |]. intros x u2 q2 r2 E2 O2 Kx. unfold wri in Kx. eapply tv_bind; [exact O2 | apply tells_if_kind; discriminate |]. intros s u3 q3 r3 E3 O3 (K3 & _). apply tv_pmap. eapply tv_use; [exact O3 | exact IH |].
      intros [l c] v Kl. unfold decls_cl, decls_mx, decls_out in *. cbn [fst snd forallb existsb flat_map] in *. em. }
  intros p cs O. unfold declaration_list_t. eapply tv_bind; [exact O | apply tells_kind; discriminate |]. intros o u q r E Oq (K & _). apply tv_pmap. eapply tv_use; [exact Oq | apply G |].
  intros [l c] v Kl. cbn [fst snd] in *. em.
Qed.
Lemma w_declaration_rule_list : tells (declaration_rule_list_t decl_p rule_p) (fun x u => let '(o, ds, rs, c) := x in wr (pile_cl ds rs) (pile_mx md mr ds rs) u (o :: decls_out ed ds ++ flat_map er rs ++ opt_cursor c)).
Proof.
  assert (G : forall n, tells (decl_rules_loop decl_p rule_p n) (fun l u => wr (forallb item_cl (fst l)) (existsb item_mx (fst l)) u (flat_map item_out (fst l) ++ opt_cursor (snd l)))).
  { induction n as [| n IH]; intros p cs O; [apply tv_none |]. cbn [decl_rules_loop]. destruct (p_at_end p); [apply tv_ok; [exact O |]; em |].
    apply tv_or_peek; intro Pk.
    - apply tv_pmap. eapply tv_use; [exact O | apply tells_kind; discriminate |]. intros c v (Kc & _). em.
    - apply tv_or_peek; intro Pk2.
      + eapply tv_bind; [exact O | exact HR |]. intros x u2 q2 r2 E2 O2 Kx. unfold wri in Kx. apply tv_pmap. eapply tv_use; [exact O2 | exact IH |].
        intros [l c] v Kl. cbn [fst snd forallb existsb flat_map item_cl FaithTraits.item_mx FaithTraits.item_out] in *. em.
      + apply tv_or_peek; intro Pk3.
        * eapply tv_bind; [exact O | exact HD |]. intros x u2 q2 r2 E2 O2 Kx. unfold wri in Kx. eapply tv_bind; [exact O2 | apply tells_if_kind; discriminate |]. intros s u3 q3 r3 E3 O3 (K3 & _). apply tv_pmap. eapply tv_use; [exact O3 | exact IH |].
          intros [l c] v Kl. cbn [fst snd forallb existsb flat_map item_cl FaithTraits.item_mx FaithTraits.item_out] in *. em.
        * destruct (peek_n p 1); [apply tv_err; exact O | apply tv_none]. }
  intros p cs O. unfold declaration_rule_list_t. eapply tv_bind; [exact O | apply tells_kind; discriminate |]. intros o u q r E Oq (K & _). apply tv_pmap. eapply tv_use; [exact Oq | apply G |].
  intros [l c] v Kl. cbv beta in Kl. cbn [fst snd] in *. pose proof (w_sorted l v (opt_cursor c) Kl) as S. unfold pile_cl. em.
Qed.
Lemma w_prelude_list : forall stop, tells (prelude_list_t stop rule_p) (fun l u => wr (forallb cr l) (existsb mr l) u (flat_map er l)).
Proof.
  intro stop. assert (G : forall n, tells (prelude_loop stop rule_p n) (fun l u => wr (forallb cr l) (existsb mr l) u (flat_map er l))).
  { induction n as [| n IH]; intros p cs O; [apply tv_none |]. cbn [prelude_loop]. eapply tv_bind; [exact O | exact HR |]. intros x u q r E Oq Kx. unfold wri in Kx. destruct (peek_next q); [| apply tv_none]. destruct (tok_in _ _).
    - apply tv_ok; [exact Oq |]. cbn [forallb existsb flat_map]. em.
    - apply tv_pmap. eapply tv_use; [exact Oq | exact IH |]. intros l v Kl. cbn [forallb existsb flat_map]. em. }
  apply (tells_fun src f _ (fun p0 => prelude_loop stop rule_p (sfuel p0))). intro; apply G.
Qed.
Lemma w_comma_list : forall stop, tells (comma_list_t stop decl_p) (fun l u => wr (decls_cl l) (decls_mx md l) u (decls_out ed l)).
Proof.
  intro stop. assert (G : forall n, tells (comma_loop stop decl_p n) (fun l u => wr (decls_cl l) (decls_mx md l) u (decls_out ed l))).
  { induction n as [| n IH]; intros p cs O; [apply tv_none |]. cbn [comma_loop]. eapply tv_bind; [exact O | exact HD |]. intros x u q r E Oq Kx. unfold wri in Kx.
    eapply tv_bind; [exact Oq | apply tells_if_kind; discriminate |]. intros s u3 q3 r3 E3 O3 (K3 & _). destruct (peek_next q3); [| apply tv_none]. unfold decls_cl, decls_mx, decls_out in *. destruct (tok_in _ _).
    - apply tv_ok; [exact O3 |]. cbn [forallb existsb flat_map fst snd]. em.
    - apply tv_pmap. eapply tv_use; [exact O3 | exact IH |]. intros l v Kl. cbn [forallb existsb flat_map fst snd]. em. }
  apply (tells_fun src f _ (fun p0 => comma_loop stop decl_p (sfuel p0))). intro; apply G.
Qed.
Lemma w_sheet : tells (sheet_t rule_p) (fun l u => wr (forallb cr l) (existsb mr l) u (flat_map er l)).
Proof.
  assert (G : forall n, tells (sheet_loop rule_p n) (fun l u => wr (forallb cr l) (existsb mr l) u (flat_map er l))).
  { induction n as [| n IH]; intros p cs O; [apply tv_none |]. cbn [sheet_loop]. eapply tv_bind; [exact O | apply w_drop_whitespace |]. intros w u q r E Oq K. destruct w; [eapply tv_use; [exact Oq | exact IH |]; intros l v Kl; em |].
    eapply tv_bind; [exact Oq | apply w_drop_kind; [discriminate | cbn; tauto] |]. intros s u2 q2 r2 E2 O2 K2. destruct s; [eapply tv_use; [exact O2 | exact IH |]; intros l v Kl; em |]. destruct (p_at_end q2); [apply tv_ok; [exact O2 |]; cbn [forallb existsb flat_map]; em |].
    destruct (peek_next q2); [| apply tv_none]. destruct (tok_is _ _); [apply tv_ok; [exact O2 |]; cbn [forallb existsb flat_map]; em |]. eapply tv_bind; [exact O2 | exact HR |]. intros x u3 q3 r3 E3 O3 Kx. unfold wri in Kx. apply tv_pmap.
    eapply tv_use; [exact O3 | exact IH |]. intros l v Kl. cbn [forallb existsb flat_map]. em. }
  apply (tells_fun src f _ (fun p0 => sheet_loop rule_p (sfuel p0))). intro; apply G.
Qed.
End Traits.

Section Rules.
Variable src : text.
Variable f : feature.
Notation tells := (tells src f).
Notation onto := (onto src f).
Notation tv := (tv src f).
Definition opt_cl {A} (c : A -> bool) (o : option A) : bool := match o with Some a => c a | None => true end.
Lemma w_at_rule : forall Pr B name (prelude_p : P Pr) (block_p : P B) cp mp ep KB, tells prelude_p (wri cp mp ep) -> tells block_p KB ->
  tells (at_rule_t name prelude_p block_p) (fun x u => let '(at_, pr, b) := x in exists u1 u2, u = u1 ++ u2 /\ wr (opt_cl cp pr) (opt_mx mp pr) u1 (at_ :: opt_emit ep pr) /\ KB b u2).
Proof.
  intros Pr B name prelude_p block_p cp mp ep KB Hp Hb p cs O. unfold at_rule_t. eapply tv_bind; [exact O | apply tells_kind; discriminate |]. intros a u q r E Oq (K & _).
  eapply tv_bind; [exact Oq | instantiate (1 := fun _ u => u = []) |].
  { intros p' cs' O'. destruct name as [w |]; [| apply tv_ok; [exact O' | reflexivity]]. destruct (eq_ignore_ascii_case _ _ _) as [[] |]; [apply tv_ok; [exact O' | reflexivity] | apply tv_err; exact O' | apply tv_none]. }
  intros x u2 q2 r2 E2 O2 K2. cbv beta in K2. subst u2. destruct (peek_next q2); [| apply tv_none]. eapply tv_bind; [exact O2 | instantiate (1 := fun pr u => wr (opt_cl cp pr) (opt_mx mp pr) u (opt_emit ep pr)) |].
  { intros p' cs' O'. destruct (_ || _); [apply tv_ok; [exact O' |]; exact wr_nil |]. apply tv_pmap. eapply tv_use; [exact O' | exact Hp |]. intros y v Ky. exact Ky. }
  intros pr u3 q3 r3 E3 O3 K3. cbv beta in K3. eapply tv_bind; [exact O3 | exact Hb |]. intros b u4 q4 r4 E4 O4 K4. apply tv_ok; [exact O4 |]. exists (u ++ u3), u4. rewrite app_nil_r, <- app_assoc. split; [reflexivity |]. split; [| exact K4]. em.
Qed.
Lemma w_qualified_rule : forall Pr B X (prelude_p : P Pr) (block_p : P B) (bad_p : P X) cp mp ep KB KX, tells prelude_p (wri cp mp ep) -> tells block_p KB -> tells bad_p KX ->
  tells (qualified_rule_t prelude_p block_p bad_p) (fun x u => exists u1 u2, u = u1 ++ u2 /\ wr (cp (fst x)) (mp (fst x)) u1 (ep (fst x)) /\ KB (snd x) u2).
Proof.
  intros Pr B X prelude_p block_p bad_p cp mp ep KB KX Hp Hb Hx p cs O. unfold qualified_rule_t. destruct (p_at_end p); [apply tv_err; exact O |].
  set (rest := bind (in_stop (kindset_new [K_LeftCurly]) prelude_p) (fun prelude => pmap (fun b => (prelude, b)) block_p)).
  set (K := fun x u => exists u1 u2, u = u1 ++ u2 /\ wr (cp (fst x)) (mp (fst x)) u1 (ep (fst x)) /\ KB (snd x) u2).
  assert (Rest : tells rest K).
  { intros p' cs' O'. unfold rest. eapply tv_bind; [exact O' | apply tells_in_stop; exact Hp |]. intros pr u q r E Oq Kp. apply tv_pmap. eapply tv_use; [exact Oq | exact Hb |]. intros b v Kb. exists u, v. auto. }
  set (dashed := or_peek peek_dashed_ident _ rest).
  assert (Dashed : tv cs K (dashed p)).
  { apply tv_or_peek; intro Pk; [| exact (Rest p cs O)]. destruct (parse_dashed_ident p) as [[r1 p1] |] eqn:E1; [| apply tv_none]. destruct (tells_dashed src f p cs O _ _ E1) as (u & r & E & O1 & _).
    pose proof (onto_back src f _ _ _ _ O O1) as O2. destruct (peek (peek_kind K_Colon) p1) as [[] |]; [| exact (Rest _ cs O2) | apply tv_none]. destruct (is_nested p1).
    - eapply tv_bind; [exact O2 | exact Hx |]. intros. apply tv_err. assumption.
    - apply (tv_shift _ _ _ _ u r _ _ E). destruct (block_p p1) as [[r2 p2] |] eqn:E2; [| apply tv_none]. destruct (Hb p1 r O1 _ _ E2) as (v & r3 & E3 & O3 & _). apply (tv_fails _ _ _ _ _ _ _ r3 O3). eauto. }
  destruct (is_nested p); [| exact Dashed]. apply tv_or_peek; intro Pk; [| exact Dashed]. destruct (peek_n p 1); [apply tv_err; exact O | apply tv_none].
Qed.
Lemma w_parse_declaration : tells parse_declaration (wri (fun _ => true) (fun _ => false) decl_cursors).
Proof.
  intros p cs O. unfold parse_declaration. apply tv_pmap. eapply tv_use; [exact O | apply (w_declaration src f _ _ _ (fun _ => true) (fun _ => false) cvs_cursors); intro; apply w_values |].
  intros [[[n c] v] i] u K. exact K.
Qed.
Lemma forallb_true : forall A (l : list A), forallb (fun _ => true) l = true.
Proof. induction l; auto. Qed.
Lemma existsb_false : forall A (l : list A), existsb (fun _ => false) l = false.
Proof. induction l; auto. Qed.
Lemma w_block_of : forall rule_p, tells rule_p (wri (fun _ => true) mixed_rule rule_cursors) -> tells (block_of rule_p) (wri (fun _ => true) mixed_block block_cursors).
Proof.
  intros rule_p H p cs O. unfold block_of. apply tv_pmap. eapply tv_use; [exact O | apply (w_block src f peek_declaration _ _ _ _ _ _ _ _ w_parse_declaration H) |].
  intros [[[o ds] rs] c] u (Ko & K). unfold wri. cbn [mixed_block block_cursors]. unfold pile_cl, decls_cl in K. rewrite !forallb_true in K. unfold pile_mx in K. rewrite decls_plain in K. cbn [orb andb] in K.
  intros _. specialize (K eq_refl). clear - K Ko. destruct K as (k & d & out & M & F & R & E). assert (Rp : forall x, re_emitted o x -> re_emitted o x) by auto.
  assert (Op : re_emitted o (Cursor (poffset p) (ctok o))) by (right; split; [reflexivity |]; left; rewrite Ko; now left).
  assert (Tr : forall x, re_emitted x o -> re_emitted x (Cursor (poffset p) (ctok o))) by (intros x [<- | (E1 & E2)]; [exact Op | right; split; [exact E1 | exact E2]]).
  destruct (both ds rs || existsb mixed_rule rs).
  - assert (Pm : forall (x y : list cursor), Permutation x y -> forall z, Forall2 re_emitted y z -> exists w, Permutation w z /\ Forall2 re_emitted x w).
    { intros x y Hp. induction Hp as [| a x y Hp IH | a c0 x | x y z H1 IH1 H2 IH2]; intros w Fz.
      - inversion Fz; subst. exists []. split; constructor.
      - inversion Fz; subst. destruct (IH _ H3) as (w & P1 & F1). eexists (_ :: w). split; [now constructor | now constructor].
      - inversion Fz as [| ? ? ? ? R1 F1]; subst. inversion F1; subst. eexists (_ :: _ :: _). split; [apply perm_swap | repeat (constructor; eauto)].
      - destruct (IH2 _ Fz) as (w2 & P2 & F2). destruct (IH1 _ F2) as (w1 & P1 & F1). exists w1. split; [now transitivity w2 | exact F1]. }
    assert (Fo : Forall2 re_emitted (o :: decls_out decl_cursors ds ++ flat_map rule_cursors rs ++ opt_cursor c) (Cursor (poffset p) (ctok o) :: decls_out decl_cursors ds ++ flat_map rule_cursors rs ++ opt_cursor c)).
    { constructor; [exact Op |]. generalize (decls_out decl_cursors ds ++ flat_map rule_cursors rs ++ opt_cursor c). clear. intro l. induction l; constructor; auto. apply re_emitted_refl. }
    destruct (Pm _ _ E _ Fo) as (w & P1 & F1). exists k, d, w. split; [exact M |]. split; [exact F |]. split; [| exact P1]. clear - R F1. revert w F1. induction R as [| x y lx ly Rx R IH]; intros w F1; inversion F1; subst; constructor; auto.
    destruct Rx as [<- | (E1 & E2)]; [assumption |]. match goal with H : re_emitted _ _ |- _ => destruct H as [-> | (E3 & E4)] end; right; [auto |]. split; [congruence | exact E2].
  - subst out. inversion R as [| x y lx ly Rx R' Ex]; subst. exists (x :: lx), d, (Cursor (poffset p) (ctok o) :: decls_out decl_cursors ds ++ flat_map rule_cursors rs ++ opt_cursor c). split; [exact M |]. split; [exact F |]. split; [constructor; [exact (Tr x Rx) | exact R'] | reflexivity].
Qed.
End Rules.
