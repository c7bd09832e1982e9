(* Declarations, blocks, rules and stylesheets of css_parse/src/syntax are faithful. *)
From Coq Require Import ZifyBool ZifyNat ZifyN Permutation.
From Verif Require Import Traits Syntax SpecLex SpecTrace SpecParser SpecSyntax SpecTraits SpecRules SpecToken LexBase TokenProofs KindProofs LexFacts LexTrace
  ParserProofs ParserProofs2 ParserProofs3 ParserProofs4 CompareProofs SyntaxProofs SyntaxTotal TraitsTotal RulesTotal FaithProofs FaithTraits.
Open Scope N_scope.
Open Scope list_scope.

Definition opt_emit {A} (em : A -> list cursor) (o : option A) : list cursor := match o with Some a => em a | None => [] end.
Definition opt_mx {A} (mx : A -> bool) (o : option A) : bool := match o with Some a => mx a | None => false end.
Theorem at_rule_faithful : forall Pr B name (prelude_p : P Pr) (block_p : P B) em_p em_b mx_p mx_b, faithful prelude_p em_p mx_p -> faithful block_p em_b mx_b ->
  faithful (at_rule_t name prelude_p block_p) (fun x => let '(a, pr, b) := x in a :: opt_emit em_p pr ++ em_b b) (fun x => let '(_, pr, b) := x in opt_mx mx_p pr || mx_b b).
Proof.
  intros Pr B name prelude_p block_p em_p em_b mx_p mx_b Hp Hb. apply says_faithful. intros p N. unfold at_rule_t.
  apply (says_bind _ _ _ _ p (fun c b out => b = false /\ out = [c] /\ kind_of c = K_AtKeyword)); [exact N | exact (says_kind K_AtKeyword p ltac:(discriminate) N) |]. intros a b out p1 _ N1 (-> & -> & _).
  apply (says_bind _ _ _ _ p1 (fun _ b out => b = false /\ out = [])); [exact N1 | |].
  { intros r q E. destruct name as [w |]; [destruct (eq_ignore_ascii_case a (lsrc (plex p1)) w) as [[] |]; [| | discriminate] |]; revert r q E.
    - apply says_end; auto.
    - intros r q E. injection E as <- <-. destruct N1 as [_ (cs & A)]. exact (moved_refl p1 cs A).
    - apply says_end; auto. }
  intros u b out p2 _ N2 (-> & ->). cbn [orb app]. intros r q E. destruct (peek_next p2) as [c |]; [| discriminate]. revert r q E.
  apply (says_bind _ _ _ _ p2 (fun pr b out => b = opt_mx mx_p pr /\ out = opt_emit em_p pr)); [exact N2 | |].
  { destruct (_ || _); [apply says_ret; auto | apply says_pmap; [exact N2 |]; eapply says_weaken; [exact (faithful_says _ _ _ _ _ Hp N2) |]; intros x b out (-> & ->); auto]. }
  intros pr b out p3 _ N3 (-> & ->). apply (says_bind _ _ _ _ p3 _ _ N3 (faithful_says _ _ _ _ _ Hb N3)). intros bl b out p4 _ N4 (-> & ->).
  apply says_ret; [exact N4 |]. split; cbn; [now rewrite !orb_false_r | now rewrite !app_nil_r].
Qed.
Theorem qualified_rule_faithful : forall Pr B X (prelude_p : P Pr) (block_p : P B) (bad_p : P X) em_p em_b mx_p mx_b, faithful prelude_p em_p mx_p -> faithful block_p em_b mx_b ->
  (forall p r q, normal p -> bad_p p = Some (r, q) -> moved 0 p q) ->
  faithful (qualified_rule_t prelude_p block_p bad_p) (fun x => em_p (fst x) ++ em_b (snd x)) (fun x => mx_p (fst x) || mx_b (snd x)).
Proof.
  intros Pr B X prelude_p block_p bad_p em_p em_b mx_p mx_b Hp Hb Hx. apply says_faithful. intros p N r q E. unfold qualified_rule_t in E.
  destruct (p_at_end p). { injection E as <- <-. destruct N as [_ (cs & A)]. exact (moved_refl p cs A). }
  set (rest := bind (in_stop (kindset_new [K_LeftCurly]) prelude_p) (fun prelude => pmap (fun b => (prelude, b)) block_p)) in E.
  set (K := exactly (fun x => em_p (fst x) ++ em_b (snd x)) (fun x => mx_p (fst x) || mx_b (snd x))).
  assert (Rest : forall p, normal p -> says rest p K).
  { intros p' N'. apply (says_bind _ _ _ _ p' (exactly em_p mx_p)); [exact N' | apply says_in_stop; exact (faithful_says _ _ _ _ (set_stop p' _) Hp N') |]. intros x b out p1 _ N1 (-> & ->).
    apply says_pmap; [exact N1 |]. eapply says_weaken; [exact (faithful_says _ _ _ _ _ Hb N1) |]. intros y b out (-> & ->). split; reflexivity. }
  set (dashed := or_peek peek_dashed_ident _ rest) in E.
  assert (Dashed : says dashed p K).
  { apply says_or_peek; intro Pk; [| exact (Rest p N)]. intros r' q' E'. destruct (parse_dashed_ident p) as [[r1 p1] |] eqn:E1; [| discriminate].
    assert (M1 : moved 0 p p1). { destruct N as [_ (cs & A)]. destruct (run_dashed p cs A) as (r2 & q2 & E2 & M2). congruence. }
    pose proof (moved_normal _ _ _ M1 N) as N1. destruct N as [Sk (cs & A)]. destruct (moved_rewind _ _ _ cs M1 A) as (M2 & A2). pose proof (moved_normal _ _ _ M2 (conj Sk (ex_intro _ cs A))) as N2.
    destruct (peek (peek_kind K_Colon) p1) as [[] |]; [| | discriminate].
    - destruct (is_nested p1).
      + unfold bind in E'. destruct (bad_p (rewind p1 (checkpoint p))) as [[[x | e] q1] |] eqn:E2; [| | discriminate]; pose proof (Hx _ _ _ N2 E2) as M3; injection E' as <- <-; exact (moved_trans0 _ _ _ M2 M3).
      + destruct (block_p p1) as [[[x | e] q1] |] eqn:E2; [| | discriminate]; pose proof (Hb _ _ _ N1 E2) as M3; injection E' as <- <-;
          [exact (moved_trans0 _ _ _ M1 (reads_moved _ _ _ _ M3)) | exact (moved_trans0 _ _ _ M1 M3)].
    - pose proof (Rest _ N2 r' q' E') as H. destruct r' as [x |]; [| exact (moved_trans0 _ _ _ M2 H)]. destruct H as (b & out & R & HK). exists b, out. split; [| exact HK].
      change b with (false || b). change out with ([] ++ out). apply (reads_trans _ _ _ (rewind p1 (checkpoint p))); [| exact R]. apply reads_back; [exact M2 |].
      intros cs' A'. exact (proj2 (moved_rewind _ _ _ cs' M1 A')). }
  destruct (is_nested p); [| exact (Dashed r q E)]. revert r q E. apply says_or_peek; intro Pk; [| exact Dashed].
  intros r q E. destruct (peek_n p 1) as [c |]; [| discriminate]. injection E as <- <-. destruct N as [_ (cs & A)]. exact (moved_refl p cs A).
Qed.

(* ---- css_parse/src/syntax ---- *)
Lemma values_faithful : faithful parse_component_values cvs_cursors (fun _ => false).
Proof.
  intros p r q N E. pose proof (normal_skips p N) as Sk. destruct N as [Skp (cs & A)]. destruct r as [vs |]; [| exact (okay_err _ _ _ _ _ (proj1 (proj2 (component_values_okay p cs Sk A))) E)].
  destruct (proj1 (proj2 (fuel_good (sfuel p))) p cs vs q Sk A E) as (used & T & Em & _). exact (reads_re _ _ _ _ _ (reads_took p q used Skp T) Em).
Qed.
Lemma parse_declaration_faithful : faithful parse_declaration decl_cursors (fun _ => false).
Proof.
  apply says_faithful. intros p N. unfold parse_declaration. apply says_pmap; [exact N |].
  eapply says_weaken; [exact (faithful_says _ _ _ _ p (declaration_faithful _ (fun _ _ => Some true) (fun _ => parse_component_values) _ _ (fun _ => values_faithful)) N) |].
  intros [[[name colon] v] i] b out (-> & ->). split; reflexivity.
Qed.
Lemma reads_reposition : forall b p q o out start, is_opener (kind_of o) -> reads b p q (o :: out) -> reads b p q (Cursor start (ctok o) :: out).
Proof.
  intros b p q o out start K R. apply (reads_re _ _ _ _ _ R). constructor; [right; split; [reflexivity | left; exact K] |]. clear. induction out; constructor; auto. apply re_emitted_refl.
Qed.
Lemma decls_plain : forall ds, decls_mx (fun _ : declaration => false) ds = false.
Proof. induction ds; auto. Qed.
Lemma block_of_faithful : forall rule_p, faithful rule_p rule_cursors mixed_rule -> faithful (block_of rule_p) block_cursors mixed_block.
Proof.
  intros rule_p H p r q N E. unfold block_of in E.
  pose proof (block_faithful peek_declaration parse_declaration rule_p decl_cursors rule_cursors (fun _ => false) mixed_rule parse_declaration_faithful H) as HB.
  unfold pmap, bind in E. destruct (block_t peek_declaration parse_declaration rule_p p) as [[[[[[o ds] rs] c] | e] q1] |] eqn:E1; [| | discriminate]; injection E as <- <-; pose proof (HB p _ q1 N E1) as R; cbn beta iota in R; [| exact R].
  cbn [block_cursors mixed_block]. unfold pile_mx in R. rewrite decls_plain in R. cbn [orb] in R. apply reads_reposition; [| exact R].
  unfold block_t in E1. destruct (bind_inv _ _ _ _ _ _ _ E1) as (o' & p1 & E2 & E3). destruct (bind_inv _ _ _ _ _ _ _ E3) as (l & p2 & E4 & E5). destruct (bind_inv _ _ _ _ _ _ _ E5) as (c' & p3 & E6 & E7).
  injection E7 as <- <- <- <- <-. destruct N as [_ (cs & A)]. destruct (parse_kind_inv K_LeftCurly p cs o' p1 ltac:(discriminate) A E2) as (_ & K). now left.
Qed.
Definition body_cursors (b : block + option cursor) : list cursor := match b with inl b => block_cursors b | inr s => opt_cursor s end.
Definition body_mx (b : block + option cursor) : bool := match b with inl b => mixed_block b | inr _ => false end.
Lemma optional_block_faithful : forall block_p, faithful block_p block_cursors mixed_block -> faithful (optional_block block_p) body_cursors body_mx.
Proof.
  intros block_p H. apply says_faithful. intros p N. unfold optional_block.
  apply (says_bind _ _ _ _ p (fun o b out => b = opt_mx mixed_block o /\ out = opt_emit block_cursors o)); [exact N | |].
  - apply says_if_peek; [exact N | auto |]. intros _. eapply says_weaken; [exact (faithful_says _ _ _ _ _ H N) |]. intros x b out (-> & ->). auto.
  - intros [x |] b out p1 _ N1 (-> & ->); cbn [opt_mx opt_emit orb app].
    + apply says_ret; [exact N1 |]. split; cbn; [apply orb_false_r | apply app_nil_r].
    + apply says_pmap; [exact N1 |]. eapply says_weaken; [exact (says_if_kind K_Semicolon p1 ltac:(discriminate) N1) |]. intros o b out (-> & -> & _). split; reflexivity.
Qed.
Lemma at_rule_of_faithful : forall block_p, faithful block_p block_cursors mixed_block -> faithful (at_rule_of block_p) rule_cursors mixed_rule.
Proof.
  intros block_p H. apply says_faithful. intros p N. unfold at_rule_of.
  pose proof (at_rule_faithful _ _ None parse_component_values (optional_block block_p) _ _ _ _ values_faithful (optional_block_faithful block_p H)) as HA.
  apply (says_bind _ _ _ _ p _ _ N (says_in_stop _ _ _ p _ (faithful_says _ _ _ _ (set_stop p KS_LEFT_CURLY_OR_SEMICOLON) HA N))). intros [[a pr] bd] b out p1 _ N1 (-> & ->).
  apply (says_bind _ _ _ _ p1 _ _ N1 (says_drop_kind K_Semicolon p1 ltac:(discriminate) ltac:(cbn; tauto) N1)). intros s b out p2 _ N2 (-> & ->). apply says_ret; [exact N2 |].
  split.
  - rewrite !orb_false_r. destruct pr, bd; reflexivity.
  - rewrite !app_nil_r. destruct pr, bd; reflexivity.
Qed.
Lemma qualified_rule_of_faithful : forall block_p, faithful block_p block_cursors mixed_block -> faithful (qualified_rule_of block_p) rule_cursors mixed_rule.
Proof.
  intros block_p H. apply says_faithful. intros p N. unfold qualified_rule_of. apply says_pmap; [exact N |].
  eapply says_weaken; [eapply (faithful_says _ _ _ _ p); [apply (qualified_rule_faithful _ _ _ parse_component_values block_p parse_bad_declaration _ _ _ _ values_faithful H) | exact N] |].
  - intros p' r q N' E.
    pose proof (normal_skips p' N') as Sk. destruct N' as [_ (cs & A)]. destruct (bad_declaration_returns p' cs Sk A) as (r1 & q1 & E1 & M1). rewrite E in E1. injection E1 as <- <-. destruct r; exact M1.
  - intros [pr bl] b out (-> & ->). split; reflexivity.
Qed.
Lemma rule_fuel_faithful : forall n, faithful (rule_fuel n) rule_cursors mixed_rule.
Proof.
  induction n as [| n IH]; [intros p r q _ E; discriminate |]. pose proof (block_of_faithful _ IH) as HB. apply says_faithful. intros p N. cbn [rule_fuel].
  apply says_or_peek; intro Pk; [exact (faithful_says _ _ _ _ p (at_rule_of_faithful _ HB) N) | exact (faithful_says _ _ _ _ p (qualified_rule_of_faithful _ HB) N)].
Qed.
Lemma parse_rule_faithful : faithful parse_rule rule_cursors mixed_rule.
Proof. intros p. exact (rule_fuel_faithful (sfuel p) p). Qed.
Lemma parse_block_faithful : faithful parse_block block_cursors mixed_block.
Proof. intros p. exact (block_of_faithful _ (rule_fuel_faithful (sfuel p)) p). Qed.
Lemma parse_stylesheet_faithful : faithful parse_stylesheet (flat_map rule_cursors) (existsb mixed_rule).
Proof. exact (sheet_faithful parse_rule rule_cursors mixed_rule parse_rule_faithful). Qed.

(* a stylesheet is read to the end: only trivia are left *)
Lemma sheet_reads_all : forall R (rule_p : P R) em mx, faithful rule_p em mx -> forall p l q, normal p -> sheet_t rule_p p = Some (Ok l, q) -> exists rest, ahead (plex q) rest /\ Forall is_trivia rest.
Proof.
  intros R rule_p em mx HR p l q N E. unfold sheet_t in E. revert p N l q E. enough (G : forall n p l q, normal p -> sheet_loop rule_p n p = Some (Ok l, q) -> exists rest, ahead (plex q) rest /\ Forall is_trivia rest) by eauto.
  induction n as [| n IH]; intros p l q N E; [discriminate |]. cbn [sheet_loop] in E. destruct (bind_inv _ _ _ _ _ _ _ E) as (w & p1 & E1 & E2).
  pose proof (says_drop_whitespace p N _ _ E1) as (b1 & o1 & R1 & _). pose proof (reads_normal _ _ _ _ R1 N) as N1. destruct w; [exact (IH _ _ _ N1 E2) |].
  destruct (bind_inv _ _ _ _ _ _ _ E2) as (s & p2 & E3 & E4). pose proof (says_drop_kind K_CdcOrCdo p1 ltac:(discriminate) ltac:(cbn; tauto) N1 _ _ E3) as (b2 & o2 & R2 & _).
  pose proof (reads_normal _ _ _ _ R2 N1) as N2. destruct s; [exact (IH _ _ _ N2 E4) |]. clear E E1 E2 E3 R1 R2. destruct (p_at_end p2) eqn:Pe.
  - injection E4 as <- <-. destruct N2 as [_ (cs & A)]. destruct (at_end_stuck p2 cs A Pe) as (_ & ->). exists []. auto.
  - destruct (peek_next p2) as [c |] eqn:Pn; [| discriminate]. destruct (tok_is (ctok c) K_Eof) eqn:Te.
    + injection E4 as <- <-. destruct N2 as [Sk (cs & A)]. exists cs. split; [exact A |]. destruct (skip_split (pskip p2) cs) as (sk & rest & -> & F & St).
      rewrite (peek_next_spec p2 sk rest A F St) in Pn. injection Pn as <-. destruct rest as [| d rest].
      * rewrite app_nil_r. eapply Forall_impl; [| exact F]. intros d Hd. unfold in_kinds in Hd. rewrite Sk in Hd. unfold KS_TRIVIA in Hd. apply kindset_new_spec in Hd. unfold is_trivia, kind_of. cbn in Hd. intuition.
      * exfalso. cbn [hd_or_eof] in Te. assert (I' : In d (sk ++ d :: rest)) by (apply in_or_app; right; now left). pose proof (ahead_kind _ _ A d I') as K. apply tok_is_kind in Te; [| now apply wf_of_kind]. contradiction.
    + destruct (bind_inv _ _ _ _ _ _ _ E4) as (x & p3 & E5 & E6). destruct (pmap_inv _ _ _ _ _ _ _ E6) as (l' & E7 & ->). pose proof (HR p2 _ p3 N2 E5) as R3. exact (IH _ _ _ (reads_normal _ _ _ _ R3 N2) E7).
Qed.

(* the tokens that may not be dropped *)
Definition is_lasting (t : token) : bool := negb (existsb (fun k => match kind_eq_dec (tkind t) k with left _ => true | right _ => false end) [K_Whitespace; K_Comment; K_Semicolon; K_CdcOrCdo]).
Lemma lasting_spec : forall c, is_lasting (ctok c) = true <-> ~ droppable c.
Proof.
  intro c. unfold is_lasting, droppable, kind_of. rewrite negb_true_iff. cbn. destruct (kind_eq_dec _ K_Whitespace), (kind_eq_dec _ K_Comment), (kind_eq_dec _ K_Semicolon), (kind_eq_dec _ K_CdcOrCdo); cbn; intuition congruence.
Qed.
Lemma emits_lasting : forall b cs out, emits b cs out ->
  Permutation (filter is_lasting (map ctok out)) (filter is_lasting (map ctok cs)) /\ (b = false -> filter is_lasting (map ctok out) = filter is_lasting (map ctok cs)).
Proof.
  intros b cs out (k & d & o & M & F & R & E). assert (G1 : filter is_lasting (map ctok cs) = filter is_lasting (map ctok k)).
  { clear R E. induction M as [| x k d cs M IH | x k d cs M IH]; [reflexivity | |].
    - cbn [map filter]. rewrite (IH F). reflexivity.
    - inversion F as [| ? ? D F']; subst. cbn [map filter]. destruct (is_lasting (ctok x)) eqn:L; [apply lasting_spec in L; contradiction | exact (IH F')]. }
  assert (G2 : map ctok o = map ctok k). { clear - R. induction R as [| a e k o Ra R IH]; [reflexivity |]. cbn [map]. rewrite IH. f_equal. destruct Ra as [-> | (Q & _)]; auto. }
  rewrite G1, <- G2. destruct b; [| split; [now subst | intros _; now subst]]. split; [| discriminate].
  assert (PF : forall x y : list token, Permutation x y -> Permutation (filter is_lasting x) (filter is_lasting y)).
  { intros x y H. induction H; cbn; auto. - destruct (is_lasting x); auto. - destruct (is_lasting x), (is_lasting y); auto. apply perm_swap. - now transitivity (filter is_lasting l'). }
  apply PF. apply Permutation_map. now symmetry.
Qed.
