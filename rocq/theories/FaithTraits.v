(* The trait methods are faithful when the implementor's parsers are. *)
From Coq Require Import ZifyBool ZifyNat ZifyN Permutation.
From Verif Require Import Traits Syntax SpecLex SpecTrace SpecParser SpecSyntax SpecTraits SpecRules SpecToken LexBase TokenProofs KindProofs LexFacts LexTrace
  ParserProofs ParserProofs2 ParserProofs3 ParserProofs4 CompareProofs SyntaxProofs SyntaxTotal TraitsTotal FaithProofs.
Open Scope N_scope.
Open Scope list_scope.

Lemma says_single : forall A k (g : cursor -> A) p, (forall p o, k p (Cursor o T_EOF) <> Some true) -> (peek k p <> None) -> normal p ->
  says (parse_single k g) p (fun a b out => b = false /\ exists c, a = g c /\ out = [c]).
Proof.
  intros A k g p N T [Sk (cs & Ah)] r q E. destruct r as [a | e]; [| exact (okay_err _ _ _ _ _ (okay_single _ _ _ p cs Ah T) E)].
  destruct (parse_single_kind _ _ _ _ _ _ _ N Ah E) as (sk & c' & rest & Ec & F & St & K & -> & Tk & A'). exists false, [c']. split; [exact (reads_took p q _ Sk Tk) |]. eauto.
Qed.
(* [!important] *)
Definition important_cursors (i : option (cursor * cursor)) : list cursor := match i with Some (a, b) => [a; b] | None => [] end.
Lemma says_important : forall p, normal p -> says (parse_if_peek peek_important parse_important) p (fun i b out => b = false /\ out = important_cursors i).
Proof.
  intros p N. apply says_if_peek; [exact N | auto |]. intros _. unfold parse_important.
  apply (says_bind _ _ _ _ p (fun c b out => b = false /\ out = [c])); [exact N | |].
  - eapply says_weaken; [apply (says_single _ (peek_delim 33) (fun c => c)); [intros p0 o H; discriminate | | exact N] |].
    + destruct N as [_ (cs & A)]. apply (peek_total_of _ p cs A). discriminate.
    + intros a b out (-> & c & -> & ->). auto.
  - intros bang b out q1 _ N1 (-> & ->). apply (says_bind _ _ _ _ q1 (fun c b out => b = false /\ out = [c])); [exact N1 | |].
    + eapply says_weaken; [exact (says_kind K_Ident q1 ltac:(discriminate) N1) |]. intros a b out (-> & -> & _). auto.
    + intros id b out q2 _ N2 (-> & ->). intros r q E. destruct (eq_ignore_ascii_case id (lsrc (plex q2)) IMPORTANT) as [[] |]; [| | discriminate]; injection E as <- <-; destruct N2 as [_ (cs & A)].
      * exists false, []. split; [exact (reads_refl q2 cs A) | auto].
      * exact (moved_refl q2 cs A).
Qed.
Theorem declaration_faithful : forall V (valid : parser -> cursor -> option bool) (value_p : cursor -> P V) em mx,
  (forall c, faithful (value_p c) em mx) ->
  faithful (declaration_t valid value_p) (fun x => let '(name, colon, v, i) := x in name :: colon :: em v ++ important_cursors i) (fun x => let '(_, _, v, _) := x in mx v).
Proof.
  intros V valid value_p em mx H. apply says_faithful. intros p N. unfold declaration_t.
  apply (says_bind _ _ _ _ p (fun c b out => b = false /\ out = [c] /\ kind_of c = K_Ident)); [exact N | exact (says_kind K_Ident p ltac:(discriminate) N) |]. intros name b out p1 _ N1 (-> & -> & _).
  intros r q E. destruct (valid p1 name) as [[] |]; [| | discriminate].
  2:{ injection E as <- <-. destruct N1 as [_ (cs & A)]. exact (moved_refl p1 cs A). }
  revert r q E. apply (says_bind _ _ _ _ p1 (fun c b out => b = false /\ out = [c] /\ kind_of c = K_Colon)); [exact N1 | exact (says_kind K_Colon p1 ltac:(discriminate) N1) |].
  intros colon b out p2 _ N2 (-> & -> & _). apply (says_bind _ _ _ _ p2 (exactly em mx)); [exact N2 | exact (faithful_says _ _ _ _ p2 (H name) N2) |].
  intros v b out p3 _ N3 (-> & ->). apply (says_bind _ _ _ _ p3 (fun i b out => b = false /\ out = important_cursors i)); [exact N3 | exact (says_important p3 N3) |].
  intros i b out p4 _ N4 (-> & ->). apply says_ret; [exact N4 |]. split; cbn; [now rewrite !orb_false_r | now rewrite !app_nil_r].
Qed.

Section Block.
  Context {D R : Type} (peek_d : peeker) (decl_p : P D) (rule_p : P R) (em_d : D -> list cursor) (em_r : R -> list cursor) (mx_d : D -> bool) (mx_r : R -> bool).
  Context (HD : faithful decl_p em_d mx_d) (HR : faithful rule_p em_r mx_r).
  Definition item_out (i : item D R) : list cursor := match i with ISkip => [] | IDecl d s => em_d d ++ opt_cursor s | IRule r => em_r r end.
  Definition item_mx (i : item D R) : bool := match i with ISkip => false | IDecl d _ => mx_d d | IRule r => mx_r r end.
  Lemma says_turn : forall p, normal p -> says (block_turn peek_d decl_p rule_p) p
    (fun o b out => match o with None => b = false /\ out = [] | Some i => b = item_mx i /\ out = item_out i end).
  Proof.
    intros p N. unfold block_turn. apply (says_bind _ _ _ _ p (fun o b out => b = false /\ out = [])); [exact N | exact (says_drop_whitespace p N) |]. intros w b out p1 _ N1 (-> & ->). cbn [orb app].
    destruct w; [apply says_ret; auto |]. apply (says_bind _ _ _ _ p1 (fun o b out => b = false /\ out = [])); [exact N1 | exact (says_drop_kind K_Semicolon p1 ltac:(discriminate) ltac:(cbn; tauto) N1) |].
    intros s b out p2 _ N2 (-> & ->). cbn [orb app]. destruct s; [apply says_ret; auto |]. intros r q E. destruct (p_at_end p2).
    { injection E as <- <-. destruct N2 as [_ (cs & A)]. exists false, []. split; [exact (reads_refl p2 cs A) | auto]. }
    revert r q E. apply says_or_peek; intro Pk; [apply says_ret; auto |]. intros r q E. destruct (peek (peek_kind K_AtKeyword) (set_state p2 ST_NESTED)) as [[] |]; [| | discriminate].
    { revert r q E. apply says_pmap; [exact N2 |]. apply says_in_state. eapply says_weaken; [exact (faithful_says _ _ _ _ (set_state p2 ST_NESTED) HR N2) |]. intros a b out (-> & ->). auto. }
    assert (N2' : normal (set_state p2 ST_NESTED)) by exact N2. unfold try_parse_if_peek in E. destruct (peek peek_d (set_state p2 ST_NESTED)) as [[] |]; [| | discriminate].
    - unfold pmap at 1, bind at 1 in E. destruct (try_parse decl_p (set_state p2 ST_NESTED)) as [[[d | e] q1] |] eqn:E1; [| | discriminate].
      + destruct (says_try _ _ _ _ N2' (faithful_says _ _ _ _ _ HD N2') _ _ E1) as (b & out & Rd & -> & ->). apply reads_state in Rd. pose proof (reads_normal _ _ _ _ Rd N2) as N3. cbn [ret] in E.
        pose proof (says_pmap _ _ (fun semi => Some (@IDecl D R d semi)) _ _ (fun o b out => exists s, o = Some (IDecl d s) /\ b = false /\ out = opt_cursor s) N3
          (says_weaken _ _ _ _ _ (says_if_kind K_Semicolon _ ltac:(discriminate) N3) (fun a b out H => ex_intro _ a (conj eq_refl (conj (proj1 H) (proj1 (proj2 H))))))) as Hs.
        specialize (Hs r q E). destruct r as [o |].
        * destruct Hs as (b & out & Rs & s & -> & -> & ->). eexists _, _. split; [exact (reads_trans _ _ _ _ _ _ _ Rd Rs) |]. cbn [item_mx item_out]. now rewrite orb_false_r.
        * exact (moved_trans0 _ _ _ (reads_moved _ _ _ _ Rd) Hs).
      + destruct (says_try _ _ _ _ N2' (faithful_says _ _ _ _ _ HD N2') _ _ E1) as (M & Bk). pose proof (moved_normal _ _ _ M N2') as N3. pose proof (reads_back _ _ M Bk) as Rb.
        destruct (rule_p q1) as [[[r1 | e1] q2] |] eqn:E2; [| | discriminate]; injection E as <- <-; pose proof (HR q1 _ q2 N3 E2) as H2; cbn beta iota in H2.
        * exists (mx_r r1), (em_r r1). split; [| auto]. apply reads_state with (s := ST_NESTED). exact (reads_trans _ _ _ _ _ _ _ Rb H2).
        * apply moved_in_state with (s := ST_NESTED). exact (moved_trans0 _ _ _ M H2).
    - destruct (rule_p (set_state p2 ST_NESTED)) as [[[r1 | e1] q2] |] eqn:E2; [| | discriminate]; injection E as <- <-; pose proof (HR (set_state p2 ST_NESTED) _ q2 N2' E2) as H2; cbn beta iota in H2.
      * exists (mx_r r1), (em_r r1). split; [| auto]. exact (reads_state _ _ _ _ _ H2).
      * exact (moved_in_state _ _ _ _ H2).
  Qed.
  Lemma says_block_loop : forall n p, normal p -> says (block_loop peek_d decl_p rule_p n) p (fun l b out => b = existsb item_mx l /\ out = flat_map item_out l).
  Proof.
    induction n as [| n IH]; intros p N; [intros r q E; discriminate |]. cbn [block_loop]. apply (says_bind _ _ _ _ p _ _ N (says_turn p N)).
    intros o b out p1 _ N1 H. destruct o as [i |]; destruct H as (-> & ->).
    - apply says_pmap; [exact N1 |]. eapply says_weaken; [exact (IH p1 N1) |]. intros l b out (-> & ->). auto.
    - apply says_ret; auto.
  Qed.
  Definition decls_out (ds : list (D * option cursor)) : list cursor := flat_map (fun d => em_d (fst d) ++ opt_cursor (snd d)) ds.
  Definition decls_mx (ds : list (D * option cursor)) : bool := existsb (fun d => mx_d (fst d)) ds.
  Lemma items_perm : forall l, Permutation (flat_map item_out l) (decls_out (item_decls l) ++ flat_map em_r (item_rules l)).
  Proof.
    induction l as [| i l IH]; [constructor |]. cbn [flat_map]. destruct i as [| d s | r]; cbn [item_out item_decls item_rules flat_map app].
    - exact IH.
    - cbn [decls_out flat_map fst snd]. rewrite <- !app_assoc. do 2 apply Permutation_app_head. exact IH.
    - fold (item_decls l). fold (item_rules l). rewrite IH. rewrite app_assoc, (Permutation_app_comm (em_r r)), <- app_assoc. reflexivity.
  Qed.
  Lemma items_same : forall l, both (item_decls l) (item_rules l) = false -> flat_map item_out l = decls_out (item_decls l) ++ flat_map em_r (item_rules l).
  Proof.
    assert (G1 : forall l, item_decls l = [] -> flat_map item_out l = flat_map em_r (item_rules l)).
    { induction l as [| [| d s | r] l IH]; cbn; intro H; try discriminate; auto. f_equal. auto. }
    assert (G2 : forall l, item_rules l = [] -> flat_map item_out l = decls_out (item_decls l)).
    { induction l as [| [| d s | r] l IH]; cbn; intro H; try discriminate; auto. f_equal. auto. }
    intros l B. destruct (item_decls l) as [| d ds] eqn:Ed; [rewrite (G1 l Ed); reflexivity |]. destruct (item_rules l) as [| r rs] eqn:Er; [| discriminate].
    rewrite (G2 l Er), Ed, app_nil_r. reflexivity.
  Qed.
  Lemma items_mx : forall l, existsb item_mx l = decls_mx (item_decls l) || existsb mx_r (item_rules l).
  Proof.
    induction l as [| [| d s | r] l IH]; cbn; auto.
    - fold (item_decls l). fold (item_rules l). now rewrite IH, orb_assoc.
    - fold (item_decls l). fold (item_rules l). rewrite IH. unfold decls_mx. destruct (mx_r r), (existsb (fun d => mx_d (fst d)) (item_decls l)); reflexivity.
  Qed.
  Definition pile_mx (ds : list (D * option cursor)) (rs : list R) : bool := both ds rs || (decls_mx ds || existsb mx_r rs).
  (* the items of a block, sorted *)
  Lemma says_sorted : forall p (m : P (list (item D R))), says m p (fun l b out => b = existsb item_mx l /\ out = flat_map item_out l) ->
    says m p (fun l b out => b = pile_mx (item_decls l) (item_rules l) /\ out = decls_out (item_decls l) ++ flat_map em_r (item_rules l)).
  Proof.
    intros p m H r q E. specialize (H r q E). destruct r as [l |]; [| exact H]. destruct H as (b & out & Rd & -> & ->). eexists _, _. split; [| split; reflexivity].
    destruct Rd as (cs & rest & A1 & A2 & S & Em). exists cs, rest. split; [exact A1 |]. split; [exact A2 |]. split; [exact S |]. unfold pile_mx. rewrite <- items_mx.
    destruct (both (item_decls l) (item_rules l)) eqn:B; cbn [orb]; [exact (emits_perm _ _ _ _ Em (items_perm l)) | now rewrite <- (items_same l B)].
  Qed.
  Theorem block_faithful : faithful (block_t peek_d decl_p rule_p)
    (fun x => let '(o, ds, rs, c) := x in o :: decls_out ds ++ flat_map em_r rs ++ opt_cursor c) (fun x => let '(_, ds, rs, _) := x in pile_mx ds rs).
  Proof.
    apply says_faithful. intros p N. unfold block_t.
    apply (says_bind _ _ _ _ p (fun c b out => b = false /\ out = [c] /\ kind_of c = K_LeftCurly)); [exact N | exact (says_kind K_LeftCurly p ltac:(discriminate) N) |]. intros o b out p1 _ N1 (-> & -> & _).
    assert (Hl : says (fun q => block_loop peek_d decl_p rule_p (sfuel q) q) p1 (fun l b out => b = existsb item_mx l /\ out = flat_map item_out l)) by (intros r q E; exact (says_block_loop (sfuel p1) p1 N1 r q E)).
    apply (says_bind _ _ _ _ p1 _ _ N1 (says_sorted p1 _ Hl)). intros l b out p2 _ N2 (-> & ->).
    apply (says_bind _ _ _ _ p2 (fun o b out => b = false /\ out = opt_cursor o)); [exact N2 | eapply says_weaken; [exact (says_if_kind K_RightCurly p2 ltac:(discriminate) N2) | intros a b out (-> & -> & _); auto] |].
    intros c b out p3 _ N3 (-> & ->). apply says_ret; [exact N3 |]. split; cbn; [now rewrite !orb_false_r | rewrite !app_nil_r, <- !app_assoc; reflexivity].
  Qed.

  (* lists of rules, of declarations, and of both *)
  Definition close_says {A} (g : cursor -> A) := fun p N => says_pmap _ _ g _ p (fun a b out => exists c, a = g c /\ b = false /\ out = [c]) N
    (says_weaken _ _ _ _ _ (says_kind K_RightCurly p ltac:(discriminate) N) (fun a b out H => ex_intro _ a (conj eq_refl (conj (proj1 H) (proj1 (proj2 H)))))).
  Lemma says_end : forall A (a : A) p (K : A -> bool -> list cursor -> Prop), normal p -> K a false [] -> forall r q, Some (Ok a, p) = Some (r, q) ->
    match r with Ok a => exists b out, reads b p q out /\ K a b out | Err _ => moved 0 p q end.
  Proof. intros A a p K N H r q E. exact (says_ret _ a p K N H r q E). Qed.
  Theorem rule_list_faithful : faithful (rule_list_t rule_p) (fun x => let '(o, rs, c) := x in o :: flat_map em_r rs ++ opt_cursor c) (fun x => let '(_, rs, _) := x in existsb mx_r rs).
  Proof.
    assert (G : forall n p, normal p -> says (rules_loop rule_p n) p (fun l b out => b = existsb mx_r (fst l) /\ out = flat_map em_r (fst l) ++ opt_cursor (snd l))).
    { induction n as [| n IH]; intros p N; [intros r q E; discriminate |]. cbn [rules_loop]. apply (says_bind _ _ _ _ p _ _ N (says_opt_semicolon p N)). intros s b out p1 _ N1 (-> & ->). cbn [orb app].
      intros r q E. destruct (p_at_end p1); [revert r q E; apply says_end; auto |]. revert r q E. apply says_or_peek; intro Pk.
      - eapply says_weaken; [exact (close_says _ p1 N1) |]. intros a b out (c & -> & -> & ->). auto.
      - apply (says_bind _ _ _ _ p1 _ _ N1 (faithful_says _ _ _ _ _ HR N1)). intros x b out p2 _ N2 (-> & ->). apply says_pmap; [exact N2 |].
        eapply says_weaken; [exact (IH p2 N2) |]. intros l b out (-> & ->). cbn. now rewrite <- app_assoc. }
    apply says_faithful. intros p N. unfold rule_list_t.
    apply (says_bind _ _ _ _ p (fun c b out => b = false /\ out = [c] /\ kind_of c = K_LeftCurly)); [exact N | exact (says_kind K_LeftCurly p ltac:(discriminate) N) |]. intros o b out p1 _ N1 (-> & -> & _).
    apply says_pmap; [exact N1 |]. eapply says_weaken; [exact (G (sfuel p1) p1 N1) |]. intros l b out (-> & ->). split; reflexivity.
  Qed.
  Theorem declaration_list_faithful : faithful (declaration_list_t decl_p) (fun x => let '(o, ds, c) := x in o :: decls_out ds ++ opt_cursor c) (fun x => let '(_, ds, _) := x in decls_mx ds).
  Proof.
    assert (G : forall n p, normal p -> says (decls_loop decl_p n) p (fun l b out => b = decls_mx (fst l) /\ out = decls_out (fst l) ++ opt_cursor (snd l))).
    { induction n as [| n IH]; intros p N; [intros r q E; discriminate |]. cbn [decls_loop].
      intros r q E. destruct (p_at_end p); [revert r q E; apply says_end; auto |]. revert r q E. apply says_or_peek; intro Pk.
      - eapply says_weaken; [exact (close_says _ p N) |]. intros a b out (c & -> & -> & ->). auto.
      - apply (says_bind _ _ _ _ p _ _ N (faithful_says _ _ _ _ _ HD N)). intros x b out p2 _ N2 (-> & ->).
        apply (says_bind _ _ _ _ p2 _ _ N2 (says_if_kind K_Semicolon p2 ltac:(discriminate) N2)). intros s b out p3 _ N3 (-> & -> & _). apply says_pmap; [exact N3 |].
        eapply says_weaken; [exact (IH p3 N3) |]. intros l b out (-> & ->). cbn. now rewrite <- !app_assoc. }
    apply says_faithful. intros p N. unfold declaration_list_t.
    apply (says_bind _ _ _ _ p (fun c b out => b = false /\ out = [c] /\ kind_of c = K_LeftCurly)); [exact N | exact (says_kind K_LeftCurly p ltac:(discriminate) N) |]. intros o b out p1 _ N1 (-> & -> & _).
    apply says_pmap; [exact N1 |]. eapply says_weaken; [exact (G (sfuel p1) p1 N1) |]. intros l b out (-> & ->). split; reflexivity.
  Qed.
  Theorem declaration_rule_list_faithful : faithful (declaration_rule_list_t decl_p rule_p)
    (fun x => let '(o, ds, rs, c) := x in o :: decls_out ds ++ flat_map em_r rs ++ opt_cursor c) (fun x => let '(_, ds, rs, _) := x in pile_mx ds rs).
  Proof.
    assert (G : forall n p, normal p -> says (decl_rules_loop decl_p rule_p n) p (fun l b out => b = existsb item_mx (fst l) /\ out = flat_map item_out (fst l) ++ opt_cursor (snd l))).
    { induction n as [| n IH]; intros p N; [intros r q E; discriminate |]. cbn [decl_rules_loop].
      intros r q E. destruct (p_at_end p); [revert r q E; apply says_end; auto |]. revert r q E. apply says_or_peek; intro Pk.
      - eapply says_weaken; [exact (close_says _ p N) |]. intros a b out (c & -> & -> & ->). auto.
      - apply says_or_peek; intro Pk2.
        + apply (says_bind _ _ _ _ p _ _ N (faithful_says _ _ _ _ _ HR N)). intros x b out p2 _ N2 (-> & ->). apply says_pmap; [exact N2 |].
          eapply says_weaken; [exact (IH p2 N2) |]. intros l b out (-> & ->). cbn. now rewrite <- app_assoc.
        + apply says_or_peek; intro Pk3.
          * apply (says_bind _ _ _ _ p _ _ N (faithful_says _ _ _ _ _ HD N)). intros x b out p2 _ N2 (-> & ->).
            apply (says_bind _ _ _ _ p2 _ _ N2 (says_if_kind K_Semicolon p2 ltac:(discriminate) N2)). intros s b out p3 _ N3 (-> & -> & _). apply says_pmap; [exact N3 |].
            eapply says_weaken; [exact (IH p3 N3) |]. intros l b out (-> & ->). cbn. now rewrite <- !app_assoc.
          * intros r q E. destruct (peek_n p 1) as [c |]; [| discriminate]. injection E as <- <-. destruct N as [_ (cs & A)]. exact (moved_refl p cs A). }
    apply says_faithful. intros p N. unfold declaration_rule_list_t.
    apply (says_bind _ _ _ _ p (fun c b out => b = false /\ out = [c] /\ kind_of c = K_LeftCurly)); [exact N | exact (says_kind K_LeftCurly p ltac:(discriminate) N) |]. intros o b out p1 _ N1 (-> & -> & _).
    intros r q E. unfold pmap, bind in E. destruct (decl_rules_loop decl_p rule_p (sfuel p1) p1) as [[[l | e] q1] |] eqn:E1; [| | discriminate]; injection E as <- <-; pose proof (G _ p1 N1 _ _ E1) as H; cbn beta iota in H.
    2:{ exact H. }
    destruct H as (b & out & (cs & rest & A1 & A2 & S & Em) & -> & ->). eexists _, _. split; [| split; reflexivity]. exists cs, rest. split; [exact A1 |]. split; [exact A2 |]. split; [exact S |].
    cbn [fst snd ret orb app]. unfold pile_mx. rewrite <- items_mx. destruct (both (item_decls (fst l)) (item_rules (fst l))) eqn:B; cbn [orb].
    - apply (emits_perm _ _ _ _ Em). rewrite app_assoc. apply Permutation_app_tail, items_perm.
    - rewrite app_assoc, <- (items_same _ B). exact Em.
  Qed.
  Theorem sheet_faithful : faithful (sheet_t rule_p) (flat_map em_r) (existsb mx_r).
  Proof.
    assert (G : forall n p, normal p -> says (sheet_loop rule_p n) p (exactly (flat_map em_r) (existsb mx_r))).
    { induction n as [| n IH]; intros p N; [intros r q E; discriminate |]. cbn [sheet_loop].
      apply (says_bind _ _ _ _ p _ _ N (says_drop_whitespace p N)). intros w b out p1 _ N1 (-> & ->). cbn [orb app]. destruct w; [exact (IH p1 N1) |].
      apply (says_bind _ _ _ _ p1 _ _ N1 (says_drop_kind K_CdcOrCdo p1 ltac:(discriminate) ltac:(cbn; tauto) N1)). intros w b out p2 _ N2 (-> & ->). cbn [orb app]. destruct w; [exact (IH p2 N2) |].
      intros r q E. destruct (p_at_end p2); [revert r q E; apply says_end; [exact N2 | split; reflexivity] |]. destruct (peek_next p2) as [c |]; [| discriminate].
      destruct (tok_is (ctok c) K_Eof); [revert r q E; apply says_end; [exact N2 | split; reflexivity] |]. revert r q E.
      apply (says_bind _ _ _ _ p2 _ _ N2 (faithful_says _ _ _ _ _ HR N2)). intros x b out p3 _ N3 (-> & ->). apply says_pmap; [exact N3 |]. eapply says_weaken; [exact (IH p3 N3) |]. intros l b out (-> & ->). split; reflexivity. }
    apply says_faithful. intros p N. exact (G (sfuel p) p N).
  Qed.
  Theorem prelude_list_faithful : forall stop, faithful (prelude_list_t stop rule_p) (flat_map em_r) (existsb mx_r).
  Proof.
    intro stop. assert (G : forall n p, normal p -> says (prelude_loop stop rule_p n) p (exactly (flat_map em_r) (existsb mx_r))).
    { induction n as [| n IH]; intros p N; [intros r q E; discriminate |]. cbn [prelude_loop]. apply (says_bind _ _ _ _ p _ _ N (faithful_says _ _ _ _ _ HR N)). intros x b out p1 _ N1 (-> & ->).
      intros r q E. destruct (peek_next p1) as [c |]; [| discriminate]. destruct (tok_in (ctok c) stop); revert r q E.
      - apply says_end; [exact N1 |]. split; cbn; now rewrite ?orb_false_r, ?app_nil_r.
      - apply says_pmap; [exact N1 |]. eapply says_weaken; [exact (IH p1 N1) |]. intros l b out (-> & ->). split; reflexivity. }
    apply says_faithful. intros p N. exact (G (sfuel p) p N).
  Qed.
  Theorem comma_list_faithful : forall stop, faithful (comma_list_t stop decl_p) decls_out decls_mx.
  Proof.
    intro stop. assert (G : forall n p, normal p -> says (comma_loop stop decl_p n) p (exactly decls_out decls_mx)).
    { induction n as [| n IH]; intros p N; [intros r q E; discriminate |]. cbn [comma_loop]. apply (says_bind _ _ _ _ p _ _ N (faithful_says _ _ _ _ _ HD N)). intros x b out p1 _ N1 (-> & ->).
      apply (says_bind _ _ _ _ p1 _ _ N1 (says_if_kind K_Comma p1 ltac:(discriminate) N1)). intros s b out p2 _ N2 (-> & -> & _).
      intros r q E. destruct (peek_next p2) as [c |]; [| discriminate]. destruct (tok_in (ctok c) stop); revert r q E.
      - apply says_end; [exact N2 |]. split; cbn; now rewrite ?orb_false_r, ?app_nil_r.
      - apply says_pmap; [exact N2 |]. eapply says_weaken; [exact (IH p2 N2) |]. intros l b out (-> & ->). split; cbn; [reflexivity | now rewrite <- app_assoc]. }
    apply says_faithful. intros p N. exact (G (sfuel p) p N).
  Qed.
End Block.
