(* Consequences stated on reached parsers, and the failures of the checkpoint counters. *)
From Coq Require Import ZifyBool ZifyNat ZifyN.
From Verif Require Import Parser SpecLex SpecTrace SpecParser LexBase TokenProofs KindProofs LexFacts LexTrace LexKinds ParserProofs ParserProofs2 ParserProofs3.
Open Scope N_scope.
Open Scope list_scope.
Ltac Zify.zify_post_hook ::= Z.div_mod_to_equations.

Section Reached.
  Context (src : text) (f : feature) (W : well_behaved (single_line_comments f) src) (p : parser) (R : reached_parser src f p).
  Lemma reached_ahead : exists cs, ahead (plex p) cs.
  Proof. destruct (reached_stream src f p W R) as (all & don & cs & _ & _ & A & _). now exists cs. Qed.

  Lemma peek_next_predicts : exists c q, peek_next p = Some c /\ next p = Some (c, q).
  Proof.
    destruct reached_ahead as (cs & A). destruct (skip_split (pskip p) cs) as (sk & rest & E & F & St). subst cs.
    destruct (next_spec p sk rest A F St) as (q & N & _). exists (hd_or_eof (plex p) rest), q. split; [now apply (peek_next_spec p sk) | exact N].
  Qed.
  Lemma next_step : exists c q skipped rest, next p = Some (c, q) /\ ptrivia q = ptrivia p ++ skipped /\ Forall (in_kinds (pskip p)) skipped /\ same_settings p q /\
    ahead (plex q) rest /\
    ((ahead (plex p) (skipped ++ c :: rest) /\ ~ in_kinds (pskip p) c /\ tkind (ctok c) <> K_Eof) \/ (ahead (plex p) skipped /\ rest = [] /\ c = eof_cursor p)).
  Proof.
    destruct reached_ahead as (cs & A). destruct (next_total p cs A) as (c & q & sk & rest & N & E & F & St & Eh & T & A' & S).
    exists c, q, sk, (tl rest). split; [exact N |]. split; [exact T |]. split; [exact F |]. split; [exact S |]. split; [exact A' |]. subst cs.
    destruct rest as [| c0 rest]; cbn in Eh; subst c.
    - right. rewrite app_nil_r in A. auto.
    - left. split; [exact A |]. split; [exact St |]. apply (ahead_kind _ _ A). apply in_or_app. right. now left.
  Qed.
  Lemma nexts_total : forall n, exists c, nexts (S n) p c.
  Proof.
    destruct reached_ahead as (cs & A). clear R. revert p cs A. intros p0 cs A n. revert p0 cs A.
    induction n as [| n IH]; intros p0 cs A; destruct (next_total p0 cs A) as (c & q & sk & rest & N & _ & _ & _ & _ & _ & A' & _).
    - exists c. now apply (nx_one p0 c q).
    - destruct (IH q _ A') as (d & H). exists d. now apply (nx_more n p0 c q).
  Qed.
  Lemma peek_n_predicts : forall n c, nexts n p c -> peek_n p (N.of_nat n) = Some c.
  Proof.
    intros n c H. destruct reached_ahead as (cs & A). assert (1 <= N.of_nat n) by (destruct H; lia).
    rewrite (peek_n_spec p cs _ A) by assumption. rewrite (nexts_spec _ _ _ H cs A). now rewrite Nnat.Nat2N.id.
  Qed.
  Lemma stop_predicts : forall c q, kindset_contains (pskip p) K_Eof = false -> next p = Some (c, q) -> next_is_stop p = Some (kindset_contains (pstop p) (tkind (ctok c))).
  Proof.
    intros c q Z N. destruct reached_ahead as (cs & A). destruct (skip_split (pskip p) cs) as (sk & rest & E & F & St). subst cs.
    destruct (next_spec p sk rest A F St) as (q' & N' & _). rewrite N in N'. injection N' as -> <-. now apply (next_is_stop_spec p sk).
  Qed.
  Lemma trivia_then_next : exists q c r r', consume_trivia p = Some q /\ next p = Some (c, r) /\ next q = Some (c, r') /\ ptrivia r' = ptrivia r /\ ptrivia q = ptrivia r.
  Proof.
    destruct reached_ahead as (cs & A). destruct (skip_split (pskip p) cs) as (sk & rest & E & F & St). subst cs.
    destruct (next_spec p sk rest A F St) as (r & N & T & _). destruct (consume_trivia_spec p sk rest A F St) as (q & C & T' & A' & S).
    destruct S as (S1 & S2 & S3 & S4 & S5 & S6). rewrite <- S3 in St.
    destruct (next_spec q [] rest A' (Forall_nil _) St) as (r' & N' & T'' & _).
    exists q, (hd_or_eof (plex p) rest), r, r'. split; [exact C |]. split; [exact N |]. split.
    - rewrite N'. f_equal. f_equal. unfold hd_or_eof. now rewrite S5.
    - rewrite app_nil_r in T''. split; congruence.
  Qed.
  Lemma ws_peek : forall s, (forall k, kindset_contains s k = kindset_contains (pskip p) k && negb (kind_eqb k K_Whitespace)) -> peek_next_including_whitespace p = peek_next (set_skip p s).
  Proof.
    intros s H. destruct reached_ahead as (cs & A). destruct (skip_split s cs) as (sk & rest & E & F & St). subst cs.
    assert (EQ : forall c, in_kinds s c <-> ws_in (pskip p) c).
    { intro c. unfold in_kinds, ws_in, in_kinds. rewrite H, andb_true_iff, negb_true_iff. unfold kind_eqb. split; intros [B1 B2]; (split; [exact B1 |]).
      - intro Q. rewrite Q in B2. discriminate.
      - destruct (_ =? _) eqn:Q; [| reflexivity]. exfalso. apply B2. destruct (tkind (ctok c)); (discriminate Q || reflexivity). }
    unfold peek_next_including_whitespace. rewrite (peek_ws_loop_spec sk _ _ _ rest A).
    - symmetry. apply (peek_next_spec (set_skip p s) sk rest A F St).
    - eapply Forall_impl; [| exact F]. intros c Hc. now apply EQ.
    - destruct rest as [| c rest]; [exact I |]. intro Q. apply St. now apply EQ.
    - now apply pfuel_enough.
  Qed.
End Reached.

Lemma history_from_start : forall src f os outs q, well_behaved (single_line_comments f) src -> exec_all (parser_new src f) os outs q -> exists consumed rest,
  lex src f = Some (consumed ++ rest) /\ ahead (plex q) rest /\ merged (filter (fun c => negb (is_eof c)) outs) (ptrivia q) consumed.
Proof.
  intros src f os outs q W H. destruct (fresh_ahead src f W) as (all & A & E).
  destruct (history_spec _ _ _ _ H all A) as (c & r & n & E1 & A1 & T & M & _). exists c, r. cbn in T. subst n. rewrite E, E1. auto.
Qed.
Lemma history_from_start_fixed : forall src f os outs q, well_behaved (single_line_comments f) src -> exec_all (parser_new src f) os outs q -> no_set_skip os -> exists consumed rest,
  lex src f = Some (consumed ++ rest) /\ ahead (plex q) rest /\
  ptrivia q = filter (fun c => kindset_contains KS_TRIVIA (tkind (ctok c))) consumed /\
  filter (fun c => negb (is_eof c)) outs = filter (fun c => negb (kindset_contains KS_TRIVIA (tkind (ctok c)))) consumed.
Proof.
  intros src f os outs q W H NS. destruct (fresh_ahead src f W) as (all & A & E).
  destruct (history_fixed_skip _ _ _ _ H NS all A) as (c & r & E1 & A1 & T & M). exists c, r. rewrite E, E1. auto.
Qed.
Lemma exec_all_exists : forall src f os p, well_behaved (single_line_comments f) src -> reached_parser src f p -> exists outs q, exec_all p os outs q.
Proof.
  intros src f os p W R. destruct (reached_ahead src f W p R) as (cs & A). clear R. revert p cs A. induction os as [| o os IH]; intros p cs A; [exists [], p; constructor |].
  assert (E : exists outs q, exec p o = Some (outs, q)).
  { destruct o; cbn [exec]; eauto.
    - destruct (next_total p cs A) as (c & q & sk & rest & N & _). rewrite N. eauto.
    - destruct (trivia_total p cs A) as (q & sk & rest & N & _). rewrite N. eauto. }
  destruct E as (outs & q & E). destruct (exec_spec _ _ _ _ _ E A) as (c1 & r1 & n1 & _ & A1 & _). destruct (IH q r1 A1) as (outs' & r & H). exists (outs ++ outs'), r. econstructor; eauto.
Qed.

(* ---- sources with fewer than 65536 tokens ---- *)
Definition accounted (all : list cursor) (p : parser) : Prop := exists don cs used, all = don ++ cs /\ ahead (plex p) cs /\ merged used (ptrivia p) don.
Lemma merged_len : forall A (a b c : list A), merged a b c -> (length b <= length c)%nat.
Proof. intros A a b c H. induction H; cbn; lia. Qed.
Lemma accounted_small : forall all p, N.of_nat (length all) < 65536 -> accounted all p -> few_errors p -> small p.
Proof.
  intros all p L (don & cs & used & E & _ & M) F. split; [exact F |]. pose proof (merged_len _ _ _ _ M). rewrite E, app_length in L. lia.
Qed.
Lemma accounted_steps : forall all, N.of_nat (length all) < 65536 -> forall p q, steps few_errors p q -> accounted all p -> accounted all q /\ steps small p q.
Proof.
  intros all L p q H. induction H as [p | p q c r H IH E | p q r H IH E | p q s H IH | p q s H IH | p q s H IH | p q e H IH | p q r H1 IH1 H2 IH2 O]; intro S.
  - split; [exact S | constructor].
  - destruct (IH S) as ((don & cs & used & Ea & A & M) & St). split; [| eapply st_next; eauto].
    destruct (next_total q cs A) as (c' & q' & sk & rest & N & Ec & F & Sp & _ & T & A' & Ss). rewrite E in N. injection N as <- <-. subst cs.
    destruct rest as [| c0 rest]; cbn [tl] in A'.
    + exists (don ++ sk), [], (used ++ []). rewrite app_nil_r in Ea. split; [now rewrite app_nil_r |]. split; [exact A' |]. rewrite T. apply merged_app; [exact M | apply merged_right].
    + exists (don ++ sk ++ [c0]), rest, (used ++ [c0]). rewrite <- !app_assoc. split; [exact Ea |]. split; [exact A' |]. rewrite T. apply merged_app; [exact M | apply merged_one].
  - destruct (IH S) as ((don & cs & used & Ea & A & M) & St). split; [| eapply st_trivia; eauto].
    destruct (trivia_total q cs A) as (q' & sk & rest & N & Ec & F & Sp & T & A' & Ss). rewrite E in N. injection N as <-. subst cs.
    exists (don ++ sk), rest, (used ++ []). rewrite <- app_assoc. split; [exact Ea |]. split; [exact A' |]. rewrite T. apply merged_app; [exact M | apply merged_right].
  - destruct (IH S) as (A & St). split; [exact A | now apply st_state].
  - destruct (IH S) as (A & St). split; [exact A | now apply st_skip].
  - destruct (IH S) as (A & St). split; [exact A | now apply st_stop].
  - destruct (IH S) as (A & St). split; [exact A | now apply st_error].
  - destruct (IH1 S) as (A1 & S1). destruct (IH2 A1) as (A2 & S2). pose proof (accounted_small all q L A1 O) as Sm. split; [| apply st_rewind; auto].
    rewrite (rewind_restores_parser q r S2 Sm). exact A1.
Qed.
Lemma short_source_rewind : forall src f all p q, well_behaved (single_line_comments f) src -> lex src f = Some all -> N.of_nat (length all) < 65536 ->
  steps few_errors (parser_new src f) p -> few_errors p -> steps few_errors p q ->
  rewind q (checkpoint p) = Parser (plex p) (perrs p) (ptrivia p) (pstate q) (pskip q) (pstop q).
Proof.
  intros src f all p q W E L R Fp S. assert (A0 : accounted all (parser_new src f)) by (exists [], all, []; repeat split; [now apply lex_ahead | constructor]).
  destruct (accounted_steps all L _ _ R A0) as (Ap & _). destruct (accounted_steps all L _ _ S Ap) as (Aq & Sq).
  apply rewind_restores_parser; [exact Sq |]. now apply (accounted_small all).
Qed.

(* ---- which parse functions only take steps and push no error ---- *)
Definition stepping {A} (m : P A) : Prop := forall p r q, few_errors p -> m p = Some (r, q) -> steps few_errors p q /\ perrs q = perrs p.
Lemma next_errs : forall p c q, next p = Some (c, q) -> perrs q = perrs p.
Proof. intros p c q E. unfold next in E. destruct (next_loop _ _ _ _) as [[[c' x] t] |]; [| discriminate]. now injection E as <- <-. Qed.
Lemma stepping_single : forall A k (b : cursor -> A), stepping (parse_single k b).
Proof.
  intros A k b p r q Fe E. unfold parse_single in E. destruct (peek k p) as [bo |]; [| discriminate]. destruct (next p) as [[c p'] |] eqn:N; [| discriminate].
  destruct bo; injection E as <- <-; (split; [eapply st_next; [apply st_refl | exact N] | exact (next_errs _ _ _ N)]).
Qed.
Lemma few_eq : forall p q, perrs q = perrs p -> few_errors p -> few_errors q.
Proof. intros p q E H. unfold few_errors. now rewrite E. Qed.
Lemma stepping_bind : forall A B (m : P A) (k : A -> P B), stepping m -> (forall a, stepping (k a)) -> stepping (bind m k).
Proof.
  intros A B m k Hm Hk p r q Fe E. unfold bind in E. destruct (m p) as [[[a | e] p'] |] eqn:M; [| | discriminate].
  - destruct (Hm _ _ _ Fe M) as [S1 E1]. destruct (Hk _ _ _ _ (few_eq _ _ E1 Fe) E) as [S2 E2]. split; [exact (steps_trans _ _ _ _ S1 S2) | congruence].
  - injection E as <- <-. exact (Hm _ _ _ Fe M).
Qed.
Lemma stepping_ret : forall A (a : A), stepping (ret a).
Proof. intros A a p r q Fe E. injection E as <- <-. split; [constructor | reflexivity]. Qed.
Lemma stepping_fail : forall A e, stepping (@fail A e).
Proof. intros A a p r q Fe E. injection E as <- <-. split; [constructor | reflexivity]. Qed.
Lemma stepping_pmap : forall A B (g : A -> B) m, stepping m -> stepping (pmap g m).
Proof. intros. apply stepping_bind; [assumption | intro; apply stepping_ret]. Qed.
Lemma stepping_try : forall A (m : P A), stepping m -> stepping (try_parse m).
Proof.
  intros A m H p r q Fe E. unfold try_parse in E. destruct (m p) as [[[a | e] p'] |] eqn:M; [| | discriminate]; injection E as <- <-; [exact (H _ _ _ Fe M) |].
  destruct (H _ _ _ Fe M) as [S E]. split; [apply st_rewind; [constructor | exact S | exact Fe] |]. cbn. unfold few_errors in Fe. rewrite E, N.mod_small by exact Fe.
  rewrite Nnat.Nat2N.id. apply firstn_all.
Qed.
Lemma stepping_if_peek : forall A k (m : P A), stepping m -> stepping (parse_if_peek k m).
Proof.
  intros A k m H p r q Fe E. unfold parse_if_peek in E. destruct (peek k p) as [[] |]; [| | discriminate]; [exact (stepping_pmap _ _ Some _ H _ _ _ Fe E) |].
  injection E as <- <-. split; [constructor | reflexivity].
Qed.
Lemma stepping_whitespace : stepping parse_whitespace.
Proof.
  intros p r q Fe E. unfold parse_whitespace in E. destruct (next (set_skip p KS_COMMENTS)) as [[c p'] |] eqn:N; [| discriminate].
  assert (S : steps few_errors p (set_skip p' (pskip p))).
  { apply st_skip. eapply steps_trans; [apply st_skip; apply st_refl |]. eapply st_next; [apply st_refl | exact N]. }
  pose proof (next_errs _ _ _ N). destruct (negb _); injection E as <- <-; split; auto.
Qed.
Lemma stepping_double : forall a b, stepping (parse_double a b).
Proof.
  intros a b. apply stepping_bind; [apply stepping_single |]. intro c. destruct (negb (tok_is_char (ctok c) a)); [apply stepping_fail |].
  intros p r q Fe E. destruct (parse_kind K_Delim (set_skip p KS_NONE)) as [[r' p'] |] eqn:M; [| discriminate].
  destruct (stepping_single _ _ _ (set_skip p KS_NONE) _ _ Fe M) as [S1 E1].
  assert (S : steps few_errors p (set_skip p' (pskip p))) by (apply st_skip; eapply steps_trans; [apply st_skip; apply st_refl | exact S1]).
  destruct r' as [d | e]; [destruct (negb (tok_is_char (ctok d) b)) |]; injection E as <- <-; split; auto.
Qed.
Lemma stepping_comparison : stepping parse_comparison.
Proof.
  intros p r q Fe E. unfold parse_comparison in E. destruct (peek_next p) as [c |]; [| discriminate].
  destruct (tchar (ctok c)) as [ch |]; [| injection E as <- <-; split; [constructor | reflexivity]].
  destruct (ch =? 61); [exact (stepping_pmap _ _ CmpEq _ (stepping_single _ _ _) _ _ _ Fe E) |].
  destruct (ch =? 62).
  { destruct (peek (peek_double 62 61) p) as [[] |]; [| | discriminate];
      [exact (stepping_pmap _ _ _ _ (stepping_double 62 61) _ _ _ Fe E) | exact (stepping_pmap _ _ CmpGt _ (stepping_single _ _ _) _ _ _ Fe E)]. }
  destruct (ch =? 60); [| injection E as <- <-; split; [constructor | reflexivity]].
  destruct (peek (peek_double 60 61) p) as [[] |]; [| | discriminate];
    [exact (stepping_pmap _ _ _ _ (stepping_double 60 61) _ _ _ Fe E) | exact (stepping_pmap _ _ CmpLt _ (stepping_single _ _ _) _ _ _ Fe E)].
Qed.

(* ---- a source of n comments ---- *)
Fixpoint comments (n : nat) : text := match n with O => [] | S m => [47; 42; 42; 47] ++ comments m end.
Definition comment_token : token := new_comment CS_Block 4.
Lemma scan_one_comment : forall f l, scan_token f (47 :: 42 :: 42 :: 47 :: l) = Some comment_token.
Proof. intros f l. reflexivity. Qed.
Lemma comments_ahead : forall n pre f t, exists cs, ahead (Lexer (pre ++ comments n) (blen pre) t f) cs /\ length cs = n /\ forall c, In c cs -> ctok c = comment_token.
Proof.
  induction n as [| n IH]; intros pre f t.
  - exists []. split; [constructor; cbn; now rewrite app_nil_r |]. split; [reflexivity | intros c []].
  - destruct (IH (pre ++ [47; 42; 42; 47]) f comment_token) as (cs & A & L & K).
    exists (Cursor (blen pre) comment_token :: cs). split.
    + change (Cursor (blen pre) comment_token) with (Cursor (loff (Lexer (pre ++ comments (S n)) (blen pre) t f)) comment_token).
      econstructor; [| discriminate | reflexivity | exact A].
      unfold lexer_advance. cbn [lsrc lfeat loff]. rewrite read_at. cbn [comments app]. rewrite scan_one_comment.
      rewrite <- app_assoc. cbn [app]. rewrite blen_app. reflexivity.
    + split; [cbn [length]; now rewrite L |]. intros c [E | H]; [now subst | auto].
Qed.
Lemma many_trivia : forall n, exists p, reached_parser (comments n) no_features p /\ length (ptrivia p) = n /\ perrs p = [].
Proof.
  intro n. destruct (comments_ahead n [] no_features T_default) as (cs & A & L & K). cbn [app] in A.
  destruct (trivia_total (parser_new (comments n) no_features) cs A) as (q & sk & rest & C & E & F & St & T & _ & S).
  exists q. split; [eapply st_trivia; [apply st_refl | exact C] |]. split; [| exact (proj1 S)].
  assert (rest = []). { destruct rest as [| c rest]; [reflexivity |]. exfalso. apply St. unfold in_kinds. rewrite (K c) by (rewrite E; apply in_or_app; right; now left). reflexivity. }
  subst rest. rewrite app_nil_r in E. subst sk. rewrite T. exact L.
Qed.
Lemma counter_wraps : exists src f p, reached_parser src f p /\ ptrivia (rewind p (checkpoint p)) = [] /\ length (ptrivia p) = N.to_nat 65536.
Proof.
  destruct (many_trivia (N.to_nat 65536)) as (p & R & L & E). exists (comments (N.to_nat 65536)), no_features, p. split; [exact R |]. split; [| exact L].
  unfold rewind, checkpoint. cbn [ptrivia cktrivia]. rewrite L, Nnat.N2Nat.id. reflexivity.
Qed.

(* next_is_stop never returns at the end of the input when Eof is in the skip set *)
Lemma next_is_stop_hangs : forall n s stop src f t, kindset_contains s K_Eof = true -> next_is_stop_loop n s stop (Lexer src (blen src) t f) = None.
Proof.
  induction n as [| n IH]; intros s stop src f t H; [reflexivity |]. cbn [next_is_stop_loop]. rewrite advance_eof by reflexivity.
  replace (tkind T_EOF) with K_Eof by reflexivity. rewrite H. cbn [negb]. apply (IH s stop src f T_EOF H).
Qed.

Lemma entirely_clean : forall A (m : P A) p r p1 cs ret q a, m p = Some (r, p1) -> ahead (plex p1) cs -> parse_entirely m p = Some (ret, q) ->
  routput ret = Some a -> rerrors ret = [] -> r = Ok a /\ Forall (in_kinds (pskip p1)) cs /\ perrs p1 = [].
Proof.
  intros A m p r p1 cs ret q a M Ah E O Z. destruct (entirely_spec A m p r p1 cs M Ah) as (q' & H1 & H2).
  assert (D : Forall (in_kinds (pskip p1)) cs \/ ~ Forall (in_kinds (pskip p1)) cs).
  { destruct (Forall_Exists_dec (in_kinds (pskip p1)) (fun c => Bool.bool_dec (kindset_contains (pskip p1) (tkind (ctok c))) true) cs) as [F | F]; [now left |].
    right. intro G. apply Exists_exists in F. destruct F as (z & Hz & Nz). rewrite Forall_forall in G. exact (Nz (G z Hz)). }
  destruct D as [D | D]; [rewrite (H1 D) in E | rewrite (H2 D) in E]; injection E as <- <-; cbn [routput rerrors] in *.
  - destruct r as [a' | e]; [| discriminate]. injection O as <-. rewrite app_nil_r in Z. auto.
  - apply app_eq_nil in Z. destruct Z as [_ Z]. discriminate.
Qed.
Lemma entirely_drops_trailing : exists (m : P cursor) p r p1 c q ret, m p = Some (r, p1) /\ ahead (plex p1) [c] /\ parse_entirely m p = Some (ret, q) /\ ~ In c (rtrivia ret).
Proof.
  exists (parse_kind K_Ident), (parser_new [97; 32] no_features). eexists _, _, (Cursor 1 (new_whitespace 1 1)), _, _.
  split; [vm_compute; reflexivity |]. split.
  - eapply (ah_cons (Lexer [97; 32] 1 _ no_features)); [vm_compute; reflexivity | discriminate | reflexivity |]. apply ah_end. reflexivity.
  - split; [vm_compute; reflexivity |]. intros [].
Qed.
