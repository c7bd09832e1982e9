(* Histories of parser operations: where the parser stands, what it consumed, what a rewind restores. *)
From Coq Require Import ZifyBool ZifyNat ZifyN.
From Verif Require Import Parser SpecLex SpecTrace SpecParser LexBase TokenProofs KindProofs LexFacts LexTrace ParserProofs.
Open Scope N_scope.
Open Scope list_scope.
Ltac Zify.zify_post_hook ::= Z.div_mod_to_equations.

Lemma ahead_lex_all : forall x cs, ahead x cs -> forall n, (length cs < n)%nat -> lex_all n x = Some cs.
Proof.
  intros x cs H. induction H as [x E | x t y cs A K L H IH]; intros n Ln; (destruct n as [| n]; [cbn in Ln; lia |]); cbn [lex_all].
  - rewrite advance_eof by assumption. reflexivity.
  - rewrite A, (kind_eof_bits _ K). rewrite IH; [reflexivity |]. cbn [length] in Ln. lia.
Qed.
Lemma ahead_lex : forall src f cs, ahead (lexer_new src f) cs -> lex src f = Some cs.
Proof. intros src f cs H. apply ahead_lex_all; [exact H |]. pose proof (ahead_fuel _ _ H). cbn in H0. lia. Qed.
Lemma fresh_ahead : forall src f, well_behaved (single_line_comments f) src -> exists cs, ahead (lexer_new src f) cs /\ lex src f = Some cs.
Proof.
  intros src f W. destruct (ahead_exists (S (length src)) [] src f (lexer_new src f)) as (cs & H); [lia | repeat split | exact W |].
  exists cs. split; [exact H | now apply ahead_lex].
Qed.
Lemma lex_ahead : forall src f cs, well_behaved (single_line_comments f) src -> lex src f = Some cs -> ahead (lexer_new src f) cs.
Proof. intros src f cs W E. destruct (fresh_ahead src f W) as (cs' & A & E'). rewrite E in E'. inversion E'; now subst. Qed.

Definition same_source (p q : parser) : Prop := lsrc (plex q) = lsrc (plex p) /\ lfeat (plex q) = lfeat (plex p).
Definition on_stream (all : list cursor) (p : parser) : Prop := exists don cs, all = don ++ cs /\ ahead (plex p) cs.

Lemma next_total : forall p cs, ahead (plex p) cs -> exists c q sk rest, next p = Some (c, q) /\ cs = sk ++ rest /\ Forall (in_kinds (pskip p)) sk /\ stops_skip (pskip p) rest /\
  c = hd_or_eof (plex p) rest /\ ptrivia q = ptrivia p ++ sk /\ ahead (plex q) (tl rest) /\ same_settings p q.
Proof.
  intros p cs A. destruct (skip_split (pskip p) cs) as (sk & rest & E & F & St). subst cs.
  destruct (next_spec p sk rest A F St) as (q & N & T & A' & S). exists (hd_or_eof (plex p) rest), q, sk, rest. auto 10.
Qed.
Lemma trivia_total : forall p cs, ahead (plex p) cs -> exists q sk rest, consume_trivia p = Some q /\ cs = sk ++ rest /\ Forall (in_kinds (pskip p)) sk /\ stops_skip (pskip p) rest /\
  ptrivia q = ptrivia p ++ sk /\ ahead (plex q) rest /\ same_settings p q.
Proof.
  intros p cs A. destruct (skip_split (pskip p) cs) as (sk & rest & E & F & St). subst cs.
  destruct (consume_trivia_spec p sk rest A F St) as (q & N & T & A' & S). exists q, sk, rest. auto 10.
Qed.
Lemma steps_stream : forall ok all p q, steps ok p q -> on_stream all p -> on_stream all q /\ same_source p q.
Proof.
  intros ok all p q H. induction H as [p | p q c r H IH E | p q r H IH E | p q s H IH | p q s H IH | p q s H IH | p q e H IH | p q r H1 IH1 H2 IH2 O]; intro S.
  - split; [exact S | split; reflexivity].
  - destruct (IH S) as ((don & cs & Ea & A) & S1 & S2). destruct (next_total q cs A) as (c' & q' & sk & rest & N & Ec & F & St & _ & T & A' & Ss).
    rewrite E in N. inversion N; subst c' q'. destruct Ss as (_ & _ & _ & _ & G1 & G2). split; [| split; congruence]. subst cs.
    destruct rest as [| c0 rest]; cbn [tl] in A'.
    + exists (don ++ sk), []. split; [now rewrite Ea, !app_nil_r | exact A'].
    + exists (don ++ sk ++ [c0]), rest. split; [| exact A']. rewrite Ea, <- !app_assoc. reflexivity.
  - destruct (IH S) as ((don & cs & Ea & A) & S1 & S2). destruct (trivia_total q cs A) as (q' & sk & rest & N & Ec & F & St & T & A' & Ss).
    rewrite E in N. inversion N; subst q'. destruct Ss as (_ & _ & _ & _ & G1 & G2). split; [| split; congruence]. subst cs.
    exists (don ++ sk), rest. split; [now rewrite <- app_assoc | exact A'].
  - exact (IH S).
  - exact (IH S).
  - exact (IH S).
  - exact (IH S).
  - destruct (IH1 S) as (SQ & Q1 & Q2). destruct (IH2 SQ) as (SR & R1 & R2). split; [| split; cbn; congruence].
    destruct SQ as (don & cs & Ea & A). exists don, cs. split; [exact Ea |]. unfold rewind, lexer_rewind, lexer_checkpoint. cbn. rewrite R1, R2. now destruct (plex q).
Qed.
Lemma reached_stream : forall src f p, well_behaved (single_line_comments f) src -> reached_parser src f p ->
  exists all don cs, lex src f = Some all /\ all = don ++ cs /\ ahead (plex p) cs /\ lsrc (plex p) = src /\ lfeat (plex p) = f.
Proof.
  intros src f p W R. destruct (fresh_ahead src f W) as (all & A & E).
  destruct (steps_stream _ all _ _ R) as ((don & cs & Ea & A') & S1 & S2); [exists [], all; auto |].
  exists all, don, cs. auto 10.
Qed.

(* ---- rewinding ---- *)
Definition grows (p q : parser) : Prop := same_source p q /\ (exists e, perrs q = perrs p ++ e) /\ (exists t, ptrivia q = ptrivia p ++ t).
Lemma next_loop_grows : forall n s x tr c y tr', next_loop n s x tr = Some (c, y, tr') -> (exists t, tr' = tr ++ t) /\ lsrc y = lsrc x /\ lfeat y = lfeat x.
Proof.
  induction n as [| n IH]; intros s x tr c y tr' H; [discriminate |]. cbn [next_loop] in H. destruct (lexer_advance x) as [[t z] |] eqn:A; [| discriminate].
  destruct (advance_fields _ _ _ A) as (E1 & E2 & _).
  destruct (_ || _).
  - inversion H; subst. split; [exists []; now rewrite app_nil_r | auto].
  - destruct (IH _ _ _ _ _ _ H) as ((t' & Et) & F1 & F2). split; [| split; congruence]. eexists. rewrite Et, <- app_assoc. reflexivity.
Qed.
Lemma trivia_loop_grows : forall n s x tr y tr', consume_trivia_loop n s x tr = Some (y, tr') -> (exists t, tr' = tr ++ t) /\ lsrc y = lsrc x /\ lfeat y = lfeat x.
Proof.
  induction n as [| n IH]; intros s x tr y tr' H; [discriminate |]. cbn [consume_trivia_loop] in H. destruct (lexer_advance x) as [[t z] |] eqn:A; [| discriminate].
  destruct (advance_fields _ _ _ A) as (E1 & E2 & _).
  destruct (tok_is t K_Eof); [inversion H; subst; split; [exists []; now rewrite app_nil_r | auto] |].
  destruct (tok_in t s).
  - destruct (IH _ _ _ _ _ H) as ((t' & Et) & F1 & F2). split; [| split; congruence]. eexists. rewrite Et, <- app_assoc. reflexivity.
  - inversion H; subst. cbn. split; [exists []; now rewrite app_nil_r | auto].
Qed.
Lemma small_counts : forall q, small q -> N.to_nat (ckerrs (checkpoint q)) = length (perrs q) /\ N.to_nat (cktrivia (checkpoint q)) = length (ptrivia q).
Proof. intros q [A B]. unfold checkpoint. cbn [ckerrs cktrivia]. rewrite !N.mod_small by assumption. rewrite !Nnat.Nat2N.id. auto. Qed.
Lemma rewind_grown : forall p q, grows p q -> small p -> rewind q (checkpoint p) = Parser (plex p) (perrs p) (ptrivia p) (pstate q) (pskip q) (pstop q).
Proof.
  intros p q ((S1 & S2) & (e & Ee) & (t & Et)) Sm. destruct (small_counts p Sm) as [A B]. unfold rewind. rewrite A, B, Ee, Et, !firstn_app, !Nat.sub_diag, !firstn_all. cbn [firstn].
  rewrite !app_nil_r. f_equal. unfold lexer_rewind, lexer_checkpoint. cbn. rewrite S1, S2. now destruct (plex p).
Qed.
Lemma grows_trans : forall p q r, grows p q -> grows q r -> grows p r.
Proof.
  intros p q r ((A1 & A2) & (e & Ee) & (t & Et)) ((B1 & B2) & (e' & Ee') & (t' & Et')). split; [split; congruence |]. split; [exists (e ++ e') | exists (t ++ t')].
  - now rewrite Ee', Ee, app_assoc.
  - now rewrite Et', Et, app_assoc.
Qed.
Lemma steps_grow : forall p q, steps small p q -> grows p q.
Proof.
  intros p q H. induction H as [p | p q c r H IH E | p q r H IH E | p q s H IH | p q s H IH | p q s H IH | p q e H IH | p q r H1 IH1 H2 IH2 O].
  - repeat split; exists []; now rewrite app_nil_r.
  - refine (grows_trans _ _ _ IH _). unfold next in E. destruct (next_loop _ _ _ _) as [[[c0 y] tr] |] eqn:L; [| discriminate]. inversion E; subst.
    destruct (next_loop_grows _ _ _ _ _ _ _ L) as (T & F1 & F2). repeat split; cbn; auto. exists []. now rewrite app_nil_r.
  - refine (grows_trans _ _ _ IH _). unfold consume_trivia in E. destruct (consume_trivia_loop _ _ _ _) as [[y tr] |] eqn:L; [| discriminate]. inversion E; subst.
    destruct (trivia_loop_grows _ _ _ _ _ _ L) as (T & F1 & F2). repeat split; cbn; auto. exists []. now rewrite app_nil_r.
  - exact IH.
  - exact IH.
  - exact IH.
  - refine (grows_trans _ _ _ IH _). repeat split; cbn; [exists [e]; reflexivity | exists []; now rewrite app_nil_r].
  - rewrite (rewind_grown q r IH2 O). destruct IH1 as ((A1 & A2) & B & C). repeat split; cbn; auto.
Qed.
Theorem rewind_restores_parser : forall p q, steps small p q -> small p ->
  rewind q (checkpoint p) = Parser (plex p) (perrs p) (ptrivia p) (pstate q) (pskip q) (pstop q).
Proof. intros p q H S. apply rewind_grown; [now apply steps_grow | exact S]. Qed.
Lemma steps_trans : forall ok p q r, steps ok p q -> steps ok q r -> steps ok p r.
Proof.
  intros ok p q r H1 H2. induction H2.
  - exact H1.
  - eapply st_next; [apply IHsteps; exact H1 | exact H].
  - eapply st_trivia; [apply IHsteps; exact H1 | exact H].
  - apply st_state. auto.
  - apply st_skip. auto.
  - apply st_stop. auto.
  - apply st_error. auto.
  - apply st_rewind; auto.
Qed.
Lemma try_parse_transparent : forall A (m : P A) p e q, small p -> (forall r q', m p = Some (r, q') -> steps small p q') -> try_parse m p = Some (Err e, q) ->
  plex q = plex p /\ perrs q = perrs p /\ ptrivia q = ptrivia p.
Proof.
  intros A m p e q S H E. unfold try_parse in E. destruct (m p) as [[[a | e'] p'] |] eqn:M; try discriminate. inversion E; subst.
  rewrite (rewind_restores_parser p p' (H _ _ eq_refl) S). auto.
Qed.
