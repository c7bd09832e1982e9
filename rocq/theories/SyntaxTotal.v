(* Component values: the parser always returns, and never moves backwards. *)
From Coq Require Import ZifyBool ZifyNat ZifyN.
From Verif Require Import Syntax SpecLex SpecTrace SpecParser SpecSyntax SpecToken LexBase TokenProofs KindProofs LexFacts LexTrace ParserProofs ParserProofs2 ParserProofs3 ParserProofs4 CompareProofs SyntaxProofs.
Open Scope N_scope.
Open Scope list_scope.
Ltac Zify.zify_post_hook ::= Z.div_mod_to_equations.

Definition okay {A} (m : P A) (p : parser) : Prop := exists r q, m p = Some (r, q) /\ moved 0 p q.

Lemma same_mode_refl : forall p, same_mode p p.
Proof. repeat split. Qed.
Lemma same_mode_trans : forall p q r, same_mode p q -> same_mode q r -> same_mode p r.
Proof. unfold same_mode. intros p q r H1 H2. intuition congruence. Qed.
Lemma same_settings_mode : forall p q, same_settings p q -> same_mode p q.
Proof. unfold same_settings, same_mode. tauto. Qed.
Lemma moved_refl : forall p cs, ahead (plex p) cs -> moved 0 p p.
Proof. intros p cs A. exists [], cs. repeat split; auto. Qed.
Lemma moved_trans : forall a b p q r, moved a p q -> moved b q r -> moved (a + b) p r.
Proof.
  intros a b p q r (u1 & r1 & A1 & A2 & L & S) (u2 & r2 & A3 & A4 & L' & S'). exists (u1 ++ u2), r2. rewrite (ahead_det _ _ A3 _ A2) in A1.
  rewrite app_length, <- app_assoc. repeat split; auto; try lia. all: now apply (same_mode_trans p q r).
Qed.
Lemma moved_trans0 : forall p q r, moved 0 p q -> moved 0 q r -> moved 0 p r.
Proof. intros. exact (moved_trans 0 0 p q r H H0). Qed.
Lemma moved_weaken : forall k p q, moved k p q -> moved 0 p q.
Proof. intros k p q (c1 & c2 & A1 & A2 & L & S). exists c1, c2. repeat split; auto; try lia; apply S. Qed.
Lemma moved_left : forall k p q, moved k p q -> exists cs, ahead (plex p) cs.
Proof. intros k p q (used & rest & A & _). eauto. Qed.
Lemma moved_right : forall k p q, moved k p q -> exists cs, ahead (plex q) cs.
Proof. intros k p q (_ & cs & _ & A & _). eauto. Qed.
Lemma moved_mode : forall k p q, moved k p q -> same_mode p q.
Proof. intros k p q (c1 & c2 & A1 & A2 & L & S). exact S. Qed.
Lemma moved_skips : forall k p q, moved k p q -> skips_comments p -> skips_comments q.
Proof. intros k p q M H. destruct (moved_mode _ _ _ M) as (_ & S & _). unfold skips_comments. now rewrite S. Qed.
Lemma moved_len : forall k p q cs, moved k p q -> ahead (plex p) cs -> exists cs', ahead (plex q) cs' /\ (length cs' + k <= length cs)%nat.
Proof. intros k p q cs (c1 & c2 & A1 & A2 & L & S) A. rewrite (ahead_det _ _ A1 _ A). exists c2. split; [exact A2 |]. rewrite app_length. lia. Qed.
Lemma merged_left_len : forall A (a b c : list A), merged a b c -> (length a <= length c)%nat.
Proof. intros A a b c M. induction M; cbn; lia. Qed.
Lemma moved_took : forall p q used, took p q used -> moved (length used) p q.
Proof.
  intros p q used (cs & new & rest & A & A' & _ & M & _ & S). exists cs, rest. repeat split; auto; try apply S. exact (merged_left_len _ _ _ _ M).
Qed.
Lemma moved_in_state : forall k p q s, moved k (set_state p s) q -> moved k p (set_state q (pstate p)).
Proof. intros k p q s (c1 & c2 & A1 & A2 & L & (S1 & S2 & S3 & S4 & S5)). exists c1, c2. repeat split; auto. Qed.
Lemma moved_in_stop : forall k p q s, moved k (set_stop p s) q -> moved k p (set_stop q (pstop p)).
Proof. intros k p q s (c1 & c2 & A1 & A2 & L & (S1 & S2 & S3 & S4 & S5)). exists c1, c2. repeat split; auto. Qed.
Lemma moved_in_skip : forall k p q s, moved k (set_skip p s) q -> moved k p (set_skip q (pskip p)).
Proof. intros k p q s (c1 & c2 & A1 & A2 & L & (S1 & S2 & S3 & S4 & S5)). exists c1, c2. repeat split; auto. Qed.
Lemma moved_next : forall p cs c q, ahead (plex p) cs -> next p = Some (c, q) -> moved 0 p q.
Proof.
  intros p cs c q A N. destruct (next_total p cs A) as (c' & q' & sk & rest & N' & E & F & St & H). rewrite N in N'. injection N' as <- <-. subst cs.
  destruct (next_spec p sk rest A F St) as (q'' & N'' & T & A' & S). rewrite N in N''. injection N'' as _ <-.
  destruct rest as [| d rest]; [exists sk, [] | exists (sk ++ [d]), rest; rewrite <- app_assoc]; (repeat split; auto; try apply S; lia).
Qed.

Lemma next_okay : forall p cs, ahead (plex p) cs -> exists c q, next p = Some (c, q) /\ moved 0 p q.
Proof. intros p cs A. destruct (next_total p cs A) as (c & q & _ & _ & N & _). exists c, q. split; [exact N | exact (moved_next p cs c q A N)]. Qed.
Lemma okay_ret : forall A (a : A) p cs, ahead (plex p) cs -> okay (ret a) p.
Proof. intros A a p cs H. exists (Ok a), p. split; [reflexivity | exact (moved_refl p cs H)]. Qed.
Lemma okay_fail : forall A e p cs, ahead (plex p) cs -> okay (@fail A e) p.
Proof. intros A a p cs H. eexists _, p. split; [reflexivity | exact (moved_refl p cs H)]. Qed.
Lemma okay_bind : forall A B (m : P A) (k : A -> P B) p, okay m p -> (forall a q, m p = Some (Ok a, q) -> moved 0 p q -> okay (k a) q) -> okay (bind m k) p.
Proof.
  intros A B m k p (r & q & E & M) H. unfold okay, bind. rewrite E. destruct r as [a | e].
  - destruct (H a q E M) as (r' & q' & E' & M'). exists r', q'. split; [exact E' | exact (moved_trans0 _ _ _ M M')].
  - exists (Err e), q. auto.
Qed.
Lemma okay_pmap : forall A B (g : A -> B) m p, okay m p -> okay (pmap g m) p.
Proof. intros A B g m p H. apply okay_bind; [exact H |]. intros a q _ M. destruct (moved_right _ _ _ M) as (cs & A'). exact (okay_ret _ _ q cs A'). Qed.
Lemma okay_or_peek : forall A k (m e : P A) p, peek k p <> None -> (peek k p = Some true -> okay m p) -> (peek k p = Some false -> okay e p) -> okay (or_peek k m e) p.
Proof. intros A k m e p N H1 H2. unfold okay, or_peek. destruct (peek k p) as [[] |]; [apply H1 | apply H2 | congruence]; reflexivity. Qed.
Lemma peek_kind_total : forall k p cs, ahead (plex p) cs -> peek (peek_kind k) p <> None.
Proof. intros k p cs A. destruct (peeked p cs A) as (c & _ & _ & _ & _ & _ & _ & _ & _ & Pk). destruct (Pk k) as (b & E & _). congruence. Qed.
Lemma peek_kindset_total : forall k p cs, ahead (plex p) cs -> peek (peek_kindset k) p <> None.
Proof. intros k p cs A. destruct (peeked p cs A) as (c & _ & _ & _ & _ & _ & _ & _ & Ps & _). rewrite Ps. discriminate. Qed.
Lemma ws_split : forall s cs, exists sk rest, cs = sk ++ rest /\ Forall (ws_in s) sk /\ match rest with [] => True | c :: _ => ~ ws_in s c end.
Proof.
  intros s cs. induction cs as [| c cs (sk & rest & E & F & St)]; [exists [], []; repeat constructor |].
  destruct (kindset_contains s (tkind (ctok c))) eqn:B.
  - destruct (kind_eq_dec (tkind (ctok c)) K_Whitespace) as [K | K].
    + exists [], (c :: cs). repeat split; [constructor |]. intros [_ H]. congruence.
    + exists (c :: sk), rest. rewrite E. repeat split; [constructor; [split; [exact B | exact K] | exact F] | exact St].
  - exists [], (c :: cs). repeat split; [constructor |]. intros [H _]. unfold in_kinds in H. congruence.
Qed.
Lemma peek_ws_next : forall p cs, ahead (plex p) cs -> exists sk rest, cs = sk ++ rest /\ Forall (ws_in (pskip p)) sk /\ match rest with [] => True | c :: _ => ~ ws_in (pskip p) c end /\
  peek_next_including_whitespace p = Some (hd_or_eof (plex p) rest) /\
  exists b, peek peek_whitespace p = Some b /\ (b = true <-> kind_of (hd_or_eof (plex p) rest) = K_Whitespace).
Proof.
  intros p cs A. destruct (ws_split (pskip p) cs) as (sk & rest & -> & F & St). exists sk, rest. do 3 (split; [auto |]).
  assert (E := peek_ws_loop_spec sk (pfuel p) (pskip p) (plex p) rest A F St (pfuel_enough p _ A)). split; [exact E |].
  destruct (peeked p _ A) as (c & _ & _ & _ & _ & _ & _ & Pn & _). unfold peek. rewrite Pn. unfold peek_whitespace, peek_next_including_whitespace. rewrite E.
  eexists. split; [reflexivity |]. unfold kind_of. destruct rest as [| d rest]; cbn [hd_or_eof ctok].
  - split; intro H; discriminate.
  - apply tok_is_kind, wf_of_kind, (ahead_kind _ _ A), in_or_app. right. now left.
Qed.
Lemma peek_whitespace_total : forall p cs, ahead (plex p) cs -> peek peek_whitespace p <> None.
Proof. intros p cs A. destruct (peek_ws_next p cs A) as (_ & _ & _ & _ & _ & _ & b & E & _). congruence. Qed.

Lemma okay_single : forall A k (b : cursor -> A) p cs, ahead (plex p) cs -> peek k p <> None -> okay (parse_single k b) p.
Proof.
  intros A k b p cs Ah N. unfold okay, parse_single. destruct (peek k p) as [bo |]; [| congruence]. destruct (next_okay p cs Ah) as (c & q & E & M). rewrite E.
  destruct bo; eexists _, q; (split; [reflexivity | exact M]).
Qed.
Lemma okay_kind : forall k p cs, ahead (plex p) cs -> okay (parse_kind k) p.
Proof. intros k p cs A. eapply okay_single; [exact A |]. exact (peek_kind_total k p cs A). Qed.
Lemma okay_whitespace : forall p cs, ahead (plex p) cs -> okay parse_whitespace p.
Proof.
  intros p cs A. unfold okay, parse_whitespace. destruct (next_okay (set_skip p KS_COMMENTS) cs A) as (c & q & E & M). rewrite E.
  apply moved_in_skip in M. destruct (negb _); eexists _, _; (split; [reflexivity | exact M]).
Qed.
Lemma okay_if_peek : forall A k (m : P A) p cs, ahead (plex p) cs -> peek k p <> None -> (peek k p = Some true -> okay m p) -> okay (parse_if_peek k m) p.
Proof.
  intros A k m p cs Ah N H. unfold okay, parse_if_peek. destruct (peek k p) as [[] |]; [apply okay_pmap; auto | | congruence].
  eexists _, p. split; [reflexivity | exact (moved_refl p cs Ah)].
Qed.
Lemma okay_if_kind : forall k p cs, ahead (plex p) cs -> okay (parse_if_peek (peek_kind k) (parse_kind k)) p.
Proof. intros k p cs A. apply (okay_if_peek _ _ _ p cs A); [exact (peek_kind_total k p cs A) |]. intros _. exact (okay_kind k p cs A). Qed.
Lemma okay_if_whitespace : forall p cs, ahead (plex p) cs -> okay (parse_if_peek peek_whitespace parse_whitespace) p.
Proof. intros p cs A. apply (okay_if_peek _ _ _ p cs A); [exact (peek_whitespace_total p cs A) |]. intros _. exact (okay_whitespace p cs A). Qed.
Lemma okay_opt : forall A (m : P A) p, okay m p -> okay (opt_ok m) p.
Proof. intros A m p (r & q & E & M). unfold okay, opt_ok. rewrite E. destruct r; eexists _, q; (split; [reflexivity | exact M]). Qed.
Lemma okay_in_state : forall A s (m : P A) p, okay m (set_state p s) -> okay (in_state s m) p.
Proof. intros A s m p (r & q & E & M). unfold okay, in_state. rewrite E. eexists _, _. split; [reflexivity | exact (moved_in_state _ _ _ _ M)]. Qed.
Lemma okay_in_stop : forall A s (m : P A) p, okay m (set_stop p s) -> okay (in_stop s m) p.
Proof. intros A s m p (r & q & E & M). unfold okay, in_stop. rewrite E. eexists _, _. split; [reflexivity | exact (moved_in_stop _ _ _ _ M)]. Qed.
Lemma okay_unexpected : forall A p cs, ahead (plex p) cs -> okay (@unexpected_next A) p.
Proof. intros A p cs Ah. unfold okay, unexpected_next. destruct (next_okay p cs Ah) as (c & q & E & M). rewrite E. eauto. Qed.
Lemma okay_cv_tokens : forall p cs, ahead (plex p) cs -> okay cv_tokens p.
Proof.
  intros p cs A. unfold cv_tokens. induction CV_KINDS as [| k ks IH]; cbn [fold_right]; [exact (okay_unexpected _ p cs A) |].
  apply okay_or_peek; [exact (peek_kind_total k p cs A) | intros _; apply okay_pmap; exact (okay_kind k p cs A) | auto].
Qed.

Lemma okay_block_with : forall vp p cs, ahead (plex p) cs -> skips_comments p ->
  (forall q cs', skips_comments q -> ahead (plex q) cs' -> (length cs' < length cs)%nat -> okay vp q) -> okay (block_with vp) p.
Proof.
  intros vp p cs A Sk H. unfold okay, block_with. apply okay_bind; [eapply okay_single; [exact A | exact (peek_kindset_total _ p cs A)] |].
  intros o p1 E1 M1. destruct (parse_kindset_inv _ _ _ _ _ pair_start_eof A E1) as (oc & -> & T1 & K1).
  destruct (moved_len _ _ _ cs (moved_took _ _ _ T1) A) as (cs1 & A1 & L1). cbn [length] in L1.
  apply okay_bind; [apply okay_in_stop; apply (H _ cs1); [exact (moved_skips _ _ _ M1 Sk) | exact A1 | lia] |].
  intros vs p2 E2 M2. destruct (moved_right _ _ _ M2) as (cs2 & A2). apply okay_or_peek; [exact (peek_kindset_total _ p2 cs2 A2) | |]; intros _.
  - apply okay_bind; [apply okay_opt; eapply okay_single; [exact A2 | exact (peek_kindset_total _ p2 cs2 A2)] |]. intros cl p3 E3 M3.
    destruct (moved_right _ _ _ M3) as (cs3 & A3). exact (okay_ret _ _ p3 cs3 A3).
  - exact (okay_ret _ _ p2 cs2 A2).
Qed.
Lemma okay_function_with : forall ap p cs, ahead (plex p) cs -> skips_comments p ->
  (forall q cs', skips_comments q -> ahead (plex q) cs' -> (length cs' < length cs)%nat -> okay ap q) -> okay (function_with ap) p.
Proof.
  intros ap p cs A Sk H. unfold okay, function_with. apply okay_bind; [exact (okay_kind K_Function p cs A) |].
  intros f p1 E1 M1. destruct (parse_kind_inv K_Function p cs f p1 ltac:(discriminate) A E1) as (T1 & K1).
  destruct (moved_len _ _ _ cs (moved_took _ _ _ T1) A) as (cs1 & A1 & L1). cbn [length] in L1.
  apply okay_bind; [apply (H _ cs1); [exact (moved_skips _ _ _ M1 Sk) | exact A1 | lia] |].
  intros vs p2 E2 M2. destruct (moved_right _ _ _ M2) as (cs2 & A2). apply okay_bind; [apply okay_opt; exact (okay_kind K_RightParen p2 cs2 A2) |].
  intros cl p3 E3 M3. destruct (moved_right _ _ _ M3) as (cs3 & A3). exact (okay_ret _ _ p3 cs3 A3).
Qed.
Definition needs {A} (m : P A) (k : nat) : Prop := forall p cs, skips_comments p -> ahead (plex p) cs -> (length cs <= k)%nat -> okay m p.
Lemma fuel_okay : forall n k, ((2 * k + 1 <= n)%nat -> needs (cv_fuel n) k) /\ ((2 * k + 2 <= n)%nat -> needs (values_fuel n) k /\ needs (args_fuel n) k).
Proof.
  induction n as [| n IH]; intro k; [split; intro H; lia |].
  assert (IHc : forall k', (2 * k' + 1 <= n)%nat -> needs (cv_fuel n) k') by (intros; now apply IH).
  assert (IHv : forall k', (2 * k' + 2 <= n)%nat -> needs (values_fuel n) k' /\ needs (args_fuel n) k') by (intros; now apply IH).
  assert (Step : forall v p q cs k', skips_comments p -> ahead (plex p) cs -> (length cs <= k')%nat -> cv_fuel n p = Some (Ok v, q) -> skips_comments q /\ exists cs', ahead (plex q) cs' /\ (S (length cs') <= k')%nat).
  { intros v p q cs k' Sk A L E. destruct (proj1 (fuel_good n) p cs v q Sk A E) as (used & T & _ & _ & NE & _). split; [exact (took_skips _ _ _ T Sk) |].
    destruct (moved_len _ _ _ cs (moved_took _ _ _ T) A) as (cs' & A' & L'). exists cs'. split; [exact A' |]. destruct used; [congruence | cbn in L'; lia]. }
  split; [intros Hn p cs Sk A L | intros Hn; split; intros p cs Sk A L].
  - cbn [cv_fuel]. apply okay_or_peek; [exact (peek_whitespace_total p cs A) | intros _; apply okay_pmap; exact (okay_whitespace p cs A) | intros _].
    apply okay_or_peek; [exact (peek_kindset_total _ p cs A) | intros _ | intros _].
    { apply okay_in_state. apply (okay_block_with _ _ cs); [exact A | exact Sk |]. intros q cs' Sk' A' L'. destruct (IHv (pred k)) as [Hv _]; [lia |]. apply (Hv q cs'); auto. lia. }
    apply okay_or_peek; [exact (peek_kind_total _ p cs A) | intros _ | intros _; exact (okay_cv_tokens p cs A)].
    apply (okay_function_with _ _ cs); [exact A | exact Sk |]. intros q cs' Sk' A' L'. destruct (IHv (pred k)) as [_ Hv]; [lia |]. apply (Hv q cs'); auto. lia.
  - unfold okay. cbn [values_fuel]. destruct (p_at_end p); [eexists _, p; split; [reflexivity | exact (moved_refl p cs A)] |].
    destruct (skip_split (pskip p) cs) as (sk & rest & -> & F & St). rewrite (next_is_stop_spec p sk rest A F St (proj2 Sk)).
    destruct (kindset_contains (pstop p) _); [eexists _, p; split; [reflexivity | exact (moved_refl p _ A)] |].
    apply okay_or_peek; [exact (peek_kindset_total _ p _ A) | intros _ | intros _; exact (okay_ret _ _ p _ A)].
    apply okay_bind; [apply (IHc k ltac:(lia) p _ Sk A L) |]. intros v q E M. destruct (Step v p q _ k Sk A L E) as (Sk' & cs' & A' & L').
    apply okay_pmap. destruct (IHv (pred k)) as [Hv _]; [lia |]. apply (Hv q cs'); auto. lia.
  - unfold okay. cbn [args_fuel]. destruct (p_at_end p); [eexists _, p; split; [reflexivity | exact (moved_refl p cs A)] |].
    apply okay_or_peek; [exact (peek_kind_total _ p _ A) | intros _; exact (okay_ret _ _ p _ A) | intros _].
    apply okay_bind; [apply (IHc k ltac:(lia) p _ Sk A L) |]. intros v q E M. destruct (Step v p q _ k Sk A L E) as (Sk' & cs' & A' & L').
    apply okay_pmap. destruct (IHv (pred k)) as [_ Hv]; [lia |]. apply (Hv q cs'); auto. lia.
Qed.
Lemma sfuel_enough : forall p cs, ahead (plex p) cs -> (2 * length cs + 2 <= sfuel p)%nat.
Proof. intros p cs A. pose proof (pfuel_enough p cs A). unfold sfuel. lia. Qed.

Theorem component_values_okay : forall p cs, skips_comments p -> ahead (plex p) cs ->
  okay parse_component_value p /\ okay parse_component_values p /\ okay parse_simple_block p /\ okay parse_function_block p.
Proof.
  intros p cs Sk A. pose proof (sfuel_enough p cs A) as L. destruct (fuel_okay (sfuel p) (length cs)) as [Hc Hv]. split; [apply (Hc ltac:(lia) p cs); auto |].
  destruct (Hv L) as [Hv1 Hv2]. split; [apply (Hv1 p cs); auto |].
  split; [change (okay (block_with (values_fuel (sfuel p))) p); apply (okay_block_with _ p cs A Sk) | change (okay (function_with (args_fuel (sfuel p))) p); apply (okay_function_with _ p cs A Sk)]; intros q cs' Sk' A' L'; [apply (Hv1 q cs') | apply (Hv2 q cs')]; auto; lia.
Qed.
