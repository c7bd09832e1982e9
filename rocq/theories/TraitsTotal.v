(* The trait methods return, move forwards only, and consume. *)
From Coq Require Import ZifyBool ZifyNat ZifyN.
From Verif Require Import Traits Syntax SpecLex SpecTrace SpecParser SpecSyntax SpecTraits SpecToken LexBase TokenProofs KindProofs LexFacts LexTrace ParserProofs ParserProofs2 ParserProofs3 ParserProofs4 CompareProofs SyntaxProofs SyntaxTotal.
Open Scope N_scope.
Open Scope list_scope.

Lemma moved_le : forall j k p q, (j <= k)%nat -> moved k p q -> moved j p q.
Proof. intros j k p q H (u & r & A1 & A2 & L & S). exists u, r. repeat split; auto; try lia; apply S. Qed.
Lemma run_ok : forall A (a : A) q (m : P A) k p, m p = Some (Ok a, q) -> moved k p q -> well_run k m p.
Proof. intros A a q m k p E M. exists (Ok a), q. auto. Qed.
Lemma run_err : forall A e q (m : P A) k p, m p = Some (Err e, q) -> moved 0 p q -> well_run k m p.
Proof. intros A a q m k p E M. exists (Err a), q. auto. Qed.
Lemma run_ret : forall A (a : A) p cs, ahead (plex p) cs -> well_run 0 (ret a) p.
Proof. intros A a p cs H. apply (run_ok _ a p); [reflexivity | exact (moved_refl p cs H)]. Qed.
Lemma run_fail : forall A e k p cs, ahead (plex p) cs -> well_run k (@fail A e) p.
Proof. intros A e k p cs H. apply (run_err _ e p); [reflexivity | exact (moved_refl p cs H)]. Qed.
Lemma run_weaken : forall A (m : P A) j k p, (j <= k)%nat -> well_run k m p -> well_run j m p.
Proof. intros A m j k p H (r & q & E & M). exists r, q. split; [exact E |]. destruct r; [exact (moved_le _ _ _ _ H M) | exact M]. Qed.
Lemma run_bind : forall A B (m : P A) (f : A -> P B) j k p, well_run j m p ->
  (forall a q, m p = Some (Ok a, q) -> moved j p q -> well_run (k - j) (f a) q) -> well_run k (bind m f) p.
Proof.
  intros A B m f j k p (r & q & E & M) H. unfold well_run, bind. rewrite E. destruct r as [a | e].
  - destruct (H a q E M) as (r' & q' & E' & M'). exists r', q'. split; [exact E' |]. pose proof (moved_trans _ _ _ _ _ M M') as T.
    destruct r'; (eapply moved_le; [| exact T]); lia.
  - exists (Err e), q. auto.
Qed.
Lemma run_pmap : forall A B (g : A -> B) m k p, well_run k m p -> well_run k (pmap g m) p.
Proof.
  intros A B g m k p H. apply (run_bind _ _ _ _ k); [exact H |]. intros a q _ M. destruct (moved_right _ _ _ M) as (cs & A'). replace (k - k)%nat with 0%nat by lia. exact (run_ret _ _ q cs A').
Qed.
Lemma run_or_peek : forall A c (m e : P A) k p, peek c p <> None -> (peek c p = Some true -> well_run k m p) -> (peek c p = Some false -> well_run k e p) -> well_run k (or_peek c m e) p.
Proof. intros A c m e k p N H1 H2. unfold well_run, or_peek. destruct (peek c p) as [[] |]; [apply H1 | apply H2 | congruence]; reflexivity. Qed.
Lemma run_opt : forall A (m : P A) p, well_run 0 m p -> well_run 0 (opt_ok m) p.
Proof. intros A m p (r & q & E & M). unfold well_run, opt_ok. rewrite E. destruct r; eexists _, q; (split; [reflexivity | exact M]). Qed.
Lemma run_in_state : forall A s (m : P A) k p, well_run k m (set_state p s) -> well_run k (in_state s m) p.
Proof. intros A s m k p (r & q & E & M). unfold well_run, in_state. rewrite E. eexists _, _. split; [reflexivity | exact (moved_in_state _ _ _ _ M)]. Qed.
Lemma run_in_stop : forall A s (m : P A) k p, well_run k m (set_stop p s) -> well_run k (in_stop s m) p.
Proof. intros A s m k p (r & q & E & M). unfold well_run, in_stop. rewrite E. eexists _, _. split; [reflexivity | exact (moved_in_stop _ _ _ _ M)]. Qed.
Lemma run_okay : forall A (m : P A) p, okay m p -> well_run 0 m p.
Proof. intros A m p (r & q & E & M). exists r, q. split; [exact E | destruct r; exact M]. Qed.
Lemma run_kind : forall k p cs, k <> K_Eof -> ahead (plex p) cs -> well_run 1 (parse_kind k) p.
Proof.
  intros k p cs N A. destruct (okay_kind k p cs A) as (r & q & E & M). exists r, q. split; [exact E |]. destruct r as [c | e]; [| exact M].
  exact (moved_took _ _ _ (proj1 (parse_kind_inv k p cs c q N A E))).
Qed.
Lemma run_dashed : forall p cs, ahead (plex p) cs -> okay parse_dashed_ident p.
Proof. intros p cs A. eapply okay_single; [exact A |]. destruct (peeked p cs A) as (c & _ & _ & _ & _ & _ & _ & E & _). unfold peek. rewrite E. discriminate. Qed.

Lemma if_peek_inv : forall A k (m : P A) p o q, parse_if_peek k m p = Some (Ok o, q) -> match o with None => q = p /\ peek k p = Some false | Some a => m p = Some (Ok a, q) end.
Proof.
  intros A k m p o q E. unfold parse_if_peek in E. destruct (peek k p) as [[] |] eqn:Pk; [| | discriminate].
  - destruct (pmap_inv _ _ _ _ _ _ _ E) as (a & E1 & ->). exact E1.
  - injection E as <- <-. auto.
Qed.
Lemma if_kind_inv : forall k p cs o q, k <> K_Eof -> ahead (plex p) cs -> if_kind k p = Some (Ok o, q) ->
  match o with None => q = p /\ peek (peek_kind k) p = Some false | Some c => took p q [c] /\ kind_of c = k end.
Proof. intros k p cs o q N A E. apply if_peek_inv in E. destruct o as [c |]; [exact (parse_kind_inv k p cs c q N A E) | exact E]. Qed.
Lemma if_whitespace_inv : forall p cs o q, skips_comments p -> ahead (plex p) cs -> if_whitespace p = Some (Ok o, q) ->
  match o with None => q = p /\ peek peek_whitespace p = Some false | Some c => took p q [c] /\ kind_of c = K_Whitespace end.
Proof. intros p cs o q Sk A E. apply if_peek_inv in E. destruct o as [c |]; [destruct (parse_whitespace_inv p cs c q Sk A E) as (T & K & _); auto | exact E]. Qed.
Lemma run_if_kind : forall k p cs, ahead (plex p) cs -> well_run 0 (if_kind k) p.
Proof. intros k p cs A. apply run_okay. exact (okay_if_kind k p cs A). Qed.
Lemma run_if_whitespace : forall p cs, ahead (plex p) cs -> well_run 0 if_whitespace p.
Proof. intros p cs A. apply run_okay. exact (okay_if_whitespace p cs A). Qed.
Lemma run_if_peek : forall A c (m : P A) p cs, ahead (plex p) cs -> peek c p <> None -> (peek c p = Some true -> well_run 0 m p) -> well_run 0 (parse_if_peek c m) p.
Proof.
  intros A c m p cs Ah N H. unfold well_run, parse_if_peek. destruct (peek c p) as [[] |]; [apply run_pmap; auto | | congruence].
  eexists _, p. split; [reflexivity | exact (moved_refl p cs Ah)].
Qed.
Lemma peek_n_total : forall p cs k, 1 <= k -> ahead (plex p) cs -> exists c, peek_n p k = Some c.
Proof. intros p cs k K A. eexists. exact (peek_n_spec p cs k A K). Qed.
Lemma peek_next_total : forall p cs, ahead (plex p) cs -> exists c, peek_next p = Some c.
Proof. intros p cs A. destruct (peeked p cs A) as (c & _ & _ & _ & _ & _ & _ & E & _). eauto. Qed.
Lemma run_unexpected_peek : forall A k p cs, ahead (plex p) cs -> well_run k (@unexpected_peek A) p.
Proof. intros A k p cs Ah. destruct (peek_next_total p cs Ah) as (c & E). eapply run_err; [unfold unexpected_peek; rewrite E; reflexivity | exact (moved_refl p cs Ah)]. Qed.

(* rewinding *)
Lemma moved_rewind : forall k p q cs, moved k p q -> ahead (plex p) cs -> moved 0 p (rewind q (checkpoint p)) /\ ahead (plex (rewind q (checkpoint p))) cs.
Proof.
  intros k p q cs (u & r & A1 & A2 & L & (S1 & S2 & S3 & S4 & S5)) A.
  assert (A' : ahead (plex (rewind q (checkpoint p))) cs) by (unfold rewind, lexer_rewind, lexer_checkpoint; cbn; rewrite S4, S5; now destruct (plex p)).
  split; [| exact A']. exists [], cs. repeat split; auto.
Qed.
Lemma run_try : forall A (m : P A) k p, well_run k m p -> well_run k (try_parse m) p.
Proof.
  intros A m k p (r & q & E & M). unfold well_run, try_parse. rewrite E. destruct r as [a | e]; eexists _, _; (split; [reflexivity |]); [exact M |].
  destruct (moved_left _ _ _ M) as (cs & A'). exact (proj1 (moved_rewind _ _ _ cs M A')).
Qed.


(* usable parsers *)
Lemma usable_moved : forall k p q, moved k p q -> usable p -> usable q.
Proof.
  intros k p q M [Sk Nr]. split; [exact (moved_skips _ _ _ M Sk) |]. destruct M as (u & r & A1 & A2 & L & (S1 & S2 & S3 & S4 & S5)).
  intros cs c A I N. rewrite S4. rewrite (ahead_det _ _ A2 _ A) in I. apply (Nr _ c A1); [apply in_or_app; now right | exact N].
Qed.
Lemma usable_state : forall p s, usable p -> usable (set_state p s).
Proof. auto. Qed.
Lemma usable_stop : forall p s, usable p -> usable (set_stop p s).
Proof. auto. Qed.
Lemma moved_usable_len : forall k p q cs, moved k p q -> usable p -> ahead (plex p) cs -> usable q /\ exists cs', ahead (plex q) cs' /\ (length cs' + k <= length cs)%nat.
Proof. intros k p q cs M U A. split; [exact (usable_moved _ _ _ M U) | exact (moved_len _ _ _ _ M A)]. Qed.
Lemma kept_in : forall s cs c, In c (kept s cs) -> In c cs.
Proof. intros s cs c H. unfold kept in H. apply filter_In in H. tauto. Qed.
Lemma name_total : forall p cs c, usable p -> ahead (plex p) cs -> In c cs -> is_name (kind_of c) -> forall w, exists b, eq_ignore_ascii_case c (lsrc (plex p)) w = Some b.
Proof. intros p cs c [_ U] A I K. exact (proj1 (U cs c A I K)). Qed.

(* [!important] *)
Lemma nth_kept : forall p cs n, nth n (kept (pskip p) cs) (eof_cursor p) = eof_cursor p \/ In (nth n (kept (pskip p) cs) (eof_cursor p)) cs.
Proof.
  intros p cs n. destruct (nth_in_or_default n (kept (pskip p) cs) (eof_cursor p)) as [H | H]; [right; exact (kept_in _ _ _ H) | now left].
Qed.
Lemma tok_is_in : forall p cs c k, ahead (plex p) cs -> c = eof_cursor p \/ In c cs -> k <> K_Eof -> tok_is (ctok c) k = true -> In c cs /\ kind_of c = k.
Proof.
  intros p cs c k A [-> | I] N T.
  - exfalso. apply N. symmetry. apply (tok_is_kind T_EOF k); [now left | exact T].
  - split; [exact I |]. apply tok_is_kind in T; [exact T |]. apply wf_of_kind. exact (ahead_kind _ _ A c I).
Qed.
Lemma peek_important_total : forall p cs, usable p -> ahead (plex p) cs -> peek peek_important p <> None.
Proof.
  intros p cs U A. unfold peek. destruct (peek_next_total p cs A) as (c & ->). unfold peek_important. destruct (_ && _); [| discriminate].
  rewrite (peek_n_spec p cs 2 A) by lia. destruct (tok_is _ K_Ident) eqn:T; [| discriminate].
  destruct (tok_is_in p cs _ K_Ident A (nth_kept p cs _) ltac:(discriminate) T) as (I & K).
  destruct (name_total p cs _ U A I) with (w := IMPORTANT) as (b & ->); [rewrite K; now left | discriminate].
Qed.
Lemma peek_total_of : forall k p cs, ahead (plex p) cs -> (forall c, k p c <> None) -> peek k p <> None.
Proof. intros k p cs A H. unfold peek. destruct (peek_next_total p cs A) as (c & ->). apply H. Qed.
Lemma took_in : forall p q cs c, ahead (plex p) cs -> took p q [c] -> In c cs.
Proof.
  intros p q cs c A (u & new & rest & A1 & _ & _ & M & _). rewrite (ahead_det _ _ A1 _ A). apply in_or_app. left.
  assert (G : forall (x y z : list cursor), merged x y z -> forall d, In d x -> In d z) by (intros x y z H; induction H; cbn; intuition). apply (G _ _ _ M). now left.
Qed.
Lemma run_important : forall p cs, usable p -> ahead (plex p) cs -> well_run 1 parse_important p.
Proof.
  intros p cs U A. apply (run_bind _ _ _ _ 0); [apply run_okay; eapply okay_single; [exact A |]; apply (peek_total_of _ p cs A); discriminate |].
  intros b q E M. destruct (moved_usable_len _ _ _ cs M U A) as (Uq & cs1 & A1 & L1).
  apply (run_bind _ _ _ _ 1); [exact (run_kind K_Ident q cs1 ltac:(discriminate) A1) |]. intros i q1 E1 M1.
  destruct (parse_kind_inv K_Ident q cs1 i q1 ltac:(discriminate) A1 E1) as (T & K). destruct (moved_right _ _ _ M1) as (cs2 & A2).
  destruct (name_total q cs1 i Uq A1 (took_in _ _ _ _ A1 T)) with (w := IMPORTANT) as (bb & Eb); [rewrite K; now left |].
  assert (S : lsrc (plex q1) = lsrc (plex q)) by (destruct (took_settings _ _ _ T) as (_ & _ & _ & _ & S & _); exact S).
  destruct bb; eexists _, q1; (split; [cbv beta; rewrite S, Eb; reflexivity | exact (moved_refl q1 cs2 A2)]).
Qed.
Lemma run_if_important : forall p cs, usable p -> ahead (plex p) cs -> well_run 0 (parse_if_peek peek_important parse_important) p.
Proof.
  intros p cs U A. apply (run_if_peek _ _ _ p cs A); [exact (peek_important_total p cs U A) |]. intros _. apply (run_weaken _ _ 0 1); [lia |]. exact (run_important p cs U A).
Qed.

(* ---- declarations ---- *)
Theorem declaration_runs : forall V (valid : parser -> cursor -> option bool) (value_p : cursor -> P V) n,
  (forall p c, valid p c <> None) -> (forall c, well_behaving 0 n (value_p c)) -> well_behaving 2 n (declaration_t valid value_p).
Proof.
  intros V valid value_p n Hv Hp p cs U A L. apply (run_bind _ _ _ _ 1); [exact (run_kind K_Ident p cs ltac:(discriminate) A) |]. intros name p1 _ M1.
  destruct (moved_usable_len _ _ _ cs M1 U A) as (U1 & cs1 & A1 & L1). unfold well_run. destruct (valid p1 name) as [[] |] eqn:Ev; [| | exfalso; exact (Hv _ _ Ev)].
  2:{ eexists _, p1. split; [reflexivity | exact (moved_refl p1 cs1 A1)]. }
  apply (run_bind _ _ _ _ 1); [exact (run_kind K_Colon p1 cs1 ltac:(discriminate) A1) |]. intros colon p2 _ M2. destruct (moved_usable_len _ _ _ cs1 M2 U1 A1) as (U2 & cs2 & A2 & L2).
  apply (run_bind _ _ _ _ 0); [apply (Hp name p2 cs2 U2 A2); lia |]. intros v p3 _ M3. destruct (moved_usable_len _ _ _ cs2 M3 U2 A2) as (U3 & cs3 & A3 & L3).
  apply (run_bind _ _ _ _ 0); [exact (run_if_important p3 cs3 U3 A3) |]. intros i p4 _ M4. destruct (moved_right _ _ _ M4) as (cs4 & A4). exact (run_ret _ _ p4 cs4 A4).
Qed.

(* ---- blocks ---- *)
Lemma peek_kind_state : forall k p s, peek (peek_kind k) (set_state p s) = peek (peek_kind k) p.
Proof. reflexivity. Qed.
Lemma run_turn : forall D R peek_d (decl_p : P D) (rule_p : P R) n p cs, peeks n peek_d -> well_behaving 1 n decl_p -> well_behaving 1 n rule_p ->
  usable p -> ahead (plex p) cs -> (length cs <= n)%nat ->
  exists r q, block_turn peek_d decl_p rule_p p = Some (r, q) /\ moved (match r with Ok (Some _) => 1 | _ => 0 end) p q.
Proof.
  intros D R peek_d decl_p rule_p n p cs Hd Dp Rp U A L. unfold block_turn.
  destruct (run_if_whitespace p cs A) as (r1 & p1 & E1 & M1). unfold bind at 1. rewrite E1. destruct r1 as [[w |] | e].
  { destruct (if_whitespace_inv p cs _ p1 (proj1 U) A E1) as (T & _). eexists _, p1. split; [reflexivity | exact (moved_took _ _ _ T)]. }
  2:{ eexists _, p1. split; [reflexivity | exact M1]. }
  destruct (if_whitespace_inv p cs _ p1 (proj1 U) A E1) as (-> & _). clear M1 E1.
  destruct (run_if_kind K_Semicolon p cs A) as (r2 & p2 & E2 & M2). unfold bind at 1. rewrite E2. destruct r2 as [[w |] | e].
  { destruct (if_kind_inv K_Semicolon p cs _ p2 ltac:(discriminate) A E2) as (T & _). eexists _, p2. split; [reflexivity | exact (moved_took _ _ _ T)]. }
  2:{ eexists _, p2. split; [reflexivity | exact M2]. }
  destruct (if_kind_inv K_Semicolon p cs _ p2 ltac:(discriminate) A E2) as (-> & _). clear M2 E2.
  destruct (p_at_end p); [eexists _, p; split; [reflexivity | exact (moved_refl p cs A)] |].
  unfold or_peek. destruct (peek (peek_kind K_RightCurly) p) as [[] |] eqn:Pc; [| | exfalso; exact (peek_kind_total _ _ _ A Pc)].
  { eexists _, p; split; [reflexivity | exact (moved_refl p cs A)]. }
  rewrite peek_kind_state. destruct (peek (peek_kind K_AtKeyword) p) as [[] |] eqn:Pa; [| | exfalso; exact (peek_kind_total _ _ _ A Pa)].
  { destruct (run_in_state _ ST_NESTED rule_p 1 p (Rp (set_state p ST_NESTED) cs U A L)) as (r & q & E & M). unfold pmap, bind. rewrite E. destruct r; eexists _, q; (split; [reflexivity | exact M]). }
  unfold try_parse_if_peek. assert (Pt := Hd (set_state p ST_NESTED) cs U A L). destruct (peek peek_d (set_state p ST_NESTED)) as [[] |]; [| | congruence].
  - destruct (run_try _ decl_p 1 _ (Dp (set_state p ST_NESTED) cs U A L)) as (r & q & E & M). unfold pmap at 1, bind at 1. rewrite E. destruct r as [d | e]; cbn [ret].
    + pose proof (moved_in_state _ _ _ _ M) as M'. destruct (moved_right _ _ _ M') as (cs1 & A1). unfold pmap, bind.
      destruct (run_if_kind K_Semicolon _ cs1 A1) as (r3 & q3 & E3 & M3). rewrite E3. pose proof (moved_trans _ _ _ _ _ M' M3) as T. destruct r3; eexists _, q3; (split; [reflexivity |]); (eapply moved_le; [| exact T]); lia.
    + pose proof M as M0. destruct (moved_usable_len _ _ _ cs M (usable_state p _ U) A) as (U1 & cs1 & A1 & L1).
      destruct (Rp q cs1 U1 A1 ltac:(lia)) as (r3 & q3 & E3 & M3). rewrite E3. pose proof (moved_in_state _ p _ ST_NESTED (moved_trans _ _ _ _ _ M M3)) as T.
      destruct r3; eexists _, _; (split; [reflexivity |]); (eapply moved_le; [| exact T]); lia.
  - destruct (Rp (set_state p ST_NESTED) cs U A L) as (r3 & q3 & E3 & M3). rewrite E3. pose proof (moved_in_state _ p _ ST_NESTED M3) as T.
    destruct r3; eexists _, _; (split; [reflexivity |]); exact T.
Qed.
Lemma run_block_loop : forall D R peek_d (decl_p : P D) (rule_p : P R) n, peeks n peek_d -> well_behaving 1 n decl_p -> well_behaving 1 n rule_p ->
  forall m p cs, usable p -> ahead (plex p) cs -> (length cs <= n)%nat -> (length cs < m)%nat -> well_run 0 (block_loop peek_d decl_p rule_p m) p.
Proof.
  intros D R peek_d decl_p rule_p n Hd Dp Rp. induction m as [| m IH]; intros p cs U A L Lm; [lia |]. cbn [block_loop]. unfold well_run, bind.
  destruct (run_turn D R peek_d decl_p rule_p n p cs Hd Dp Rp U A L) as (r & q & -> & M). destruct r as [[i |] | e].
  - destruct (moved_usable_len _ _ _ cs M U A) as (U1 & cs1 & A1 & L1). destruct (IH q cs1 U1 A1 ltac:(lia) ltac:(lia)) as (r & q' & E & M').
    unfold pmap, bind. rewrite E. pose proof (moved_trans _ _ _ _ _ M M') as T. destruct r; eexists _, q'; (split; [reflexivity |]); (eapply moved_le; [| exact T]); lia.
  - eexists _, q. split; [reflexivity | exact M].
  - eexists _, q. split; [reflexivity | exact M].
Qed.
Lemma sfuel_more : forall p cs, ahead (plex p) cs -> (length cs < sfuel p)%nat.
Proof. intros p cs A. pose proof (sfuel_enough p cs A). lia. Qed.
Theorem block_runs : forall D R peek_d (decl_p : P D) (rule_p : P R) n,
  (forall m, (m < n)%nat -> peeks m peek_d /\ well_behaving 1 m decl_p /\ well_behaving 1 m rule_p) -> well_behaving 1 n (block_t peek_d decl_p rule_p).
Proof.
  intros D R peek_d decl_p rule_p n H p cs U A L. apply (run_bind _ _ _ _ 1); [exact (run_kind K_LeftCurly p cs ltac:(discriminate) A) |]. intros o p1 _ M1.
  destruct (moved_usable_len _ _ _ cs M1 U A) as (U1 & cs1 & A1 & L1). destruct (H (length cs1) ltac:(lia)) as (Hd & Dp & Rp).
  apply (run_bind _ _ _ _ 0); [apply (run_block_loop D R peek_d decl_p rule_p _ Hd Dp Rp (sfuel p1) p1 cs1 U1 A1); [lia | exact (sfuel_more p1 cs1 A1)] |]. intros items p2 _ M2.
  destruct (moved_right _ _ _ M2) as (cs2 & A2). apply (run_bind _ _ _ _ 0); [exact (run_if_kind K_RightCurly p2 cs2 A2) |]. intros c p3 _ M3.
  destruct (moved_right _ _ _ M3) as (cs3 & A3). exact (run_ret _ _ p3 cs3 A3).
Qed.

(* ---- rules ---- *)
Theorem at_rule_runs : forall Pr B name (prelude_p : P Pr) (block_p : P B) n, well_behaving 0 n prelude_p -> well_behaving 0 n block_p ->
  well_behaving 1 (S n) (at_rule_t name prelude_p block_p).
Proof.
  intros Pr B name prelude_p block_p n Hp Hb p cs U A L. apply (run_bind _ _ _ _ 1); [exact (run_kind K_AtKeyword p cs ltac:(discriminate) A) |]. intros a p1 E1 M1.
  destruct (moved_usable_len _ _ _ cs M1 U A) as (U1 & cs1 & A1 & L1). apply (run_bind _ _ _ _ 0).
  - destruct name as [w |]; [| exact (run_ret _ tt p1 cs1 A1)].
    destruct (parse_kind_inv K_AtKeyword p cs a p1 ltac:(discriminate) A E1) as (T & K).
    destruct (name_total p cs a U A (took_in _ _ _ _ A T)) with (w := w) as (bb & Eb); [rewrite K; unfold is_name; cbn; tauto |].
    assert (S : lsrc (plex p1) = lsrc (plex p)) by (destruct (took_settings _ _ _ T) as (_ & _ & _ & _ & S & _); exact S).
    unfold well_run. rewrite S, Eb. destruct bb; eexists _, p1; (split; [reflexivity | exact (moved_refl p1 cs1 A1)]).
  - intros u p2 _ M2. destruct (moved_usable_len _ _ _ cs1 M2 U1 A1) as (U2 & cs2 & A2 & L2). unfold well_run. destruct (peek_next_total p2 cs2 A2) as (c & ->).
    apply (run_bind _ _ _ _ 0); [destruct (_ || _); [exact (run_ret _ None p2 cs2 A2) | apply run_pmap, (Hp p2 cs2 U2 A2); lia] |]. intros pr p3 _ M3.
    destruct (moved_usable_len _ _ _ cs2 M3 U2 A2) as (U3 & cs3 & A3 & L3). apply (run_bind _ _ _ _ 0); [apply (Hb p3 cs3 U3 A3); lia |]. intros b p4 _ M4.
    destruct (moved_right _ _ _ M4) as (cs4 & A4). exact (run_ret _ _ p4 cs4 A4).
Qed.
Theorem qualified_rule_runs : forall Pr B X (prelude_p : P Pr) (block_p : P B) (bad_p : P X) n, well_behaving 0 n prelude_p -> well_behaving 1 n block_p -> well_behaving 0 n bad_p ->
  well_behaving 1 n (qualified_rule_t prelude_p block_p bad_p).
Proof.
  intros Pr B X prelude_p block_p bad_p n Hp Hb Hx p cs U A L. unfold well_run, qualified_rule_t.
  destruct (p_at_end p); [eexists _, p; split; [reflexivity | exact (moved_refl p cs A)] |].
  set (rest := bind (in_stop (kindset_new [K_LeftCurly]) prelude_p) (fun prelude => pmap (fun b => (prelude, b)) block_p)).
  assert (Rest : forall q cs', usable q -> ahead (plex q) cs' -> (length cs' <= n)%nat -> well_run 1 rest q).
  { intros q cs' Uq Aq Lq. apply (run_bind _ _ _ _ 0); [apply run_in_stop; exact (Hp (set_stop q _) cs' Uq Aq Lq) |]. intros pr q1 _ M1.
    destruct (moved_usable_len _ _ _ cs' M1 Uq Aq) as (U1 & cs1 & A1 & L1). apply run_pmap, (Hb q1 cs1 U1 A1). lia. }
  set (dashed := or_peek peek_dashed_ident _ rest).
  assert (Dashed : well_run 1 dashed p).
  { apply run_or_peek; [apply (peek_total_of _ p cs A); discriminate | intros _ | intros _; exact (Rest p cs U A L)].
    unfold well_run. destruct (run_dashed p cs A) as (r & p1 & E1 & M1). rewrite E1. destruct (moved_usable_len _ _ _ cs M1 U A) as (U1 & cs1 & A1 & L1).
    destruct (moved_rewind _ _ _ cs M1 A) as (M2 & A2). pose proof (usable_moved _ _ _ M2 U) as U2.
    destruct (peek (peek_kind K_Colon) p1) as [[] |] eqn:Pc; [| | exfalso; exact (peek_kind_total _ _ _ A1 Pc)].
    - destruct (is_nested p1).
      + unfold bind. destruct (Hx _ cs U2 A2 L) as (rx & qx & Ex & Mx). rewrite Ex. pose proof (moved_trans _ _ _ _ _ M2 Mx) as T.
        destruct rx; eexists _, qx; (split; [reflexivity |]); exact T.
      + destruct (Hb p1 cs1 U1 A1 ltac:(lia)) as (rx & qx & Ex & Mx). rewrite Ex. pose proof (moved_trans _ _ _ _ _ M1 Mx) as T. eexists _, qx. split; [reflexivity |]. eapply moved_le; [| exact T]. lia.
    - destruct (Rest _ cs U2 A2 L) as (rx & qx & Ex & Mx). exists rx, qx. split; [exact Ex |]. exact (moved_trans _ _ _ _ _ M2 Mx). }
  destruct (is_nested p); [| exact Dashed].
  apply run_or_peek; [exact (peek_kind_total _ p cs A) | intros _ | intros _; exact Dashed].
  unfold well_run. destruct (peek_n_total p cs 1 ltac:(lia) A) as (c & ->). eexists _, p. split; [reflexivity | exact (moved_refl p cs A)].
Qed.
Theorem no_block_runs : forall n, well_behaving 0 n no_block_allowed.
Proof.
  intros n p cs U A L. unfold well_run, no_block_allowed. destruct (p_at_end p); [eexists _, p; split; [reflexivity | exact (moved_refl p cs A)] |].
  apply (run_bind _ _ _ _ 0); [exact (run_if_kind _ p cs A) |]. intros [c |] q _ M; destruct (moved_right _ _ _ M) as (cs1 & A1); [exact (run_ret _ _ q cs1 A1) | exact (run_unexpected_peek _ _ q cs1 A1)].
Qed.
Theorem no_prelude_runs : forall n, well_behaving 0 n no_prelude_allowed.
Proof.
  intros n p cs U A L. apply run_or_peek; [exact (peek_kind_total _ p cs A) | intros _; exact (run_ret _ _ p cs A) | intros _].
  apply run_or_peek; [exact (peek_kind_total _ p cs A) | intros _; exact (run_ret _ _ p cs A) | intros _; exact (run_unexpected_peek _ _ p cs A)].
Qed.

(* ---- stylesheets and lists ---- *)
Theorem sheet_runs : forall R (rule_p : P R) n, well_behaving 1 n rule_p -> well_behaving 0 n (sheet_t rule_p).
Proof.
  intros R rule_p n Hr p cs U A L. unfold sheet_t. enough (G : forall m p cs, usable p -> ahead (plex p) cs -> (length cs <= n)%nat -> (length cs < m)%nat -> well_run 0 (sheet_loop rule_p m) p)
    by (apply (G (sfuel p) p cs U A L); exact (sfuel_more p cs A)).
  clear p cs U A L. induction m as [| m IH]; intros p cs U A L Lm; [lia |]. cbn [sheet_loop].
  apply (run_bind _ _ _ _ 0); [exact (run_if_whitespace p cs A) |]. intros w p1 E1 M1. pose proof (if_whitespace_inv p cs w p1 (proj1 U) A E1) as I1. destruct w as [c |].
  { destruct I1 as (T & _). destruct (moved_usable_len _ _ _ cs (moved_took _ _ _ T) U A) as (U1 & cs1 & A1 & L1). cbn in L1. apply (IH p1 cs1 U1 A1); lia. }
  destruct I1 as (-> & _). clear M1 E1.
  apply (run_bind _ _ _ _ 0); [exact (run_if_kind K_CdcOrCdo p cs A) |]. intros w p1 E1 M1. pose proof (if_kind_inv K_CdcOrCdo p cs w p1 ltac:(discriminate) A E1) as I1. destruct w as [c |].
  { destruct I1 as (T & _). destruct (moved_usable_len _ _ _ cs (moved_took _ _ _ T) U A) as (U1 & cs1 & A1 & L1). cbn in L1. apply (IH p1 cs1 U1 A1); lia. }
  destruct I1 as (-> & _). clear M1 E1. unfold well_run. destruct (p_at_end p); [eexists _, p; split; [reflexivity | exact (moved_refl p cs A)] |].
  destruct (peek_next_total p cs A) as (c & ->). destruct (tok_is (ctok c) K_Eof); [eexists _, p; split; [reflexivity | exact (moved_refl p cs A)] |].
  apply (run_bind _ _ _ _ 1); [exact (Hr p cs U A L) |]. intros r p1 _ M1. destruct (moved_usable_len _ _ _ cs M1 U A) as (U1 & cs1 & A1 & L1). apply run_pmap, (IH p1 cs1 U1 A1); lia.
Qed.
Lemma run_closer : forall A (g : cursor -> A) p cs, ahead (plex p) cs -> well_run 0 (pmap g (parse_kind K_RightCurly)) p.
Proof. intros A g p cs Ah. apply run_pmap, (run_weaken _ _ 0 1); [lia |]. exact (run_kind K_RightCurly p cs ltac:(discriminate) Ah). Qed.
Theorem rule_list_runs : forall R (rule_p : P R) n, well_behaving 1 n rule_p -> well_behaving 1 (S n) (rule_list_t rule_p).
Proof.
  intros R rule_p n Hr. assert (G : forall m p cs, usable p -> ahead (plex p) cs -> (length cs <= n)%nat -> (length cs < m)%nat -> well_run 0 (rules_loop rule_p m) p).
  { induction m as [| m IH]; intros p cs U A L Lm; [lia |]. cbn [rules_loop]. apply (run_bind _ _ _ _ 0); [apply run_opt; exact (run_if_kind _ p cs A) |]. intros s p1 _ M1.
    destruct (moved_usable_len _ _ _ cs M1 U A) as (U1 & cs1 & A1 & L1). unfold well_run. destruct (p_at_end p1); [eexists _, p1; split; [reflexivity | exact (moved_refl p1 cs1 A1)] |].
    apply run_or_peek; [exact (peek_kind_total _ p1 cs1 A1) | intros _; exact (run_closer _ _ p1 cs1 A1) | intros _].
    apply (run_bind _ _ _ _ 1); [apply (Hr p1 cs1 U1 A1); lia |]. intros r p2 _ M2. destruct (moved_usable_len _ _ _ cs1 M2 U1 A1) as (U2 & cs2 & A2 & L2). apply run_pmap, (IH p2 cs2 U2 A2); lia. }
  intros p cs U A L. apply (run_bind _ _ _ _ 1); [exact (run_kind K_LeftCurly p cs ltac:(discriminate) A) |]. intros o p1 _ M1. destruct (moved_usable_len _ _ _ cs M1 U A) as (U1 & cs1 & A1 & L1).
  apply run_pmap. apply (G (sfuel p1) p1 cs1 U1 A1); [lia | exact (sfuel_more p1 cs1 A1)].
Qed.
Theorem declaration_list_runs : forall D (decl_p : P D) n, well_behaving 1 n decl_p -> well_behaving 1 (S n) (declaration_list_t decl_p).
Proof.
  intros D decl_p n Hd. assert (G : forall m p cs, usable p -> ahead (plex p) cs -> (length cs <= n)%nat -> (length cs < m)%nat -> well_run 0 (decls_loop decl_p m) p).
  { induction m as [| m IH]; intros p cs U A L Lm; [lia |]. unfold well_run. cbn [decls_loop]. destruct (p_at_end p); [eexists _, p; split; [reflexivity | exact (moved_refl p cs A)] |].
    apply run_or_peek; [exact (peek_kind_total _ p cs A) | intros _; exact (run_closer _ _ p cs A) | intros _].
    apply (run_bind _ _ _ _ 1); [exact (Hd p cs U A L) |]. intros d p1 _ M1. destruct (moved_usable_len _ _ _ cs M1 U A) as (U1 & cs1 & A1 & L1).
    apply (run_bind _ _ _ _ 0); [exact (run_if_kind _ p1 cs1 A1) |]. intros s p2 _ M2. destruct (moved_usable_len _ _ _ cs1 M2 U1 A1) as (U2 & cs2 & A2 & L2). apply run_pmap, (IH p2 cs2 U2 A2); lia. }
  intros p cs U A L. apply (run_bind _ _ _ _ 1); [exact (run_kind K_LeftCurly p cs ltac:(discriminate) A) |]. intros o p1 _ M1. destruct (moved_usable_len _ _ _ cs M1 U A) as (U1 & cs1 & A1 & L1).
  apply run_pmap. apply (G (sfuel p1) p1 cs1 U1 A1); [lia | exact (sfuel_more p1 cs1 A1)].
Qed.
Theorem declaration_rule_list_runs : forall D R (decl_p : P D) (rule_p : P R) n, well_behaving 1 n decl_p -> well_behaving 1 n rule_p -> well_behaving 1 (S n) (declaration_rule_list_t decl_p rule_p).
Proof.
  intros D R decl_p rule_p n Hd Hr. assert (G : forall m p cs, usable p -> ahead (plex p) cs -> (length cs <= n)%nat -> (length cs < m)%nat -> well_run 0 (decl_rules_loop decl_p rule_p m) p).
  { induction m as [| m IH]; intros p cs U A L Lm; [lia |]. unfold well_run. cbn [decl_rules_loop]. destruct (p_at_end p); [eexists _, p; split; [reflexivity | exact (moved_refl p cs A)] |].
    apply run_or_peek; [exact (peek_kind_total _ p cs A) | intros _; exact (run_closer _ _ p cs A) | intros _].
    apply run_or_peek; [exact (peek_kind_total _ p cs A) | intros _ | intros _].
    { apply (run_bind _ _ _ _ 1); [exact (Hr p cs U A L) |]. intros d p1 _ M1. destruct (moved_usable_len _ _ _ cs M1 U A) as (U1 & cs1 & A1 & L1). apply run_pmap, (IH p1 cs1 U1 A1); lia. }
    apply run_or_peek; [exact (peek_kind_total _ p cs A) | intros _ | intros _].
    { apply (run_bind _ _ _ _ 1); [exact (Hd p cs U A L) |]. intros d p1 _ M1. destruct (moved_usable_len _ _ _ cs M1 U A) as (U1 & cs1 & A1 & L1).
      apply (run_bind _ _ _ _ 0); [exact (run_if_kind _ p1 cs1 A1) |]. intros s p2 _ M2. destruct (moved_usable_len _ _ _ cs1 M2 U1 A1) as (U2 & cs2 & A2 & L2). apply run_pmap, (IH p2 cs2 U2 A2); lia. }
    unfold well_run. destruct (peek_n_total p cs 1 ltac:(lia) A) as (c & ->). eexists _, p. split; [reflexivity | exact (moved_refl p cs A)]. }
  intros p cs U A L. apply (run_bind _ _ _ _ 1); [exact (run_kind K_LeftCurly p cs ltac:(discriminate) A) |]. intros o p1 _ M1. destruct (moved_usable_len _ _ _ cs M1 U A) as (U1 & cs1 & A1 & L1).
  apply run_pmap. apply (G (sfuel p1) p1 cs1 U1 A1); [lia | exact (sfuel_more p1 cs1 A1)].
Qed.
(* the two prelude lists: when every item consumes a token *)
Theorem prelude_list_runs : forall I stop (item_p : P I) n, well_behaving 1 n item_p -> well_behaving 1 n (prelude_list_t stop item_p).
Proof.
  intros I stop item_p n Hi. assert (G : forall m p cs, usable p -> ahead (plex p) cs -> (length cs <= n)%nat -> (length cs < m)%nat -> well_run 1 (prelude_loop stop item_p m) p).
  { induction m as [| m IH]; intros p cs U A L Lm; [lia |]. cbn [prelude_loop]. apply (run_bind _ _ _ _ 1); [exact (Hi p cs U A L) |]. intros d p1 _ M1.
    destruct (moved_usable_len _ _ _ cs M1 U A) as (U1 & cs1 & A1 & L1). unfold well_run. destruct (peek_next_total p1 cs1 A1) as (c & ->).
    destruct (tok_in (ctok c) stop); [eexists _, p1; split; [reflexivity | exact (moved_refl p1 cs1 A1)] |]. apply run_pmap, (run_weaken _ _ 0 1); [lia |]. apply (IH p1 cs1 U1 A1); lia. }
  intros p cs U A L. apply (G (sfuel p) p cs U A L). exact (sfuel_more p cs A).
Qed.
Theorem comma_list_runs : forall I stop (item_p : P I) n, well_behaving 1 n item_p -> well_behaving 1 n (comma_list_t stop item_p).
Proof.
  intros I stop item_p n Hi. assert (G : forall m p cs, usable p -> ahead (plex p) cs -> (length cs <= n)%nat -> (length cs < m)%nat -> well_run 1 (comma_loop stop item_p m) p).
  { induction m as [| m IH]; intros p cs U A L Lm; [lia |]. cbn [comma_loop]. apply (run_bind _ _ _ _ 1); [exact (Hi p cs U A L) |]. intros d p1 _ M1.
    destruct (moved_usable_len _ _ _ cs M1 U A) as (U1 & cs1 & A1 & L1). apply (run_bind _ _ _ _ 0); [exact (run_if_kind _ p1 cs1 A1) |]. intros s p2 _ M2.
    destruct (moved_usable_len _ _ _ cs1 M2 U1 A1) as (U2 & cs2 & A2 & L2). unfold well_run. destruct (peek_next_total p2 cs2 A2) as (c & ->).
    destruct (tok_in (ctok c) stop); [eexists _, p2; split; [reflexivity | exact (moved_refl p2 cs2 A2)] |]. apply run_pmap, (run_weaken _ _ 0 1); [lia |]. apply (IH p2 cs2 U2 A2); lia. }
  intros p cs U A L. apply (G (sfuel p) p cs U A L). exact (sfuel_more p cs A).
Qed.
