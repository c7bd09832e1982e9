(* Component values: what is consumed is what is emitted (C30) and groups end at closers (C31). *)
From Coq Require Import ZifyBool ZifyNat ZifyN.
From Verif Require Import Syntax SpecLex SpecTrace SpecParser SpecSyntax SpecToken LexBase TokenProofs KindProofs LexFacts LexTrace ParserProofs ParserProofs2 ParserProofs3 ParserProofs4 CompareProofs.
Open Scope N_scope.
Open Scope list_scope.
Ltac Zify.zify_post_hook ::= Z.div_mod_to_equations.

(* ---- peeks ---- *)
Lemma kind_eq_dec : forall a b : kind, {a = b} + {a <> b}.
Proof. decide equality. Qed.
Lemma peeked : forall p cs, ahead (plex p) cs -> exists c sk rest, cs = sk ++ rest /\ Forall (in_kinds (pskip p)) sk /\ stops_skip (pskip p) rest /\
  c = hd_or_eof (plex p) rest /\ peek_next p = Some c /\
  (forall s, peek (peek_kindset s) p = Some (kindset_contains s (kind_of c))) /\
  (forall k, exists b, peek (peek_kind k) p = Some b /\ (b = true <-> kind_of c = k)).
Proof.
  intros p cs A. destruct (skip_split (pskip p) cs) as (sk & rest & E & F & St). exists (hd_or_eof (plex p) rest), sk, rest. subst cs.
  assert (Pn := peek_next_spec p sk rest A F St). do 5 (split; [auto |]).
  assert (C : forall c, c = hd_or_eof (plex p) rest -> ctok c = T_EOF \/ tkind (ctok c) <> K_Eof).
  { intros c ->. destruct rest as [| c rest]; [now left | right]. cbn. apply (ahead_kind _ _ A). apply in_or_app. right. now left. }
  specialize (C _ eq_refl). split.
  - intro s. unfold peek. rewrite Pn. unfold peek_kindset. f_equal. unfold kind_of. destruct C as [C | C].
    + rewrite C. reflexivity.
    + destruct (kindset_contains s (tkind (ctok (hd_or_eof (plex p) rest)))) eqn:B.
      * now apply (in_kinds_tok s _ C).
      * apply tok_in_false; [exact C |]. unfold in_kinds. congruence.
  - intro k. unfold peek. rewrite Pn. unfold peek_kind. eexists. split; [reflexivity |]. unfold kind_of. destruct C as [C | C].
    + rewrite C. split; intro H; [apply (tok_is_kind T_EOF k) in H; [exact H | now left] | subst k; reflexivity].
    + apply tok_is_kind. now apply wf_of_kind.
Qed.

Lemma or_peek_inv : forall A k (m e : P A) p z, or_peek k m e p = Some z -> peek k p = Some true /\ m p = Some z \/ peek k p = Some false /\ e p = Some z.
Proof. intros A k m e p z H. unfold or_peek in H. destruct (peek k p) as [[] |]; [left | right | discriminate]; auto. Qed.
Lemma bind_inv : forall A B (m : P A) (k : A -> P B) p b q, bind m k p = Some (Ok b, q) -> exists a p', m p = Some (Ok a, p') /\ k a p' = Some (Ok b, q).
Proof. intros A B m k p b q H. unfold bind in H. destruct (m p) as [[[a | e] p'] |]; try discriminate. eauto. Qed.
Lemma pmap_inv : forall A B (g : A -> B) m p b q, pmap g m p = Some (Ok b, q) -> exists a, m p = Some (Ok a, q) /\ b = g a.
Proof. intros A B g m p b q H. destruct (bind_inv _ _ _ _ _ _ _ H) as (a & p' & E & R). injection R as <- <-. eauto. Qed.

Lemma took_ahead : forall p q used, took p q used -> exists cs cs', ahead (plex p) cs /\ ahead (plex q) cs' /\ (length cs' + length used <= length cs)%nat.
Proof.
  intros p q used (cs & new & rest & A & A' & T & M & _). exists (cs ++ rest), rest. split; [exact A |]. split; [exact A' |].
  rewrite app_length. enough (length used <= length cs)%nat by lia. clear - M. induction M; cbn; lia.
Qed.
Lemma took_settings : forall p q used, took p q used -> same_settings p q.
Proof. intros p q used (cs & new & rest & H). tauto. Qed.
Lemma took_skips : forall p q used, took p q used -> skips_comments p -> skips_comments q.
Proof. intros p q used T H. destruct (took_settings _ _ _ T) as (_ & _ & S & _). unfold skips_comments. now rewrite S. Qed.

Lemma took_in_state : forall p q s used, took (set_state p s) q used -> took p (set_state q (pstate p)) used.
Proof. intros p q s used (cs & new & rest & A & A' & T & M & F & (S1 & S2 & S3 & S4 & S5 & S6)). exists cs, new, rest. repeat split; auto. Qed.
Lemma took_in_stop : forall p q s used, took (set_stop p s) q used -> took p (set_stop q (pstop p)) used.
Proof. intros p q s used (cs & new & rest & A & A' & T & M & F & (S1 & S2 & S3 & S4 & S5 & S6)). exists cs, new, rest. repeat split; auto. Qed.

Lemma pair_start_eof : forall p o, peek_kindset KS_PAIR_START p (Cursor o T_EOF) <> Some true.
Proof. intros p o H. discriminate. Qed.
Lemma pair_end_eof : forall p o, peek_kindset KS_PAIR_END p (Cursor o T_EOF) <> Some true.
Proof. intros p o H. discriminate. Qed.
Lemma pair_start_kinds : forall k, kindset_contains KS_PAIR_START k = true <-> is_opener k.
Proof. intro k. unfold KS_PAIR_START. rewrite kindset_new_spec. unfold is_opener. cbn. intuition congruence. Qed.
Lemma pair_end_kinds : forall k, kindset_contains KS_PAIR_END k = true <-> is_closer k.
Proof. intro k. unfold KS_PAIR_END. rewrite kindset_new_spec. unfold is_closer. cbn. intuition congruence. Qed.
Lemma component_kinds : forall k, kindset_contains KS_COMPONENT k = true <-> is_plain k \/ is_opener k \/ k = K_Function.
Proof. intro k. unfold KS_COMPONENT. rewrite kindset_new_spec. unfold is_plain, is_opener. cbn. intuition congruence. Qed.

(* a single-token parser of one kind, after success *)
Lemma parse_kind_inv : forall k p cs c q, k <> K_Eof -> ahead (plex p) cs -> parse_kind k p = Some (Ok c, q) -> took p q [c] /\ kind_of c = k.
Proof.
  intros k p cs c q N A E. destruct (parse_single_kind _ _ _ _ _ _ _ (fun p o => kind_eof k p o N) A E) as (sk & c' & rest & Ec & F & St & K & -> & T & A').
  split; [exact T |]. unfold peek_kind in K. apply some_inj, tok_is_kind in K; [exact K |]. apply wf_of_kind. apply (ahead_kind _ _ A). rewrite Ec. apply in_or_app. right. now left.
Qed.
Lemma parse_kindset_inv : forall s p cs t q, (forall p o, peek_kindset s p (Cursor o T_EOF) <> Some true) -> ahead (plex p) cs -> parse_single (peek_kindset s) ctok p = Some (Ok t, q) ->
  exists c, t = ctok c /\ took p q [c] /\ kindset_contains s (kind_of c) = true.
Proof.
  intros s p cs t q N A E. destruct (parse_single_kind _ _ _ _ _ _ _ N A E) as (sk & c' & rest & Ec & F & St & K & -> & T & A').
  exists c'. split; [reflexivity |]. split; [exact T |]. unfold peek_kindset in K. apply some_inj in K. apply (in_kinds_tok s c') in K; [exact K |].
  apply (ahead_kind _ _ A). rewrite Ec. apply in_or_app. right. now left.
Qed.
Lemma comments_only : forall p, skips_comments p -> forall c, in_kinds KS_COMMENTS c -> in_kinds (pskip p) c.
Proof. intros p [H _] c C. unfold in_kinds, KS_COMMENTS in *. apply kindset_new_spec in C. destruct C as [C | []]. now rewrite <- C. Qed.
Lemma set_skip_self : forall p, set_skip p (pskip p) = p.
Proof. now intros []. Qed.
(* whitespace: only comments are skipped before it *)
Lemma parse_whitespace_inv : forall p cs c q, skips_comments p -> ahead (plex p) cs -> parse_whitespace p = Some (Ok c, q) ->
  took p q [c] /\ kind_of c = K_Whitespace /\ exists sk rest, cs = sk ++ c :: rest /\ Forall (in_kinds KS_COMMENTS) sk /\ ahead (plex q) rest.
Proof.
  intros p cs c q Sk A E. unfold parse_whitespace in E. destruct (skip_split KS_COMMENTS cs) as (sk & rest & Ec & F & St). subst cs.
  destruct rest as [| d rest].
  - destruct (next_spec (set_skip p KS_COMMENTS) sk [] A F St) as (q' & N & _). rewrite N in E. cbn [hd_or_eof ctok] in E. discriminate.
  - destruct (next_token (set_skip p KS_COMMENTS) sk d rest A F St) as (q' & N & T & A'). rewrite N in E.
    assert (W : well_formed (ctok d)) by (apply wf_of_kind, (ahead_kind _ _ A), in_or_app; right; now left).
    destruct (tok_is (ctok d) K_Whitespace) eqn:B; cbn [negb] in E; [| discriminate]. injection E as <- <-.
    split; [apply (took_set_skip p q' KS_COMMENTS); [exact T | now apply comments_only] |]. split; [now apply tok_is_kind in B |].
    exists sk, rest. auto.
Qed.

Lemma re_emitted_refl : forall c, re_emitted c c.
Proof. now left. Qed.
Lemma F2_app : forall A B (R : A -> B -> Prop) a b c d, Forall2 R a b -> Forall2 R c d -> Forall2 R (a ++ c) (b ++ d).
Proof. intros. now apply Forall2_app. Qed.

(* ---- grouped sequences ---- *)
Lemma grouped_app : forall a b, grouped a -> grouped b -> grouped (a ++ b).
Proof.
  intros a b H. revert b. induction H; intros x Hx; cbn [app]; auto.
  - constructor; auto.
  - rewrite <- app_assoc. cbn [app]. apply gr_block; auto.
  - rewrite <- app_assoc. cbn [app]. apply gr_function; auto.
Qed.
Lemma left_open_plain : forall a k, left_open a -> is_plain k -> left_open (a ++ [k]).
Proof.
  intros a k H. induction H; intro Pk; cbn [app].
  - apply lo_here; [assumption |]. apply grouped_app; [assumption | constructor; [exact Pk | constructor]].
  - apply lo_inside; auto.
  - rewrite <- app_assoc. apply lo_after; auto.
Qed.
Lemma kinds_app : forall a b, map kind_of (a ++ b) = map kind_of a ++ map kind_of b.
Proof. intros. apply map_app. Qed.

Lemma stuck_settings : forall p q, plex q = plex p -> pskip q = pskip p -> stuck p -> stuck q.
Proof. intros p q L S (c & E & H). exists c. split; [| exact H]. unfold peek_next, pfuel in *. now rewrite L, S. Qed.
Lemma at_end_stuck : forall p cs, ahead (plex p) cs -> p_at_end p = true -> stuck p /\ cs = [].
Proof.
  intros p cs A E. destruct cs as [| c cs]; [| unfold p_at_end in E; rewrite (ahead_not_end _ _ _ A) in E; discriminate].
  split; [| reflexivity]. exists (eof_cursor p). split; [exact (peek_next_spec p [] [] A (Forall_nil _) I) |].
  unfold kind_of, is_closer, is_plain, is_opener. cbn. intuition discriminate.
Qed.
Lemma stuck_kind : forall p k, stuck p -> is_closer k \/ is_plain k \/ is_opener k \/ k = K_Function -> forall cs, ahead (plex p) cs -> peek (peek_kind k) p = Some false.
Proof.
  intros p k (c & E & H1 & H2 & H3 & H4) K cs A. destruct (peeked p cs A) as (c' & _ & _ & _ & _ & _ & _ & E' & _ & Pk). rewrite E in E'. injection E' as <-.
  destruct (Pk k) as ([] & E2 & B); [| exact E2]. assert (kind_of c = k) by now apply B. subst k. tauto.
Qed.
Lemma stuck_set : forall p s, stuck p -> (forall k, kindset_contains s k = true -> is_closer k \/ is_plain k \/ is_opener k \/ k = K_Function) -> forall cs, ahead (plex p) cs -> peek (peek_kindset s) p = Some false.
Proof.
  intros p s (c & E & H1 & H2 & H3 & H4) K cs A. destruct (peeked p cs A) as (c' & _ & _ & _ & _ & _ & _ & E' & Ps & _). rewrite E in E'. injection E' as <-.
  rewrite Ps. destruct (kindset_contains s (kind_of c)) eqn:B; [| reflexivity]. apply K in B. tauto.
Qed.

(* opt_ok of a token parser *)
Lemma opt_ok_some : forall A (m : P A) p a q, opt_ok m p = Some (Ok a, q) -> (exists x, a = Some x /\ m p = Some (Ok x, q)) \/ (exists e, a = None /\ m p = Some (Err e, q)).
Proof. intros A m p a q H. unfold opt_ok in H. destruct (m p) as [[[x | e] p'] |]; try discriminate; injection H as <- <-; eauto. Qed.
Lemma peek_then_parse : forall A k (b : cursor -> A) p e q, peek k p = Some true -> parse_single k b p = Some (Err e, q) -> False.
Proof. intros A k b p e q H E. unfold parse_single in E. rewrite H in E. destruct (next p) as [[c p'] |]; discriminate. Qed.
Lemma took_end : forall p c q, ahead (plex p) [] -> next p = Some (c, q) -> took p q [] /\ ahead (plex q) [].
Proof.
  intros p c q A N. destruct (next_spec p [] [] A (Forall_nil _) I) as (q' & N' & T & A' & S). rewrite N in N'. injection N' as _ <-.
  split; [| exact A']. rewrite app_nil_r in T. exists [], [], []. repeat split; auto; try apply S. { now rewrite app_nil_r. } constructor.
Qed.

(* ---- the invariant ---- *)
Definition emitted (used : list cursor) (out : list cursor) : Prop := Forall2 re_emitted used out.
Definition finished (q : parser) (used : list cursor) : Prop := grouped (map kind_of used) \/ left_open (map kind_of used) /\ stuck q.
(* why ComponentValues::parse ended *)
Definition ended (q : parser) : Prop :=
  exists c, peek_next q = Some c /\ (kindset_contains (pstop q) (kind_of c) = true \/ ~ (is_plain (kind_of c) \/ is_opener (kind_of c) \/ kind_of c = K_Function)).
Definition cv_good (m : P cval) : Prop := forall p cs v q, skips_comments p -> ahead (plex p) cs -> m p = Some (Ok v, q) ->
  exists used, took p q used /\ emitted used (cv_cursors v) /\ finished q used /\ used <> [] /\ (stuck p -> stuck q /\ exists c, used = [c] /\ kind_of c = K_Whitespace).
Definition values_good (m : P (list cval)) : Prop := forall p cs vs q, skips_comments p -> ahead (plex p) cs -> m p = Some (Ok vs, q) ->
  exists used, took p q used /\ emitted used (cvs_cursors vs) /\ finished q used /\ ended q.
Definition args_good (m : P (list cval)) : Prop := forall p cs vs q, skips_comments p -> ahead (plex p) cs -> m p = Some (Ok vs, q) ->
  exists used, took p q used /\ emitted used (cvs_cursors vs) /\
    (grouped (map kind_of used) /\ (p_at_end q = true \/ peek (peek_kind K_RightParen) q = Some true) \/ left_open (map kind_of used) /\ p_at_end q = true) /\
    (stuck p -> p_at_end q = true /\ Forall (fun c => kind_of c = K_Whitespace) used).

Lemma cv_tokens_good : forall p cs v q, ahead (plex p) cs -> cv_tokens p = Some (Ok v, q) -> exists c, took p q [c] /\ cv_cursors v = [c] /\ is_plain (kind_of c) /\ v = CvToken (kind_of c) c /\
  peek (peek_kind (kind_of c)) p = Some true.
Proof.
  assert (G : forall ks, (forall k, In k ks -> is_plain k) -> forall p cs v q, ahead (plex p) cs ->
    fold_right (fun k e => or_peek (peek_kind k) (pmap (CvToken k) (parse_kind k)) e) unexpected_next ks p = Some (Ok v, q) ->
    exists c, took p q [c] /\ cv_cursors v = [c] /\ is_plain (kind_of c) /\ v = CvToken (kind_of c) c /\ peek (peek_kind (kind_of c)) p = Some true).
  { induction ks as [| k ks IH]; intros Ks p cs v q A E; cbn [fold_right] in E.
    - unfold unexpected_next in E. destruct (next p) as [[c p'] |]; discriminate.
    - destruct (or_peek_inv _ _ _ _ _ _ E) as [[Pk E1] | [_ E1]].
      + destruct (pmap_inv _ _ _ _ _ _ _ E1) as (c & E2 & ->). assert (N : k <> K_Eof).
        { intro Q. specialize (Ks k (or_introl eq_refl)). subst k. unfold is_plain in Ks. cbn in Ks. intuition discriminate. }
        destruct (parse_kind_inv k p cs c q N A E2) as (T & K). exists c. subst k. repeat split; auto. apply Ks. now left.
      + apply (IH (fun k0 H => Ks k0 (or_intror H)) p cs v q A E1). }
  intros p cs v q A E. apply (G CV_KINDS) with cs; auto. intros k H. unfold is_plain, CV_KINDS in *. cbn in *. tauto.
Qed.

Lemma skips_set_state : forall p s, skips_comments p -> skips_comments (set_state p s).
Proof. auto. Qed.
Lemma skips_set_stop : forall p s, skips_comments p -> skips_comments (set_stop p s).
Proof. auto. Qed.

(* a block *)
Lemma block_with_inv : forall vp p cs v q, values_good vp -> skips_comments p -> ahead (plex p) cs -> block_with vp p = Some (Ok v, q) ->
  exists used, took p q used /\ block_result q v used.
Proof.
  intros vp p cs v q G Sk A E. unfold block_with in E. destruct (bind_inv _ _ _ _ _ _ _ E) as (o & p1 & E1 & E2). clear E.
  destruct (parse_kindset_inv _ _ _ _ _ pair_start_eof A E1) as (oc & -> & T1 & K1). apply pair_start_kinds in K1.
  destruct (bind_inv _ _ _ _ _ _ _ E2) as (vs & p2 & E3 & E4). clear E2. unfold in_stop in E3.
  destruct (vp (set_stop p1 _)) as [[r p2'] |] eqn:EV; [| discriminate]. injection E3 as -> <-.
  destruct (took_ahead _ _ _ T1) as (_ & cs1 & _ & A1 & _). pose proof (took_skips _ _ _ T1 Sk) as Sk1.
  destruct (G (set_stop p1 (kindset_new [pair_start_end (ctok oc)])) cs1 vs p2' Sk1 A1 EV) as (inner & T2 & Em & Fin & En).
  assert (Sst := took_settings _ _ _ T2). apply took_in_stop in T2. set (p2 := set_stop p2' (pstop p1)) in *.
  destruct (took_ahead _ _ _ T2) as (_ & cs2 & _ & A2 & _).
  assert (Fin2 : finished p2 inner) by (destruct Fin as [Fin | [Fin St]]; [now left | right; split; [exact Fin | apply (stuck_settings p2'); auto]]).
  destruct (or_peek_inv _ _ _ _ _ _ E4) as [[Pk E5] | [Pk E5]]; clear E4.
  - destruct (bind_inv _ _ _ _ _ _ _ E5) as (cl & p3 & E6 & E7). injection E7 as <- <-.
    destruct (opt_ok_some _ _ _ _ _ E6) as [(t & -> & E8) | (e & _ & E8)]; [| exfalso; exact (peek_then_parse _ _ _ _ _ _ Pk E8)].
    destruct (parse_kindset_inv _ _ _ _ _ pair_end_eof A2 E8) as (cc & -> & T3 & K3). apply pair_end_kinds in K3.
    exists (oc :: inner ++ [cc]). split; [change (oc :: inner ++ [cc]) with ([oc] ++ inner ++ [cc]); eapply took_trans; [exact T1 | eapply took_trans; [exact T2 | exact T3]] |].
    assert (Gr : grouped (map kind_of inner)).
    { destruct Fin2 as [Fin2 | [_ St]]; [exact Fin2 |]. exfalso.
      rewrite (stuck_set p2 KS_PAIR_END St (fun k H => or_introl (proj1 (pair_end_kinds k) H)) cs2 A2) in Pk. discriminate. }
    exists (poffset p), (ctok oc), vs, (Some (ctok cc)), oc, inner. do 4 (split; [auto |]). exists cc. auto.
  - injection E5 as <- <-. exists (oc :: inner). split; [change (oc :: inner) with ([oc] ++ inner); eapply took_trans; eassumption |].
    exists (poffset p), (ctok oc), vs, None, oc, inner. do 4 (split; [auto |]). split; [reflexivity |].
    assert (St : stuck p2).
    { destruct En as (c & Ec & Hc). destruct (peeked p2 cs2 A2) as (c' & _ & _ & _ & _ & _ & _ & E' & Ps & _).
      assert (c' = c) by (unfold peek_next, pfuel, p2 in E', Ec; cbn in E', Ec; congruence). subst c'.
      rewrite Ps in Pk. assert (NC : ~ is_closer (kind_of c)) by (intro Q; apply pair_end_kinds in Q; rewrite Q in Pk; discriminate).
      exists c. split; [exact E' |]. split; [exact NC |]. destruct Hc as [Hc | Hc]; [| tauto]. exfalso. apply NC.
      destruct Sst as (_ & _ & _ & S4 & _). rewrite S4 in Hc. cbn [set_stop pstop] in Hc. apply kindset_new_spec in Hc. destruct Hc as [Hc | []].
      unfold pair_start_end in Hc. unfold kind_of in K1. unfold is_closer. destruct K1 as [K1 | [K1 | K1]]; rewrite K1 in Hc; auto. }
    split; [| exact St]. cbn [map]. destruct Fin2 as [Fin2 | [Fin2 _]]; [apply lo_here; auto | apply lo_inside; auto].
Qed.

Lemma function_with_inv : forall ap p cs v q, args_good ap -> skips_comments p -> ahead (plex p) cs -> function_with ap p = Some (Ok v, q) ->
  exists used f vs close inner, took p q used /\ v = CvFunction f vs close /\ kind_of f = K_Function /\ emitted inner (cvs_cursors vs) /\
    match close with
    | Some c => kind_of c = K_RightParen /\ used = f :: inner ++ [c] /\ grouped (map kind_of inner)
    | None => used = f :: inner /\ left_open (map kind_of used) /\ p_at_end q = true
    end.
Proof.
  intros ap p cs v q G Sk A E. unfold function_with in E. destruct (bind_inv _ _ _ _ _ _ _ E) as (f & p1 & E1 & E2). clear E.
  destruct (parse_kind_inv K_Function p cs f p1 ltac:(discriminate) A E1) as (T1 & K1).
  destruct (bind_inv _ _ _ _ _ _ _ E2) as (vs & p2 & E3 & E4). clear E2.
  destruct (took_ahead _ _ _ T1) as (_ & cs1 & _ & A1 & _). pose proof (took_skips _ _ _ T1 Sk) as Sk1.
  destruct (G p1 cs1 vs p2 Sk1 A1 E3) as (inner & T2 & Em & Fin & _).
  destruct (took_ahead _ _ _ T2) as (_ & cs2 & _ & A2 & _).
  destruct (bind_inv _ _ _ _ _ _ _ E4) as (cl & p3 & E6 & E7). injection E7 as <- <-.
  destruct (p_at_end p2) eqn:AE.
  - destruct (at_end_stuck _ _ A2 AE) as (St & ->).
    destruct (opt_ok_some _ _ _ _ _ E6) as [(t & -> & E8) | (e & -> & E8)].
    { exfalso. unfold parse_kind, parse_single in E8. rewrite (stuck_kind p2 K_RightParen St (or_introl (or_intror (or_intror eq_refl))) [] A2) in E8.
      destruct (next p2) as [[? ?] |]; discriminate. }
    unfold parse_kind, parse_single in E8. destruct (peek _ p2) as [b |]; [| discriminate]. destruct (next p2) as [[c p3'] |] eqn:N; [| discriminate].
    destruct (took_end p2 c p3' A2 N) as (T3 & A3). assert (p3' = p3) by (destruct b; congruence). subst p3'.
    exists (f :: inner), f, vs, None, inner. split; [replace (f :: inner) with ([f] ++ inner ++ []) by (cbn; now rewrite app_nil_r); eapply took_trans; [exact T1 | eapply took_trans; eassumption] |].
    do 3 (split; [auto |]). split; [reflexivity |]. split; [| unfold p_at_end; now apply ahead_end].
    cbn [map]. rewrite K1. destruct Fin as [[Fin _] | [Fin _]]; [apply lo_here; auto | apply lo_inside; auto].
  - destruct Fin as [[Fin [Q | Pk]] | [_ Q]]; try congruence.
    destruct (opt_ok_some _ _ _ _ _ E6) as [(t & -> & E8) | (e & _ & E8)]; [| exfalso; exact (peek_then_parse _ _ _ _ _ _ Pk E8)].
    destruct (parse_kind_inv K_RightParen p2 cs2 t p3 ltac:(discriminate) A2 E8) as (T3 & K3).
    exists (f :: inner ++ [t]), f, vs, (Some t), inner. split; [change (f :: inner ++ [t]) with ([f] ++ inner ++ [t]); eapply took_trans; [exact T1 | eapply took_trans; [exact T2 | exact T3]] |].
    do 3 (split; [auto |]). auto.
Qed.

Lemma ws_stuck : forall p sk w rest q, skips_comments p -> ahead (plex p) (sk ++ w :: rest) -> Forall (in_kinds KS_COMMENTS) sk -> kind_of w = K_Whitespace -> took p q [w] -> ahead (plex q) rest ->
  stuck p -> stuck q.
Proof.
  intros p sk w rest q Sk A F K T A' (c & E & H1 & H2 & H3 & H4). destruct (took_settings _ _ _ T) as (_ & _ & S3 & _ & S5 & _).
  assert (F' : Forall (in_kinds (pskip p)) sk) by (eapply Forall_impl; [| exact F]; now apply comments_only).
  destruct (kindset_contains (pskip p) (tkind (ctok w))) eqn:B.
  - destruct (skip_split (pskip p) rest) as (sk2 & rest2 & -> & F2 & St2).
    assert (E1 : peek_next p = Some (hd_or_eof (plex p) rest2)).
    { apply (peek_next_spec p (sk ++ w :: sk2) rest2); [rewrite <- app_assoc; exact A | | exact St2]. apply Forall_app. split; [exact F' | constructor; [exact B | exact F2]]. }
    assert (E2 : peek_next q = Some (hd_or_eof (plex q) rest2)) by (apply (peek_next_spec q sk2 rest2); rewrite ?S3; auto).
    exists c. split; [| auto]. rewrite E2, <- E, E1. unfold hd_or_eof. now rewrite S5.
  - exfalso. assert (E1 := peek_next_spec p sk (w :: rest) A F'). cbn [hd_or_eof] in E1. rewrite E1 in E by (cbn; unfold in_kinds; congruence).
    injection E as <-. apply H2. rewrite K. left. reflexivity.
Qed.

Theorem fuel_good : forall n, cv_good (cv_fuel n) /\ values_good (values_fuel n) /\ args_good (args_fuel n).
Proof.
  induction n as [| n (IHc & IHv & IHa)]; [repeat split; intros ? ? ? ? _ _ H; discriminate |]. split; [| split].
  - intros p cs v q Sk A E. cbn [cv_fuel] in E.
    destruct (or_peek_inv _ _ _ _ _ _ E) as [[Pw E1] | [Pw E1]]; clear E.
    { destruct (pmap_inv _ _ _ _ _ _ _ E1) as (c & E2 & ->). destruct (parse_whitespace_inv p cs c q Sk A E2) as (T & K & sk & rest & Ec & F & A'). exists [c].
      split; [exact T |]. split; [repeat constructor |]. split; [left; cbn [map]; rewrite K; constructor; [now left | constructor] |]. split; [discriminate |].
      intro St. split; [| exists c; auto]. subst cs. exact (ws_stuck p sk c rest q Sk A F K T A' St). }
    destruct (or_peek_inv _ _ _ _ _ _ E1) as [[Pb E2] | [Pb E2]]; clear E1.
    { unfold in_state in E2. destruct (block_with (values_fuel n) (set_state p ST_NESTED)) as [[r q'] |] eqn:EB; [| discriminate]. injection E2 as -> <-.
      destruct (block_with_inv _ (set_state p ST_NESTED) cs v q' IHv Sk A EB) as (used & T & start & o & vs & close & oc & inner & -> & Eo & Ko & Em & R).
      apply took_in_state in T. exists used. split; [exact T |].
      split; [| split; [| split]].
      - cbn [cv_cursors]. destruct close as [t |].
        + destruct R as (c & Et & Kc & -> & _). constructor; [right; split; [cbn; congruence | now left] |]. apply F2_app; [exact Em |].
          constructor; [right; split; [cbn; congruence | now right] | constructor].
        + destruct R as (-> & _). rewrite app_nil_r. constructor; [right; split; [cbn; congruence | now left] | exact Em].
      - destruct close as [t |].
        + destruct R as (c & Et & Kc & -> & Gr). left. cbn [map]. rewrite map_app. cbn [map]. apply gr_block; auto. constructor.
        + destruct R as (_ & Lo & St). right. split; [exact Lo |]. apply (stuck_settings q'); auto.
      - destruct close; [destruct R as (? & _ & _ & -> & _) | destruct R as (-> & _)]; discriminate.
      - intro St. exfalso. rewrite (stuck_set p KS_PAIR_START St (fun k H => or_intror (or_intror (or_introl (proj1 (pair_start_kinds k) H)))) cs A) in Pb. discriminate. }
    destruct (or_peek_inv _ _ _ _ _ _ E2) as [[Pf E3] | [Pf E3]]; clear E2.
    { destruct (function_with_inv _ p cs v q IHa Sk A E3) as (used & f & vs & close & inner & T & -> & Kf & Em & R). exists used. split; [exact T |].
      split; [| split; [| split]].
      - cbn [cv_cursors]. destruct close as [c |].
        + destruct R as (Kc & -> & _). constructor; [apply re_emitted_refl |]. apply F2_app; [exact Em |]. constructor; [apply re_emitted_refl | constructor].
        + destruct R as (-> & _). rewrite app_nil_r. constructor; [apply re_emitted_refl | exact Em].
      - destruct close as [c |].
        + destruct R as (Kc & -> & Gr). left. cbn [map]. rewrite map_app, Kf. cbn [map]. rewrite Kc. apply gr_function; auto. constructor.
        + destruct R as (_ & Lo & AE). right. split; [exact Lo |]. destruct (took_ahead _ _ _ T) as (_ & cs' & _ & A' & _). apply (at_end_stuck q cs' A' AE).
      - destruct close; [destruct R as (_ & -> & _) | destruct R as (-> & _)]; discriminate.
      - intro St. exfalso. rewrite (stuck_kind p K_Function St (or_intror (or_intror (or_intror eq_refl))) cs A) in Pf. discriminate. }
    destruct (cv_tokens_good p cs v q A E3) as (c & T & Ec & Pl & Ev & Pk). exists [c]. split; [exact T |]. rewrite Ec. split; [repeat constructor |].
    split; [left; cbn [map]; constructor; [exact Pl | constructor] |]. split; [discriminate |].
    intro St. exfalso. rewrite (stuck_kind p (kind_of c) St (or_intror (or_introl Pl)) cs A) in Pk. discriminate.
  - intros p cs vs q Sk A E. cbn [values_fuel] in E. destruct (p_at_end p) eqn:AE.
    { injection E as <- <-. exists []. split; [exact (took_refl p cs A) |]. split; [constructor |]. split; [left; constructor |].
      destruct (at_end_stuck p cs A AE) as ((c & Ec & H1 & H2 & H3 & H4) & _). exists c. split; [exact Ec |]. tauto. }
    destruct (peeked p cs A) as (c & sk & rest & Ecs & F & Stp & Ec & Epk & Ps & Pk). subst cs.
    rewrite (next_is_stop_spec p sk rest A F Stp (proj2 Sk)), <- Ec in E. fold (kind_of c) in E.
    destruct (kindset_contains (pstop p) (kind_of c)) eqn:B.
    { injection E as <- <-. exists []. split; [exact (took_refl p _ A) |]. split; [constructor |]. split; [left; constructor |]. exists c. auto. }
    unfold or_peek in E. rewrite Ps in E. destruct (kindset_contains KS_COMPONENT (kind_of c)) eqn:B2.
    + destruct (bind_inv _ _ _ _ _ _ _ E) as (v & p1 & E1 & E2). destruct (pmap_inv _ _ _ _ _ _ _ E2) as (vs' & E3 & ->).
      destruct (IHc p _ v p1 Sk A E1) as (u1 & T1 & Em1 & Fin1 & _ & _). destruct (took_ahead _ _ _ T1) as (_ & cs1 & _ & A1 & _). pose proof (took_skips _ _ _ T1 Sk) as Sk1.
      destruct (IHv p1 cs1 vs' q Sk1 A1 E3) as (u2 & T2 & Em2 & Fin2 & En2).
      exists (u1 ++ u2). split; [eapply took_trans; eassumption |]. split; [now apply F2_app |]. split; [| exact En2].
      destruct Fin1 as [G1 | [L1 St1]].
      * unfold finished. rewrite map_app. destruct Fin2 as [G2 | [L2 St2]]; [left; now apply grouped_app | right; split; [now apply lo_after | exact St2]].
      * (* after an open group nothing more is read *)
        assert (vs' = [] /\ q = p1) as [-> ->].
        { destruct n as [| n]; [discriminate |]. cbn [values_fuel] in E3. destruct (p_at_end p1); [now injection E3 as <- <- |].
          destruct (peeked p1 cs1 A1) as (c1 & sk1 & rest1 & Ecs1 & F1 & Stp1 & Ec1 & Epk1 & Ps1 & Pk1). subst cs1.
          rewrite (next_is_stop_spec p1 sk1 rest1 A1 F1 Stp1 (proj2 Sk1)) in E3. destruct (kindset_contains (pstop p1) _); [now injection E3 as <- <- |].
          unfold or_peek in E3. rewrite (stuck_set p1 KS_COMPONENT St1) with (cs := sk1 ++ rest1) in E3; [now injection E3 as <- <- | | exact A1].
          intros k Hk. apply component_kinds in Hk. tauto. }
        inversion Em2; subst. rewrite app_nil_r. right. split; [exact L1 | exact St1].
    + injection E as <- <-. exists []. split; [exact (took_refl p _ A) |]. split; [constructor |]. split; [left; constructor |]. exists c. split; [exact Epk |].
      right. intro H. apply component_kinds in H. congruence.
  - intros p cs vs q Sk A E. cbn [args_fuel] in E. destruct (p_at_end p) eqn:AE.
    { injection E as <- <-. exists []. split; [exact (took_refl p cs A) |]. split; [constructor |]. split; [left; split; [constructor | now left] |]. auto. }
    destruct (or_peek_inv _ _ _ _ _ _ E) as [[Pr E1] | [Pr E1]]; clear E.
    { injection E1 as <- <-. exists []. split; [exact (took_refl p cs A) |]. split; [constructor |]. split; [left; split; [constructor | now right] |].
      intro St. exfalso. rewrite (stuck_kind p K_RightParen St (or_introl (or_intror (or_intror eq_refl))) cs A) in Pr. discriminate. }
    destruct (bind_inv _ _ _ _ _ _ _ E1) as (v & p1 & E2 & E3). destruct (pmap_inv _ _ _ _ _ _ _ E3) as (vs' & E4 & ->).
    destruct (IHc p cs v p1 Sk A E2) as (u1 & T1 & Em1 & Fin1 & _ & Stk1). destruct (took_ahead _ _ _ T1) as (_ & cs1 & _ & A1 & _). pose proof (took_skips _ _ _ T1 Sk) as Sk1.
    destruct (IHa p1 cs1 vs' q Sk1 A1 E4) as (u2 & T2 & Em2 & Fin2 & Stk2).
    exists (u1 ++ u2). split; [eapply took_trans; eassumption |]. split; [now apply F2_app |]. split.
    + rewrite map_app. destruct Fin1 as [G1 | [L1 St1]].
      * destruct Fin2 as [[G2 Q] | [L2 Q]]; [left; split; [now apply grouped_app | exact Q] | right; split; [now apply lo_after | exact Q]].
      * destruct (Stk2 St1) as (AEq & Ws). right. split; [| exact AEq]. clear - L1 Ws. revert L1. generalize (map kind_of u1). induction u2 as [| w u2 IH]; intros a La; [now rewrite app_nil_r |].
        cbn [map]. replace (a ++ kind_of w :: map kind_of u2) with ((a ++ [kind_of w]) ++ map kind_of u2) by now rewrite <- app_assoc.
        apply IH; [exact (Forall_inv_tail Ws) |]. apply left_open_plain; [exact La |]. rewrite (Forall_inv Ws). now left.
    + intro St. destruct (Stk1 St) as (St1 & c & -> & Kc). destruct (Stk2 St1) as (AEq & Ws). split; [exact AEq |]. constructor; auto.
Qed.
