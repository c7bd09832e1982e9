(* Well-bracketed component values are accepted and read to their end. *)
From Coq Require Import ZifyBool ZifyNat ZifyN.
From Verif Require Import Syntax SpecLex SpecTrace SpecParser SpecSyntax SpecToken LexBase TokenProofs KindProofs LexFacts LexTrace ParserProofs ParserProofs2 ParserProofs3 ParserProofs4 CompareProofs SyntaxProofs SyntaxTotal.
Open Scope N_scope.
Open Scope list_scope.
Ltac Zify.zify_post_hook ::= Z.div_mod_to_equations.

Lemma trivia_kinds : forall c, in_kinds KS_TRIVIA c <-> is_trivia c.
Proof. intro c. unfold in_kinds, KS_TRIVIA. rewrite kindset_new_spec. unfold is_trivia, kind_of. cbn. intuition. Qed.
Lemma comment_kinds : forall c, in_kinds KS_COMMENTS c <-> kind_of c = K_Comment.
Proof. intro c. unfold in_kinds, KS_COMMENTS. rewrite kindset_new_spec. unfold kind_of. cbn. intuition. Qed.
Lemma is_trivia_dec : forall c, {is_trivia c} + {~ is_trivia c}.
Proof. intro c. unfold is_trivia. destruct (kind_eq_dec (kind_of c) K_Whitespace); [left; tauto |]. destruct (kind_eq_dec (kind_of c) K_Comment); [left | right]; tauto. Qed.

Definition starts_value (k : kind) : Prop := is_plain k \/ is_opener k \/ k = K_Function.
(* the first token that is not trivia *)
Lemma vt_peek : forall ok l, values_text ok l -> Forall is_trivia l \/
  exists sk y l', l = sk ++ y :: l' /\ Forall is_trivia sk /\ ~ is_trivia y /\ starts_value (kind_of y) /\ ok (kind_of y).
Proof.
  intros ok l H. induction H as [ok | ok c l K H IH | ok c l Pl Ok H IH | ok o a c b Op Ok Ha IHa Kc Hb IHb | ok f a c b Kf Ok Ha IHa Kc Hb IHb].
  - left. constructor.
  - destruct IH as [IH | (sk & y & l' & -> & F & R)]; [left; constructor; [now right | exact IH] |]. right. exists (c :: sk), y, l'. split; [reflexivity |]. split; [constructor; [now right | exact F] | exact R].
  - destruct (is_trivia_dec c) as [T | T].
    + destruct IH as [IH | (sk & y & l' & -> & F & R)]; [left; now constructor |]. right. exists (c :: sk), y, l'. split; [reflexivity |]. split; [now constructor | exact R].
    + right. exists [], c, l. split; [reflexivity |]. split; [constructor |]. split; [exact T |]. split; [now left |]. destruct Ok as [Q | Q]; [| exact Q]. exfalso. apply T. now left.
  - right. exists [], o, (a ++ c :: b). split; [reflexivity |]. split; [constructor |]. split; [| split; [right; now left | exact Ok]].
    unfold is_trivia. destruct Op as [Q | [Q | Q]]; rewrite Q; intuition discriminate.
  - right. exists [], f, (a ++ c :: b). split; [reflexivity |]. split; [constructor |]. split; [| split; [right; now right | now rewrite Kf]].
    unfold is_trivia. rewrite Kf. intuition discriminate.
Qed.
(* the first token that is not a comment *)
Lemma vt_head : forall ok l, values_text ok l -> Forall (fun c => kind_of c = K_Comment) l \/
  exists sk x l', l = sk ++ x :: l' /\ Forall (fun c => kind_of c = K_Comment) sk /\ kind_of x <> K_Comment /\
    (is_plain (kind_of x) /\ values_text ok l' \/
     is_opener (kind_of x) /\ (exists a c b, l' = a ++ c :: b /\ values_text (fun _ => True) a /\ kind_of c = closer_of (kind_of x) /\ values_text ok b) \/
     kind_of x = K_Function /\ (exists a c b, l' = a ++ c :: b /\ values_text (fun _ => True) a /\ kind_of c = K_RightParen /\ values_text ok b)).
Proof.
  intros ok l H. induction H as [ok | ok c l K H IH | ok c l Pl Ok H IH | ok o a c b Op Ok Ha IHa Kc Hb IHb | ok f a c b Kf Ok Ha IHa Kc Hb IHb].
  - left. constructor.
  - destruct IH as [IH | (sk & x & l' & -> & F & R)]; [left; constructor; [exact K | exact IH] |]. right. exists (c :: sk), x, l'. split; [reflexivity |]. split; [now constructor | exact R].
  - right. exists [], c, l. split; [reflexivity |]. split; [constructor |]. split; [intro Q; rewrite Q in Pl; unfold is_plain in Pl; cbn in Pl; intuition discriminate |]. left. auto.
  - right. exists [], o, (a ++ c :: b). split; [reflexivity |]. split; [constructor |]. split; [destruct Op as [Q | [Q | Q]]; rewrite Q; discriminate |]. right. left. split; [exact Op |]. exists a, c, b. auto.
  - right. exists [], f, (a ++ c :: b). split; [reflexivity |]. split; [constructor |]. split; [rewrite Kf; discriminate |]. right. right. split; [exact Kf |]. exists a, c, b. auto.
Qed.

Lemma skip_trivia_ok : forall p, pskip p = KS_TRIVIA -> skips_comments p.
Proof. intros p E. unfold skips_comments. rewrite E. split; reflexivity. Qed.
Lemma comments_trivia : forall l, Forall (fun c => kind_of c = K_Comment) l -> Forall (in_kinds KS_TRIVIA) l /\ Forall (in_kinds KS_COMMENTS) l.
Proof. intros l H. split; (eapply Forall_impl; [| exact H]); intros c K; [apply trivia_kinds; now right | now apply comment_kinds]. Qed.

Lemma peek_kind_at : forall p sk c rest k, ahead (plex p) (sk ++ c :: rest) -> Forall (in_kinds (pskip p)) sk -> ~ in_kinds (pskip p) c ->
  peek (peek_kind k) p = Some (if kind_eq_dec (kind_of c) k then true else false).
Proof.
  intros p sk c rest k A F N. unfold peek. rewrite (peek_next_spec p sk (c :: rest) A F N). cbn [hd_or_eof]. unfold peek_kind. f_equal.
  assert (W : well_formed (ctok c)) by (apply wf_of_kind, (ahead_kind _ _ A), in_or_app; right; now left). pose proof (tok_is_kind _ k W) as H. fold (kind_of c) in H.
  destruct (kind_eq_dec (kind_of c) k); [tauto |]. destruct (tok_is (ctok c) k); tauto.
Qed.
Lemma peek_kindset_at : forall p sk c rest s, ahead (plex p) (sk ++ c :: rest) -> Forall (in_kinds (pskip p)) sk -> ~ in_kinds (pskip p) c ->
  peek (peek_kindset s) p = Some (kindset_contains s (kind_of c)).
Proof.
  intros p sk c rest s A F N. destruct (peeked p _ A) as (c' & sk' & rest' & _ & _ & _ & _ & E & Ps & _). rewrite Ps.
  rewrite (peek_next_spec p sk (c :: rest) A F N) in E. cbn [hd_or_eof] in E. now injection E as <-.
Qed.
Lemma parse_kind_ok : forall k p sk c rest, ahead (plex p) (sk ++ c :: rest) -> Forall (in_kinds (pskip p)) sk -> ~ in_kinds (pskip p) c -> kind_of c = k ->
  exists q, parse_kind k p = Some (Ok c, q) /\ took p q [c] /\ ahead (plex q) rest.
Proof.
  intros k p sk c rest A F N K. apply (parse_single_ok _ _ (fun c => c) p sk c rest A F N). unfold peek_kind. f_equal. apply tok_is_kind; [| exact K].
  apply wf_of_kind, (ahead_kind _ _ A), in_or_app. right. now left.
Qed.
Lemma parse_kindset_ok : forall s p sk c rest, ahead (plex p) (sk ++ c :: rest) -> Forall (in_kinds (pskip p)) sk -> ~ in_kinds (pskip p) c -> kindset_contains s (kind_of c) = true ->
  exists q, parse_single (peek_kindset s) ctok p = Some (Ok (ctok c), q) /\ took p q [c] /\ ahead (plex q) rest.
Proof.
  intros s p sk c rest A F N K. apply (parse_single_ok _ _ ctok p sk c rest A F N). unfold peek_kindset. f_equal. apply in_kinds_tok; [| exact K].
  apply (ahead_kind _ _ A), in_or_app. right. now left.
Qed.
Lemma parse_whitespace_ok : forall p sk c rest, ahead (plex p) (sk ++ c :: rest) -> Forall (in_kinds KS_COMMENTS) sk -> kind_of c = K_Whitespace -> skips_comments p ->
  exists q, parse_whitespace p = Some (Ok c, q) /\ took p q [c] /\ ahead (plex q) rest.
Proof.
  intros p sk c rest A F K Sk. unfold parse_whitespace.
  assert (N : ~ in_kinds (pskip (set_skip p KS_COMMENTS)) c) by (cbn [set_skip pskip]; intro Q; apply comment_kinds in Q; congruence).
  destruct (next_token (set_skip p KS_COMMENTS) sk c rest A F N) as (q & E & T & A'). rewrite E.
  assert (B : tok_is (ctok c) K_Whitespace = true) by (apply tok_is_kind; [apply wf_of_kind; unfold kind_of in K; congruence | exact K]).
  rewrite B. cbn [negb]. eexists. split; [reflexivity |]. split; [apply (took_set_skip p q KS_COMMENTS); [exact T | now apply comments_only] | exact A'].
Qed.
(* what T![' '] peeks *)
Lemma peek_whitespace_at : forall p sk c rest, pskip p = KS_TRIVIA -> ahead (plex p) (sk ++ c :: rest) -> Forall (fun c => kind_of c = K_Comment) sk -> kind_of c <> K_Comment ->
  peek peek_whitespace p = Some (if kind_eq_dec (kind_of c) K_Whitespace then true else false).
Proof.
  intros p sk c rest Sk A F N. destruct (peek_ws_next p _ A) as (sk' & rest' & E & F' & St' & _ & b & Eb & Hb).
  assert (W : forall d, ws_in (pskip p) d <-> kind_of d = K_Comment).
  { intro d. unfold ws_in. rewrite Sk, trivia_kinds. unfold is_trivia, kind_of. destruct (kind_eq_dec (tkind (ctok d)) K_Comment) as [Q | Q]; [rewrite Q; intuition discriminate | intuition]. }
  assert (H : sk' = sk /\ rest' = c :: rest).
  { clear - E F F' St' W N. revert sk' E F'. induction sk as [| d sk IH]; intros [| d' sk'] E F'; cbn [app] in E.
    - auto.
    - exfalso. injection E as -> E. apply N. apply W. exact (Forall_inv F').
    - exfalso. subst rest'. apply St'. apply W. exact (Forall_inv F).
    - injection E as -> E. destruct (IH (Forall_inv_tail F) sk' E (Forall_inv_tail F')) as [-> ->]. auto. }
  destruct H as [-> ->]. cbn [hd_or_eof] in Hb. rewrite Eb. destruct (kind_eq_dec (kind_of c) K_Whitespace); destruct b; intuition congruence.
Qed.
Lemma cv_tokens_ok : forall p sk c rest, pskip p = KS_TRIVIA -> ahead (plex p) (sk ++ c :: rest) -> Forall (in_kinds KS_TRIVIA) sk -> is_plain (kind_of c) -> kind_of c <> K_Whitespace ->
  exists q, cv_tokens p = Some (Ok (CvToken (kind_of c) c), q) /\ took p q [c] /\ ahead (plex q) rest.
Proof.
  intros p sk c rest Sk A F Pl NW. assert (N : ~ in_kinds (pskip p) c).
  { rewrite Sk, trivia_kinds. intros [Q | Q]; [congruence |]. rewrite Q in Pl. unfold is_plain in Pl. cbn in Pl. intuition discriminate. }
  rewrite <- Sk in F. assert (I : In (kind_of c) CV_KINDS) by (unfold is_plain, CV_KINDS in *; cbn in *; intuition congruence).
  unfold cv_tokens. induction CV_KINDS as [| k ks IH]; [destruct I |]. cbn [fold_right]. unfold or_peek at 1. rewrite (peek_kind_at p sk c rest k A F N).
  destruct (kind_eq_dec (kind_of c) k) as [E | E].
  - destruct (parse_kind_ok k p sk c rest A F N E) as (q & E1 & T & A'). exists q. unfold pmap, bind. rewrite E1. rewrite E. auto.
  - apply IH. destruct I as [I | I]; [congruence | exact I].
Qed.

Definition reads_values (n : nat) : Prop := forall ok body p rest, values_text ok body -> pskip p = KS_TRIVIA -> ahead (plex p) (body ++ rest) -> (2 * length body + 2 <= n)%nat ->
  (forall k, ok k -> kindset_contains (pstop p) k = false) -> ends_values (pstop p) rest ->
  exists vs q tr, values_fuel n p = Some (Ok vs, q) /\ Forall is_trivia tr /\ ahead (plex q) (tr ++ rest) /\ same_settings p q.
Definition reads_args (n : nat) : Prop := forall body p c rest, values_text (fun _ => True) body -> pskip p = KS_TRIVIA -> ahead (plex p) (body ++ c :: rest) -> (2 * length body + 2 <= n)%nat ->
  kind_of c = K_RightParen -> exists vs q tr, args_fuel n p = Some (Ok vs, q) /\ Forall is_trivia tr /\ ahead (plex q) (tr ++ c :: rest) /\ same_settings p q.
(* one value *)
Definition reads_one (n : nat) : Prop := forall ok body p rest, values_text ok body -> pskip p = KS_TRIVIA -> ahead (plex p) (body ++ rest) -> (2 * length body + 1 <= n)%nat -> ~ Forall is_trivia body ->
  exists v q body', cv_fuel n p = Some (Ok v, q) /\ values_text ok body' /\ (length body' < length body)%nat /\ ahead (plex q) (body' ++ rest) /\ same_settings p q.

Lemma trivia_forall_dec : forall l, {Forall is_trivia l} + {~ Forall is_trivia l}.
Proof. intro l. apply Forall_dec. exact is_trivia_dec. Qed.
Lemma ts : forall l, Forall is_trivia l <-> Forall (in_kinds KS_TRIVIA) l.
Proof. intro l. split; intro H; (eapply Forall_impl; [| exact H]); intros c; apply trivia_kinds. Qed.

Lemma closer_not_trivia : forall k c, is_opener k -> kind_of c = closer_of k -> ~ is_trivia c.
Proof. intros k c Op Kc. unfold is_trivia. rewrite Kc. unfold closer_of. destruct Op as [Q | [Q | Q]]; rewrite Q; intuition discriminate. Qed.
Lemma block_reads : forall n, reads_values n -> forall p sk x a c l, pskip p = KS_TRIVIA -> ahead (plex p) (sk ++ x :: a ++ c :: l) -> Forall is_trivia sk ->
  is_opener (kind_of x) -> values_text (fun _ => True) a -> kind_of c = closer_of (kind_of x) -> (2 * length a + 2 <= n)%nat ->
  exists vs q, block_with (values_fuel n) p = Some (Ok (CvBlock (poffset p) (ctok x) vs (Some (ctok c))), q) /\ ahead (plex q) l /\ same_settings p q.
Proof.
  intros n IHv p sk x a c l Sk A Ft0 BO Va Kc L. unfold block_with, bind.
  assert (FTp : Forall (in_kinds (pskip p)) sk) by (rewrite Sk; now apply ts).
  assert (N : ~ in_kinds (pskip p) x) by (rewrite Sk, trivia_kinds; unfold is_trivia; destruct BO as [Q | [Q | Q]]; rewrite Q; intuition discriminate).
  destruct (parse_kindset_ok KS_PAIR_START p sk x _ A FTp N (proj2 (pair_start_kinds _) BO)) as (q1 & E1 & T1 & A1).
  unfold parse_pair_start. rewrite E1. unfold in_stop.
  assert (PE : pair_start_end (ctok x) = closer_of (kind_of x)) by (unfold pair_start_end, closer_of, kind_of in *; destruct BO as [Q | [Q | Q]]; rewrite Q; reflexivity).
  destruct (took_settings _ _ _ T1) as (_ & _ & S3 & _).
  destruct (IHv (fun k => kindset_contains (kindset_new [pair_start_end (ctok x)]) k = false) a (set_stop q1 (kindset_new [pair_start_end (ctok x)])) (c :: l)) as (vs & q2 & tr & E2 & Ft & A2 & S2).
  - (* inside the block no value starts with the closer *)
    clear - Va PE BO. remember (fun _ : kind => True) as tt eqn:Et. set (bad := kindset_new [pair_start_end (ctok x)]).
    assert (Cl : is_closer (pair_start_end (ctok x))) by (rewrite PE; unfold is_closer, closer_of; destruct BO as [Q | [Q | Q]]; rewrite Q; auto).
    assert (G : forall k, (is_plain k \/ is_opener k \/ k = K_Function) -> kindset_contains bad k = false).
    { intros k Hk. destruct (kindset_contains bad k) eqn:B; [| reflexivity]. apply kindset_new_spec in B. destruct B as [B | []]. rewrite <- B in Hk. exfalso. clear - Cl Hk.
      unfold is_closer, is_plain, is_opener in *. cbn in Hk. destruct Cl as [C | [C | C]]; rewrite C in Hk; intuition discriminate. }
    induction Va; subst ok; [constructor | apply vt_comment; auto | apply vt_plain; auto | apply vt_block; auto | apply vt_function; auto].
  - cbn [set_stop pskip]. congruence.
  - exact A1.
  - exact L.
  - auto.
  - cbn [ends_values set_stop pstop]. split; [exact (closer_not_trivia _ _ BO Kc) |]. left. apply kindset_new_spec. left. congruence.
  - rewrite E2. cbn [set_stop] in *. set (q2' := set_stop q2 (pstop q1)).
    assert (S2k : pskip q2' = KS_TRIVIA) by (change (pskip q2 = KS_TRIVIA); destruct S2 as (_ & _ & S23 & _); cbn [set_stop pskip] in S23; congruence).
    assert (Ncl : ~ in_kinds (pskip q2') c) by (rewrite S2k, trivia_kinds; exact (closer_not_trivia _ _ BO Kc)).
    assert (Kcl : kindset_contains KS_PAIR_END (kind_of c) = true) by (apply pair_end_kinds; rewrite Kc; unfold is_closer, closer_of; destruct BO as [Q | [Q | Q]]; rewrite Q; auto).
    assert (Ft' : Forall (in_kinds (pskip q2')) tr) by (rewrite S2k; now apply ts).
    unfold or_peek at 1. rewrite (peek_kindset_at q2' tr c l KS_PAIR_END A2 Ft' Ncl), Kcl.
    destruct (parse_kindset_ok KS_PAIR_END q2' tr c l A2 Ft' Ncl Kcl) as (q3 & E3 & T3 & A3). unfold opt_ok, parse_pair_end. rewrite E3. unfold ret.
    eexists _, _. split; [reflexivity |]. split; [exact A3 |].
    eapply same_settings_trans; [exact (took_settings _ _ _ T1) |]. eapply same_settings_trans; [| exact (took_settings _ _ _ T3)].
    destruct S2 as (X1 & X2 & X3 & X4 & X5 & X6). repeat split; auto.
Qed.
Lemma function_reads : forall n, reads_args n -> forall p sk x a c l, pskip p = KS_TRIVIA -> ahead (plex p) (sk ++ x :: a ++ c :: l) -> Forall is_trivia sk ->
  kind_of x = K_Function -> values_text (fun _ => True) a -> kind_of c = K_RightParen -> (2 * length a + 2 <= n)%nat ->
  exists vs q, function_with (args_fuel n) p = Some (Ok (CvFunction x vs (Some c)), q) /\ ahead (plex q) l /\ same_settings p q.
Proof.
  intros n IHa p sk x a c l Sk A Ft0 KF Va Kc L. unfold function_with, bind.
  assert (FTp : Forall (in_kinds (pskip p)) sk) by (rewrite Sk; now apply ts).
  assert (N : ~ in_kinds (pskip p) x) by (rewrite Sk, trivia_kinds; unfold is_trivia; rewrite KF; intuition discriminate).
  destruct (parse_kind_ok K_Function p sk x _ A FTp N KF) as (q1 & E1 & T1 & A1). rewrite E1.
  destruct (took_settings _ _ _ T1) as (_ & _ & S3 & _).
  destruct (IHa a q1 c l Va) as (vs & q2 & tr & E2 & Ft & A2 & S2); [congruence | exact A1 | exact L | exact Kc |].
  rewrite E2. assert (S2k : pskip q2 = KS_TRIVIA) by (destruct S2 as (_ & _ & S23 & _); congruence).
  assert (Ncl : ~ in_kinds (pskip q2) c) by (rewrite S2k, trivia_kinds; unfold is_trivia; rewrite Kc; intuition discriminate).
  assert (Ft' : Forall (in_kinds (pskip q2)) tr) by (rewrite S2k; now apply ts).
  destruct (parse_kind_ok K_RightParen q2 tr c l A2 Ft' Ncl Kc) as (q3 & E3 & T3 & A3). unfold opt_ok. rewrite E3. unfold ret.
  eexists _, _. split; [reflexivity |]. split; [exact A3 |].
  eapply same_settings_trans; [exact (took_settings _ _ _ T1) |]. eapply same_settings_trans; [exact S2 | exact (took_settings _ _ _ T3)].
Qed.

Lemma reads_step : forall n, (forall m, (m < n)%nat -> reads_values m /\ reads_args m) -> reads_one n.
Proof.
  intros n IH ok body p rest V Sk A L NT. destruct n as [| n]; [lia |]. cbn [cv_fuel].
  destruct (vt_head ok body V) as [All | (sk & x & l' & -> & F & NC & Cases)].
  { exfalso. apply NT. eapply Forall_impl; [| exact All]. intros c K. now right. }
  rewrite <- app_assoc in A. cbn [app] in A. destruct (comments_trivia sk F) as [FT FC]. pose proof (skip_trivia_ok p Sk) as Sc.
  assert (FT' : Forall is_trivia sk) by now apply ts.
  unfold or_peek at 1. rewrite (peek_whitespace_at p sk x (l' ++ rest) Sk A F NC).
  rewrite app_length in L. cbn [length] in L.
  destruct (kind_eq_dec (kind_of x) K_Whitespace) as [KW | KW].
  { assert (V' : values_text ok l').
    { destruct Cases as [[_ V'] | [[Op _] | [Kf _]]]; [exact V' | |]; exfalso; [unfold is_opener in Op; rewrite KW in Op; intuition discriminate | congruence]. }
    destruct (parse_whitespace_ok p sk x (l' ++ rest) A FC KW Sc) as (q & E & T & A'). unfold pmap, bind. rewrite E. exists (CvToken K_Whitespace x), q, l'.
    split; [reflexivity |]. split; [exact V' |]. split; [rewrite app_length; cbn; lia |]. split; [exact A' | exact (took_settings _ _ _ T)]. }
  assert (N : ~ in_kinds (pskip p) x) by (rewrite Sk, trivia_kinds; intros [Q | Q]; congruence).
  assert (FTp : Forall (in_kinds (pskip p)) sk) by (rewrite Sk; exact FT).
  unfold or_peek at 1. rewrite (peek_kindset_at p sk x (l' ++ rest) KS_PAIR_START A FTp N).
  destruct (kindset_contains KS_PAIR_START (kind_of x)) eqn:BO.
  { apply pair_start_kinds in BO. assert (Cs : exists a c b, l' = a ++ c :: b /\ values_text (fun _ => True) a /\ kind_of c = closer_of (kind_of x) /\ values_text ok b).
    { destruct Cases as [[Pl _] | [[_ H] | [Kf _]]]; [| exact H |]; exfalso.
      - destruct BO as [Q | [Q | Q]]; rewrite Q in Pl; unfold is_plain in Pl; cbn in Pl; intuition discriminate.
      - destruct BO as [Q | [Q | Q]]; congruence. }
    destruct Cs as (a & c & b & -> & Va & Kc & Vb). rewrite <- app_assoc in A. cbn [app] in A. rewrite app_length in L. cbn [length] in L.
    destruct (block_reads n (proj1 (IH n ltac:(lia))) (set_state p ST_NESTED) sk x a c (b ++ rest) Sk A FT' BO Va Kc ltac:(lia)) as (vs & q & E & A' & (X1 & X2 & X3 & X4 & X5 & X6)).
    unfold in_state. rewrite E. eexists _, _, b. split; [reflexivity |]. split; [exact Vb |]. split; [rewrite !app_length; cbn [length]; rewrite app_length; cbn [length]; lia |].
    split; [exact A' |]. repeat split; auto. }
  unfold or_peek at 1. rewrite (peek_kind_at p sk x (l' ++ rest) K_Function A FTp N).
  destruct (kind_eq_dec (kind_of x) K_Function) as [KF | KF].
  { assert (Cs : exists a c b, l' = a ++ c :: b /\ values_text (fun _ => True) a /\ kind_of c = K_RightParen /\ values_text ok b).
    { destruct Cases as [[Pl _] | [[Op _] | [_ H]]]; [| | exact H]; exfalso.
      - rewrite KF in Pl; unfold is_plain in Pl; cbn in Pl; intuition discriminate.
      - apply pair_start_kinds in Op. congruence. }
    destruct Cs as (a & c & b & -> & Va & Kc & Vb). rewrite <- app_assoc in A. cbn [app] in A. rewrite app_length in L. cbn [length] in L.
    destruct (function_reads n (proj2 (IH n ltac:(lia))) p sk x a c (b ++ rest) Sk A FT' KF Va Kc ltac:(lia)) as (vs & q & E & A' & S').
    rewrite E. eexists _, _, b. split; [reflexivity |]. split; [exact Vb |]. split; [rewrite !app_length; cbn [length]; rewrite app_length; cbn [length]; lia |]. auto. }
  destruct Cases as [[Pl V'] | [[Op _] | [Q _]]]; [| apply pair_start_kinds in Op; congruence | congruence].
  destruct (cv_tokens_ok p sk x (l' ++ rest) Sk A FT Pl KW) as (q & E & T & A'). rewrite E. exists (CvToken (kind_of x) x), q, l'. split; [reflexivity |]. split; [exact V' |].
  split; [rewrite app_length; cbn; lia |]. split; [exact A' | exact (took_settings _ _ _ T)].
Qed.

Theorem reads_all : forall n, reads_values n /\ reads_args n.
Proof.
  induction n as [n IH] using lt_wf_ind. split.
  - intros ok body p rest V Sk A L Ok En. destruct n as [| n]; [lia |]. cbn [values_fuel].
    destruct (p_at_end p) eqn:AE.
    { destruct (at_end_stuck p _ A AE) as (_ & E). destruct body; [| discriminate]. exists [], p, []. split; [reflexivity |]. split; [constructor |]. split; [exact A | apply same_settings_refl]. }
    destruct (trivia_forall_dec body) as [T | T].
    + assert (Stp : stops_skip (pskip p) rest).
      { destruct rest as [| c rest]; cbn; [exact I |]. rewrite Sk, trivia_kinds. apply En. }
      assert (Fb : Forall (in_kinds (pskip p)) body) by (rewrite Sk; now apply ts).
      rewrite (next_is_stop_spec p body rest A Fb Stp) by (rewrite Sk; reflexivity).
      destruct (kindset_contains (pstop p) _) eqn:B.
      * exists [], p, body. split; [reflexivity |]. split; [exact T |]. split; [exact A | apply same_settings_refl].
      * unfold or_peek. destruct rest as [| c rest].
        { destruct (peeked p _ A) as (c & _ & _ & _ & _ & _ & _ & E & Ps & _). rewrite Ps. rewrite (peek_next_spec p body [] A Fb I) in E. injection E as <-. cbn [hd_or_eof].
          exists [], p, body. split; [reflexivity |]. split; [exact T |]. split; [exact A | apply same_settings_refl]. }
        rewrite (peek_kindset_at p body c rest KS_COMPONENT A Fb Stp). cbn [hd_or_eof] in B. destruct En as [_ [En | En]]; [unfold kind_of in En; congruence |].
        destruct (kindset_contains KS_COMPONENT (kind_of c)) eqn:B2; [apply component_kinds in B2; tauto |].
        exists [], p, body. split; [reflexivity |]. split; [exact T |]. split; [exact A | apply same_settings_refl].
    + destruct (vt_peek ok body V) as [Q | (sk & y & l' & Eb & Fs & Ny & Sv & Oy)]; [contradiction |].
      assert (A' := A). rewrite Eb, <- app_assoc in A'. cbn [app] in A'.
      assert (Fb : Forall (in_kinds (pskip p)) sk) by (rewrite Sk; now apply ts). assert (Ny' : ~ in_kinds (pskip p) y) by (rewrite Sk, trivia_kinds; exact Ny).
      rewrite (next_is_stop_spec p sk (y :: l' ++ rest) A' Fb Ny') by (rewrite Sk; reflexivity). cbn [hd_or_eof]. fold (kind_of y). rewrite (Ok _ Oy).
      unfold or_peek. rewrite (peek_kindset_at p sk y (l' ++ rest) KS_COMPONENT A' Fb Ny').
      assert (B2 : kindset_contains KS_COMPONENT (kind_of y) = true) by (apply component_kinds; exact Sv). rewrite B2.
      destruct (reads_step n (fun m Hm => IH m ltac:(lia)) ok body p rest V Sk A ltac:(lia) T) as (v & q & body' & E & V' & L' & Aq & Sq). unfold bind, pmap. rewrite E.
      destruct Sq as (X1 & X2 & X3 & X4 & X5 & X6).
      destruct (IH n ltac:(lia)) as [IHv _]. destruct (IHv ok body' q rest V') as (vs & q' & tr & E' & Ft & A2 & S2); [congruence | exact Aq | lia | rewrite X4; exact Ok | rewrite X4; exact En |].
      unfold bind. rewrite E'. eexists _, q', tr. split; [reflexivity |]. split; [exact Ft |]. split; [exact A2 |]. eapply same_settings_trans; [| exact S2]. repeat split; auto.
  - intros body p c rest V Sk A L Kc. destruct n as [| n]; [lia |]. cbn [args_fuel].
    destruct (p_at_end p) eqn:AE; [destruct (at_end_stuck p _ A AE) as (_ & E); destruct body; discriminate |].
    assert (Nc : ~ in_kinds (pskip p) c) by (rewrite Sk, trivia_kinds; unfold is_trivia; rewrite Kc; intuition discriminate).
    unfold or_peek. destruct (trivia_forall_dec body) as [T | T].
    + assert (Fb : Forall (in_kinds (pskip p)) body) by (rewrite Sk; now apply ts). rewrite (peek_kind_at p body c rest K_RightParen A Fb Nc). destruct (kind_eq_dec (kind_of c) K_RightParen); [| congruence].
      exists [], p, body. split; [reflexivity |]. split; [exact T |]. split; [exact A | apply same_settings_refl].
    + destruct (vt_peek _ body V) as [Q | (sk & y & l' & Eb & Fs & Ny & Sv & Oy)]; [contradiction |].
      assert (A' := A). rewrite Eb, <- app_assoc in A'. cbn [app] in A'.
      assert (Fb : Forall (in_kinds (pskip p)) sk) by (rewrite Sk; now apply ts). assert (Ny' : ~ in_kinds (pskip p) y) by (rewrite Sk, trivia_kinds; exact Ny).
      rewrite (peek_kind_at p sk y _ K_RightParen A' Fb Ny'). destruct (kind_eq_dec (kind_of y) K_RightParen) as [Q | Q].
      { exfalso. unfold starts_value, is_plain, is_opener in Sv. rewrite Q in Sv. cbn in Sv. intuition discriminate. }
      destruct (reads_step n (fun m Hm => IH m ltac:(lia)) _ body p (c :: rest) V Sk A ltac:(lia) T) as (v & q & body' & E & V' & L' & Aq & Sq). unfold bind, pmap. rewrite E.
      destruct Sq as (X1 & X2 & X3 & X4 & X5 & X6).
      destruct (IH n ltac:(lia)) as [_ IHa]. destruct (IHa body' q c rest V') as (vs & q' & tr & E' & Ft & A2 & S2); [congruence | exact Aq | lia | exact Kc |].
      unfold bind. rewrite E'. eexists _, q', tr. split; [reflexivity |]. split; [exact Ft |]. split; [exact A2 |]. eapply same_settings_trans; [| exact S2]. repeat split; auto.
Qed.

(* the entry points *)
Theorem values_accepted : forall ok body p rest, values_text ok body -> pskip p = KS_TRIVIA -> ahead (plex p) (body ++ rest) ->
  (forall k, ok k -> kindset_contains (pstop p) k = false) -> ends_values (pstop p) rest ->
  exists vs q tr, parse_component_values p = Some (Ok vs, q) /\ Forall is_trivia tr /\ ahead (plex q) (tr ++ rest).
Proof.
  intros ok body p rest V Sk A Ok En. pose proof (sfuel_enough p _ A) as L. rewrite app_length in L.
  destruct (proj1 (reads_all (sfuel p)) ok body p rest V Sk A ltac:(lia) Ok En) as (vs & q & tr & E & F & A' & _). exists vs, q, tr. auto.
Qed.
Theorem block_accepted : forall p sk x a c l, pskip p = KS_TRIVIA -> ahead (plex p) (sk ++ x :: a ++ c :: l) -> Forall is_trivia sk ->
  is_opener (kind_of x) -> values_text (fun _ => True) a -> kind_of c = closer_of (kind_of x) ->
  exists vs q, parse_simple_block p = Some (Ok (CvBlock (poffset p) (ctok x) vs (Some (ctok c))), q) /\ ahead (plex q) l.
Proof.
  intros p sk x a c l Sk A F BO Va Kc. pose proof (sfuel_enough p _ A) as L. rewrite app_length in L. cbn [length] in L. rewrite app_length in L.
  destruct (block_reads _ (proj1 (reads_all (sfuel p))) p sk x a c l Sk A F BO Va Kc ltac:(lia)) as (vs & q & E & A' & _). exists vs, q. auto.
Qed.
Theorem function_accepted : forall p sk x a c l, pskip p = KS_TRIVIA -> ahead (plex p) (sk ++ x :: a ++ c :: l) -> Forall is_trivia sk ->
  kind_of x = K_Function -> values_text (fun _ => True) a -> kind_of c = K_RightParen ->
  exists vs q, parse_function_block p = Some (Ok (CvFunction x vs (Some c)), q) /\ ahead (plex q) l.
Proof.
  intros p sk x a c l Sk A F BO Va Kc. pose proof (sfuel_enough p _ A) as L. rewrite app_length in L. cbn [length] in L. rewrite app_length in L.
  destruct (function_reads _ (proj2 (reads_all (sfuel p))) p sk x a c l Sk A F BO Va Kc ltac:(lia)) as (vs & q & E & A' & _). exists vs, q. auto.
Qed.
