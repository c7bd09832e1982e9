(* peek_n, straight-line histories, parse_entirely, and the failures. *)
From Coq Require Import ZifyBool ZifyNat ZifyN.
From Verif Require Import Parser SpecLex SpecTrace SpecParser LexBase TokenProofs KindProofs LexFacts LexTrace ParserProofs ParserProofs2.
Open Scope N_scope.
Open Scope list_scope.
Ltac Zify.zify_post_hook ::= Z.div_mod_to_equations.

Definition kept (s : kindset) (cs : list cursor) : list cursor := filter (fun c => negb (kindset_contains s (tkind (ctok c)))) cs.
Lemma kept_skipped : forall s sk rest, Forall (in_kinds s) sk -> kept s (sk ++ rest) = kept s rest.
Proof.
  intros s sk rest F. induction F as [| c sk H F IH]; [reflexivity |]. cbn. unfold in_kinds in H. rewrite H. cbn. exact IH.
Qed.
Lemma kept_cons : forall s c cs, ~ in_kinds s c -> kept s (c :: cs) = c :: kept s cs.
Proof. intros s c cs H. cbn. unfold in_kinds in H. destruct (kindset_contains s _); [congruence | reflexivity]. Qed.
Lemma kept_stop : forall s rest, stops_skip s rest -> kept s rest = match rest with [] => [] | c :: cs => c :: kept s cs end.
Proof. intros s [| c cs] H; [reflexivity |]. now apply kept_cons. Qed.

Lemma peek_n_loop_spec : forall cs n s x k, ahead x cs -> (length cs < n)%nat -> 1 <= k ->
  peek_n_loop n s x k = Some (nth (N.to_nat k - 1) (kept s cs) (Cursor (blen (lsrc x)) T_EOF)).
Proof.
  induction cs as [| c cs IH]; intros n s x k A L Hk; (destruct n as [| n]; [cbn in L; lia |]); cbn [peek_n_loop].
  - remember [] as l eqn:E. destruct A; [| discriminate]. rewrite advance_eof by assumption. replace (tok_is T_EOF K_Eof) with true by reflexivity.
    rewrite H. cbn [kept filter]. now destruct (N.to_nat k - 1)%nat.
  - cbn [length] in L. destruct (ahead_inv _ _ _ A) as (t & y & Ec & Ad & K & L' & A' & F1 & F2). rewrite Ad, (kind_eof_bits _ K). subst c.
    assert (IH' : forall k, 1 <= k -> peek_n_loop n s y k = Some (nth (N.to_nat k - 1) (kept s cs) (Cursor (blen (lsrc x)) T_EOF))).
    { intros k' Hk'. rewrite (IH n s y k' A') by lia. now rewrite F1. }
    cbn [kept filter ctok]. rewrite <- kindset_token by now apply wf_of_kind. destruct (tok_in t s); cbn [negb].
    + now apply IH'.
    + destruct (k =? 0) eqn:Z; [lia |]. destruct (k - 1 =? 0) eqn:Z1.
      * replace (N.to_nat k - 1)%nat with 0%nat by lia. reflexivity.
      * rewrite IH' by lia. replace (N.to_nat k - 1)%nat with (S (N.to_nat (k - 1) - 1)) by lia. reflexivity.
Qed.
Lemma peek_n_spec : forall p cs k, ahead (plex p) cs -> 1 <= k -> peek_n p k = Some (nth (N.to_nat k - 1) (kept (pskip p) cs) (eof_cursor p)).
Proof. intros p cs k A H. unfold peek_n. apply peek_n_loop_spec; auto. now apply pfuel_enough. Qed.
Lemma nexts_spec : forall n p c, nexts n p c -> forall cs, ahead (plex p) cs -> c = nth (n - 1) (kept (pskip p) cs) (eof_cursor p).
Proof.
  intros n p c H. induction H as [p c q N | n p c q d N H IH]; intros cs A.
  - destruct (next_total p cs A) as (c' & q' & sk & rest & N' & Ec & F & St & Eh & _). rewrite N in N'. injection N' as <- <-. subst cs.
    rewrite (kept_skipped _ _ _ F), (kept_stop _ _ St). rewrite Eh. now destruct rest.
  - destruct (next_total p cs A) as (c' & q' & sk & rest & N' & Ec & F & St & Eh & T & A' & S). rewrite N in N'. injection N' as <- <-. subst cs.
    specialize (IH _ A'). destruct S as (S1 & S2 & S3 & S4 & S5 & S6). unfold eof_cursor in *. rewrite S3, S5 in IH. rewrite IH.
    rewrite (kept_skipped _ _ _ F), (kept_stop _ _ St). replace (S n - 1)%nat with n by lia. replace (S (S n) - 1)%nat with (S n) by lia.
    destruct rest as [| c0 rest]; [now destruct n | reflexivity].
Qed.

(* ---- straight-line histories ---- *)
Lemma merged_app : forall A (a b c a' b' c' : list A), merged a b c -> merged a' b' c' -> merged (a ++ a') (b ++ b') (c ++ c').
Proof. intros A a b c a' b' c' H. induction H; intro H'; [exact H' | cbn; constructor; auto | cbn; constructor; auto]. Qed.
Lemma merged_right : forall A (b : list A), merged [] b b.
Proof. induction b; constructor; auto. Qed.
Lemma merged_one : forall A (sk : list A) c, merged [c] sk (sk ++ [c]).
Proof. induction sk as [| x sk IH]; intro c; cbn; [repeat constructor | constructor; apply IH]. Qed.

Definition skip_after (s : kindset) (o : op) : kindset := match o with OSkip s' => s' | _ => s end.
Lemma hd_eof : forall x c cs, tkind (ctok c) <> K_Eof -> is_eof (hd_or_eof x (c :: cs)) = false.
Proof. intros x c cs K. exact (kind_eof_bits _ K). Qed.
Lemma exec_spec : forall p o outs q cs, exec p o = Some (outs, q) -> ahead (plex p) cs -> exists consumed rest new,
  cs = consumed ++ rest /\ ahead (plex q) rest /\ ptrivia q = ptrivia p ++ new /\ merged (filter (fun c => negb (is_eof c)) outs) new consumed /\
  Forall (in_kinds (pskip p)) new /\ Forall (fun c => is_eof c = true \/ ~ in_kinds (pskip p) c) outs /\
  pskip q = skip_after (pskip p) o /\ same_source p q /\ perrs q = perrs p.
Proof.
  intros p o outs q cs E A. destruct o; cbn [exec] in E.
  - destruct (next_total p cs A) as (c & q' & sk & rest & N & Ec & F & St & Eh & T & A' & S). rewrite N in E. inversion E; subst outs q'.
    destruct S as (S1 & S2 & S3 & S4 & S5 & S6). subst cs. destruct rest as [| c0 rest].
    + exists sk, [], sk. cbn [tl] in A'. subst c. cbn [filter hd_or_eof]. replace (is_eof (Cursor (blen (lsrc (plex p))) T_EOF)) with true by reflexivity. cbn [negb]. split; [reflexivity |]. split; [exact A' |]. split; [exact T |]. split; [apply merged_right |]. split; [exact F |]. split; [constructor; [now left | constructor] |]. repeat split; auto.
    + exists (sk ++ [c0]), rest, sk. cbn [tl] in A'. cbn in Eh. subst c. rewrite <- app_assoc. cbn [filter].
      assert (K : is_eof c0 = false) by (unfold is_eof; apply kind_eof_bits; apply (ahead_kind _ _ A); apply in_or_app; right; now left).
      rewrite K. cbn [negb]. split; [reflexivity |]. split; [exact A' |]. split; [exact T |]. split; [apply merged_one |]. split; [exact F |]. split; [constructor; [now right | constructor] |]. repeat split; auto.
  - destruct (trivia_total p cs A) as (q' & sk & rest & N & Ec & F & St & T & A' & S). rewrite N in E. inversion E; subst outs q'.
    destruct S as (S1 & S2 & S3 & S4 & S5 & S6). exists sk, rest, sk. repeat split; auto. apply merged_right.
  - inversion E; subst. exists [], cs, []. repeat split; auto; [now rewrite app_nil_r | constructor].
  - inversion E; subst. exists [], cs, []. repeat split; auto; [now rewrite app_nil_r | constructor].
  - inversion E; subst. exists [], cs, []. repeat split; auto; [now rewrite app_nil_r | constructor].
Qed.
Lemma history_spec : forall p os outs q, exec_all p os outs q -> forall cs, ahead (plex p) cs -> exists consumed rest new,
  cs = consumed ++ rest /\ ahead (plex q) rest /\ ptrivia q = ptrivia p ++ new /\ merged (filter (fun c => negb (is_eof c)) outs) new consumed /\
  same_source p q /\ perrs q = perrs p.
Proof.
  intros p os outs q H. induction H as [p | p o os outs q outs' r E H IH]; intros cs A.
  - exists [], cs, []. repeat split; auto; [now rewrite app_nil_r | constructor].
  - destruct (exec_spec _ _ _ _ _ E A) as (c1 & r1 & n1 & E1 & A1 & T1 & M1 & _ & _ & _ & (S1 & S2) & P1).
    destruct (IH _ A1) as (c2 & r2 & n2 & E2 & A2 & T2 & M2 & (S3 & S4) & P2).
    exists (c1 ++ c2), r2, (n1 ++ n2). rewrite filter_app. repeat split; try congruence.
    + now rewrite E1, E2, app_assoc.
    + now rewrite T2, T1, app_assoc.
    + now apply merged_app.
Qed.
(* with the skip set left alone, the trivia are exactly the tokens of its kinds *)
Definition no_set_skip (os : list op) : Prop := forall s, ~ In (OSkip s) os.
Definition not_in (s : kindset) (c : cursor) : bool := negb (kindset_contains s (tkind (ctok c))).
Definition is_in (s : kindset) (c : cursor) : bool := kindset_contains s (tkind (ctok c)).
Lemma merged_filter : forall (f : cursor -> bool) a b c, merged a b c -> Forall (fun x => f x = false) a -> Forall (fun x => f x = true) b ->
  a = filter (fun x => negb (f x)) c /\ b = filter f c.
Proof.
  intros f a b c H. induction H as [| x a b c H IH | x a b c H IH]; intros FA FB; [auto | |].
  - inversion FA; subst. destruct (IH H3 FB) as [E1 E2]. cbn. rewrite H2. cbn. rewrite <- E1, <- E2. auto.
  - inversion FB; subst. destruct (IH FA H3) as [E1 E2]. cbn. rewrite H2. cbn. rewrite <- E1, <- E2. auto.
Qed.
Lemma history_fixed_skip : forall p os outs q, exec_all p os outs q -> no_set_skip os -> forall cs, ahead (plex p) cs -> exists consumed rest,
  cs = consumed ++ rest /\ ahead (plex q) rest /\ ptrivia q = ptrivia p ++ filter (is_in (pskip p)) consumed /\
  filter (fun c => negb (is_eof c)) outs = filter (not_in (pskip p)) consumed.
Proof.
  intros p os outs q H. induction H as [p | p o os outs q outs' r E H IH]; intros NS cs A.
  - exists [], cs. repeat split; auto. now rewrite app_nil_r.
  - destruct (exec_spec _ _ _ _ _ E A) as (c1 & r1 & n1 & E1 & A1 & T1 & M1 & F1 & F2 & K & _).
    assert (K' : pskip q = pskip p) by (destruct o; auto; exfalso; apply (NS s); now left).
    destruct (IH (fun s Q => NS s (or_intror Q)) _ A1) as (c2 & r2 & E2 & A2 & T2 & O2). rewrite K' in *.
    assert (MF : filter (fun c => negb (is_eof c)) outs = filter (fun x => negb (is_in (pskip p) x)) c1 /\ n1 = filter (is_in (pskip p)) c1).
    { apply merged_filter; [exact M1 | | ].
      - apply Forall_forall. intros x Hx. apply filter_In in Hx. destruct Hx as [Hx Ex]. rewrite Forall_forall in F2. destruct (F2 x Hx) as [Q | Q]; [rewrite Q in Ex; discriminate |].
        unfold is_in, in_kinds in *. destruct (kindset_contains _ _); congruence.
      - eapply Forall_impl; [| exact F1]. intros x Hx. exact Hx. }
    destruct MF as [M2 M3]. exists (c1 ++ c2), r2. rewrite !filter_app. repeat split.
    + now rewrite E1, E2, app_assoc.
    + exact A2.
    + rewrite T2, T1, M3, app_assoc. reflexivity.
    + rewrite M2, O2. reflexivity.
Qed.

(* ---- parse_entirely ---- *)
Lemma set_trivia_settings : forall p t, same_settings p (with_lex_trivia p (plex p) t).
Proof. intros. repeat split. Qed.
Lemma drain_spec : forall n p cs, (length cs < n)%nat -> ahead (plex p) cs ->
  exists q, drain_loop n p = Some q /\ ptrivia q = ptrivia p ++ cs ++ [eof_cursor p] /\ plex q = eof_lexer (plex p) /\ perrs q = perrs p.
Proof.
  induction n as [| n IH]; intros p cs L A; [lia |]. cbn [drain_loop].
  destruct (skip_split (pskip p) cs) as (sk & rest & E & F & St). subst cs.
  pose proof (next_loop_spec sk (pfuel p) (pskip p) (plex p) (ptrivia p) rest A F St (pfuel_enough _ _ A)) as H.
  unfold next. unfold next_result in H. destruct rest as [| c cs].
  - rewrite H. cbn [ctok]. replace (tok_is T_EOF K_Eof) with true by reflexivity. eexists. split; [reflexivity |]. cbn. rewrite app_nil_r. unfold eof_cursor. rewrite <- app_assoc. auto.
  - destruct H as (y & E & Ay & F1 & F2). rewrite E. cbn [with_lex_trivia plex ptrivia].
    assert (K : tok_is (ctok c) K_Eof = false) by (apply kind_eof_bits; apply (ahead_kind _ _ A); apply in_or_app; right; now left). rewrite K.
    rewrite app_length in L. cbn [length] in L.
    match goal with |- context [drain_loop n ?P] => destruct (IH P cs) as (q & D & T & X & Er); [lia | exact Ay |] end.
    exists q. split; [exact D |]. rewrite T, X. cbn. unfold eof_cursor, eof_lexer. cbn. rewrite F1, F2, <- !app_assoc. cbn. auto.
Qed.
Lemma stops_skip_cons : forall s c cs, stops_skip s (c :: cs) -> kindset_contains s (tkind (ctok c)) = false.
Proof. intros s c cs H. cbn in H. unfold in_kinds in H. destruct (kindset_contains _ _); congruence. Qed.

Lemma entirely_spec : forall A (m : P A) p r p1 cs, m p = Some (r, p1) -> ahead (plex p1) cs ->
  let output := match r with Ok a => Some a | Err _ => None end in
  let errors := perrs p1 ++ match r with Ok _ => [] | Err e => [e] end in
  exists q, (Forall (in_kinds (pskip p1)) cs -> parse_entirely m p = Some (ParserReturn output errors (ptrivia p1), q)) /\
    (~ Forall (in_kinds (pskip p1)) cs ->
      parse_entirely m p = Some (ParserReturn output (errors ++ [D_ExpectedEnd (span_new (poffset p1) (blen (lsrc (plex p1))))]) (ptrivia p1 ++ cs ++ [eof_cursor p1]), q)).
Proof.
  intros A m p r p1 cs M Ah output errors.
  set (p1' := match r with Ok _ => p1 | Err e => with_errs p1 (perrs p1 ++ [e]) end).
  assert (G : plex p1' = plex p1 /\ ptrivia p1' = ptrivia p1 /\ perrs p1' = errors /\ pskip p1' = pskip p1).
  { unfold p1', errors. destruct r; cbn; repeat split. now rewrite app_nil_r. }
  destruct G as (G1 & G2 & G3 & G4).
  set (finish := fun p2 => Some (ParserReturn output (perrs p2) (ptrivia p2), with_lex_trivia (with_errs p2 []) (plex p2) [])).
  assert (E : parse_entirely m p = if p_at_end p1' then finish p1' else
      match peek_next p1' with None => None | Some c => if tok_is (ctok c) K_Eof then finish p1' else
        match drain_loop (pfuel p1') p1' with None => None | Some p2 => finish (with_errs p2 (perrs p2 ++ [D_ExpectedEnd (span_new (poffset p1') (poffset p2))])) end end).
  { unfold parse_entirely. rewrite M. unfold finish, output, p1'. now destruct r. }
  destruct (skip_split (pskip p1) cs) as (sk & rest & Ec & F & St).
  assert (Ah' : ahead (plex p1') (sk ++ rest)) by (rewrite G1, <- Ec; exact Ah).
  destruct (drain_spec (pfuel p1') p1' (sk ++ rest) (pfuel_enough _ _ Ah') Ah') as (q & D & T & X & Er).
  assert (PN : peek_next p1' = Some (hd_or_eof (plex p1') rest)) by (apply (peek_next_spec p1' sk rest Ah'); now rewrite G4).
  destruct rest as [| c rest].
  - eexists. split.
    + intros _. rewrite E. unfold finish. rewrite G2, G3. destruct (p_at_end p1'); [reflexivity |]. rewrite PN. cbn [hd_or_eof ctok]. reflexivity.
    + intro NF. exfalso. apply NF. rewrite Ec, app_nil_r. exact F.
  - eexists. split.
    + intro FA. exfalso. rewrite Ec in FA. apply Forall_app in FA. destruct FA as [_ FA]. cbn in St. apply St. exact (Forall_inv FA).
    + intros _. rewrite E. assert (AE : p_at_end p1' = false).
      { unfold p_at_end. destruct sk as [| s0 sk]; [exact (ahead_not_end _ _ _ Ah') | exact (ahead_not_end _ _ _ Ah')]. }
      rewrite AE, PN. cbn [hd_or_eof]. assert (K : tok_is (ctok c) K_Eof = false) by (apply kind_eof_bits; apply (ahead_kind _ _ Ah'); apply in_or_app; right; now left).
      rewrite K, D. unfold finish. cbn. rewrite Er, T, G2, G3, <- Ec. unfold poffset, eof_cursor. rewrite X, G1. reflexivity.
Qed.
