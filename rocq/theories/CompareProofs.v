(* Single-token parsers, two-delimiter parsers and comparison operators. *)
From Coq Require Import ZifyBool ZifyNat ZifyN.
From Verif Require Import Parser SpecLex SpecTrace SpecParser LexBase TokenProofs KindProofs LexFacts LexTrace ParserProofs ParserProofs2 ParserProofs3.
Open Scope N_scope.
Open Scope list_scope.
Ltac Zify.zify_post_hook ::= Z.div_mod_to_equations.

Lemma some_inj : forall A (a b : A), Some a = Some b -> a = b.
Proof. intros A a b H. congruence. Qed.
Lemma same_settings_refl : forall p, same_settings p p.
Proof. repeat split. Qed.
Lemma same_settings_trans : forall p q r, same_settings p q -> same_settings q r -> same_settings p r.
Proof. intros p q r (A1 & A2 & A3 & A4 & A5 & A6) (B1 & B2 & B3 & B4 & B5 & B6). repeat split; congruence. Qed.
Lemma took_trans : forall p q r a b, took p q a -> took q r b -> took p r (a ++ b).
Proof.
  intros p q r a b (cs & new & rest & A & A' & T & M & F & S) (cs' & new' & rest' & B & B' & T' & M' & F' & S').
  exists (cs ++ cs'), (new ++ new'), rest'. rewrite (ahead_det _ _ B _ A') in A. rewrite <- app_assoc. split; [exact A |]. split; [exact B' |].
  split; [now rewrite T', T, app_assoc |]. split; [now apply merged_app |]. split; [| now apply (same_settings_trans p q r)].
  apply Forall_app. split; [exact F |]. destruct S as (_ & _ & S & _). now rewrite <- S.
Qed.
Lemma took_refl : forall p cs, ahead (plex p) cs -> took p p [].
Proof. intros p cs A. exists [], [], cs. repeat split; auto; [now rewrite app_nil_r | constructor]. Qed.

(* next, when the tokens ahead are known *)
Lemma next_token : forall p sk c rest, ahead (plex p) (sk ++ c :: rest) -> Forall (in_kinds (pskip p)) sk -> ~ in_kinds (pskip p) c ->
  exists q, next p = Some (c, q) /\ took p q [c] /\ ahead (plex q) rest.
Proof.
  intros p sk c rest A F St. destruct (next_spec p sk (c :: rest) A F St) as (q & N & T & A' & S). exists q. split; [exact N |]. split; [| exact A'].
  exists (sk ++ [c]), sk, rest. rewrite <- app_assoc. repeat split; auto; [apply merged_one | apply S ..].
Qed.
(* what a single-token parser does *)
Lemma parse_single_ok : forall A (k : peeker) (b : cursor -> A) p sk c rest, ahead (plex p) (sk ++ c :: rest) -> Forall (in_kinds (pskip p)) sk -> ~ in_kinds (pskip p) c ->
  k p c = Some true -> exists q, parse_single k b p = Some (Ok (b c), q) /\ took p q [c] /\ ahead (plex q) rest.
Proof.
  intros A k b p sk c rest Ah F St K. destruct (next_token p sk c rest Ah F St) as (q & N & T & A'). exists q. split; [| auto].
  unfold parse_single, peek. rewrite (peek_next_spec p sk (c :: rest) Ah F St). cbn [hd_or_eof]. now rewrite K, N.
Qed.
Lemma parse_single_inv : forall A (k : peeker) (b : cursor -> A) p cs a q, ahead (plex p) cs -> parse_single k b p = Some (Ok a, q) ->
  exists sk c rest, cs = sk ++ c :: rest /\ Forall (in_kinds (pskip p)) sk /\ ~ in_kinds (pskip p) c /\ k p c = Some true /\ a = b c /\ took p q [c] /\ ahead (plex q) rest
  \/ cs = sk /\ Forall (in_kinds (pskip p)) sk /\ c = eof_cursor p /\ k p c = Some true.
Proof.
  intros A k b p cs a q Ah E. destruct (skip_split (pskip p) cs) as (sk & rest & Ec & F & St). subst cs. unfold parse_single, peek in E.
  rewrite (peek_next_spec p sk rest Ah F St) in E. destruct (k p (hd_or_eof (plex p) rest)) as [bo |] eqn:K; [| discriminate].
  destruct rest as [| c rest]; cbn [hd_or_eof] in *.
  - destruct (next p) as [[c0 p0] |]; [| discriminate]. destruct bo; [| discriminate].
    exists sk, (eof_cursor p), []. right. rewrite app_nil_r. auto.
  - destruct (next_token p sk c rest Ah F St) as (q' & N & T & A'). rewrite N in E. destruct bo; [| discriminate]. injection E as <- <-.
    exists sk, c, rest. left. auto 10.
Qed.
(* the same for a kind that is not Eof: only the first case *)
Lemma parse_single_kind : forall A (k : peeker) (b : cursor -> A) p cs a q, (forall p o, k p (Cursor o T_EOF) <> Some true) -> ahead (plex p) cs -> parse_single k b p = Some (Ok a, q) ->
  exists sk c rest, cs = sk ++ c :: rest /\ Forall (in_kinds (pskip p)) sk /\ ~ in_kinds (pskip p) c /\ k p c = Some true /\ a = b c /\ took p q [c] /\ ahead (plex q) rest.
Proof.
  intros A k b p cs a q NE Ah E. destruct (parse_single_inv A k b p cs a q Ah E) as (sk & c & rest & [H | (_ & _ & Ec & K)]); [exists sk, c, rest; exact H |].
  exfalso. subst c. exact (NE _ _ K).
Qed.

Lemma not_none : forall c, ~ in_kinds KS_NONE c.
Proof. intros c H. unfold in_kinds, KS_NONE in H. apply kindset_new_spec in H. destruct H. Qed.
Lemma tok_is_char_spec : forall t ch, tok_is_char t ch = true <-> tchar t = Some ch.
Proof. intros t ch. unfold tok_is_char. destruct (tchar t) as [d |]; split; intro H; try discriminate; [f_equal; lia | inversion H; subst; apply N.eqb_refl]. Qed.
Lemma delim_eof : forall p o ch, peek_delim ch p (Cursor o T_EOF) <> Some true.
Proof. intros p o ch H. discriminate. Qed.
Lemma kind_eof : forall k p o, k <> K_Eof -> peek_kind k p (Cursor o T_EOF) <> Some true.
Proof. intros k p o N H. unfold peek_kind in H. cbn [ctok] in H. apply some_inj in H; rename H into H1. apply (tok_is_kind T_EOF k) in H1; [now apply N | now left]. Qed.

Lemma ahead_adjacent : forall x a b cs, ahead x (a :: b :: cs) -> adjacent a b.
Proof.
  intros x a b cs H. destruct (ahead_inv _ _ _ H) as (t & y & -> & Ad & K & L & A' & F1 & F2).
  destruct (ahead_inv _ _ _ A') as (t' & y' & -> & _). unfold adjacent. cbn. exact (proj2 (proj2 (advance_fields _ _ _ Ad))).
Qed.
(* two delimiters: the second must follow immediately *)
Lemma took_set_skip : forall p q s used, took (set_skip p s) q used -> (forall c, in_kinds s c -> in_kinds (pskip p) c) -> took p (set_skip q (pskip p)) used.
Proof.
  intros p q s used (cs & new & rest & A & A' & T & M & F & S) H. exists cs, new, rest. repeat split; auto; try (apply S).
  eapply Forall_impl; [| exact F]. exact H.
Qed.
Lemma parse_double_inv : forall a b p cs x q, ahead (plex p) cs -> parse_double a b p = Some (Ok x, q) ->
  is_delim a (fst x) /\ is_delim b (snd x) /\ adjacent (fst x) (snd x) /\ took p q [fst x; snd x].
Proof.
  intros a b p cs x q Ah E. unfold parse_double, bind in E. destruct (parse_kind K_Delim p) as [[[c1 | e] p1] |] eqn:E1; try discriminate.
  destruct (parse_single_kind _ _ _ _ _ _ _ (fun p o => kind_eof K_Delim p o ltac:(discriminate)) Ah E1) as (sk & c & rest & Ec & F & St & K & -> & T & A').
  destruct (negb (tok_is_char (ctok c) a)) eqn:Ba; [discriminate |]. apply negb_false_iff, tok_is_char_spec in Ba.
  destruct (parse_kind K_Delim (set_skip p1 KS_NONE)) as [[[c2 | e] p2] |] eqn:E2; try discriminate.
  destruct (negb (tok_is_char (ctok c2) b)) eqn:Bb; [discriminate |]. apply negb_false_iff, tok_is_char_spec in Bb. injection E as <- <-. cbn [fst snd].
  destruct (parse_single_kind _ _ (fun c => c) (set_skip p1 KS_NONE) rest _ _ (fun p o => kind_eof K_Delim p o ltac:(discriminate)) A' E2) as (sk2 & c2' & rest2 & Ec2 & F2 & St2 & K2 & -> & T2 & A2).
  assert (sk2 = []) by (destruct sk2 as [| z sk2]; [reflexivity | exfalso; exact (not_none z (Forall_inv F2))]). subst sk2. cbn [app] in Ec2. subst rest cs.
  assert (D : forall o, peek_kind K_Delim p o = Some true -> tkind (ctok o) <> K_Eof -> tkind (ctok o) = K_Delim).
  { intros o Ho Hk. unfold peek_kind in Ho. apply some_inj in Ho; rename Ho into H0. apply tok_is_kind in H0; [exact H0 | now apply wf_of_kind]. }
  assert (KA : forall z, In z (sk ++ c :: c2' :: rest2) -> tkind (ctok z) <> K_Eof) by exact (ahead_kind _ _ Ah).
  split; [split; [apply D; [exact K | apply KA, in_or_app; right; now left] | exact Ba] |].
  split; [split; [apply D; [exact K2 | apply KA, in_or_app; right; right; now left] | exact Bb] |].
  split.
  - destruct (ahead_app _ _ _ Ah) as (y & Ay & _). exact (ahead_adjacent _ _ _ _ Ay).
  - change [c; c2'] with ([c] ++ [c2']). apply (took_trans p p1 _ _ _ T). apply (took_set_skip p1 p2 KS_NONE); [exact T2 | intros z Hz; now apply not_none in Hz].
Qed.
Lemma parse_delim_inv : forall a p cs c q, ahead (plex p) cs -> parse_delim a p = Some (Ok c, q) -> is_delim a c /\ took p q [c].
Proof.
  intros a p cs c q Ah E. destruct (parse_single_kind _ _ _ _ _ _ _ (fun p o => delim_eof p o a) Ah E) as (sk & c' & rest & Ec & F & St & K & -> & T & A').
  split; [| exact T]. unfold peek_delim in K. apply some_inj in K; rename K into H0. apply andb_true_iff in H0. destruct H0 as [H1 H2]. split; [| now apply tok_is_char_spec].
  apply tok_is_kind in H1; [exact H1 |]. apply wf_of_kind. apply (ahead_kind _ _ Ah). rewrite Ec. apply in_or_app. right. now left.
Qed.
Lemma comparison_sound : forall p cs x q, ahead (plex p) cs -> parse_comparison p = Some (Ok x, q) -> comparison_spelled x /\ took p q (comparison_cursors x).
Proof.
  intros p cs x q Ah E. unfold parse_comparison, pmap, bind in E. destruct (peek_next p) as [c |]; [| discriminate]. destruct (tchar (ctok c)) as [ch |]; [| discriminate].
  destruct (ch =? 61).
  { destruct (parse_delim 61 p) as [[[a | e] p1] |] eqn:D; try discriminate. inversion E; subst. exact (parse_delim_inv _ _ _ _ _ Ah D). }
  destruct (ch =? 62).
  { destruct (peek (peek_double 62 61) p) as [[] |]; [| | discriminate].
    - destruct (parse_double 62 61 p) as [[[a | e] p1] |] eqn:D; try discriminate. inversion E; subst.
      destruct (parse_double_inv _ _ _ _ _ _ Ah D) as (A1 & A2 & A3 & A4). cbn. auto.
    - destruct (parse_delim 62 p) as [[[a | e] p1] |] eqn:D; try discriminate. inversion E; subst. exact (parse_delim_inv _ _ _ _ _ Ah D). }
  destruct (ch =? 60); [| discriminate].
  destruct (peek (peek_double 60 61) p) as [[] |]; [| | discriminate].
  - destruct (parse_double 60 61 p) as [[[a | e] p1] |] eqn:D; try discriminate. inversion E; subst.
    destruct (parse_double_inv _ _ _ _ _ _ Ah D) as (A1 & A2 & A3 & A4). cbn. auto.
  - destruct (parse_delim 60 p) as [[[a | e] p1] |] eqn:D; try discriminate. inversion E; subst. exact (parse_delim_inv _ _ _ _ _ Ah D).
Qed.

(* completeness *)
Lemma is_delim_peek : forall ch p c, is_delim ch c -> peek_delim ch p c = Some true.
Proof. intros ch p c [K C]. unfold peek_delim. f_equal. apply andb_true_iff. split; [apply tok_is_kind; [apply wf_of_kind; congruence | exact K] | now apply tok_is_char_spec]. Qed.
Lemma is_delim_kind : forall ch p c, is_delim ch c -> peek_kind K_Delim p c = Some true.
Proof. intros ch p c [K C]. unfold peek_kind. f_equal. apply tok_is_kind; [apply wf_of_kind; congruence | exact K]. Qed.
Section Complete.
  Context (p : parser) (sk : list cursor) (c : cursor) (rest : list cursor) (Ah : ahead (plex p) (sk ++ c :: rest)) (F : Forall (in_kinds (pskip p)) sk) (St : ~ in_kinds (pskip p) c).
  Lemma peek_double_spec : forall a b, is_delim a c -> peek (peek_double a b) p = Some (tok_is_char (ctok (nth 0 (kept (pskip p) rest) (eof_cursor p))) b).
  Proof.
    intros a b [K C]. unfold peek. rewrite (peek_next_spec p sk (c :: rest) Ah F St). cbn [hd_or_eof]. unfold peek_double.
    rewrite (proj2 (tok_is_char_spec _ _) C). rewrite (peek_n_spec p _ 2 Ah) by lia. change (N.to_nat 2 - 1)%nat with 1%nat.
    rewrite (kept_skipped _ _ _ F), (kept_cons _ _ _ St). reflexivity.
  Qed.
  Lemma delim_complete : forall a, is_delim a c -> exists q, parse_delim a p = Some (Ok c, q) /\ took p q [c] /\ ahead (plex q) rest.
  Proof. intros a D. apply (parse_single_ok _ _ (fun c => c) p sk c rest Ah F St). now apply is_delim_peek. Qed.
  Lemma double_complete : forall a b d rest', is_delim a c -> rest = d :: rest' -> is_delim b d -> exists q, parse_double a b p = Some (Ok (c, d), q) /\ ahead (plex q) rest'.
  Proof.
    intros a b d rest' Da Er Db. unfold parse_double, bind.
    destruct (parse_single_ok _ _ (fun c => c) p sk c rest Ah F St (is_delim_kind a p c Da)) as (q & E & T & A'). fold (parse_kind K_Delim) in E. rewrite E.
    rewrite (proj2 (tok_is_char_spec _ _) (proj2 Da)). cbn [negb]. subst rest.
    destruct (parse_single_ok _ (peek_kind K_Delim) (fun c => c) (set_skip q KS_NONE) [] d rest' A' (Forall_nil _) (not_none d) (is_delim_kind b _ d Db)) as (q' & E' & T' & A''). fold (parse_kind K_Delim) in E'. rewrite E'.
    rewrite (proj2 (tok_is_char_spec _ _) (proj2 Db)). cbn [negb]. eexists. split; [reflexivity | exact A''].
  Qed.
  (* '<' or '>' followed by trivia and '=' is rejected *)
  Lemma double_spaced : forall a b d rest', is_delim a c -> rest = d :: rest' -> tkind (ctok d) <> K_Delim -> exists q, parse_double a b p = Some (Err (D_Unexpected d), q).
  Proof.
    intros a b d rest' Da Er Db. unfold parse_double, bind.
    destruct (parse_single_ok _ _ (fun c => c) p sk c rest Ah F St (is_delim_kind a p c Da)) as (q & E & T & A'). fold (parse_kind K_Delim) in E. rewrite E.
    rewrite (proj2 (tok_is_char_spec _ _) (proj2 Da)). cbn [negb]. subst rest.
    unfold parse_kind, parse_single, peek. rewrite (peek_next_spec (set_skip q KS_NONE) [] (d :: rest') A' (Forall_nil _) (not_none d)). cbn [hd_or_eof]. unfold peek_kind.
    destruct (next_token (set_skip q KS_NONE) [] d rest' A' (Forall_nil _) (not_none d)) as (q' & N & _). rewrite N.
    assert (K : tok_is (ctok d) K_Delim = false).
    { destruct (tok_is (ctok d) K_Delim) eqn:B; [| reflexivity]. apply tok_is_kind in B; [congruence |]. apply wf_of_kind. apply (ahead_kind _ _ Ah). apply in_or_app. right. right. now left. }
    rewrite K. eexists. reflexivity.
  Qed.
  Definition next_kept : cursor := nth 0 (kept (pskip p) rest) (eof_cursor p).
  Lemma comparison_complete :
    (is_delim 61 c -> exists q, parse_comparison p = Some (Ok (CmpEq c), q)) /\
    (is_delim 62 c -> tchar (ctok next_kept) <> Some 61 -> exists q, parse_comparison p = Some (Ok (CmpGt c), q)) /\
    (is_delim 60 c -> tchar (ctok next_kept) <> Some 61 -> exists q, parse_comparison p = Some (Ok (CmpLt c), q)) /\
    (forall d rest', rest = d :: rest' -> ~ in_kinds (pskip p) d -> is_delim 62 c -> is_delim 61 d -> exists q, parse_comparison p = Some (Ok (CmpGe c d), q)) /\
    (forall d rest', rest = d :: rest' -> ~ in_kinds (pskip p) d -> is_delim 60 c -> is_delim 61 d -> exists q, parse_comparison p = Some (Ok (CmpLe c d), q)) /\
    (tchar (ctok c) <> Some 60 -> tchar (ctok c) <> Some 61 -> tchar (ctok c) <> Some 62 -> exists e, parse_comparison p = Some (Err e, p)) /\
    (forall d rest', rest = d :: rest' -> tkind (ctok d) <> K_Delim -> is_delim 60 c \/ is_delim 62 c -> tchar (ctok next_kept) = Some 61 -> exists q, parse_comparison p = Some (Err (D_Unexpected d), q)).
  Proof.
    assert (PN : peek_next p = Some c) by exact (peek_next_spec p sk (c :: rest) Ah F St).
    assert (NB : forall t, tchar t <> Some 61 -> tok_is_char t 61 = false).
    { intros t Ht. destruct (tok_is_char t 61) eqn:B; [| reflexivity]. now apply tok_is_char_spec in B. }
    repeat split.
    - intros D. unfold parse_comparison. rewrite PN, (proj2 D). cbn [N.eqb Pos.eqb]. unfold pmap, bind. destruct (delim_complete 61 D) as (q & E & _). rewrite E. eexists. reflexivity.
    - intros D N. unfold parse_comparison. rewrite PN, (proj2 D). cbn [N.eqb Pos.eqb]. rewrite (peek_double_spec 62 61 D). fold next_kept. rewrite (NB _ N).
      unfold pmap, bind. destruct (delim_complete 62 D) as (q & E & _). rewrite E. eexists. reflexivity.
    - intros D N. unfold parse_comparison. rewrite PN, (proj2 D). cbn [N.eqb Pos.eqb]. rewrite (peek_double_spec 60 61 D). fold next_kept. rewrite (NB _ N).
      unfold pmap, bind. destruct (delim_complete 60 D) as (q & E & _). rewrite E. eexists. reflexivity.
    - intros d rest' Er Nd D D'. unfold parse_comparison. rewrite PN, (proj2 D). cbn [N.eqb Pos.eqb]. rewrite (peek_double_spec 62 61 D). replace (kept (pskip p) rest) with (d :: kept (pskip p) rest') by (rewrite Er; symmetry; exact (kept_cons _ _ _ Nd)). cbn [nth].
      rewrite (proj2 (tok_is_char_spec _ _) (proj2 D')). unfold pmap, bind. destruct (double_complete 62 61 d rest' D Er D') as (q & E & _). rewrite E. eexists. reflexivity.
    - intros d rest' Er Nd D D'. unfold parse_comparison. rewrite PN, (proj2 D). cbn [N.eqb Pos.eqb]. rewrite (peek_double_spec 60 61 D). replace (kept (pskip p) rest) with (d :: kept (pskip p) rest') by (rewrite Er; symmetry; exact (kept_cons _ _ _ Nd)). cbn [nth].
      rewrite (proj2 (tok_is_char_spec _ _) (proj2 D')). unfold pmap, bind. destruct (double_complete 60 61 d rest' D Er D') as (q & E & _). rewrite E. eexists. reflexivity.
    - intros N0 N1 N2. unfold parse_comparison. rewrite PN. destruct (tchar (ctok c)) as [ch |]; [| eexists; reflexivity].
      destruct (ch =? 61) eqn:B1; [exfalso; apply N1; f_equal; lia |]. destruct (ch =? 62) eqn:B2; [exfalso; apply N2; f_equal; lia |].
      destruct (ch =? 60) eqn:B3; [exfalso; apply N0; f_equal; lia |]. eexists. reflexivity.
    - intros d rest' Er Nd [D | D] Nk; unfold parse_comparison; rewrite PN, (proj2 D); cbn [N.eqb Pos.eqb].
      + rewrite (peek_double_spec 60 61 D). fold next_kept. rewrite (proj2 (tok_is_char_spec _ _) Nk). unfold pmap, bind. destruct (double_spaced 60 61 d rest' D Er Nd) as (q & E). rewrite E. eexists. reflexivity.
      + rewrite (peek_double_spec 62 61 D). fold next_kept. rewrite (proj2 (tok_is_char_spec _ _) Nk). unfold pmap, bind. destruct (double_spaced 62 61 d rest' D Er Nd) as (q & E). rewrite E. eexists. reflexivity.
  Qed.
End Complete.
