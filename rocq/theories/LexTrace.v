(* Runs of the lexer. *)
From Coq Require Import ZifyBool ZifyNat ZifyN.
From Verif Require Import Lexer SpecToken SpecLex SpecTrace LexBase TokenProofs KindProofs ScanProofs ScanProofs2 ScanProofs3 NumProofs DimProofs LexProofs LexFacts.
Open Scope N_scope.
Open Scope list_scope.
Ltac Zify.zify_post_hook ::= Z.div_mod_to_equations.

Definition at_point (pre l : list N) (f : feature) (x : lexer) : Prop := lsrc x = pre ++ l /\ loff x = blen pre /\ lfeat x = f.

Lemma read_at : forall pre l f, read_next_token (pre ++ l) f (blen pre) = match l with [] => Some T_EOF | _ => scan_token f l end.
Proof.
  intros pre l f. unfold read_next_token. rewrite blen_app. destruct l as [| c l].
  - cbn [blen]. replace (blen pre + 0 =? blen pre) with true by lia. reflexivity.
  - replace (blen pre + blen (c :: l) =? blen pre) with false; [now rewrite drop_bytes_app |].
    pose proof (blen_pos (c :: l) ltac:(discriminate)). lia.
Qed.

Lemma token_at_scan : forall f pre l t, l <> [] -> (token_at f pre l t <-> scan_token f l = Some t).
Proof.
  intros f pre l t Hn. unfold token_at, lexer_advance. cbn [lsrc loff lfeat]. split.
  - intro H. destruct (H T_EOF) as (x' & E). rewrite read_at in E. destruct l; [congruence |].
    destruct (scan_token f (n :: l)); [| discriminate]. inversion E; now subst.
  - intros E last. rewrite read_at. destruct l; [congruence |]. rewrite E. eexists. reflexivity.
Qed.

Lemma advance_step : forall pre l f x, at_point pre l f x -> well_behaved (single_line_comments f) l -> l <> [] ->
  exists p r t, l = p ++ r /\ p <> [] /\ lexer_advance x = Some (t, Lexer (lsrc x) (loff x + tlen t) t f) /\
    at_point (pre ++ p) r f (Lexer (lsrc x) (loff x + tlen t) t f) /\ tlen t = blen p /\ tkind t <> K_Eof /\ scan_view f l t r.
Proof.
  intros pre l f x (E1 & E2 & E3) WB Hn.
  destruct (scan_spec f l Hn (proj1 WB)) as (t & r & S & V).
  destruct (view_extent f l t r V WB) as (p & E & Hp & L & K).
  exists p, r, t. repeat split; auto.
  - unfold lexer_advance. rewrite E1, E2, E3, read_at. destruct l; [congruence |]. now rewrite S.
  - cbn. rewrite E1, E, app_assoc. reflexivity.
  - cbn. rewrite E2, L, blen_app. reflexivity.
Qed.
Lemma advance_end : forall pre f x, at_point pre [] f x -> lexer_advance x = Some (T_EOF, Lexer (lsrc x) (loff x) T_EOF f).
Proof.
  intros pre f x (E1 & E2 & E3). unfold lexer_advance. rewrite E1, E2, E3, read_at.
  replace (tlen T_EOF) with 0 by reflexivity. now rewrite N.add_0_r.
Qed.
Lemma at_end : forall pre f x, at_point pre [] f x -> loff x = blen (lsrc x).
Proof. intros pre f x (E1 & E2 & E3). rewrite E1, app_nil_r. exact E2. Qed.
Lemma not_at_end : forall pre l f x, at_point pre l f x -> l <> [] -> loff x < blen (lsrc x).
Proof. intros pre l f x (E1 & E2 & E3) H. rewrite E1, E2, blen_app. pose proof (blen_pos l H). lia. Qed.

Lemma reached_point : forall src f x, well_behaved (single_line_comments f) src -> reached src f x ->
  exists pre l, src = pre ++ l /\ at_point pre l f x.
Proof.
  intros src f x WB R. induction R as [| x t x' R IH A | x y R1 IH1 R2 IH2 | x y R1 IH1 R2 IH2].
  - exists [], src. repeat split.
  - destruct IH as (pre & l & E & P). subst src. destruct l as [| c l].
    + rewrite (advance_end _ _ _ P) in A. inversion A; subst. exists pre, []. split; [reflexivity |]. destruct P as (P1 & P2 & P3). repeat split; auto.
    + destruct (advance_step _ _ _ _ P) as (p & r & t' & El & Hp & A' & P' & _); [now apply well_behaved_suffix in WB | discriminate |].
      rewrite A' in A. inversion A; subst. exists (pre ++ p), r. split; [now rewrite El, app_assoc | exact P'].
  - destruct IH1 as (p1 & l1 & E1 & P1). destruct IH2 as (p2 & l2 & E2 & P2). exists p2, l2. split; [exact E2 |].
    destruct P1 as (A & B & C). destruct P2 as (A' & B' & C'). repeat split; cbn; [congruence | exact B' | exact C].
  - destruct IH1 as (p1 & l1 & E1 & P1). destruct IH2 as (p2 & l2 & E2 & P2). exists p2, l2. split; [exact E2 |].
    destruct P1 as (A & B & C). destruct P2 as (A' & B' & C'). repeat split; cbn; [congruence | exact B' | exact C].
Qed.

Lemma progress : forall src f x, well_behaved (single_line_comments f) src -> reached src f x -> loff x < blen src ->
  exists t x', lexer_advance x = Some (t, x') /\ tkind t <> K_Eof /\ 0 < tlen t /\ loff x' = loff x + tlen t /\ loff x' <= blen src.
Proof.
  intros src f x WB R L. destruct (reached_point src f x WB R) as (pre & l & E & P). subst src. destruct l as [| c l].
  - pose proof (at_end _ _ _ P) as Q. destruct P as (P1 & _). rewrite P1 in Q. lia.
  - destruct (advance_step _ _ _ _ P) as (p & r & t & El & Hp & A & P' & Lt & K & _); [now apply well_behaved_suffix in WB | discriminate |].
    exists t, (Lexer (lsrc x) (loff x + tlen t) t f). split; [exact A |]. split; [exact K |]. split; [rewrite Lt; now apply blen_pos |].
    cbn [loff]. split; [reflexivity |]. destruct P as (P1 & P2 & P3). rewrite P2, Lt, El, !blen_app. lia.
Qed.
Lemma eof_stays : forall x, loff x = blen (lsrc x) ->
  lexer_advance x = Some (T_EOF, Lexer (lsrc x) (loff x) T_EOF (lfeat x)).
Proof.
  intros x E. unfold lexer_advance, read_next_token. rewrite E, N.eqb_refl. replace (tlen T_EOF) with 0 by reflexivity. now rewrite N.add_0_r.
Qed.

Lemma kind_eof_bits : forall t, tkind t <> K_Eof -> tok_is t K_Eof = false.
Proof. intros t H. destruct (tok_is t K_Eof) eqn:E; [| reflexivity]. apply tok_is_kind in E; [congruence | now apply wf_of_kind]. Qed.

Lemma lex_all_tiles : forall n pre l f x, at_point pre l f x -> well_behaved (single_line_comments f) l -> (length l < n)%nat ->
  exists cs, lex_all n x = Some cs /\ tiles (blen pre) l cs /\ (length cs <= length l)%nat /\
    forall o t, In (Cursor o t) cs -> exists a b, l = a ++ b /\ o = blen pre + blen a /\ b <> [] /\ scan_token f b = Some t.
Proof.
  induction n as [| n IH]; intros pre l f x P WB Hl; [lia |]. cbn [lex_all]. destruct l as [| c l].
  - rewrite (advance_end _ _ _ P). replace (tok_is T_EOF K_Eof) with true by reflexivity. exists []. repeat split; [constructor | cbn; lia | intros o t []].
  - destruct (advance_step _ _ _ _ P WB) as (p & r & t & El & Hp & A & P' & Lt & K & V); [discriminate |].
    rewrite A, (kind_eof_bits t K).
    destruct (IH (pre ++ p) r f _ P') as (cs & -> & T & Lc & Hcs).
    { rewrite El in WB. now apply well_behaved_suffix in WB. }
    { rewrite El, app_length in Hl. destruct p; [congruence |]. cbn [length] in Hl. lia. }
    exists (Cursor (loff x) t :: cs). split; [reflexivity |]. rewrite blen_app in T. split; [| split].
    + rewrite El. rewrite (proj1 (proj2 P)). constructor; auto.
    + rewrite El, app_length. destruct p; [congruence |]. cbn [length]. lia.
    + intros o t' [I | I].
      * inversion I; subst o t'. exists [], (c :: l). repeat split; [rewrite (proj1 (proj2 P)); cbn; lia | discriminate |].
        destruct P as (P1 & P2 & P3). unfold lexer_advance in A. rewrite P1, P2, P3, read_at in A.
        destruct (scan_token f (c :: l)); [| discriminate]. inversion A; now subst.
      * destruct (Hcs o t' I) as (a & b & E & Eo & Hb & S). exists (p ++ a), b. repeat split; auto; [now rewrite El, E, app_assoc |].
        rewrite Eo, !blen_app. lia.
Qed.

Lemma lex_tiles : forall src f, well_behaved (single_line_comments f) src ->
  exists cs, lex src f = Some cs /\ tiles 0 src cs /\ N.of_nat (length cs) <= blen src /\
    forall o t, In (Cursor o t) cs -> exists a b, src = a ++ b /\ o = blen a /\ b <> [] /\ scan_token f b = Some t.
Proof.
  intros src f WB. pose proof (length_le_blen src) as LL.
  destruct (lex_all_tiles (S (N.to_nat (blen src))) [] src f (lexer_new src f)) as (cs & A & B & C & D).
  - repeat split.
  - exact WB.
  - lia.
  - exists cs. repeat split; auto. lia.
Qed.

Lemma tiles_slices : forall o l cs, tiles o l cs -> forall pre post, o = blen pre ->
  exists texts, Forall2 (fun c t => slice (pre ++ l ++ post) (coff c) (coff c + tlen (ctok c)) = Some t) cs texts /\ concat texts = l.
Proof.
  intros o l cs T. induction T as [o | o p r t cs Hp Lt T IH]; intros pre post E.
  - exists []. split; [constructor | reflexivity].
  - destruct (IH (pre ++ p) post) as (texts & F & C); [rewrite E, blen_app; reflexivity |].
    exists (p :: texts). split; [| cbn; now rewrite C].
    constructor.
    + cbn [coff ctok]. rewrite Lt, E, <- !app_assoc. apply slice_app.
    + rewrite <- !app_assoc in F. rewrite <- app_assoc. exact F.
Qed.

Lemma advances_src : forall x ts y, advances x ts y -> lsrc y = lsrc x /\ lfeat y = lfeat x.
Proof.
  intros x ts y A. induction A as [x | x t y ts z E A IH]; [auto |]. unfold lexer_advance in E.
  destruct (read_next_token (lsrc x) (lfeat x) (loff x)); [| discriminate]. inversion E; subst. exact IH.
Qed.
Lemma rewind_restores : forall x ts y, advances x ts y -> lexer_rewind y (lexer_checkpoint x) = x.
Proof. intros x ts y A. apply advances_src in A. destruct A as (A & B). destruct x as [s o t f]. unfold lexer_rewind, lexer_checkpoint; cbn in *. now rewrite A, B. Qed.
Lemma advances_det : forall x ts y, advances x ts y -> forall ts' y', length ts' = length ts -> advances x ts' y' -> ts' = ts /\ y' = y.
Proof.
  intros x ts y A. induction A as [x | x t y ts z E A IH]; intros ts' y' L B.
  - destruct ts'; [inversion B; auto | discriminate].
  - destruct ts' as [| t' ts']; [discriminate |]. inversion B; subst. rewrite E in H2. inversion H2; subst.
    destruct (IH ts' y') as (-> & ->); auto.
Qed.
Lemma last_token_irrelevant : forall src off f t1 t2,
  match lexer_advance (Lexer src off t1 f), lexer_advance (Lexer src off t2 f) with
  | Some (a, x), Some (b, y) => a = b /\ x = y
  | None, None => True
  | _, _ => False
  end.
Proof. intros. unfold lexer_advance. cbn [lsrc loff lfeat]. destruct (read_next_token src f off); auto. Qed.

(* a simple sufficient condition, used to show the hypotheses are met by ordinary sources *)
Lemma no_sv_ident : forall r q r', ident_pieces r (map Plain q) r' -> r = q ++ r'.
Proof. intros r q r' H. apply ident_pieces_app in H. now rewrite pieces_text_plain in H. Qed.
Lemma small_within_limits : forall src, blen src < 4096 -> within_limits src.
Proof.
  intros src H l p r (a & E) (El & _ & _). subst src l. rewrite !blen_app in H. split; [lia |]. split; [intros _; lia |].
  intros ps r' _ Hp. apply ident_pieces_app in Hp. subst r. rewrite blen_app in H. lia.
Qed.
Definition ordinary (src : list N) : bool :=
  (blen src <? 4096) && forallb (fun c => (0 <? c) && (c <? 128) && negb (c =? 118) && negb (c =? 86)) src.
Lemma ordinary_spec : forall f src, ordinary src = true -> well_behaved f src.
Proof.
  intros f src H. unfold ordinary in H. apply andb_true_iff in H. destruct H as (H1 & H2).
  rewrite forallb_forall in H2.
  assert (H3 : forall c, In c src -> 0 < c < 128 /\ c <> 118 /\ c <> 86).
  { intros c I. apply H2 in I. lia. }
  repeat split.
  - intros a c b E. apply (H3 c). rewrite E. apply in_or_app. right. right. now left.
  - apply (small_within_limits src ltac:(lia) l p r H H0).
  - apply (small_within_limits src ltac:(lia) l p r H H0).
  - apply (small_within_limits src ltac:(lia) l p r H H0) with (ps := ps) (r' := r'); auto.
  - apply (small_within_limits src ltac:(lia) l p r H H0) with (ps := ps) (r' := r'); auto.
  - intros l p r q r' (a & E) (El & _) Hp I. apply no_sv_ident in Hp. subst r l src.
    assert (V : In 118 (lower_text q)). { cbn in I. destruct I as [I | [I | [I | [I | []]]]]; rewrite <- I; cbn; auto. }
    unfold lower_text in V. apply in_map_iff in V. destruct V as (c & Ec & Ic).
    assert (D : In c (a ++ p ++ q ++ r')) by (apply in_or_app; right; apply in_or_app; right; apply in_or_app; now left).
    apply H3 in D. unfold to_ascii_lowercase, is_ascii_upper in Ec. destruct ((65 <=? c) && (c <=? 90)) eqn:Q; lia.
  - intros _ pre p r E _. apply Forall_forall. intros c I. apply (H3 c). rewrite E. apply in_or_app. right. right. right. apply in_or_app. now left.
Qed.

(* the list of tokens with the scanner's view of each *)
Inductive trace (f : feature) : N -> list N -> list cursor -> Prop :=
  | tr_nil : forall o, trace f o [] []
  | tr_cons : forall o p r t cs, p <> [] -> tlen t = blen p -> tkind t <> K_Eof -> scan_token f (p ++ r) = Some t -> scan_view f (p ++ r) t r ->
      trace f (o + blen p) r cs -> trace f o (p ++ r) (Cursor o t :: cs).
Lemma lex_all_trace : forall n pre l f x, at_point pre l f x -> well_behaved (single_line_comments f) l -> (length l < n)%nat ->
  exists cs, lex_all n x = Some cs /\ trace f (blen pre) l cs.
Proof.
  induction n as [| n IH]; intros pre l f x P WB Hl; [lia |]. cbn [lex_all]. destruct l as [| c l].
  - rewrite (advance_end _ _ _ P). replace (tok_is T_EOF K_Eof) with true by reflexivity. exists []. split; [reflexivity | constructor].
  - destruct (advance_step _ _ _ _ P WB) as (p & r & t & El & Hp & A & P' & Lt & K & V); [discriminate |].
    rewrite A, (kind_eof_bits t K).
    destruct (IH (pre ++ p) r f _ P') as (cs & -> & T).
    { rewrite El in WB. now apply well_behaved_suffix in WB. }
    { rewrite El, app_length in Hl. destruct p; [congruence |]. cbn [length] in Hl. lia. }
    exists (Cursor (loff x) t :: cs). split; [reflexivity |]. rewrite blen_app in T.
    assert (S : scan_token f (c :: l) = Some t).
    { destruct P as (P1 & P2 & P3). unfold lexer_advance in A. rewrite P1, P2, P3, read_at in A.
      destruct (scan_token f (c :: l)); [| discriminate]. inversion A; now subst. }
    rewrite El in *. rewrite (proj1 (proj2 P)). constructor; auto.
Qed.
Lemma lex_trace : forall src f, well_behaved (single_line_comments f) src -> exists cs, lex src f = Some cs /\ trace f 0 src cs.
Proof.
  intros src f WB. pose proof (length_le_blen src) as LL.
  apply (lex_all_trace (S (N.to_nat (blen src))) [] src f (lexer_new src f)); [repeat split | exact WB | lia].
Qed.
Lemma trace_cons_inv : forall f o l c cs, trace f o l (c :: cs) -> exists p r, l = p ++ r /\ p <> [] /\ coff c = o /\ tlen (ctok c) = blen p /\
  tkind (ctok c) <> K_Eof /\ scan_token f l = Some (ctok c) /\ scan_view f l (ctok c) r /\ trace f (o + blen p) r cs.
Proof. intros f o l c cs T. inversion T; subst. exists p, r. cbn [coff ctok]. repeat split; auto. Qed.
Lemma trace_app : forall f cs1 o l cs2, trace f o l (cs1 ++ cs2) -> exists a b, l = a ++ b /\ trace f (o + blen a) b cs2.
Proof.
  induction cs1 as [| c cs1 IH]; intros o l cs2 T; cbn in T.
  - exists [], l. split; [reflexivity |]. cbn. now rewrite N.add_0_r.
  - apply trace_cons_inv in T. destruct T as (p & r & -> & _ & _ & _ & _ & _ & _ & T). apply IH in T. destruct T as (a & b & -> & T'). exists (p ++ a), b. split; [now rewrite app_assoc |].
    rewrite blen_app, N.add_assoc. exact T'.
Qed.
Lemma trace_wb : forall f o l cs a b, trace f o l cs -> well_behaved (single_line_comments f) l -> l = a ++ b -> well_behaved (single_line_comments f) b.
Proof. intros f o l cs a b _ WB ->. now apply well_behaved_suffix in WB. Qed.
