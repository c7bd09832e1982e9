(* From a token's kind to the branch of the lexer that made it. *)
From Coq Require Import ZifyBool ZifyNat ZifyN.
From Verif Require Import Lexer SpecToken SpecLex SpecTrace LexBase TokenProofs KindProofs ScanProofs ScanProofs2 ScanProofs3 NumProofs DimProofs LexProofs LexFacts LexTrace.
Open Scope N_scope.
Open Scope list_scope.
Ltac Zify.zify_post_hook ::= Z.div_mod_to_equations.

Definition white_shape (f : feature) (l : list N) (t : token) (r : list N) : Prop :=
  (separate_whitespace f = false /\ exists p, run white l p r /\ p <> [] /\ t = new_whitespace (ws_style p) (blen p)) \/
  (separate_whitespace f = true /\ exists p b, p <> [] /\ t = new_whitespace b (blen p) /\
      ((b = WS_Space /\ run (eq 32) l p r) \/ (b = WS_Tab /\ run (eq 9) l p r) \/ (b = WS_Newline /\ run newline l p r))).
Definition comment_shape (f : feature) (l : list N) (t : token) (r : list N) : Prop :=
  (exists l' p, l = 47 :: 42 :: l' /\ block_comment l p r /\ t = new_comment (block_comment_style l') (blen p)) \/
  (exists p, single_line_comments f = true /\ l = 47 :: 47 :: p ++ r /\ Forall (fun c => ~ newline c /\ c <> 0) p /\
     ~ starts (fun c => ~ newline c /\ c <> 0) r /\ t = new_comment (single_comment_style (p ++ r)) (2 + N.of_nat (length p))).
Definition string_shape (l : list N) (t : token) (r : list N) (bad : bool) : Prop :=
  exists c l' p e, l = c :: l' /\ quote c /\ l' = p ++ r /\ (~ In 0 l' -> string_body c l' p e r) /\
    t = string_tok (if c =? 34 then QS_Double else QS_Single) (has_esc p) (1 + blen p) e /\ (bad = true <-> e = AtNewline).
Definition delim_shape (f : feature) (l : list N) (t : token) (r : list N) : Prop :=
  exists c, l = c :: r /\ (In (c, t) punctuation_constants \/
    (t = new_delim c /\ c <> 0 /\ ~ would_start_ident l /\ ~ would_start_number l /\ ~ white c /\ ~ quote c)).

Definition shape (f : feature) (l : list N) (t : token) (r : list N) : Prop :=
  match tkind t with
  | K_Eof => False
  | K_Whitespace => white_shape f l t r
  | K_Comment => comment_shape f l t r
  | K_CdcOrCdo => (l = 45 :: 45 :: 62 :: r /\ t = T_CDC) \/ (l = 60 :: 33 :: 45 :: 45 :: r /\ t = T_CDO)
  | K_Number | K_Dimension => would_start_number l /\ numeric_view l t r
  | K_String => string_shape l t r false
  | K_BadString => string_shape l t r true
  | K_Ident | K_Function | K_Url | K_BadUrl => would_start_ident l /\ ident_like_view l t r
  | K_Hash => exists l' ps, l = 35 :: l' /\ is_ident (peek_nth l' 0) || is_escape_sequence (peek_nth l' 0) (peek_nth l' 1) = true /\ ident_pieces l' ps r /\
      t = new_hash (existsb b_nonlower ps) (is_ident (peek_nth l' 0)) (existsb b_escaped ps) (blen (pieces_text ps) + 1)
  | K_AtKeyword => exists l' ps, l = 64 :: l' /\ is_ident_start_sequence (peek_nth l' 0) (peek_nth l' 1) (peek_nth l' 2) = true /\ ident_pieces l' ps r /\
      t = new_atkeyword (existsb b_nonlower ps) (b_dashed ps) (existsb b_escaped ps) (blen (pieces_text ps) + 1)
  | _ => delim_shape f l t r
  end.

Ltac delimlike F := cbn [In doc_delim_like] in F; destruct F as [F | [F | [F | [F | [F | [F | [F | [F | [F | [F | []]]]]]]]]]]; rewrite <- F.

Lemma view_shape : forall f l t r, scan_view f l t r -> well_behaved (single_line_comments f) l -> shape f l t r.
Proof.
  intros f l t r V WB. unfold shape. pose proof V as V0. destruct V as [c r t Hc Ht Hn | l t r W Hn V | l p r Hs Hr Hp | l p r b Hs Hp Hr | c l p e r Hq El Hb | l t r W Hn V | r | r
    | c r t Hi H1 H2 H3 H4 H5 H6 | c r H0 H1 H2 H3 H4 H5 H6 | l ps r Hi Hp | l ps r Hi Hp | l p r Hb | p r Hf Hp Hr].
  - assert (D : delim_shape f (c :: r) t r).
    { exists c. split; [reflexivity |]. left. subst t. now apply table_token. }
    subst t. pose proof (table_token c Hc Hn) as I. destruct (constants_read _ _ I) as (_ & _ & _ & _ & F). delimlike F; exact D.
  - assert (S : would_start_ident l /\ ident_like_view l t r) by auto.
    destruct V; [rewrite (proj1 (ident_read _ _ _ _)) | rewrite (proj1 (function_read _ _ _ _)) | rewrite (proj1 (url_read_gen _ _ _ _ _ _)) | rewrite (proj1 (bad_url_read _))]; exact S.
  - rewrite (proj1 (whitespace_read _ _ (ws_style_lt p))). left. split; [exact Hs |]. exists p. auto.
  - assert (B : b < 8) by (destruct Hr as [(-> & _) | [(-> & _) | (-> & _)]]; reflexivity).
    rewrite (proj1 (whitespace_read _ _ B)). right. split; [exact Hs |]. exists p, b. auto.
  - destruct e; unfold string_tok.
    + rewrite (proj1 (string_read _ _ _ _)). exists c, l, p, Closed. repeat split; auto; discriminate.
    + rewrite (proj1 (string_read _ _ _ _)). exists c, l, p, AtEnd. repeat split; auto; discriminate.
    + exists c, l, p, AtNewline. repeat split; auto.
  - assert (S : would_start_number l /\ numeric_view l t r) by auto.
    destruct (numeric_extent _ _ _ _ WB V) as (q & _).
    assert (K : tkind t = K_Number \/ tkind t = K_Dimension).
    { destruct WB as (W1 & W2 & _). assert (SL : suffix_of l l) by (exists []; reflexivity).
      destruct V as [p r fl v Hl Hf Hv Hs Hi | p r fl v Hl Hf Hv | p r1 fl v u n ps r Hl Hf Hv Hi Hp Hq Hu Hu'].
      - left. apply number_read. apply (W2 _ _ _ SL Hl).
      - right. apply dimension_read; [| discriminate]. apply (W2 _ _ _ SL Hl). exists 37, r. auto.
      - right. pose proof (start_sequence_sound _ Hi) as W'. destruct (W2 _ _ _ SL Hl) as (_ & _ & A). specialize (A ps r W' Hp).
        apply dimension_read; [tauto |]. intros _. rewrite Hq; [tauto |]. destruct Hl as (E & _). rewrite E in W1. now apply esc_ok_suffix in W1. }
    destruct K as [-> | ->]; exact S.
  - left. auto.
  - right. auto.
  - assert (D : delim_shape f (c :: r) t r).
    { exists c. split; [reflexivity |]. left. now apply delim_const_in. }
    pose proof (delim_const_in _ _ Hi) as I. destruct (constants_read _ _ I) as (_ & _ & _ & _ & F). delimlike F; exact D.
  - rewrite (proj2 (delim_len c)). exists c. split; [reflexivity |]. right. repeat split; auto.
  - rewrite (proj1 (hash_read _ _ _ _)). exists l, ps. auto.
  - rewrite (proj1 (atkeyword_read _ _ _ _)). exists l, ps. auto.
  - rewrite (proj1 (comment_read _ _)). left. exists l, p. auto.
  - rewrite (proj1 (comment_read _ _)). right. exists p. auto.
Qed.

(* ---- the first character decides: scans that need no hypothesis ---- *)
Lemma scan_whitespace : forall f l, starts white l -> separate_whitespace f = false -> exists p r,
  run white l p r /\ p <> [] /\ scan_token f l = Some (new_whitespace (ws_style p) (blen p)).
Proof.
  intros f l (c & l' & -> & Hc) Hf. destruct (consume_whitespace_spec (c :: l')) as (p & r & E & R). exists p, r.
  split; [exact R |]. split; [exact (run_nonempty white _ _ _ _ R Hc) |].
  unfold scan_token. rewrite E, Hf. rewrite peek0.
  unfold white, newline in Hc. destruct Hc as [[-> | [-> | ->]] | [-> | ->]]; reflexivity.
Qed.
Lemma scan_whitespace_sep : forall f l, starts white l -> separate_whitespace f = true -> exists p r b, p <> [] /\
  scan_token f l = Some (new_whitespace b (blen p)) /\
  ((b = WS_Space /\ run (eq 32) l p r) \/ (b = WS_Tab /\ run (eq 9) l p r) \/ (b = WS_Newline /\ run newline l p r)).
Proof.
  intros f l (c & l' & -> & Hc) Hf. unfold scan_token. rewrite Hf, peek0.
  assert (HN : newline c -> exists p r, run newline (c :: l') p r /\ consume_newline_run (c :: l') = (blen p, r) /\ p <> []).
  { intro H. destruct (consume_newline_run_spec (c :: l')) as (p & r & E & R). exists p, r. repeat split; auto; try apply R. exact (run_nonempty newline _ _ _ _ R H). }
  destruct Hc as [Hc | [-> | ->]].
  - destruct (HN Hc) as (p & r & R & E & Hp). exists p, r, WS_Newline. split; [exact Hp |]. rewrite E. split; [| auto].
    unfold newline in Hc. destruct Hc as [-> | [-> | ->]]; reflexivity.
  - destruct (consume_same_spec 9 (9 :: l') ltac:(lia)) as (p & r & E & R). exists p, r, WS_Tab. change TAB with 9. rewrite E.
    split; [exact (run_nonempty _ _ _ _ _ R eq_refl) | auto].
  - destruct (consume_same_spec 32 (32 :: l') ltac:(lia)) as (p & r & E & R). exists p, r, WS_Space. change SPACE with 32. rewrite E.
    split; [exact (run_nonempty _ _ _ _ _ R eq_refl) | auto].
Qed.
Lemma blen_2 : forall a b l, a < 128 -> b < 128 -> blen (a :: b :: l) = 2 + blen l.
Proof. intros. cbn [blen]. rewrite !len_utf8_ascii by assumption. lia. Qed.
Lemma scan_block_comment : forall f l, exists p r, block_comment (47 :: 42 :: l) p r /\
  scan_token f (47 :: 42 :: l) = Some (new_comment (block_comment_style l) (blen p)).
Proof.
  intros f l. destruct (block_comment_body_spec l) as (n & r & E & [(b & -> & -> & Hc) | (-> & -> & Hc)]).
  - exists (47 :: 42 :: b ++ [42; 47]), r. split; [now constructor |].
    rewrite blen_2 by lia. unfold scan_token. cbn [tl]. rewrite E. reflexivity.
  - exists (47 :: 42 :: l), []. split; [now constructor |]. rewrite blen_2 by lia. unfold scan_token. cbn [tl]. rewrite E. reflexivity.
Qed.
Lemma scan_slashes : forall f l, single_line_comments f = false -> ~ starts (eq 42) l -> scan_token f (47 :: l) = Some T_SLASH.
Proof.
  intros f l Hf Hs. unfold scan_token. rewrite peek0, peek1. rewrite Hf.
  replace (peek_nth l 0 =? 42) with false; [rewrite andb_false_r; reflexivity |].
  destruct l as [| c l]; [reflexivity |]. rewrite peek0. destruct (c =? 42) eqn:E; [| reflexivity]. exfalso. apply Hs. exists c, l. split; [reflexivity | lia].
Qed.
Lemma scan_line_comment : forall f l, single_line_comments f = true -> exists p r, l = p ++ r /\
  Forall (fun c => ~ newline c /\ c <> 0) p /\ ~ starts (fun c => ~ newline c /\ c <> 0) r /\
  scan_token f (47 :: 47 :: l) = Some (new_comment (single_comment_style l) (2 + N.of_nat (length p))).
Proof.
  intros f l Hf. destruct (single_comment_body_spec l) as (p & r & E & El & Hp & Hr). exists p, r. repeat split; auto.
  unfold scan_token. cbn [tl]. rewrite E, Hf. reflexivity.
Qed.
Lemma scan_string : forall f c l, quote c -> esc_ok (c :: l) -> exists p e r,
  scan_token f (c :: l) = Some (string_tok (if c =? 34 then QS_Double else QS_Single) (has_esc p) (1 + blen p) e) /\
  l = p ++ r /\ (~ In 0 l -> string_body c l p e r).
Proof.
  intros f c l Hq He. destruct (consume_string_spec c l Hq He) as (p & e & r & E & El & Hb). exists p, e, r. split; [| auto].
  unfold scan_token. rewrite E, peek0. destruct Hq as [-> | ->]; reflexivity.
Qed.
Lemma scan_punct : forall f c t l, In (c, t) punctuation_constants -> ~ In c [35; 43; 45; 46; 47; 60; 64; 92; 95] ->
  scan_token f (c :: l) = Some t.
Proof.
  intros f c t l I N. cbn [punctuation_constants In] in I.
  repeat (destruct I as [I | I]; [inversion I; subst; first [reflexivity | exfalso; apply N; cbn; tauto] |]). destruct I.
Qed.
Lemma scan_number : forall f l, would_start_number l -> is_ident_start_sequence (peek_nth l 0) (peek_nth l 1) (peek_nth l 2) = false ->
  exists t r, scan_token f l = Some t /\ numeric_view l t r.
Proof.
  intros f l W NI. apply number_start_spec in W. destruct (consume_numeric_spec l W) as (t & r & E & V). exists t, r. split; [| exact V].
  destruct l as [| c l]; [discriminate |]. unfold scan_token. rewrite E.
  unfold is_number_start in W. rewrite peek0 in *. rewrite peek1, peek2 in *.
  destruct (is_ascii_digit c) eqn:D.
  { assert (C : c = 48 \/ c = 49 \/ c = 50 \/ c = 51 \/ c = 52 \/ c = 53 \/ c = 54 \/ c = 55 \/ c = 56 \/ c = 57) by (unfold is_ascii_digit in D; lia).
    clear -C. repeat (destruct C as [-> | C]; [reflexivity |]). rewrite C; reflexivity. }
  assert (NS : is_number_start (c :: l) = true) by (unfold is_number_start; rewrite peek0, peek1, peek2, D; exact W).
  destruct (is_sign c) eqn:S.
  - assert (C : c = 43 \/ c = 45) by (unfold is_sign in S; lia). destruct C as [-> | ->].
    + rewrite NS. reflexivity.
    + rewrite NI, NS.
      replace ((peek_nth l 0 =? 45) && (peek_nth l 1 =? 62)) with false; [reflexivity |].
      cbn [orb andb] in W. unfold is_ascii_digit in W. lia.
  - cbn [orb andb] in W. assert (c = 46) by lia. subst c. rewrite NS. reflexivity.
Qed.
