(* The url-aware ident scanner, whitespace, digits, comments, strings, urls. *)
From Coq Require Import ZifyBool ZifyNat ZifyN String.
From Verif Require Import Lexer SpecLex LexBase ScanProofs.
Open Scope N_scope.
Open Scope list_scope.
Ltac Zify.zify_post_hook ::= Z.div_mod_to_equations.

(* what one plain character / one escape does to the is_url flag at position i *)
Definition url_ok_plain (i c : N) : bool :=
  if is_ident_ascii_lower c
  then negb (((i =? 0) && negb (c =? 117)) || ((i =? 1) && negb (c =? 114)) || ((i =? 2) && negb (c =? 108)))
  else negb (((i =? 0) && negb (c =? 85)) || ((i =? 1) && negb (c =? 82)) || ((i =? 2) && negb (c =? 76))).
(* flags as a fold over the pieces: (non_lower, dashed, escaped, url-like) *)
Fixpoint uflags (i : N) (nl d e u : bool) (ps : list piece) : bool * bool * bool * bool :=
  match ps with
  | [] => (nl, d, e, u)
  | Plain c :: ps' =>
      if (i =? 0) && (c =? 45) then
        match ps' with
        | Plain c2 :: ps'' => if c2 =? 45 then uflags (i + 1 + 1) nl true e u ps'' else uflags (i + 1) nl d e u ps'
        | _ => uflags (i + 1) nl d e u ps'
        end
      else if c =? 0 then uflags i nl d true false ps'
      else uflags (i + 1) (nl || negb (is_ident_ascii_lower c)) d e (u && url_ok_plain i c) ps'
  | Esc x :: ps' => uflags (i + 1) nl d true (u && negb (url_escape_mismatch i (trim_end x))) ps'
  end.

Lemma esc_ok_eq : forall a b, a = b -> esc_ok a -> esc_ok b. Proof. intros; now subst. Qed.

Lemma url_ident_loop_spec : forall fuel l i len nl d e u, (length l < fuel)%nat -> esc_ok l ->
  exists ps r nl' d' e' u',
    url_ident_loop fuel l i len nl d e u = Some (len + blen (pieces_text ps), nl', d', e', u', r) /\
    ident_pieces l ps r /\ uflags i nl d e u ps = (nl', d', e', u').
Proof.
  induction fuel as [| fuel IH]; intros l i len nl d e u Hf K; [lia |].
  cbn [url_ident_loop].
  destruct ((i =? 0) && (peek_nth l 0 =? 45)) eqn:E0.
  - destruct l as [| c l]; [rewrite peek_nil in E0; lia |]. rewrite peek0 in *.
    assert (i = 0 /\ c = 45) as (-> & ->) by lia. cbn [tl].
    destruct (peek_nth l 0 =? 45) eqn:E1.
    + destruct l as [| c l]; [rewrite peek_nil in E1; lia |]. rewrite peek0 in *.
      assert (c = 45) as -> by lia. cbn [tl length] in *.
      destruct (IH l (0 + 1 + 1) (len + 1 + 1) nl true e u) as (ps & r & nl' & d' & e' & u' & -> & H2 & H3); [lia | now do 2 apply esc_ok_tl in K |].
      exists (Plain 45 :: Plain 45 :: ps), r, nl', d', e', u'.
      split; [do 6 f_equal; cbn [pieces_text flat_map piece_text app blen]; rewrite !len_utf8_ascii by lia; fold (pieces_text ps); lia |].
      split; [apply ip_char; [apply ident_cp_45 |]; apply ip_char; [apply ident_cp_45 | exact H2] |].
      exact H3.
    + cbn [length] in *.
      destruct (IH l (0 + 1) (len + 1) nl d e u) as (ps & r & nl' & d' & e' & u' & -> & H2 & H3); [lia | now apply esc_ok_tl in K |].
      exists (Plain 45 :: ps), r, nl', d', e', u'.
      split; [do 6 f_equal; cbn [pieces_text flat_map piece_text app blen]; rewrite !len_utf8_ascii by lia; fold (pieces_text ps); lia |].
      split; [apply ip_char; [apply ident_cp_45 | exact H2] |].
      cbn [uflags]. change ((0 =? 0) && (45 =? 45)) with true. cbv iota.
      destruct ps as [| [c2 |] ps]; try exact H3. inversion H2; subst. rewrite peek0 in E1. rewrite E1. exact H3.
  - destruct (is_ident_ascii_lower (peek_nth l 0)) eqn:E1.
    + destruct l as [| c l]; [rewrite peek_nil in E1; discriminate |]. rewrite peek0 in *. cbn [tl length] in *.
      assert (IC : is_ident c = true) by (apply lower_ident; now rewrite E1). apply is_ident_spec in IC.
      assert (A : c < 128) by (apply lower_ascii; now rewrite E1). assert (c <> 0) by tauto.
      match goal with |- context [if ?b then false else u] => replace (if b then false else u) with (u && url_ok_plain i c) by (unfold url_ok_plain; rewrite E1; destruct b, u; reflexivity) end.
      destruct (IH l (i + 1) (len + 1) nl d e (u && url_ok_plain i c)) as (ps & r & nl' & d' & e' & u' & -> & H2 & H3); [lia | now apply esc_ok_tl in K |].
      exists (Plain c :: ps), r, nl', d', e', u'.
      split; [do 6 f_equal; cbn [pieces_text flat_map piece_text app blen]; rewrite !len_utf8_ascii by lia; fold (pieces_text ps); lia |].
      split; [apply ip_char; [tauto | exact H2] |].
      cbn [uflags]. rewrite E0, E1. replace (c =? 0) with false by lia. cbn [negb]. rewrite orb_false_r. exact H3.
    + destruct (is_ident (peek_nth l 0)) eqn:E2.
      * destruct l as [| c l]; [rewrite peek_nil in E2; discriminate |]. rewrite peek0 in *. cbn [tl length] in *.
        apply is_ident_spec in E2. assert (c <> 0) by tauto.
        match goal with |- context [if ?b then false else u] => replace (if b then false else u) with (u && url_ok_plain i c) by (unfold url_ok_plain; rewrite E1; destruct b, u; reflexivity) end.
        destruct (IH l (i + 1) (len + len_utf8 c) true d e (u && url_ok_plain i c)) as (ps & r & nl' & d' & e' & u' & -> & H2 & H3); [lia | now apply esc_ok_tl in K |].
        exists (Plain c :: ps), r, nl', d', e', u'.
        split; [do 6 f_equal; cbn [pieces_text flat_map piece_text app blen]; fold (pieces_text ps); lia |].
        split; [apply ip_char; [tauto | exact H2] |].
        cbn [uflags]. rewrite E0, E1. replace (c =? 0) with false by lia. cbn [negb]. rewrite orb_true_r. exact H3.
      * destruct (is_escape_sequence (peek_nth l 0) (peek_nth l 1)) eqn:E3.
        -- assert (NE : l <> []) by (intros ->; discriminate).
           pose proof (proj2 (starts_escape_peek l) (conj NE E3)) as SE.
           destruct l as [| c l]; [congruence |]. pose proof (starts_escape_92 _ _ SE); subst c. cbn [tl length] in *.
           destruct (consume_escape_spec l SE) as (n & ee & r1 & -> & A & B & C).
           pose proof (escape_at_app _ _ _ A) as (Ea & (e' & Ee)).
           assert (Hlen : (length r1 <= length l)%nat) by (subst ee; inversion Ea; rewrite app_length; lia).
           assert (K1 : esc_ok r1) by (apply (esc_ok_suffix ee); now rewrite <- Ea).
           assert (TB : take_bytes n (92 :: l) = Some ee) by (rewrite B by assumption; rewrite Ea; apply take_bytes_app).
           destruct (IH r1 (i + 1) (len + n) nl d true (u && negb (url_escape_mismatch i (trim_end ee)))) as (ps & r & nl' & d' & e'' & u' & Q & H2 & H3); [lia | assumption |].
           exists (Esc ee :: ps), r, nl', d', e'', u'.
           split; [| split; [econstructor; eassumption | exact H3]].
           replace (Some (len + blen (pieces_text (Esc ee :: ps)), nl', d', e'', u', r)) with (Some (len + n + blen (pieces_text ps), nl', d', e'', u', r))
             by (do 6 f_equal; cbn [pieces_text flat_map piece_text]; rewrite blen_app, (B K); fold (pieces_text ps); lia).
           destruct u; cbn [andb] in *.
           ++ rewrite TB. rewrite <- Q. now destruct (url_escape_mismatch i (trim_end ee)).
           ++ exact Q.
        -- rewrite andb_false_r.
           destruct ((peek_nth l 0 =? EOFc) && non_empty l) eqn:E4.
           ++ destruct l as [| c l]; [cbn in E4; discriminate |]. rewrite peek0 in *. cbn [tl length] in *.
              unfold EOFc in E4. assert (c = 0) by lia. subst c.
              destruct (IH l i (len + 1) nl d true false) as (ps & r & nl' & d' & e' & u' & -> & H2 & H3); [lia | now apply esc_ok_tl in K |].
              exists (Plain 0 :: ps), r, nl', d', e', u'.
              split; [do 6 f_equal; cbn [pieces_text flat_map piece_text app blen]; rewrite !len_utf8_ascii by lia; fold (pieces_text ps); lia |].
              split; [apply ip_char; [apply ident_cp_0 | exact H2] |].
              cbn [uflags]. rewrite E0. exact H3.
           ++ exists [], l, nl, d, e, u. split; [do 6 f_equal; cbn; lia |]. split; [| reflexivity].
              constructor.
              ** intros (c & r & -> & Hc). rewrite peek0 in *. destruct (ident_cp_cases c Hc); [congruence |]. subst. cbn in E4. discriminate.
              ** rewrite starts_escape_peek. intros (_ & X). congruence.
Qed.

Lemma finding_url_spec : forall l, esc_ok l -> exists ps r nl d e u,
  consume_ident_sequence_finding_url_keyword l = Some (blen (pieces_text ps), nl, d, e, u, r) /\
  ident_pieces l ps r /\ uflags 0 false false false true ps = (nl, d, e, u).
Proof.
  intros l K. unfold consume_ident_sequence_finding_url_keyword.
  destruct (url_ident_loop_spec (S (Datatypes.length l)) l 0 0 false false false true) as (ps & r & nl & d & e & u & E & H); [lia | assumption |].
  exists ps, r, nl, d, e, u. now rewrite E.
Qed.

(* ---- whitespace ---- *)
Definition ws_class (c : N) : N := ws_bit c.
Definition ws_style (p : list N) : N := fold_left (fun s c => N.lor s (ws_bit c)) p 0.
Lemma consume_whitespace_loop_spec : forall l i st, exists p r,
  consume_whitespace_loop l i st = (i + blen p, fold_left (fun s c => N.lor s (ws_bit c)) p st, r) /\ run white l p r.
Proof.
  induction l as [| c l IH]; intros i st; cbn [consume_whitespace_loop].
  - exists [], []. split; [cbn; do 2 f_equal; lia |]. repeat split; auto. apply starts_nil.
  - destruct (is_whitespace c) eqn:E.
    + destruct (IH (i + 1) (N.lor st (ws_bit c))) as (p & r & -> & H1 & H2 & H3). exists (c :: p), r.
      apply is_whitespace_spec in E. split.
      * cbn [blen fold_left]. rewrite len_utf8_ascii by (now apply white_ascii). do 2 f_equal. lia.
      * repeat split; [now rewrite H1 | now constructor | assumption].
    + exists [], (c :: l). split; [cbn; do 2 f_equal; lia |]. repeat split; auto. rewrite starts_cons, <- is_whitespace_spec. congruence.
Qed.
Lemma consume_whitespace_spec : forall l, exists p r,
  consume_whitespace l = (blen p, ws_style p, r) /\ run white l p r.
Proof.
  intro l. unfold consume_whitespace. destruct (consume_whitespace_loop_spec l 0 WS_none) as (p & r & E & H).
  exists p, r. split; [rewrite E; reflexivity | assumption].
Qed.

Lemma consume_same_spec : forall ch l, ch < 128 -> exists p r, consume_same ch l = (blen p, r) /\ run (eq ch) l p r.
Proof.
  intros ch l A. induction l as [| c l IH]; cbn [consume_same].
  - exists [], []. repeat split; auto. apply starts_nil.
  - destruct (c =? ch) eqn:E.
    + destruct IH as (p & r & -> & H1 & H2 & H3). exists (c :: p), r. assert (c = ch) by lia. subst c.
      split; [cbn [blen]; rewrite len_utf8_ascii by assumption; f_equal; lia |].
      repeat split; [now rewrite H1 | now constructor | assumption].
    + exists [], (c :: l). repeat split; auto. rewrite starts_cons. lia.
Qed.
Lemma consume_newline_run_spec : forall l, exists p r, consume_newline_run l = (blen p, r) /\ run newline l p r.
Proof.
  induction l as [| c l IH]; cbn [consume_newline_run].
  - exists [], []. repeat split; auto. apply starts_nil.
  - destruct (is_newline c) eqn:E.
    + destruct IH as (p & r & -> & H1 & H2 & H3). exists (c :: p), r. apply is_newline_spec in E.
      split; [cbn [blen]; rewrite len_utf8_ascii by (unfold newline in E; lia); f_equal; lia |].
      repeat split; [now rewrite H1 | now constructor | assumption].
    + exists [], (c :: l). repeat split; auto. rewrite starts_cons, <- is_newline_spec. congruence.
Qed.
Lemma skip_digits_spec : forall l, exists p r, skip_digits l = (blen p, r) /\ run digit l p r.
Proof.
  induction l as [| c l IH]; cbn [skip_digits].
  - exists [], []. repeat split; auto. apply starts_nil.
  - destruct (is_ascii_digit c) eqn:E.
    + destruct IH as (p & r & -> & H1 & H2 & H3). exists (c :: p), r. apply is_digit_spec in E.
      split; [cbn [blen]; rewrite len_utf8_ascii by (unfold digit in E; lia); f_equal; lia |].
      repeat split; [now rewrite H1 | now constructor | assumption].
    + exists [], (c :: l). repeat split; auto. rewrite starts_cons, <- is_digit_spec. congruence.
Qed.

(* ---- comments ---- *)
Lemma contains_cons : forall n c l, contains n (c :: l) -> (exists b, c :: l = n ++ b) \/ contains n l.
Proof.
  intros n c l (a & b & E). destruct a as [| x a].
  - left. now exists b.
  - right. inversion E; subst. now exists a, b.
Qed.
Lemma block_comment_body_spec : forall l, exists n r, block_comment_body l = (n, r) /\
  ((exists b, l = b ++ 42 :: 47 :: r /\ n = blen (b ++ [42; 47]) /\ ~ contains [42; 47] (b ++ [42])) \/
   (r = [] /\ n = blen l /\ ~ contains [42; 47] l)).
Proof.
  induction l as [| c l IH]; cbn [block_comment_body].
  - exists 0, []. split; [reflexivity |]. right. repeat split. intros (a & b & E). destruct a; discriminate.
  - destruct ((c =? 42) && (peek_nth l 0 =? 47)) eqn:E.
    + destruct l as [| d l]; [rewrite peek_nil in E; lia |]. rewrite peek0 in E. assert (c = 42 /\ d = 47) as (-> & ->) by lia.
      eexists _, _. split; [reflexivity |]. left. exists []. cbn [tl]. repeat split.
      intros (a & b & E'). destruct a as [| x [| y a]]; discriminate.
    + destruct IH as (n & r & -> & IH). exists (len_utf8 c + n), r. split; [reflexivity |].
      destruct IH as [(b & -> & -> & N1) | (-> & -> & N1)].
      * left. exists (c :: b). repeat split.
        cbn [app]. intro X. apply contains_cons in X. destruct X as [(x & X) | X]; [| contradiction].
        cbn [app] in X. destruct b as [| d b]; cbn [app] in X; inversion X; subst.
        cbn in E. discriminate.
      * right. repeat split. intro X. apply contains_cons in X. destruct X as [(x & X) | X]; [| contradiction].
        inversion X; subst. cbn in E. discriminate.
Qed.

Lemma single_comment_body_spec : forall l, exists p r, single_comment_body l = (N.of_nat (Datatypes.length p), r) /\ l = p ++ r /\
  Forall (fun c => ~ newline c /\ c <> 0) p /\ ~ starts (fun c => ~ newline c /\ c <> 0) r.
Proof.
  induction l as [| c l IH]; cbn [single_comment_body].
  - exists [], []. repeat split; auto. apply starts_nil.
  - destruct (is_newline c || (c =? EOFc)) eqn:E.
    + exists [], (c :: l). repeat split; auto. rewrite starts_cons, <- is_newline_spec. unfold EOFc in E.
      intros (A & B). destruct (is_newline c); [congruence | cbn in E; lia].
    + destruct IH as (p & r & -> & -> & H1 & H2). exists (c :: p), r.
      split; [f_equal; cbn [Datatypes.length]; lia |]. repeat split; auto. constructor; [| assumption].
      rewrite <- is_newline_spec. unfold EOFc in E. destruct (is_newline c); [discriminate |]. cbn in E. split; [discriminate | lia].
Qed.
