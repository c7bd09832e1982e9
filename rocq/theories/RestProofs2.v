(* What a token covers does not depend on the text after it: numbers and dimensions (lemmas for C23). *)
From Coq Require Import ZifyBool ZifyNat ZifyN.
From Verif Require Import Lexer SpecToken SpecLex SpecTrace SpecWrite LexBase ScanProofs ScanProofs2 ScanProofs3 NumProofs DimProofs LexProofs LexFacts LexProps2 RestProofs.
Open Scope N_scope.
Open Scope list_scope.

Definition stops (r : list N) : Prop := ~ starts digit r /\ ~ dot_digit r /\ ~ starts_exp r.
Lemma exponent_no_digit : forall x r, exponent x -> ~ starts digit (x ++ r) /\ ~ dot_digit (x ++ r).
Proof.
  intros x r H. apply exponent_head in H. destruct H as (e & y & -> & He). cbn [app]. split.
  - rewrite starts_cons. unfold digit. lia.
  - intros (d & z & Q & _). inversion Q. lia.
Qed.
Lemma css_longest : forall p y, css_number p -> stops y -> longest_number (p ++ y) p y.
Proof.
  intros p y (s & m & x & -> & Hs & Hm & Hx) (Y1 & Y2 & Y3).
  assert (XY : ~ starts digit (x ++ y) /\ ~ dot_digit (x ++ y)).
  { destruct Hx as [-> | Hx]; [split; assumption | now apply exponent_no_digit]. }
  assert (NX : (x = [] /\ ~ starts_exp y) \/ (exponent x /\ ~ starts digit y)) by (destruct Hx as [-> | Hx]; auto).
  destruct XY as (X1 & X2). destruct Hm as [(Hn & Hd) | (i & f & -> & Hi & (Hf & Df))].
  - assert (NP : num_parts ((s ++ m ++ x) ++ y) s m [] x y).
    { constructor; cbn [app]; auto. now rewrite <- !app_assoc. }
    apply parts_longest in NP. cbn [app] in NP. exact NP.
  - assert (NP : num_parts ((s ++ (i ++ 46 :: f) ++ x) ++ y) s i (46 :: f) x y).
    { constructor; auto.
      - rewrite <- !app_assoc. reflexivity.
      - cbn [app]. rewrite starts_cons. unfold digit. lia.
      - right. exists f. repeat split; auto.
      - right. discriminate. }
    apply parts_longest in NP. rewrite <- (app_assoc i) in NP |- *. exact NP.
Qed.
Lemma dot_digit_head : forall l c x y, dot_digit ((c :: l) ++ x) -> (l <> [] \/ c <> 46) -> dot_digit ((c :: l) ++ y).
Proof.
  intros l c x y (d & z & E & Hd) H. cbn in E. inversion E; subst c. destruct l as [| d' l]; [destruct H; congruence |]. cbn in *. match goal with Q : d' :: _ = d :: _ |- _ => inversion Q; subst end. exists d, (l ++ y). auto.
Qed.
(* the unit text [q] after the number *)
Lemma dimension_longest : forall p q r y, longest_number (p ++ q ++ r) p (q ++ r) -> starts (fun c => ~ digit c /\ c <> 46) q ->
  ~ starts digit y -> (q = [101] \/ q = [69] -> ~ starts sign y) -> longest_number (p ++ q ++ y) p (q ++ y).
Proof.
  intros p q r y HL (c & q' & -> & Hd & H46) Y1 Y2.
  assert (NS : is_number_start (p ++ (c :: q') ++ r) = true).
  { apply number_start_spec. destruct HL as (_ & (s & m & x & -> & Hs & Hm & Hx) & _). exists s. split; [exact Hs |]. eexists. split; [rewrite <- app_assoc; reflexivity |].
    destruct Hm as [(Hn & Hdg) | (i & f & -> & Hi & (Hf & Df))].
    - left. destruct m as [| a m]; [congruence |]. inversion Hdg; subst. exists a. eexists. split; [reflexivity | assumption].
    - destruct i as [| a i]; [right | left].
      + eexists. split; [reflexivity |]. destruct f as [| a f]; [congruence |]. inversion Df; subst. exists a. eexists. split; [reflexivity | assumption].
      + inversion Hi; subst. exists a. eexists. split; [reflexivity | assumption]. }
  destruct (number_extent_parts _ NS) as (s & i & fr & x & r0 & _ & NP). pose proof (parts_longest _ _ _ _ _ _ NP) as HL'.
  destruct (longest_det _ _ _ _ _ HL HL') as (Ep & <-). destruct NP as [E0 Hs Hi Him Hfr Hne Hex].
  assert (NP' : num_parts (p ++ (c :: q') ++ y) s i fr x ((c :: q') ++ y)).
  { constructor; auto.
    - rewrite Ep, <- !app_assoc. reflexivity.
    - rewrite app_assoc in *. destruct (fr ++ x) as [| a z]; cbn [app] in *; eapply not_starts_head; eauto.
    - destruct Hfr as [(-> & Hfr) | (f & -> & Hf & Hfr)].
      + left. split; [reflexivity |]. intros (d & z & Q & Hdd). destruct x as [| a x].
        * cbn in Q. inversion Q. congruence.
        * destruct Hex as [(Q2 & _) | (Hx & _)]; [discriminate |]. apply exponent_head in Hx. destruct Hx as (e0 & z0 & Q2 & He). inversion Q2; subst. cbn in Q. inversion Q; subst. lia.
      + right. exists f. repeat split; auto. 1-2: apply Hf. destruct x as [| a x]; cbn [app] in *; eapply not_starts_head; eauto.
    - destruct Hex as [(-> & Hex) | (Hx & Hex)]; [left | right].
      + split; [reflexivity |]. intros (x & z & Q & (e & sg & d & -> & He & Hsg & (Hd1 & Hd2))). apply Hex.
        destruct d as [| d0 d]; [congruence |]. inversion Hd2; subst. cbn [app] in Q. inversion Q; subst e. clear Q.
        match goal with Q : _ = _ ++ z |- _ => rename Q into QQ end.
        destruct Hsg as [-> | Hsg].
        * cbn [app] in QQ. destruct q' as [| a q'].
          { cbn in QQ. subst y. exfalso. apply Y1. eexists _, _. split; [reflexivity | assumption]. }
          cbn in QQ. inversion QQ; subst a. exists ([c; d0]), (q' ++ r). split; [reflexivity |]. exists c, [], [d0]. repeat split; auto; [now left | discriminate].
        * assert (S1 : exists g, sg = [g] /\ sign g) by (unfold sign; destruct Hsg as [-> | ->]; eexists; split; auto).
          destruct S1 as (g & -> & Hg). cbn [app] in QQ. destruct q' as [| a q'].
          { cbn in QQ. subst y. exfalso. apply Y2; [destruct He as [-> | ->]; auto |]. eexists _, _. split; [reflexivity | assumption]. }
          cbn in QQ. inversion QQ; subst a. destruct q' as [| a q'].
          { match goal with Q2 : [] ++ y = _ |- _ => cbn in Q2; subst y end. exfalso. apply Y1. eexists _, _. split; [reflexivity | assumption]. }
          match goal with Q2 : (a :: q') ++ y = _ |- _ => cbn in Q2; inversion Q2; subst a end.
          exists ([c; g; d0]), (q' ++ r). split; [reflexivity |]. exists c, [g], [d0]. repeat split; auto; [right; exact Hsg | discriminate].
      + split; [exact Hx |]. cbn [app]. now rewrite starts_cons. }
  apply parts_longest in NP'. rewrite <- Ep in NP'. exact NP'.
Qed.

(* ---- the unit table ---- *)
Lemma trie_len : forall t u n l u' n' l', trie_walk t u n l = (u', n', l') -> (length l' <= length l)%nat.
Proof.
  induction t as [| alts v child IHc next IHn]; intros u n l u' n' l' E; cbn [trie_walk] in E; [now inversion E |].
  destruct (existsb (N.eqb (peek_nth l 0)) alts).
  - apply IHc in E. destruct l; cbn in *; lia.
  - now apply IHn in E.
Qed.
Lemma trie_swap : forall t p u n r y u' n', trie_ok t = true -> trie_walk t u n (p ++ r) = (u', n', r) ->
  (exists c x z, r = c :: x /\ y = c :: z) \/ ~ starts letter y -> trie_walk t u n (p ++ y) = (u', n', y).
Proof.
  induction t as [| alts v child IHc next IHn]; intros p u n r y u' n' OK E HY; cbn [trie_walk] in *.
  - inversion E. assert (p = []). { apply (f_equal (@length N)) in H2. rewrite app_length in H2. destruct p; [reflexivity | cbn in H2; lia]. } now subst.
  - cbn [trie_ok] in OK. rewrite !andb_true_iff in OK. destruct OK as ((OA & OC) & ON).
    assert (NL : forall x, ~ letter x -> existsb (N.eqb x) alts = false).
    { intros x Hx. destruct (existsb (N.eqb x) alts) eqn:X; [| reflexivity]. exfalso.
      apply existsb_exists in X. destruct X as (a & Ia & Ea). apply N.eqb_eq in Ea. subst a.
      rewrite forallb_forall in OA. apply OA in Ia. apply Hx. now apply is_letter_spec. }
    destruct p as [| c p].
    + cbn [app] in *.
      assert (EX : existsb (N.eqb (peek_nth r 0)) alts = false).
      { destruct r as [| c r]; [apply NL; rewrite peek_nil; unfold letter, upper, lower; lia |].
        destruct (existsb (N.eqb (peek_nth (c :: r) 0)) alts) eqn:X; [| reflexivity]. exfalso. apply trie_len in E. cbn in E. lia. }
      rewrite EX in E.
      assert (EY : existsb (N.eqb (peek_nth y 0)) alts = false).
      { destruct HY as [(c & x & z & -> & ->) | HY]; [exact EX |]. apply NL. intro L. apply HY. apply peek_starts; [unfold letter, upper, lower; lia | exact L]. }
      rewrite EY. exact (IHn [] u n r y u' n' ON E HY).
    + cbn [app] in E |- *. rewrite peek0 in E |- *. cbn [tl] in E |- *. destruct (existsb (N.eqb c) alts).
      * exact (IHc p _ _ r y u' n' OC E HY).
      * exact (IHn (c :: p) u n r y u' n' ON E HY).
Qed.
Lemma known_swap : forall ps r y u n r', ident_pieces (pieces_text ps ++ r) ps r -> ident_pieces (pieces_text ps ++ y) ps y -> esc_ok (pieces_text ps ++ r) -> esc_ok (pieces_text ps ++ y) ->
  consume_ident_sequence_finding_known_dimension (pieces_text ps ++ r) = (u, n, r') -> r' = r /\ consume_ident_sequence_finding_known_dimension (pieces_text ps ++ y) = (u, n, y).
Proof.
  intros ps r y u n r' H1 H2 E1 E2 E. unfold consume_ident_sequence_finding_known_dimension in *.
  destruct (trie_sound (pieces_text ps ++ r)) as (p & l1 & u0 & Etr & El & Fp & _). rewrite Etr in E.
  destruct (consume_ident_spec l1) as (len & ps1 & r1 & Ec & Hp & Hl & Hpos & Hz). rewrite Ec in E.
  assert (IP : ident_pieces (pieces_text ps ++ r) (map Plain p ++ ps1) r1) by (rewrite El; now apply ident_pieces_letters).
  destruct (ident_pieces_det _ _ _ H1 _ _ IP) as (Eps & <-).
  pose proof (ident_pieces_app _ _ _ Hp) as El1.
  assert (Eq : pieces_text ps = p ++ pieces_text ps1) by (rewrite Eps, pieces_text_app, pieces_text_plain; reflexivity).
  set (l1' := pieces_text ps1 ++ y).
  assert (Etr' : trie_walk dim_trie U_Unknown 0 (pieces_text ps ++ y) = (u0, N.of_nat (length p), l1')).
  { rewrite Eq, <- app_assoc. rewrite El in Etr. rewrite El1 in Etr. apply (trie_swap dim_trie p U_Unknown 0 (pieces_text ps1 ++ r)); [exact dim_trie_ok | exact Etr |].
    destruct (pieces_text ps1) as [| c z] eqn:Q; [right | left; exists c, (z ++ r), (z ++ y); auto].
    unfold l1'. try rewrite Q. cbn. apply ident_pieces_stop in H2. destruct H2 as (H2 & _). intros (c & w & -> & Hc). apply H2. rewrite starts_cons. now apply letter_ident. }
  rewrite Etr'. destruct (consume_ident_spec l1') as (len' & ps2 & r2 & Ec' & Hp' & Hl' & Hpos' & Hz'). rewrite Ec'.
  assert (IP' : ident_pieces (pieces_text ps ++ y) (map Plain p ++ ps2) r2).
  { rewrite Eq, <- app_assoc. fold l1'. now apply ident_pieces_letters. }
  destruct (ident_pieces_det _ _ _ H2 _ _ IP') as (Eps' & <-).
  assert (ps2 = ps1) by (rewrite Eps in Eps'; now apply app_inv_head in Eps'). subst ps2.
  assert (len' = len).
  { rewrite Hl, Hl'; [reflexivity | |].
    - unfold l1'. apply (esc_ok_suffix p). now rewrite app_assoc, <- Eq.
    - apply (esc_ok_suffix p). now rewrite <- El. }
  subst len'. destruct (0 <? len); inversion E; subst; auto.
Qed.

Definition numeric_result (fl sg : bool) (p r : list N) : option (token * list N) :=
  if peek_nth r 0 =? 37 then Some (new_dimension fl sg (blen p) 1 (parse_f32 p) U_Percent, tl r)
  else if is_ident_start_sequence (peek_nth r 0) (peek_nth r 1) (peek_nth r 2) then
    let '(u, n, r') := consume_ident_sequence_finding_known_dimension r in Some (new_dimension fl sg (blen p) n (parse_f32 p) u, r')
  else Some (new_number fl sg (blen p) (parse_f32 p), r).
Lemma numeric_exact : forall l p r, longest_number l p r -> is_number_start l = true -> exists fl, (fl = true <-> float_text p) /\
  consume_numeric_token l = numeric_result fl (is_sign (peek_nth l 0)) p r.
Proof.
  intros l p r HL H. unfold consume_numeric_token. destruct (number_extent_parts l H) as (s & i & fr & x & r0 & -> & NP).
  pose proof (parts_longest _ _ _ _ _ _ NP) as LN. pose proof (float_text_parts _ _ _ _ _ _ NP) as FT.
  destruct (longest_det _ _ _ _ _ HL LN) as (Ep & Er0). rewrite <- Ep in FT |- *. destruct HL as (El & CN & MX).
  destruct (take_number p r CN) as (T1 & T2). rewrite <- El in T1, T2. rewrite T1, T2. exists (has_dot_or_exp fr x). split; [exact FT | reflexivity].
Qed.
Lemma bool_iff : forall (a b : bool) (P : Prop), (a = true <-> P) -> (b = true <-> P) -> a = b.
Proof. intros a b P H1 H2. destruct a, b; auto; [symmetry; apply H2, H1; reflexivity | apply H1, H2; reflexivity]. Qed.
