(* C23, first half: what a token covers when the text after it changes. *)
From Coq Require Import ZifyBool ZifyNat ZifyN.
From Verif Require Import Lexer SpecToken SpecLex SpecTrace SpecWrite LexBase TokenProofs KindProofs ScanProofs ScanProofs2 ScanProofs3 NumProofs DimProofs LexProofs LexFacts LexKinds LexProps LexProps2 LexProps3 LexTrace LexUrl CursorFacts RestProofs RestProofs2.
Open Scope N_scope.
Open Scope list_scope.

Definition same_head (r y : list N) : Prop := exists c x z, r = c :: x /\ y = c :: z.
Lemma starts_escape_head : forall c x z, starts_escape (92 :: c :: x) -> starts_escape (92 :: c :: z).
Proof. intros c x z [E | (d & w & E & H)]; inversion E; subst. right. exists d, z. auto. Qed.
Lemma wsi_swap : forall ps p r y, p = pieces_text ps -> would_start_ident (p ++ r) -> ident_pieces (p ++ r) ps r -> ~ open_escape p \/ same_head r y ->
  would_start_ident (p ++ y).
Proof.
  intros ps p r y Ep W H NO.
  assert (Hn : p <> []). { rewrite Ep. apply (pieces_nonempty _ _ _ H). exact (ident_pieces_nonempty _ _ _ W H). }
  assert (E2 : forall q, starts_escape (q ++ r) -> q <> [] -> (exists a, p = a ++ q) -> starts_escape (q ++ y)).
  { intros q S Hq (a & Ea). destruct q as [| c q]; [congruence |]. cbn [app] in S |- *. pose proof (starts_escape_92 _ _ S). subst c. destruct q as [| d q].
    - cbn [app] in S |- *. destruct NO as [NO | (c & x & z & -> & ->)]; [exfalso; apply NO; exists a, []; split; [exact Ea | constructor] |]. eapply starts_escape_head; eauto.
    - cbn [app] in S |- *. eapply starts_escape_head; eauto. }
  destruct W as [W | [W | (x & E & W)]].
  - left. destruct p as [| c p]; [congruence |]. cbn [app] in *. now rewrite starts_cons in *.
  - right. left. apply E2; [exact W | exact Hn | exists []; reflexivity].
  - right. right. destruct p as [| c p]; [congruence |]. cbn [app] in *. inversion E; subst c x. exists (p ++ y). split; [reflexivity |].
    destruct p as [| c p].
    + exfalso. cbn [app] in W. pose proof (ident_pieces_stop _ _ _ H) as (S1 & S2).
      destruct W as [(c & x & -> & Hc) | [(c & x & -> & <-) | W]]; [apply S1; rewrite starts_cons; now left | apply S1; rewrite starts_cons; right; now right | contradiction].
    + cbn [app] in W |- *. rewrite !starts_cons in *. destruct W as [W | [W | W]]; auto. right. right. apply (E2 (c :: p)); [exact W | discriminate | exists [45]; reflexivity].
Qed.

Lemma skip_ws_swap : forall n a r, exists x b, skip_ws_upto n (a ++ 41 :: r) = x :: b ++ r /\ forall y, skip_ws_upto n (a ++ 41 :: y) = x :: b ++ y.
Proof.
  induction n as [| n IH]; intros a r; cbn [skip_ws_upto].
  - destruct a as [| c a]; cbn [app]; [exists 41, [] | exists c, (a ++ [41])]; split; intros; try reflexivity; rewrite <- app_assoc; reflexivity.
  - destruct a as [| c a]; cbn [app].
    + exists 41, []. split; reflexivity.
    + destruct (is_whitespace c).
      * apply IH.
      * exists c, (a ++ [41]). split; [rewrite <- app_assoc; reflexivity |]. intro y. rewrite <- app_assoc. reflexivity.
Qed.
Lemma quote_ahead_swap : forall a r y, quote_ahead (a ++ 41 :: r) = quote_ahead (a ++ 41 :: y).
Proof. intros a r y. unfold quote_ahead. destruct (skip_ws_swap 4 a r) as (x & b & -> & E2). now rewrite E2. Qed.
Lemma quote_soon_ahead : forall y, quote_soon y -> quote_ahead y = true.
Proof.
  intros y (w & c & r & -> & Fw & Lw & Q). unfold quote_ahead.
  assert (R : run white (w ++ c :: r) w (c :: r)).
  { split; [reflexivity |]. split; [exact Fw |]. rewrite starts_cons. unfold quote, white, newline in *. lia. }
  apply (quote_ahead_spec 4 _ _ _ R). split; [exact Lw |]. now rewrite starts_cons.
Qed.
Lemma remnants_det : forall l p r, bad_url_remnants l p r -> forall p' r', bad_url_remnants l p' r' -> p = p' /\ r = r'.
Proof.
  intros l p r H. induction H as [r | | c l p r H1 H2 H IH | l x l' p r Hx H IH]; intros p' r' H'.
  - inversion H'; subst; auto; try congruence. match goal with Q : escape_at _ _ _ |- _ => apply escape_at_starts in Q; apply starts_escape_92 in Q; discriminate end.
  - inversion H'; subst; auto. match goal with Q : escape_at _ _ _ |- _ => inversion Q end.
  - inversion H'; subst; try congruence.
    + match goal with Q : bad_url_remnants l _ _ |- _ => apply IH in Q; destruct Q; subst; auto end.
    + exfalso. apply H2. match goal with Q : escape_at _ _ _ |- _ => exact (escape_at_starts _ _ _ Q) end.
  - inversion H'; subst.
    + apply escape_at_starts in Hx. apply starts_escape_92 in Hx. discriminate.
    + inversion Hx.
    + exfalso. apply escape_at_starts in Hx. contradiction.
    + match goal with Q : escape_at l _ _ |- _ => destruct (escape_det _ _ _ _ _ Hx Q) as (-> & ->) end.
      match goal with Q : bad_url_remnants _ _ r' |- _ => apply IH in Q; destruct Q; subst; auto end.
Qed.
Lemma remnants_last : forall l p r, bad_url_remnants l p r -> r <> [] -> exists a, p = a ++ [41].
Proof.
  intros l p r H. induction H as [r | | c l p r H1 H2 H IH | l x l' p r Hx H IH]; intro Hr.
  - exists []. reflexivity.
  - congruence.
  - destruct (IH Hr) as (a & ->). exists (c :: a). reflexivity.
  - destruct (IH Hr) as (a & ->). exists (x ++ a). now rewrite app_assoc.
Qed.
Lemma url_closed_last : forall l c t e r, url_body l c t e r -> e = UClosed -> exists a, t = a ++ [41].
Proof. intros l c t e r H. induction H; intro E; try discriminate; eauto. Qed.
Lemma split_prefix : forall (p r q : list N), p ++ r = q ++ r -> p = q.
Proof. intros p r q H. now apply app_inv_tail in H. Qed.
Lemma no0_app : forall a b, ~ In 0 (a ++ b) -> ~ In 0 a /\ ~ In 0 b.
Proof. intros a b H. split; intro I; apply H; apply in_or_app; auto. Qed.
(* a function or url name stays what it is when only the text after the parenthesis changes *)
Lemma open_paren_pieces : forall l ps x y, ident_pieces l ps (40 :: x) -> ident_pieces (pieces_text ps ++ 40 :: y) ps (40 :: y).
Proof. intros l ps x y H. apply (pieces_head _ _ _ H 40 x y); [reflexivity | discriminate]. Qed.
Lemma open_paren_start : forall l ps x y, l = pieces_text ps ++ 40 :: x -> would_start_ident l -> ident_pieces l ps (40 :: x) -> would_start_ident (pieces_text ps ++ 40 :: y).
Proof. intros l ps x y -> W H. apply (wsi_swap ps _ (40 :: x)); auto. right. exists 40, x, y. auto. Qed.
(* running the scanner on a name with an open parenthesis *)
Lemma like_paren : forall ps x nl d e u, ident_pieces (pieces_text ps ++ 40 :: x) ps (40 :: x) -> esc_ok (pieces_text ps ++ 40 :: x) -> uflags 0 false false false true ps = (nl, d, e, u) ->
  consume_ident_like_token (pieces_text ps ++ 40 :: x) =
    if u && negb (quote_ahead x) then Some (consume_url_sequence x (blen (pieces_text ps) + 1) e) else Some (new_function nl d e (blen (pieces_text ps) + 1), x).
Proof.
  intros ps x nl d e u H He Hu. unfold consume_ident_like_token.
  destruct (finding_url_spec _ He) as (ps' & r' & nl' & d' & e' & u' & -> & Hp & Hu'). destruct (ident_pieces_det _ _ _ H _ _ Hp) as (<- & <-).
  rewrite Hu in Hu'. inversion Hu'; subst. rewrite peek0. cbn [N.eqb Pos.eqb tl]. fold (quote_ahead x). destruct (u' && negb (quote_ahead x)); reflexivity.
Qed.
Lemma url_end_rest : forall l c t e r, url_body l c t e r -> e = UAtEnd -> r = [].
Proof. intros l c t e r H. induction H; intro E; try discriminate; auto. Qed.
Lemma has_no0 : forall (a : list N) (b : N) (c : list N), ~ In 0 (a ++ b :: c) -> ~ In 0 c.
Proof. intros a b c H I. apply H. apply in_or_app. right. now right. Qed.
Lemma like_swap : forall p r y t, ident_like_view (p ++ r) t r -> would_start_ident (p ++ r) -> ~ In 0 (p ++ r) -> ~ In 0 (p ++ y) -> esc_ok (p ++ y) ->
  (tkind t = K_Ident -> ~ open_escape p /\ ~ starts ident_cp y /\ ~ starts_escape y /\ ~ starts (eq 40) y) ->
  (tkind t = K_Function -> (exists tu x, consume_ident_like_token p = Some (tu, x) /\ tkind tu = K_Url) -> quote_soon y) ->
  (tkind t = K_Url \/ tkind t = K_BadUrl -> r <> []) ->
  would_start_ident (p ++ y) /\ consume_ident_like_token (p ++ y) = Some (t, y).
Proof.
  intros p r y t V W H0 Y0 He HI HF HU. remember (p ++ r) as l eqn:El.
  destruct V as [ps r nl d e u Hp Hu Hs | ps r nl d e u Hp Hu Hs | ps r1 nl d e w c t r paren Hp Hu Hq Hw Hb | ps r1 nl d e w c t q r Hp Hu Hq Hw Hbr Hb].
  - destruct (ident_read nl d e (blen (pieces_text ps))) as (K & _). destruct (HI K) as (NO & Y1 & Y2 & Y3).
    pose proof (ident_pieces_app _ _ _ Hp) as E1. rewrite El in E1. apply split_prefix in E1. subst l.
    split; [apply (wsi_swap ps p r y); auto |].
    assert (HP : ident_pieces (p ++ y) ps y) by (rewrite E1 in NO |- *; apply (pieces_any _ _ _ Hp); auto).
    unfold consume_ident_like_token. destruct (finding_url_spec _ He) as (ps' & r' & nl' & d' & e' & u' & -> & Hp' & Hu').
    destruct (ident_pieces_det _ _ _ HP _ _ Hp') as (<- & <-). rewrite Hu in Hu'. inversion Hu'; subst nl' d' e' u'.
    replace (peek_nth y 0 =? 40) with false; [reflexivity |]. symmetry. destruct (peek_nth y 0 =? 40) eqn:Q; [| reflexivity]. exfalso. apply Y3.
    apply peek_eq_starts in Q; [| discriminate]. destruct Q as (z & ->). exists 40, z. auto.
  - destruct (function_read nl d e (blen (pieces_text ps) + 1)) as (K & _). specialize (HF K).
    pose proof (ident_pieces_app _ _ _ Hp) as E1. rewrite El in E1. assert (E2 : p = pieces_text ps ++ [40]) by (apply (split_prefix p r); rewrite E1, <- app_assoc; reflexivity).
    assert (EY : forall z, p ++ z = pieces_text ps ++ 40 :: z) by (intro z; rewrite E2, <- app_assoc; reflexivity).
    rewrite EY in *. split; [apply (open_paren_start l ps r y); auto |].
    rewrite (like_paren ps y nl d e u); auto; [| apply (open_paren_pieces l ps r y Hp)].
    destruct u; [| reflexivity]. cbn [andb].
    replace (quote_ahead y) with true; [reflexivity |]. symmetry. apply quote_soon_ahead. apply HF. clear Hs.
    assert (Hep : esc_ok p) by (apply (esc_ok_prefix p y); rewrite EY; exact He).
    assert (EP : p = pieces_text ps ++ 40 :: []) by exact E2. rewrite EP in Hep |- *.
    destruct (consume_url_spec [] (blen (pieces_text ps) + 1) e) as (w & c & t & r2 & (Q & _) & UU); [intros [| a a'] c b Q; discriminate |].
    symmetry in Q. apply app_eq_nil in Q. destruct Q as (-> & Q). apply app_eq_nil in Q. destruct Q as (-> & Q). apply app_eq_nil in Q. destruct Q as (-> & ->).
    destruct UU as [(paren & E3 & _) | (q & r' & Q & _ & _ & Q2)].
    + eexists _, _. split; [rewrite (like_paren ps [] nl d e true); [| apply (open_paren_pieces l ps r [] Hp) | exact Hep | exact Hu]; cbn [quote_ahead skip_ws_upto]; 
        change (quote_ahead []) with false; cbn [andb negb]; rewrite E3; reflexivity | apply url_read_gen].
    + exfalso. assert (U : url_body [] [] [] UMalformed []) by (apply Q2; intros []). inversion U; subst;
        repeat match goal with Z : _ ++ _ = [] |- _ => apply app_eq_nil in Z; destruct Z; subst end; try congruence;
        match goal with Z : escape_at _ _ _ |- _ => cbn [app] in Z; inversion Z end.
  - assert (Hr : r <> []) by (apply HU; left; apply url_read_gen). clear HU HF HI.
    pose proof (ident_pieces_app _ _ _ Hp) as E1. pose proof (has_no0 (pieces_text ps) 40 r1) as N0. rewrite <- E1 in N0. specialize (N0 H0). specialize (Hb N0).
    destruct paren; [| exfalso; apply Hr; exact (url_end_rest _ _ _ _ _ Hb eq_refl)].
    pose proof Hw as (Er1 & Fw & Sw).
    assert (E2 : p = pieces_text ps ++ 40 :: w ++ c ++ t). { apply (split_prefix p r). rewrite <- El, E1, Er1, <- app_assoc. cbn [app]. now rewrite <- !app_assoc. }
    assert (EY : forall z, p ++ z = pieces_text ps ++ 40 :: w ++ c ++ t ++ z) by (intro z; rewrite E2, <- app_assoc; cbn [app]; now rewrite <- !app_assoc).
    rewrite EY in *. split; [apply (open_paren_start l ps r1); auto |].
    rewrite (like_paren ps _ nl d e true); auto; [| apply (open_paren_pieces l ps r1 _ Hp)].
    destruct (url_closed_last _ _ _ _ _ Hb eq_refl) as (a & Et).
    replace (quote_ahead (w ++ c ++ t ++ y)) with false.
    2:{ rewrite <- Hq, Er1, Et. rewrite <- !(app_assoc a). rewrite !(app_assoc c a), !(app_assoc w (c ++ a)). cbn [app]. apply quote_ahead_swap. }
    cbn [andb negb]. f_equal.
    assert (Hey : esc_ok (w ++ c ++ t ++ y)) by (apply (esc_ok_suffix (pieces_text ps ++ [40])); rewrite <- app_assoc; exact He).
    assert (N0y : ~ In 0 (w ++ c ++ t ++ y)) by (apply (has_no0 (pieces_text ps) 40); exact Y0).
    destruct (consume_url_spec _ (blen (pieces_text ps) + 1) e Hey) as (w' & c' & t' & r' & Rw & UU).
    assert (RY : run white (w ++ c ++ t ++ y) w (c ++ t ++ y)).
    { split; [reflexivity |]. split; [exact Fw |]. destruct (c ++ t) as [| h z] eqn:Q; [rewrite Et in Q; apply app_eq_nil in Q; destruct Q as (_ & Q); destruct a; discriminate |].
      rewrite !(app_assoc c t), Q in Sw |- *. cbn [app] in *. eapply not_starts_head; eauto. }
    destruct (run_det _ _ _ _ _ _ RY Rw) as (<- & Ect). pose proof (url_swap _ _ _ _ _ Hb eq_refl y) as UB. rewrite Ect in UB.
    destruct UU as [(paren & E3 & Hb') | (q & r'' & -> & E3 & Hbr & Hb')]; specialize (Hb' N0y); destruct (url_body_det _ _ _ _ _ UB _ _ _ _ Hb') as (E4 & E5 & Q & E6); [| discriminate].
    destruct paren; [| discriminate]. rewrite E3, <- E4, <- E5, <- E6. reflexivity.
  - assert (Hr : r <> []) by (apply HU; right; reflexivity). clear HU HF HI.
    pose proof (ident_pieces_app _ _ _ Hp) as E1. pose proof (has_no0 (pieces_text ps) 40 r1) as N0. rewrite <- E1 in N0. specialize (N0 H0). specialize (Hb N0).
    pose proof Hw as (Er1 & Fw & Sw).
    assert (E2 : p = pieces_text ps ++ 40 :: w ++ c ++ t ++ q). { apply (split_prefix p r). rewrite <- El, E1, Er1, <- app_assoc. cbn [app]. now rewrite <- !app_assoc. }
    assert (EY : forall z, p ++ z = pieces_text ps ++ 40 :: w ++ c ++ t ++ q ++ z) by (intro z; rewrite E2, <- app_assoc; cbn [app]; now rewrite <- !app_assoc).
    rewrite EY in *. split; [apply (open_paren_start l ps r1); auto |].
    rewrite (like_paren ps _ nl d e true); auto; [| apply (open_paren_pieces l ps r1 _ Hp)].
    destruct (remnants_last _ _ _ Hbr Hr) as (a & Et).
    replace (quote_ahead (w ++ c ++ t ++ q ++ y)) with false.
    2:{ rewrite <- Hq, Er1, Et. rewrite <- !(app_assoc a). rewrite !(app_assoc t a), !(app_assoc c (t ++ a)), !(app_assoc w (c ++ t ++ a)). cbn [app]. apply quote_ahead_swap. }
    cbn [andb negb]. f_equal.
    assert (Hey : esc_ok (w ++ c ++ t ++ q ++ y)) by (apply (esc_ok_suffix (pieces_text ps ++ [40])); rewrite <- app_assoc; exact He).
    assert (N0y : ~ In 0 (w ++ c ++ t ++ q ++ y)) by (apply (has_no0 (pieces_text ps) 40); exact Y0).
    destruct (consume_url_spec _ (blen (pieces_text ps) + 1) e Hey) as (w' & c' & t' & r' & Rw & UU).
    assert (RY : run white (w ++ c ++ t ++ q ++ y) w (c ++ t ++ q ++ y)).
    { split; [reflexivity |]. split; [exact Fw |]. destruct (c ++ t ++ q) as [| h z] eqn:Q; [rewrite Et in Q; apply app_eq_nil in Q; destruct Q as (_ & Q); apply app_eq_nil in Q; destruct Q as (_ & Q); destruct a; discriminate |].
      rewrite !(app_assoc t q), !(app_assoc c (t ++ q)), Q in Sw |- *. cbn [app] in *. eapply not_starts_head; eauto. }
    destruct (run_det _ _ _ _ _ _ RY Rw) as (<- & Ect). pose proof (url_bad_swap _ _ _ _ _ Hb eq_refl q r y eq_refl Hbr) as UB. pose proof (remnants_swap _ _ _ Hbr Hr y) as RB.
    rewrite Ect in UB.
    destruct UU as [(paren & E3 & Hb') | (q' & r'' & -> & E3 & Hbr' & Hb')]; specialize (Hb' N0y); destruct (url_body_det _ _ _ _ _ UB _ _ _ _ Hb') as (E4 & E5 & Q & Eq); [destruct paren; discriminate |].
    rewrite <- Eq in Hbr'. destruct (remnants_det _ _ _ RB _ _ Hbr') as (E6 & E7). rewrite E3, <- E4, <- E5, <- E6, <- E7. reflexivity.
Qed.
