(* What a token covers does not depend on the text after it, beyond the boundary (lemmas for C23). *)
From Coq Require Import ZifyBool ZifyNat ZifyN.
From Verif Require Import Lexer SpecToken SpecLex SpecTrace SpecWrite LexBase ScanProofs ScanProofs2 ScanProofs3 NumProofs DimProofs LexProofs LexFacts LexProps2.
Open Scope N_scope.
Open Scope list_scope.

Lemma starts_head : forall P c x y, starts P (c :: x) -> starts P (c :: y).
Proof. intros P c x y H. rewrite starts_cons in *. exact H. Qed.
Lemma not_starts_head : forall P c x y, ~ starts P (c :: x) -> ~ starts P (c :: y).
Proof. intros P c x y H. rewrite starts_cons in *. exact H. Qed.
Lemma open_escape_app : forall a p, open_escape p -> open_escape (a ++ p).
Proof. intros a p (x & b & -> & H). exists (a ++ x), b. split; [now rewrite app_assoc | exact H]. Qed.

Lemma opt_space_head : forall ws c x y, opt_space ws (c :: x) -> opt_space ws (c :: y).
Proof.
  intros ws c x y H. inversion H; subst.
  - apply os_none. eapply not_starts_head; eauto.
  - apply os_crlf.
  - apply os_one; [assumption |]. intros (-> & Q). match goal with Z : ~ _ |- _ => apply Z end. split; [reflexivity |]. eapply starts_head; eauto.
Qed.
Lemma escape_head : forall e c x y, escape_at (e ++ c :: x) e (c :: x) -> escape_at (e ++ c :: y) e (c :: y).
Proof.
  intros e c x y H. remember (e ++ c :: x) as l eqn:El. remember (c :: x) as r eqn:Er. revert El Er. destruct H as [| c0 r Hh Hn | hs ws r Hl Hf Hm Ho]; intros El Er; subst.
  - discriminate.
  - apply (esc_char c0 (c :: y)); assumption.
  - replace ((92 :: hs ++ ws) ++ c :: y) with (92 :: hs ++ ws ++ c :: y) by (cbn; now rewrite <- app_assoc).
    apply esc_hex; auto.
    + destruct Hm as [Hm | Hm]; [now left | right]. destruct ws; cbn [app] in *; eapply not_starts_head; eauto.
    + eapply opt_space_head; eauto.
Qed.
Lemma escape_any : forall e r y, escape_at (e ++ r) e r -> ~ open_escape e -> escape_at (e ++ y) e y.
Proof.
  intros e r y H NO. remember (e ++ r) as l eqn:El. revert El. destruct H as [| c0 r Hh Hn | hs ws r Hl Hf Hm Ho]; intro El.
  - exfalso. apply NO. exists [], []. split; [reflexivity | constructor].
  - cbn. now apply esc_char.
  - exfalso. apply NO. exists [], (hs ++ ws). split; [reflexivity |]. apply Forall_app. split; [eapply Forall_impl; [| exact Hf]; auto |].
    inversion Ho; subst.
    + apply Forall_nil.
    + apply Forall_cons; [right; unfold white, newline; lia |]. apply Forall_cons; [right; unfold white, newline; lia | apply Forall_nil].
    + apply Forall_cons; [right; assumption | apply Forall_nil].
Qed.
Lemma escape_split : forall l e r, escape_at l e r -> l = e ++ r.
Proof. intros l e r H. destruct H; cbn; [reflexivity | reflexivity | now rewrite <- app_assoc]. Qed.
Lemma piece_text_head : forall l ps r, ident_pieces l ps r -> ps <> [] -> exists c x, pieces_text ps = c :: x.
Proof. intros l ps r H Hn. apply (pieces_nonempty _ _ _ H) in Hn. destruct (pieces_text ps) as [| c x]; [congruence | eauto]. Qed.

Lemma pieces_head : forall l ps r, ident_pieces l ps r -> forall c x y, r = c :: x -> c <> 92 -> ident_pieces (pieces_text ps ++ c :: y) ps (c :: y).
Proof.
  intros l ps r H. induction H as [l N1 N2 | c0 l ps r Hc H IH | l e l' ps r He H IH]; intros c x y Er N92.
  - subst l. cbn [pieces_text flat_map app]. apply ip_stop; [eapply not_starts_head; eauto |]. intros [Q | (d & z & Q & _)]; inversion Q; congruence.
  - cbn. apply ip_char; [exact Hc |]. eapply IH; eauto.
  - cbn [pieces_text flat_map piece_text]. change (flat_map piece_text ps) with (pieces_text ps). rewrite <- app_assoc. eapply ip_esc; [| eapply IH; eauto].
    pose proof (escape_split _ _ _ He) as Es. pose proof (ident_pieces_app _ _ _ H) as Ep. subst l' r.
    destruct (pieces_text ps) as [| d z] eqn:Et; cbn [app] in *; subst l; eapply escape_head; eauto.
Qed.
Lemma pieces_any : forall l ps r, ident_pieces l ps r -> forall y, ~ open_escape (pieces_text ps) -> ~ starts ident_cp y -> ~ starts_escape y ->
  ident_pieces (pieces_text ps ++ y) ps y.
Proof.
  intros l ps r H. induction H as [l N1 N2 | c0 l ps r Hc H IH | l e l' ps r He H IH]; intros y NO Y1 Y2.
  - cbn. now apply ip_stop.
  - cbn. apply ip_char; [exact Hc |]. apply IH; auto. intro Q. apply NO. change (pieces_text (Plain c0 :: ps)) with ([c0] ++ pieces_text ps). now apply open_escape_app.
  - cbn [pieces_text flat_map piece_text] in *. change (flat_map piece_text ps) with (pieces_text ps) in *. rewrite <- app_assoc.
    assert (NO' : ~ open_escape (pieces_text ps)) by (intro Q; apply NO; now apply open_escape_app).
    eapply ip_esc; [| apply IH; auto].
    pose proof (escape_split _ _ _ He) as Es. pose proof (ident_pieces_app _ _ _ H) as Ep. subst l'.
    destruct (pieces_text ps) as [| d z] eqn:Et; cbn [app] in *.
    + subst l. eapply escape_any; eauto. now rewrite app_nil_r in NO.
    + subst l. eapply escape_head; eauto.
Qed.

(* ---- strings ---- *)
Lemma one_newline_head : forall n c x y, one_newline (n ++ c :: x) n (c :: x) -> one_newline (n ++ c :: y) n (c :: y).
Proof.
  intros n c x y H. inversion H; subst.
  - match goal with Q : 13 :: 10 :: _ = _ |- _ => cbn in Q end. apply nl_crlf.
  - cbn. apply nl_one; [assumption |]. intros (-> & Q). match goal with Z : ~ _ |- _ => apply Z end. split; [reflexivity |]. eapply starts_head; eauto.
Qed.
Lemma string_body_split : forall q l p e r, string_body q l p e r -> l = p ++ r.
Proof.
  intros q l p e r H. induction H; cbn; auto.
  - now f_equal.
  - match goal with Q : one_newline _ _ _ |- _ => apply one_newline_starts in Q; destruct Q as (_ & ->) end. subst l'. now rewrite <- app_assoc.
  - match goal with Q : escape_at _ _ _ |- _ => apply escape_split in Q; subst l end. subst l'. now rewrite <- app_assoc.
Qed.
Lemma string_closed_nonempty : forall q l p e r, string_body q l p e r -> e = Closed -> p <> [].
Proof. intros q l p e r H. induction H; intro E; try discriminate. intro Q. apply app_eq_nil in Q. destruct Q as (_ & Q). now apply IHstring_body in E. Qed.
Lemma string_swap : forall q l p e r, string_body q l p e r -> e = Closed -> forall y, string_body q (p ++ y) p Closed y.
Proof.
  intros q l p e r H. induction H as [r | | c r Hc | c l p e r H1 H2 H3 H IH | l n l' p e r Hn H IH | l x l' p e r Hx H IH]; intros E y; try discriminate.
  - cbn. apply sb_close.
  - cbn. apply sb_char; auto.
  - pose proof (string_body_split _ _ _ _ _ H) as Es. pose proof (string_closed_nonempty _ _ _ _ _ H E) as Hne. destruct p as [| d p]; [congruence |]. subst l'.
    pose proof (one_newline_starts _ _ _ Hn) as (_ & ->). cbn [app]. rewrite <- app_assoc. eapply sb_esc_newline; [| apply (IH E)]. cbn [app] in *. eapply one_newline_head; eauto.
  - pose proof (string_body_split _ _ _ _ _ H) as Es. pose proof (string_closed_nonempty _ _ _ _ _ H E) as Hne. destruct p as [| d p]; [congruence |]. subst l'.
    pose proof (escape_split _ _ _ Hx) as ->. rewrite <- app_assoc. eapply sb_escape; [| apply (IH E)]. cbn [app] in *. eapply escape_head; eauto.
Qed.

(* ---- urls ---- *)
Lemma url_body_split : forall l c t e r, url_body l c t e r -> l = c ++ t ++ r.
Proof.
  intros l c t e r H. induction H; cbn; auto.
  - now rewrite <- app_assoc.
  - now rewrite app_nil_r.
  - now f_equal.
  - match goal with Q : escape_at _ _ _ |- _ => apply escape_split in Q; subst l end. subst l'. now rewrite <- app_assoc.
Qed.
Lemma url_closed_tail : forall l c t e r, url_body l c t e r -> e = UClosed -> t <> [].
Proof. intros l c t e r H. induction H; intro E; try discriminate; auto. intro Q. apply app_eq_nil in Q. destruct Q; discriminate. Qed.
Lemma url_swap : forall l c t e r, url_body l c t e r -> e = UClosed -> forall y, url_body (c ++ t ++ y) c t UClosed y.
Proof.
  intros l c t e r H. induction H as [w r Hw | w Hw | w l Hne Hr Hl H41 | c l Hc | c l Hc | c l p t e r H1 H2 H3 H4 H5 H6 H IH | l x l' p t e r Hx H IH]; intros E y; try discriminate.
  - cbn [app]. rewrite <- app_assoc. cbn [app]. now apply ub_close.
  - cbn [app]. apply ub_char; auto.
  - pose proof (url_body_split _ _ _ _ _ H) as Es. pose proof (url_closed_tail _ _ _ _ _ H E) as Hne. pose proof (escape_split _ _ _ Hx) as ->. rewrite <- app_assoc.
    eapply ub_escape; [| apply (IH E)]. destruct (p ++ t) as [| d z] eqn:Ez; [apply app_eq_nil in Ez; tauto |].
    replace (p ++ t ++ y) with (d :: z ++ y) by (rewrite app_assoc, Ez; reflexivity). eapply escape_head. replace (d :: z ++ r) with l'; [exact Hx |].
    rewrite Es, app_assoc, Ez. reflexivity.
Qed.
Lemma remnants_split : forall l p r, bad_url_remnants l p r -> l = p ++ r.
Proof.
  intros l p r H. induction H; cbn; auto; [now f_equal |]. match goal with Q : escape_at _ _ _ |- _ => apply escape_split in Q; subst l end. subst l'. now rewrite <- app_assoc.
Qed.
Lemma remnants_nonempty : forall l p r, bad_url_remnants l p r -> l <> [] -> p <> [].
Proof.
  intros l p r H Hn. destruct H; try discriminate; [congruence |]. intro Q. apply app_eq_nil in Q. destruct Q as (Q & _). subst x. match goal with Z : escape_at _ _ _ |- _ => apply escape_nonempty in Z; congruence end.
Qed.
Lemma remnants_swap : forall l p r, bad_url_remnants l p r -> r <> [] -> forall y, bad_url_remnants (p ++ y) p y.
Proof.
  intros l p r H. induction H as [r | | c l p r H1 H2 H IH | l x l' p r Hx H IH]; intros Hr y.
  - cbn. apply br_close.
  - congruence.
  - cbn. pose proof (remnants_split _ _ _ H) as Es.
    assert (Hne : p <> []). { apply (remnants_nonempty _ _ _ H). rewrite Es. intro Q. apply app_eq_nil in Q. tauto. }
    apply br_char; auto. destruct p as [| d p]; [congruence |]. subst l. cbn [app] in *. intros [Q | (k & z & Q & Hk)]; [discriminate Q |].
    inversion Q; subst. apply H2. right. eexists _, _. split; [reflexivity | exact Hk].
  - pose proof (remnants_split _ _ _ H) as Es.
    assert (Hne : p <> []). { apply (remnants_nonempty _ _ _ H). rewrite Es. intro Q. apply app_eq_nil in Q. tauto. }
    pose proof (escape_split _ _ _ Hx) as ->. rewrite <- app_assoc. eapply br_escape; [| apply (IH Hr)]. destruct p as [| d p]; [congruence |]. subst l'. cbn [app] in *. eapply escape_head; eauto.
Qed.
Lemma url_bad_swap : forall l c t e r, url_body l c t e r -> e = UMalformed -> forall p x y, r = p ++ x -> bad_url_remnants r p x -> url_body (c ++ t ++ p ++ y) c t UMalformed (p ++ y).
Proof.
  intros l c t e r H. induction H as [w r Hw | w Hw | w l Hne Hr Hl H41 | c l Hc | c l Hc | c l p t e r H1 H2 H3 H4 H5 H6 H IH | l x0 l' p t e r Hx H IH]; intros E q x y Er Hb; try discriminate.
  - cbn [app]. pose proof (remnants_nonempty _ _ _ Hb Hl) as Hq. destruct q as [| d q]; [congruence |]. cbn [app] in *. subst l. apply ub_bad_space; [exact Hne | | discriminate | eapply not_starts_head; eauto].
    destruct Hr as (A & B & C). split; [reflexivity |]. split; [exact B | eapply not_starts_head; eauto].
  - cbn [app]. pose proof (remnants_nonempty _ _ _ Hb ltac:(discriminate)) as Hq. destruct q as [| d q]; [congruence |]. cbn [app] in *. inversion Er; subst. now apply ub_bad_char.
  - cbn [app]. assert (Q2 : exists q', q = 92 :: c :: q').
    { inversion Hb as [| | c0 l0 p0 r0 N1 N2 Hb' | l0 e0 l1 p0 r0 He Hb']; subst.
      - pose proof (remnants_nonempty _ _ _ Hb' ltac:(discriminate)) as Hp0. destruct p0 as [| d p0]; [congruence |]. cbn in Er. inversion Er; subst. eauto.
      - exfalso. remember (92 :: c :: l) as l0 eqn:El0. destruct He as [| c1 r1 Hh Hnl | hs ws r1 Hl1 Hf1 Hm1 Ho1]; inversion El0; subst.
        + contradiction.
        + destruct hs as [| h hs]; [cbn in Hl1; lia |]. inversion Hf1; subst. match goal with Z : (h :: hs) ++ _ = _ |- _ => inversion Z; subst end. unfold hex, digit, newline in *. lia. }
    destruct Q2 as (q' & ->). cbn [app]. now apply ub_bad_escape.
  - cbn [app]. apply ub_char; auto. eapply IH; eauto.
  - pose proof (url_body_split _ _ _ _ _ H) as Es. pose proof (escape_split _ _ _ Hx) as ->. rewrite <- app_assoc. eapply ub_escape; [| eapply IH; eauto].
    assert (Hr : r <> []). { intro Z. rewrite Z in H. clear -H E. remember [] as rr eqn:Rr. induction H; try discriminate; auto; congruence. }
    pose proof (remnants_nonempty _ _ _ Hb Hr) as Hq.
    destruct (p ++ t ++ q) as [| d z] eqn:Ez; [apply app_eq_nil in Ez; destruct Ez as (_ & Ez); apply app_eq_nil in Ez; tauto |].
    replace (p ++ t ++ q ++ y) with (d :: z ++ y) by (rewrite (app_comm_cons z y d), <- Ez, <- !app_assoc; reflexivity).
    eapply escape_head. replace (d :: z ++ x) with l'; [exact Hx |]. rewrite Es, Er, (app_comm_cons z x d), <- Ez, <- !app_assoc. reflexivity.
Qed.
