(* The logic of Goes.v: the selectors of "@page", which have no spaces. *)
From Coq Require Import ZifyBool ZifyNat ZifyN.
From Coq Require Import List.
From Verif Require Import AstSheet SpecSheet SpecLex SpecTrace SpecParser SpecSyntax SpecTraits SpecFeatures SpecCursor SpecToken LexBase TokenProofs KindProofs LexFacts LexTrace CursorProofs CursorLex
  ParserProofs ParserProofs2 ParserProofs3 ParserProofs4 CompareProofs SyntaxProofs SyntaxTotal TraitsTotal RulesTotal FeatureProofs Goes Goes2 Goes3 Goes4.
Open Scope N_scope.
Open Scope list_scope.
Notation length := List.length.

Section Pages.
Variable src : text.
Context {mod_ : mode}.
Variable f : feature.
Definition outside (c : cursor) : Prop := kind_of c <> K_LeftCurly.
Definition anything (c : cursor) : Prop := True.
Let G_ok : forall c, kind_of c <> K_LeftCurly -> outside c := fun c X => X.
Notation goes := (goes src f outside anything).
Notation st := (st src f outside anything).
Notation rv := (rv src f outside anything).
Notation seen := (seen src).
Notation whole := (whole src f).
Notation top := (fun _ => True).
Definition page_token (d : cursor) : Prop := In (kind_of d) [K_Ident; K_Colon; K_Comma].

Lemma g_page_pseudo : forall n, goes n 2 parse_page_pseudo top.
Proof. intro n. begin. unfold parse_page_pseudo. go. Qed.
Lemma g_page_pseudos : forall m n, (n < m)%nat -> goes n 0 (page_pseudo_loop m) top.
Proof.
  induction m as [| m IH]; intros n L; [lia |]. cbn [page_pseudo_loop]. pose proof g_page_pseudo as Gp. begin. go1; [| go]. go1. pose proof (st_len _ _ _ _ _ _ _ Sq).
  go1. eapply do_goes; [st_ | apply IH; lia | lia | auto].
Qed.
Lemma g_page_selector : forall n, goes n 0 parse_page_selector top.
Proof. intro n. begin. unfold parse_page_selector. go1. go1. eapply (do_fuel src f outside anything _ _ _ _ _ 0 (fun m => page_pseudo_loop m)); [st_ | intros i m Li Lm; apply g_page_pseudos; lia | lia | auto]. Qed.
Lemma everywhere : forall cs, zone outside anything cs.
Proof. intros cs pre c rest _ _. exact Logic.I. Qed.
Lemma is_kind : forall c k, kind_of c = k -> k <> K_Eof -> tok_is (ctok c) k = true.
Proof. intros c k E N. apply tok_is_kind; [apply wf_of_kind; unfold kind_of in E; rewrite E; exact N | exact E]. Qed.
(* a selector that begins with a name or ':' reads it *)
Lemma page_selector_step : forall p cs d, stands src f p cs -> peek_next p = Some d -> kind_of d = K_Ident \/ kind_of d = K_Colon -> rv cs 1 top (parse_page_selector p).
Proof.
  intros p cs d S Pn K. pose proof (st_start _ _ _ _ _ _ S (everywhere cs)) as S0. unfold parse_page_selector.
  assert (Ei : if_kind K_Ident p = if tok_is (ctok d) K_Ident then pmap Some (parse_kind K_Ident) p else ret None p) by (unfold if_kind, parse_if_peek, peek; rewrite Pn; unfold peek_kind; reflexivity).
  unfold bind at 1. rewrite Ei. clear Ei. destruct (tok_is (ctok d) K_Ident) eqn:Ti.
  - destruct (do_call _ _ _ _ _ _ _ _ _ _ _ S0 (g_pmap_known src f outside anything _ _ _ _ (@Some cursor) _ _ (g_kind src f outside anything G_ok (length cs - 0) K_Ident ltac:(discriminate) ltac:(discriminate)))) as ([a | e] & q & -> & X).
    + destruct X as (Sq & _). go1. eapply (do_fuel src f outside anything _ _ _ _ _ 0 (fun m => page_pseudo_loop m)); [st_ | intros i m Li Lm; apply g_page_pseudos; lia | lia | auto].
    + eapply rv_err; lost_.
  - destruct K as [K | K]; [rewrite (is_kind _ _ K ltac:(discriminate)) in Ti; discriminate |]. unfold ret. go1. pose proof (sfuel_enough p cs (stands_ahead _ _ _ _ S)) as Y.
    destruct (sfuel p) as [| m] eqn:Em; [lia |]. cbn [page_pseudo_loop]. unfold or_peek, peek. rewrite Pn. unfold peek_kind. rewrite (is_kind _ _ K ltac:(discriminate)). pose proof g_page_pseudo as Gp. go1. pose proof (st_len _ _ _ _ _ _ _ Sq).
    go1. eapply do_goes; [st_ | apply g_page_pseudos; lia | lia | auto].
Qed.
(* what was read does not reach '{' *)
Lemma before_brace : forall used c between open rest, between ++ open :: rest = used ++ c -> Forall outside used -> kind_of open = K_LeftCurly -> exists later, between = used ++ later /\ c = later ++ open :: rest.
Proof.
  induction used as [| x used IH]; intros c between open rest E F K; [exists between; auto |]. inversion F as [| ? ? Fx Fu]. subst. destruct between as [| y between]; cbn [app] in E; injection E as -> E.
  - exfalso. exact (Fx K).
  - destruct (IH c between open rest E Fu K) as (later & -> & ->). exists later. auto.
Qed.
Lemma solid_next : forall p d cs, stands src f p (d :: cs) -> kind_of d <> K_Whitespace -> kind_of d <> K_Comment -> peek_next p = Some d.
Proof.
  intros p d cs S N1 N2. destruct (peeked p (d :: cs) (stands_ahead _ _ _ _ S)) as (c & sk & rest & Ec & Fs & _ & Hc & Pn & _). destruct Fs as [| x sk Hx Fs].
  - cbn [app] in Ec. subst rest. cbn [hd_or_eof] in Hc. now subst c.
  - exfalso. injection Ec as <- _. destruct S as (_ & _ & _ & _ & T). destruct (T _ Hx); auto.
Qed.
Lemma page_token_solid : forall d, page_token d \/ kind_of d = K_LeftCurly -> kind_of d <> K_Whitespace /\ kind_of d <> K_Comment.
Proof. intros d [[K | [K | [K | []]]] | K]; first [rewrite <- K | rewrite K]; split; discriminate. Qed.
Lemma page_token_not_stop : forall d, page_token d -> tok_in (ctok d) KS_LEFT_CURLY_OR_SEMICOLON = false.
Proof.
  intros d K. destruct (tok_in (ctok d) KS_LEFT_CURLY_OR_SEMICOLON) eqn:E; [| reflexivity]. exfalso. unfold KS_LEFT_CURLY_OR_SEMICOLON in E.
  assert (Ne : kind_of d <> K_Eof) by (destruct K as [K | [K | [K | []]]]; rewrite <- K; discriminate).
  destruct (tok_in_not_eof d _ E (or_intror Ne) ltac:(intros [X | [X | []]]; discriminate)) as (I & _).
  destruct K as [K | [K | [K | []]]]; rewrite <- K in I; destruct I as [X | [X | []]]; discriminate.
Qed.
Lemma brace_stops : forall c, kind_of c = K_LeftCurly -> tok_in (ctok c) KS_LEFT_CURLY_OR_SEMICOLON = true.
Proof. intros c K. unfold kind_of in K. apply in_kinds_tok; [rewrite K; discriminate |]. unfold in_kinds. rewrite K. reflexivity. Qed.
Lemma page_selectors_go_n : forall m between p open rest, (length between < m)%nat -> stands src f p (between ++ open :: rest) -> kind_of open = K_LeftCurly -> Forall page_token between ->
  rv (between ++ open :: rest) 0 top (comma_loop KS_LEFT_CURLY_OR_SEMICOLON parse_page_selector m p).
Proof.
  induction m as [| m IH]; intros between p open rest L S Ko F; [lia |]. set (cs := between ++ open :: rest) in *. cbn [comma_loop].
  pose proof (st_start _ _ _ _ _ _ S (everywhere cs)) as S0.
  (* the selector *)
  assert (A : rv cs (match between with d :: _ => if kind_eqb (kind_of d) K_Comma then 0 else 1 | [] => 0 end) top (parse_page_selector p)).
  { assert (A0 : rv cs 0 top (parse_page_selector p)) by (eapply do_goes; [st_ | apply g_page_selector | lia | auto]). destruct between as [| d between]; [exact A0 |]. destruct (kind_eqb (kind_of d) K_Comma) eqn:Kd; [exact A0 |].
    inversion F as [| ? ? Fd Fb]. subst. apply (page_selector_step _ _ d S).
    - unfold cs in S. cbn [app] in S. destruct (page_token_solid d (or_introl Fd)). eapply solid_next; eauto.
    - destruct Fd as [K | [K | [K | []]]]; auto. rewrite <- K in Kd. discriminate Kd. }
  destruct A as (r & q & E & X). unfold bind at 1. rewrite E. destruct r as [a | e]; [| exists (Err e), q; split; [reflexivity | exact X]]. destruct X as (Sq & _).
  assert (B : exists r2 q2, if_kind K_Comma q = Some (r2, q2) /\ match r2 with Ok _ => st cs (match between with [] => 0 | _ => 1 end) q2 | Err _ => lost src f cs 0 q2 end).
  { destruct Sq as (used & c & Ec & Lu & Fu & Sq & _). destruct (before_brace used c between open rest Ec Fu Ko) as (later & Eb & El).
    assert (Sn : st cs (length used) q) by (exists used, c; split; [exact Ec |]; split; [lia |]; split; [exact Fu |]; split; [exact Sq | apply everywhere]).
    destruct (do_call _ _ _ _ _ _ _ _ _ _ _ Sn (g_if_kind src f outside anything G_ok (length cs - length used) K_Comma ltac:(discriminate) ltac:(discriminate))) as (r2 & q2 & E2 & X2). exists r2, q2. split; [exact E2 |].
    destruct r2 as [o |]; [| eapply lost_le; [| exact X2]; lia]. destruct X2 as (X2 & _). destruct used as [| u used]; [| destruct between; eapply st_le; [| exact X2 | | exact X2]; cbn [length]; lia].
    cbn [app] in Eb, Ec. subst later. destruct between as [| d between]; [exact X2 |]. destruct (kind_eqb (kind_of d) K_Comma) eqn:Kd; [| cbn in Lu; lia]. apply kind_eqb_eq in Kd.
    rewrite El in Sq. cbn [app] in Sq. pose proof (solid_next _ _ _ Sq ltac:(rewrite Kd; discriminate) ltac:(rewrite Kd; discriminate)) as Pn.
    unfold if_kind, parse_if_peek, peek in E2. rewrite Pn in E2. unfold peek_kind in E2. rewrite (is_kind _ _ Kd ltac:(discriminate)) in E2. unfold pmap, bind in E2.
    destruct (do_call _ _ _ _ _ _ _ _ _ _ _ Sn (g_kind src f outside anything G_ok (length cs - 0) K_Comma ltac:(discriminate) ltac:(discriminate))) as ([b | e] & q3 & E3 & X3); rewrite E3 in E2; [| discriminate].
    apply some_inj in E2. injection E2 as _ <-. exact (proj1 X3). }
  destruct B as (r2 & q2 & E2 & X2). unfold bind. rewrite E2. destruct r2 as [comma | e]; [| exists (Err e), q2; split; [reflexivity | exact X2]].
  destruct X2 as (used & c & Ec & Lu & Fu & S2 & Z2). destruct (before_brace used c between open rest Ec Fu Ko) as (later & Eb & El). subst c.
  assert (S3 : st cs (length used) q2) by (exists used, (later ++ open :: rest); split; [exact Ec |]; split; [lia |]; auto).
  destruct later as [| d later].
  - cbn [app] in S2. rewrite (solid_next _ _ _ S2 ltac:(rewrite Ko; discriminate) ltac:(rewrite Ko; discriminate)).
    rewrite (brace_stops open Ko). eapply rv_ok; [exact S3 | lia | exact Logic.I].
  - assert (Fl : Forall page_token (d :: later)) by (rewrite Eb in F; apply Forall_app in F; apply F). inversion Fl as [| ? ? Fd _]. subst x l. destruct (page_token_solid d (or_introl Fd)) as (N1 & N2). cbn [app] in S2.
    rewrite (solid_next _ _ _ S2 N1 N2), (page_token_not_stop d Fd). apply rv_pmap.
    assert (Ll : (length (d :: later) < m)%nat). { rewrite Eb in L, Lu. rewrite app_length in L. destruct used as [| u used]; cbn [app length] in *; lia. }
    destruct (IH (d :: later) q2 open rest Ll S2 Ko Fl) as (r3 & q3 & E3 & X3). exists r3, q3. split; [exact E3 |]. rewrite Ec. destruct r3 as [l | e].
    + destruct X3 as ((u3 & c3 & E4 & L4 & F4 & S4 & Z4) & _). split; [| exact Logic.I]. exists (used ++ u3), c3. cbn [app] in *. rewrite E4, app_assoc. split; [reflexivity |]. split; [lia |]. split; [apply Forall_app; auto |]. auto.
    + destruct X3 as (u3 & c3 & E4 & L4 & S4). exists (used ++ u3), c3. cbn [app] in *. rewrite E4, app_assoc. split; [reflexivity |]. split; [lia | exact S4].
Qed.
Lemma page_selectors_go : forall between p open rest, stands src f p (between ++ open :: rest) -> kind_of open = K_LeftCurly -> Forall page_token between -> rv (between ++ open :: rest) 0 top (parse_page_selectors p).
Proof.
  intros between p open rest S Ko F. unfold parse_page_selectors, comma_list_t. apply page_selectors_go_n; auto. pose proof (sfuel_enough p _ (stands_ahead _ _ _ _ S)) as Y. rewrite app_length in Y. lia.
Qed.
End Pages.
