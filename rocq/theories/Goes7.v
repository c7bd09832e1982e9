(* The logic of Goes.v where every token may be read: selectors. *)
From Coq Require Import ZifyBool ZifyNat ZifyN.
From Coq Require Import String.
From Coq Require Import List.
From Verif Require Import AstSheet SpecSheet SpecLex SpecTrace SpecParser SpecSyntax SpecTraits SpecFeatures SpecCursor SpecToken LexBase TokenProofs KindProofs LexFacts LexTrace CursorProofs CursorLex
  ParserProofs ParserProofs2 ParserProofs3 ParserProofs4 CompareProofs SyntaxProofs SyntaxTotal TraitsTotal RulesTotal FeatureProofs SelectorProofs3 SelectorProofs8 Goes Goes2 Goes3 Goes4 Goes5 Goes6.
Open Scope N_scope.
Open Scope list_scope.
Notation length := List.length.

Section Selector.
Variable src : text.
Context {mod_ : mode}.
Variable f : feature.
Variable G : cursor -> Prop.
Variable H : cursor -> Prop.
Hypothesis G_ok : forall c, kind_of c <> K_LeftCurly -> G c.
Hypothesis G_all : forall c, G c.
Hypothesis H_all : forall c, H c.
Notation goes := (goes src f G H).
Notation st := (st src f G H).
Notation rv := (rv src f G H).
Notation lost := (lost src f).
Notation seen := (seen src).
Notation whole := (whole src f).
Notation top := (fun _ => True).
Lemma at_stop_total : forall s cs j p, st cs j p -> exists b, at_stop s p = Some b.
Proof. intros s cs j p S. unfold at_stop. destruct (p_at_end p); [eauto |]. destruct (peek_n_st _ _ _ _ (G_triv _ G_ok) _ _ _ 1 S ltac:(lia)) as (c & -> & _). eauto. Qed.
Lemma p_lang_value : forall n, goes n 1 parse_lang_value top.
Proof. intro n. begin. unfold parse_lang_value. eapply do_bind with (i := 1%nat) (Q1 := top); [st_ | begin; go | intros; go]. Qed.
Lemma p_lang_loop : forall m n, (n < m)%nat -> goes n 1 (lang_loop m) top.
Proof.
  induction m as [| m IH]; intros n L; [lia |]. cbn [lang_loop]. begin. pose proof p_lang_value. go1. pose proof (st_len _ _ _ _ _ _ _ Sq). go1; [go |]. go1. eapply do_goes; [st_ | apply IH; lia | lia | auto].
Qed.
Lemma p_part_loop : forall m n, (n < m)%nat -> goes n 0 (part_loop m) top.
Proof. induction m as [| m IH]; intros n L; [lia |]. cbn [part_loop]. begin. go1; [go |]. go1. pose proof (st_len _ _ _ _ _ _ _ Sq). go1. eapply do_goes; [st_ | apply IH; lia | lia | auto]. Qed.
Lemma p_class_value : forall n list_p ty, goes n 0 list_p top -> goes n 0 (parse_class_value list_p ty) top.
Proof.
  intros n list_p ty Hl. begin. destruct ty; cbn [parse_class_value]; [go | go1; eapply do_goes; [st_ | eapply goes_less; [exact Hl | lia] | lia | auto] | | go | go].
  go1. unfold parse_lang_values. eapply (do_fuel src f G H _ _ _ _ _ 1 (fun m => lang_loop m)); [st_ | intros i m Li Lm; apply p_lang_loop; lia | lia | auto].
Qed.
Lemma p_functional_class : forall n list_p, (forall i, (i < n)%nat -> goes i 0 list_p top) -> goes n 2 (parse_functional_class list_p) top.
Proof.
  intros n list_p Hl. begin. unfold parse_functional_class. gp. pose proof (st_len _ _ _ _ _ _ _ Sq0). pose proof (st_len _ _ _ _ _ _ _ Sq).
  eapply do_bind; [st_ | apply p_class_value; apply Hl; lia |]. intros. go.
Qed.
Lemma p_functional_element : forall n compound_p, (forall i, (i < n)%nat -> goes i 0 compound_p top) -> goes n 3 (parse_functional_element compound_p) top.
Proof.
  intros n compound_p Hl. begin. unfold parse_functional_element. go1. go1. go1. pose proof (st_len _ _ _ _ _ _ _ Sq0).
  eapply do_bind with (i := 0%nat) (Q1 := top); [st_ | begin | intros; go].
  go1; [go |]. go1; [go1; eapply (do_fuel src f G H _ _ _ _ _ 0 (fun m => part_loop m)); [st_ | intros i m Li Lm; apply p_part_loop; lia | lia | auto] |].
  go1; [go1; eapply do_goes; [st_ | apply Hl; lia | lia | auto] | go].
Qed.
Lemma not_ended : forall cs0 j p s c, st cs0 j p -> only_trivia s -> peek_n (set_skip p s) 1 = Some c -> kind_of c <> K_Eof -> kind_of c <> K_Whitespace -> kind_of c <> K_Comment ->
  forall d q, next p = Some (d, q) -> kind_of d <> K_Eof.
Proof.
  intros cs0 j p s c S T Pc K1 K2 K3 d q N. destruct (st_stands _ _ _ _ _ _ _ S) as (cs & S' & _). pose proof (stands_ahead _ _ _ _ S') as A.
  assert (Ic : In c cs).
  { pose proof (stands_skip src f p cs s T S') as S2. rewrite (peek_n_spec _ cs 1 (stands_ahead _ _ _ _ S2)) in Pc by lia. apply some_inj in Pc. pose proof (nth_kept (set_skip p s) cs (N.to_nat 1 - 1)) as Nk. rewrite Pc in Nk. destruct Nk as [-> | X]; [elim K1; reflexivity | exact X]. }
  destruct (next_total p cs A) as (d' & q' & sk & rest & N' & Ec & F & St & Hd & _). rewrite N in N'. injection N' as <- <-. destruct rest as [| e rest]; cbn [hd_or_eof] in Hd.
  - exfalso. rewrite app_nil_r in Ec. subst sk. rewrite Forall_forall in F. destruct S' as (_ & _ & _ & _ & Tp). destruct (Tp _ (F c Ic)); contradiction.
  - subst d. apply (ahead_kind _ _ A). rewrite Ec. apply in_or_app. right. now left.
Qed.

Lemma peek_one : forall cs j p c, st cs j p -> peek_n p 1 = Some c -> peek_next p = Some c.
Proof.
  intros cs j p c S E. destruct (st_stands _ _ _ _ _ _ _ S) as (cs' & S' & _). pose proof (stands_ahead _ _ _ _ S') as A. rewrite (peek_n_spec p cs' 1 A ltac:(lia)) in E.
  destruct (skip_split (pskip p) cs') as (sk & rest & Ec & F & St). rewrite Ec in *. rewrite (peek_next_spec p sk rest A F St), <- E. rewrite kept_skipped, kept_stop by assumption. destruct rest; reflexivity.
Qed.
Lemma do_take : forall C cs p skip pk (build : parser -> cursor -> option C) code, st cs 0 p -> only_trivia skip -> whole pk -> allowed src G pk ->
  (forall c, peek_next p = Some c -> wordy (kind_of c)) ->
  (forall q c, st cs 1 q -> seen c -> pk q c = Some true -> kind_of c <> K_Eof -> build q c <> None) -> rv cs 1 top (take_component skip pk build code p).
Proof.
  intros C cs p skip pk build code S T W Al Wd B. unfold take_component.
  apply (do_next src f G H G_ok G_all H_all _ cs 0 p _ _ (fun o => match o with None => None | Some (c, q) => match pk (set_skip q skip) c with None => None | Some true => match build (set_skip q skip) c with None => None | Some x => Some (Ok x, set_skip q skip) end
    | Some false => fail_lower code c (set_skip q skip) end end)); [st_ |]. intros c q Pc _ Sc S1 _ E S2. specialize (Wd c Pc).
  assert (S3 : st cs 0 (set_skip q skip)) by (apply st_skip; assumption). destruct (st_stands _ _ _ _ _ _ _ S3) as (cs' & S' & _). pose proof (W _ cs' c S' Sc) as N. destruct (pk (set_skip q skip) c) as [[] |] eqn:Pk; [| go | congruence].
  destruct (Al _ c Sc Pk E) as (K & _). specialize (S2 K). assert (S4 : st cs 1 (set_skip q skip)) by (apply st_skip; [assumption | exact S2]). pose proof (B _ c S4 Sc Pk K). destruct (build (set_skip q skip) c) as [x |]; [| congruence].
  eapply rv_ok; [exact S4 | lia | auto].
Qed.
Lemma a_kind : forall k, k <> K_Eof -> allowed src G (peek_kind k).
Proof. intros k N. apply allowed_kind; auto. Qed.
Lemma p_component_t : forall n component_p, (forall i, (i < n)%nat -> goes i 0 (compound_t component_p) top) -> (forall i, (i < n)%nat -> goes i 0 (selector_list_t (compound_t component_p)) top) ->
  goes n 1 (component_t (css_parts component_p)) top.
Proof.
  intros n component_p Hc Hl. begin. unfold component_t. cbn [sp_type_peek sp_type sp_id_peek sp_id sp_wildcard sp_class sp_ns_type sp_combinator sp_attribute sp_legacy_peek sp_legacy sp_pseudo_class sp_pseudo_element sp_functional_class sp_functional_element css_parts].
  pose proof (p_namespace src f G H G_ok G_all H_all) as Pns. pose proof (p_attribute src f G H G_ok G_all H_all) as Pat. pose proof (p_pseudo_class src f G H G_ok G_all H_all) as Ppc.
  pose proof (p_pseudo_class_ast src f G H G_ok G_all H_all) as Ppa. pose proof (p_pseudo_element_ast src f G H G_ok G_all H_all) as Ppe.
  assert (Pfc : rv cs 1 top (parse_functional_class (selector_list_t (compound_t component_p)) p)) by (eapply do_goes; [st_ | apply p_functional_class; intros i Li; apply Hl; lia | lia | auto]).
  assert (Pfe : rv cs 1 top (parse_functional_element (compound_t component_p) p)) by (eapply do_goes; [st_ | apply p_functional_element; intros i Li; apply Hc; lia | lia | auto]).
  go1.
  assert (Other : rv cs 1 (fun _ : component_ast => True) (match pmap SCombinator parse_combinator (set_skip p KS_COMMENTS) with None => None | Some (r, q) =>
     match consume_trivia (set_skip q KS_WHITESPACE) with None => None | Some q => Some (r, set_skip q (pskip p)) end end)).
  { pattern (pmap SCombinator parse_combinator (set_skip p KS_COMMENTS)). eapply do_match; [st_ | known | |]; [intros a q Sq _ | intros e q X; apply (plain_st src f G H G_all H_all) in X; rename X into Sq].
    all: assert (S2 : st _ _ (set_skip q KS_WHITESPACE)) by st_. all: destruct (p_trivia src f G H G_ok G_all H_all _ _ _ S2) as (q2 & -> & S3 & _). all: go. }
  assert (Delim : tkind (ctok c) = K_Delim -> rv cs 1 (fun _ : component_ast => True) (match tchar (ctok c) with None => None | Some ch =>
     if ch =? 46 then match peek_n (set_skip p KS_COMMENTS) 2 with None => None | Some c2 => match tkind (ctok c2) with K_Ident => pmap (fun x => SClass (fst x) (snd x)) parse_class p | _ => Some (Err (D_Other E_EXPECTED_IDENT c2), p) end end
     else if ch =? 42 then match peek_n (set_skip p KS_COMMENTS) 2 with None => None | Some c2 => if tok_is_char (ctok c2) 124 then pmap SNamespace parse_namespace p else
        match next p with None => None | Some (c, q) => Some (Ok (SWildcard c), q) end end
     else pmap SCombinator parse_combinator p end)).
  { intro K. destruct (tchar (ctok c)) as [ch |] eqn:Ech; [| exfalso; destruct Sc as ((_ & _ & _ & X) & _); exact (X K Ech)]. go1; [go1; go1; go |]. go1; [| go]. go1. go1; [go |].
    apply (do_next src f G H G_ok G_all H_all _ cs 0 p _ _ (fun o => match o with None => None | Some (c, q) => Some (Ok (SWildcard c), q) end)); [st_ |]. intros d q _ Nx Sd S1 _ E S2.
    assert (Kd : kind_of d <> K_Eof) by (apply (not_ended cs 0 p KS_COMMENTS c S0 comments_trivia Pn) with (q := q); try exact Nx; unfold kind_of; rewrite K; discriminate). specialize (S2 Kd). go. }
  assert (Colon : rv cs 1 (fun _ : component_ast => True) (match peek_n (set_skip p KS_COMMENTS) 2 with None => None | Some c2 =>
     match tkind (ctok c2) with
     | K_Colon => match peek_n (set_skip p KS_COMMENTS) 3 with None => None | Some c3 => match tkind (ctok c3) with K_Ident => pmap SPseudoElement parse_pseudo_element_ast p
          | K_Function => parse_functional_element (compound_t component_p) p | _ => Some (Err (D_Unexpected c3), p) end end
     | K_Ident => match peek_pseudo_class (words LEGACY_PSEUDO_ELEMENTS) p c with None => None | Some true => pmap SLegacy (parse_pseudo_class (words LEGACY_PSEUDO_ELEMENTS)) p | Some false => pmap SPseudoClass parse_pseudo_class_ast p end
     | K_Function => parse_functional_class (selector_list_t (compound_t component_p)) p
     | _ => Some (Err (D_Unexpected c2), set_skip p KS_COMMENTS) end end)).
  { assert (W : exists b, peek_pseudo_class (words LEGACY_PSEUDO_ELEMENTS) p c = Some b).
    { destruct (st_stands _ _ _ _ _ _ _ S0) as (cs' & S' & _). pose proof (w_pseudo_class src f _ (words LEGACY_PSEUDO_ELEMENTS) p cs' c S' Sc) as X. destruct (peek_pseudo_class (words LEGACY_PSEUDO_ELEMENTS) p c); [eauto | congruence]. }
    destruct W as (b & ->). go1. destruct (tkind (ctok c0)); try exact Pfc; try go. exact Pfe. }
  assert (Wd : wordy (tkind (ctok c)) -> forall d, peek_next (set_skip p KS_COMMENTS) = Some d -> wordy (kind_of d)).
  { intros W d Pd. assert (S1 : st cs 0 (set_skip p KS_COMMENTS)) by st_. pose proof (peek_one _ _ _ _ S1 Pn) as Pc. rewrite Pd in Pc. apply some_inj in Pc. subst d. exact W. }
  cbv zeta. destruct (tkind (ctok c)) eqn:K; try exact Other; try exact Colon; try exact (Delim eq_refl); try (destruct (hash_is_id_like (ctok c)); [| exact Other]); try go.
  - eapply do_take; [st_ | triv_ | whole_ | apply a_kind; discriminate | exact (Wd ltac:(constructor)) |]. intros q d Sq Sd Kd Nd. unfold peek_tag, peek_kind in Kd. apply some_inj in Kd.
    destruct (tag_total src f G H _ _ q d Sq Sd (seen_kind src d _ Sd Kd ltac:(discriminate) Nd)) as (t & ->). discriminate.
  - eapply do_take; [st_ | triv_ | whole_ | apply a_kind; discriminate | exact (Wd ltac:(constructor)) |]. discriminate.
Qed.
Lemma p_compound_loop : forall (component_p : P component_ast) m n, (n < m)%nat -> goes n 1 component_p top -> goes n 0 (compound_loop component_p m) top.
Proof.
  intros component_p m. induction m as [| m IH]; intros n L Hc; [lia |]. cbn [compound_loop]. begin. destruct (at_stop_total KS_LEFT_CURLY_RIGHT_PAREN_COMMA_OR_SEMICOLON _ _ _ S0) as ([] & ->); [go |].
  eapply do_bind; [st_ | eapply goes_less; [exact Hc | lia] |]. intros c q _ Sq. pose proof (st_len _ _ _ _ _ _ _ Sq). go1. eapply do_goes; [st_ | apply IH; [lia | eapply goes_less; [exact Hc | lia]] | lia | auto].
Qed.
Lemma p_compound : forall (component_p : P component_ast) n, goes n 1 component_p top -> goes n 0 (compound_t component_p) top.
Proof.
  intros component_p n Hc. begin. unfold compound_t. destruct (p_trivia src f G H G_ok G_all H_all _ _ _ S0) as (q & -> & Sq & _).
  eapply (do_fuel src f G H _ _ _ _ _ 0 (fun m => compound_loop component_p m)); [st_ | intros i m Li Lm; apply p_compound_loop; [lia | eapply goes_less; [exact Hc | lia]] | lia | auto].
Qed.
(* one turn of the list, in a form that shows the progress *)
Lemma do_turn : forall A component_p n p cs K (Q : A -> Prop) (g : list component_ast -> P A), stands src f p cs -> (length cs <= n)%nat -> goes n 1 component_p top -> at_stop KS_LEFT_CURLY_RIGHT_PAREN_OR_SEMICOLON p = Some false ->
  (forall l q, st cs 1 q -> rv cs K Q (g l q)) -> (forall q c r, stands src f q cs -> pskip q = pskip p -> kept (pskip q) cs = c :: r -> kind_of c = K_Comma -> rv cs K Q (g [] q)) -> rv cs K Q (bind (compound_t component_p) g p).
Proof.
  intros A component_p n p cs K Q g S L Hc At X1 X2. assert (S0 : st cs 0 p) by (apply plain_st; [assumption | assumption | exists [], cs; auto]).
  destruct (trivia_total p cs (stands_ahead _ _ _ _ S)) as (q & sk & rest & Ec & Es & Fs & St & _ & A' & Se). destruct Se as (_ & _ & Sk & _ & S1 & S2). pose proof S as (S3 & S4 & _ & S6 & S7).
  assert (Sq : stands src f q rest). { unfold stands. rewrite S1, S2, Sk. split; [exact S3 |]. split; [exact S4 |]. split; [exact A' |]. split; [| exact S7]. rewrite Es in S6. exact (supported_app _ _ _ S6). }
  assert (Go : forall i, (i <= length sk)%nat -> st cs i q). { intros i Li. apply plain_st; [assumption | assumption |]. exists sk, rest. split; [exact Es |]. split; [lia | exact Sq]. }
  unfold bind, compound_t. rewrite Ec.
  assert (Hs : (0 < sfuel q)%nat) by (unfold sfuel; lia). destruct (sfuel q) as [| m] eqn:Em; [lia |]. cbn [compound_loop].
  assert (Lm : (length rest <= m)%nat) by (pose proof (sfuel_more q rest A'); lia).
  destruct (at_stop_spec KS_LEFT_CURLY_RIGHT_PAREN_COMMA_OR_SEMICOLON q rest (or_introl eq_refl) A') as (b & Eb & Hb). rewrite Eb. destruct b.
  - destruct sk as [| d sk]; [| apply X1; apply Go; cbn [length]; lia]. cbn [app] in Es. subst rest. destruct (at_stop_spec KS_LEFT_CURLY_RIGHT_PAREN_OR_SEMICOLON p cs (or_intror eq_refl) (stands_ahead _ _ _ _ S)) as (b2 & Eb2 & Hb2).
    rewrite At in Eb2. injection Eb2 as <-. destruct (proj1 Hb eq_refl) as [-> | (c & r & Ek & Ic)]; [exfalso; assert (false = true) by (apply Hb2; now left); discriminate |].
    apply stop_comma in Ic. destruct Ic as [Ic | Ic]; [exfalso; rewrite Sk in Ek; assert (false = true) by (apply Hb2; right; eauto); discriminate |]. exact (X2 q c r Sq Sk Ek Ic).
  - assert (Rv : rv rest 1 top (bind component_p (fun c => pmap (cons c) (compound_loop component_p m)) q)).
    { assert (S5 : st rest 0 q) by (apply plain_st; [assumption | assumption | exists [], rest; auto]). assert (Lr : (length rest <= n)%nat) by (rewrite Es, app_length in L; lia).
      eapply do_bind; [st_ | eapply goes_less; [exact Hc | lia] |]. intros c q2 _ S8. pose proof (st_len _ _ _ _ _ _ _ S8). go1.
      eapply do_goes; [st_ | apply p_compound_loop; [| eapply goes_less; [exact Hc |]]; lia | lia | auto]. }
    apply (lift src f G H G_all H_all _ cs rest sk 1 1 _ _ Es ltac:(lia)) in Rv. destruct Rv as ([l | e] & q2 & E2 & Y); rewrite E2; [apply X1; apply Y | eapply rv_err; lost_].
Qed.
Lemma p_selector_loop : forall (component_p : P component_ast) m n, (n < m)%nat -> goes n 1 component_p top -> goes n 0 (selector_loop (compound_t component_p) m) top.
Proof.
  intros component_p m. induction m as [| m IH]; intros n L Hc; [lia |]. cbn [selector_loop]. intros p cs S _ L0. assert (S0 : st cs 0 p) by (apply plain_st; [assumption | assumption | exists [], cs; auto]).
  destruct (at_stop_total KS_LEFT_CURLY_RIGHT_PAREN_OR_SEMICOLON _ _ _ S0) as ([] & At); rewrite At; [go |].
  assert (Next : forall s o q, st cs 1 q -> rv cs 0 top (pmap (cons (s, o)) (selector_loop (compound_t component_p) m) q)).
  { intros s o q Sq. pose proof (st_len _ _ _ _ _ _ _ Sq). go1. eapply do_goes; [st_ | apply (IH (length cs - 1)%nat); [lia | eapply goes_less; [exact Hc | lia]] | lia | auto]. }
  eapply do_turn; [exact S | exact L0 | exact Hc | exact At | |].
  - intros l q Sq. go1. apply Next. eapply st_le; [| exact Sq0]; lia.
  - intros q c r Sq Sk Ek Kc. assert (S1 : st cs 0 q) by (apply plain_st; [assumption | assumption | exists [], cs; auto]). unfold if_kind. eapply do_bind_if; [exact G_ok | exact S1 | whole_ | known | |].
    + intros a q2 _ S2. apply Next. exact S2.
    + intros d Pn Sd Kd. exfalso. assert (Pk : peek (peek_kind K_Comma) q = Some false) by (unfold peek; rewrite Pn; exact Kd). exact (not_comma q cs c r (stands_ahead _ _ _ _ Sq) Ek Kc Pk).
Qed.
Lemma p_selector_list : forall (component_p : P component_ast) n, goes n 1 component_p top -> goes n 0 (selector_list_t (compound_t component_p)) top.
Proof.
  intros component_p n Hc. unfold selector_list_t. apply (goes_fuel src f G H _ n 0 (fun m => selector_loop (compound_t component_p) m)). intros i m Li Lm. apply p_selector_loop; [lia | eapply goes_less; [exact Hc | lia]].
Qed.
Lemma p_component_n : forall m n, (n < m)%nat -> goes n 1 (component_n m) top.
Proof.
  induction m as [| m IH]; intros n L; [lia |]. cbn [component_n]. apply p_component_t; intros i Li; [apply p_compound | apply p_selector_list]; apply IH; lia.
Qed.
Lemma p_selectors : forall n, goes n 0 parse_selectors top.
Proof. intro n. unfold parse_selectors. apply (goes_fuel src f G H _ n 0 (fun m => selector_list_t (compound_t (component_n m)))). intros i m Li Lm. apply p_selector_list. apply p_component_n. lia. Qed.
End Selector.
#[export] Hint Resolve p_selectors : goes.
