(* The logic of Goes.v where every token may be read: component values, declarations, blocks. *)
From Coq Require Import ZifyBool ZifyNat ZifyN.
From Coq Require Import List.
From Verif Require Import AstSheet SpecSheet SpecLex SpecTrace SpecParser SpecSyntax SpecTraits SpecFeatures SpecCursor SpecToken LexBase TokenProofs KindProofs LexFacts LexTrace CursorProofs CursorLex
  ParserProofs ParserProofs2 ParserProofs3 ParserProofs4 CompareProofs SyntaxProofs SyntaxTotal TraitsTotal RulesTotal FeatureProofs Goes Goes2 Goes3.
Open Scope N_scope.
Open Scope list_scope.

Lemma w_whitespace {mod_ : mode} : forall src f, whole src f peek_whitespace.
Proof.
  intros src f p cs c S Sc. destruct (whole_whitespace src f cs 0 p) as (b & E); [exists [], cs; auto |].
  unfold peek in E. destruct (peek_next p) as [d |]; [| discriminate]. unfold peek_whitespace in *. congruence.
Qed.
#[export] Hint Resolve w_whitespace : whole.

Section Plain.
Variable src : text.
Context {mod_ : mode}.
Variable f : feature.
Variable G : cursor -> Prop.
Variable H : cursor -> Prop.
Hypothesis G_ok : forall c, kind_of c <> K_LeftCurly -> G c.
Hypothesis G_all : forall c, G c.
Hypothesis H_all : forall c, H c.
Notation goes := (goes src f G H).
Notation st := (st src f G H).
Notation rv := (rv src f G H).
Notation lost := (lost src f).
Notation seen := (seen src).
Notation whole := (whole src f).
Lemma plain_st : forall cs0 j q, lost cs0 j q -> st cs0 j q.
Proof. intros cs0 j q (u & cs & E & L & S). exists u, cs. split; [exact E |]. split; [exact L |]. split; [apply Forall_forall; intros c _; apply G_all |]. split; [exact S |]. intros pre c rest _ _. apply H_all. Qed.
Lemma p_kind : forall n k, k <> K_Eof -> goes n 1 (parse_kind k) (fun c => seen c /\ kind_of c = k).
Proof. intros n k N. apply goes_kind; [exact (G_triv _ G_ok) | exact N | intros; apply G_all]. Qed.
Lemma p_if_kind : forall n k, k <> K_Eof -> goes n 0 (if_kind k) (fun _ => True).
Proof. intros n k N. eapply goes_imp; [apply (goes_if _ _ _ _ G_ok _ _ 1); [apply whole_kind | apply (p_kind n k N)] | lia | auto]. Qed.
Lemma do_next : forall A cs0 j p k Q (F : option (cursor * parser) -> option (res A * parser)), st cs0 j p ->
  (forall c q, peek_next p = Some c -> next p = Some (c, q) -> seen c -> st cs0 j q -> pskip q = pskip p -> (ctok c = T_EOF \/ kind_of c <> K_Eof) -> (kind_of c <> K_Eof -> st cs0 (j + 1) q) -> rv cs0 k Q (F (Some (c, q)))) -> rv cs0 k Q (F (next p)).
Proof.
  intros A cs0 j p k Q F S X. destruct (next_eof _ _ _ _ (G_triv _ G_ok) _ _ _ S) as (c & q & N & Pn & Sc & L & Sk & E & Y). rewrite N. apply X; auto using plain_st.
Qed.
Lemma p_whitespace : forall n, goes n 1 parse_whitespace (fun _ => True).
Proof.
  intro n. begin. unfold parse_whitespace. apply (do_next _ cs 0 (set_skip p KS_COMMENTS) _ _ (fun o => match o with None => None | Some (c, p') => if negb (tok_is (ctok c) K_Whitespace) then Some (Err (D_Unexpected c), set_skip p' (pskip p)) else Some (Ok c, set_skip p' (pskip p)) end)); [st_ |].
  intros c q _ _ Sc S1 _ E S2. destruct (tok_is (ctok c) K_Whitespace) eqn:B; cbn [negb]; [| go]. destruct (tok_is_not_eof c _ B E ltac:(discriminate)) as (_ & K). specialize (S2 K). go.
Qed.
Lemma p_if_whitespace : forall n, goes n 0 if_whitespace (fun _ => True).
Proof. intro n. eapply goes_imp; [apply (goes_if _ _ _ _ G_ok _ _ 1); [apply w_whitespace | apply (p_whitespace n)] | lia | auto]. Qed.
Lemma p_opt_ok : forall A n k (m : P A) Q, goes n k m Q -> goes n 0 (opt_ok m) (fun _ => True).
Proof.
  intros A n k m Q Hm. begin. unfold opt_ok. pattern (m p). eapply do_match; [st_ | eapply goes_less; [exact Hm | lia] | |]; [intros a q Sq Qa | intros e q X; apply plain_st in X]; go.
Qed.
Lemma p_unexpected_next : forall A n k, goes n k (@unexpected_next A) (fun _ => True).
Proof.
  intros A n k. begin. unfold unexpected_next. apply (do_next _ cs 0 p _ _ (fun o => match o with None => None | Some (c, q) => Some (Err (D_Unexpected c), q) end)); [st_ |]. intros c q _ _ Sc S1 _ E S2. go.
Qed.
Lemma p_unexpected_peek : forall A n k, goes n k (@unexpected_peek A) (fun _ => True).
Proof. intros A n k. begin. unfold unexpected_peek. go. Qed.
Lemma p_next_is_stop : forall cs0 j p, st cs0 j p -> exists b, next_is_stop p = Some b.
Proof.
  intros cs0 j p (u & cs & _ & _ & _ & S & _). pose proof (stands_ahead _ _ _ _ S) as A. destruct (skip_split (pskip p) cs) as (sk & rest & -> & F & St).
  eexists. apply (next_is_stop_spec p sk rest A F St). destruct (kindset_contains (pskip p) K_Eof) eqn:B; [| reflexivity]. destruct S as (_ & _ & _ & _ & T). apply T in B. destruct B; discriminate.
Qed.
Lemma p_trivia : forall cs0 j p, st cs0 j p -> exists q, consume_trivia p = Some q /\ st cs0 j q /\ ((exists cs, stands src f p cs /\ stands src f q cs) \/ st cs0 (j + 1) q) /\ pskip q = pskip p.
Proof.
  intros cs0 j p (u & cs & E & L & F & S & Z). pose proof (stands_ahead _ _ _ _ S) as A. destruct (trivia_total p cs A) as (q & sk & rest & Ec & Es & Fs & St & _ & A' & Se).
  destruct Se as (_ & _ & Sk & _ & S1 & S2). pose proof S as (S3 & S4 & _ & S6 & S7). assert (Sq : stands src f q rest).
  { unfold stands. rewrite S1, S2, Sk. split; [exact S3 |]. split; [exact S4 |]. split; [exact A' |]. split; [| exact S7]. rewrite Es in S6. exact (supported_app _ _ _ S6). }
  exists q. split; [exact Ec |]. assert (X : forall i, (i <= j + length sk)%nat -> st cs0 i q).
  { intros i Li. apply plain_st. exists (u ++ sk), rest. rewrite E, Es, app_assoc, app_length. split; [reflexivity |]. split; [lia | exact Sq]. }
  split; [apply X; lia |]. split; [| exact Sk]. destruct sk as [| d sk]; [left | right; apply X; cbn [length]; lia].
  cbn [app] in Es. subst rest. eauto.
Qed.
End Plain.
#[export] Hint Resolve p_whitespace p_if_whitespace p_opt_ok p_unexpected_next p_unexpected_peek : goes.
#[export] Hint Resolve p_kind p_if_kind | 2 : goes.

Lemma tok_in_not_eof : forall c l, tok_in (ctok c) (kindset_new l) = true -> ctok c = T_EOF \/ kind_of c <> K_Eof -> ~ In K_Eof l -> In (kind_of c) l /\ kind_of c <> K_Eof.
Proof.
  intros c l T [E | N] K.
  - exfalso. apply K. rewrite E in T. apply kinds_in. exact T.
  - split; [| exact N]. apply kinds_in. exact (proj1 (in_kinds_tok (kindset_new l) c N) T).
Qed.

Section Values.
Variable src : text.
Context {mod_ : mode}.
Variable f : feature.
Variable G : cursor -> Prop.
Variable H : cursor -> Prop.
Hypothesis G_ok : forall c, kind_of c <> K_LeftCurly -> G c.
Hypothesis G_all : forall c, G c.
Hypothesis H_all : forall c, H c.
Notation goes := (goes src f G H).
Notation st := (st src f G H).
Notation rv := (rv src f G H).
Notation lost := (lost src f).
Notation seen := (seen src).
Notation whole := (whole src f).
Lemma a_kindset : forall l, ~ In K_Eof l -> allowed src G (peek_kindset (kindset_new l)).
Proof. intros l K p c Sc E X. unfold peek_kindset in E. apply some_inj in E. destruct (tok_in_not_eof c l E X K) as (_ & N). auto. Qed.
Lemma p_pair_start : forall n, goes n 1 parse_pair_start (fun _ => True).
Proof. intro n. eapply goes_imp; [apply g_single; [exact G_ok | whole_ | apply a_kindset; cbn; intuition discriminate] | lia | auto]. Qed.
Lemma p_pair_end : forall n, goes n 1 parse_pair_end (fun _ => True).
Proof. intro n. eapply goes_imp; [apply g_single; [exact G_ok | whole_ | apply a_kindset; cbn; intuition discriminate] | lia | auto]. Qed.
Lemma p_cv_tokens : forall n, goes n 1 cv_tokens (fun _ => True).
Proof.
  intro n. unfold cv_tokens. assert (X : Forall (fun k => k <> K_Eof) CV_KINDS) by (unfold CV_KINDS; repeat constructor; discriminate).
  induction X as [| k l Hk Hl IH]; cbn [fold_right]; [apply p_unexpected_next; assumption |]. begin. go1; [go1; eapply do_goes; [st_ | apply (p_kind src f G H G_ok G_all); exact Hk | lia | auto] | eapply do_goes; [st_ | eapply goes_less; [exact IH | lia] | lia | auto]].
Qed.
Lemma p_block_with : forall n vs, (forall i, (i < n)%nat -> goes i 0 vs (fun _ => True)) -> goes n 1 (block_with vs) (fun _ => True).
Proof.
  intros n vs Hv. begin. unfold block_with. eapply do_bind; [st_ | apply p_pair_start |]. intros o q _ Sq. pose proof (st_len _ _ _ _ _ _ _ Sq).
  eapply do_bind; [st_ | eapply goes_in_stop; apply Hv; lia |]. intros v q2 _ S2. go1; [| go]. eapply do_bind; [st_ | eapply p_opt_ok; [assumption | assumption | apply p_pair_end] |]. intros. go.
Qed.
Lemma p_function_with : forall n vs, (forall i, (i < n)%nat -> goes i 0 vs (fun _ => True)) -> goes n 1 (function_with vs) (fun _ => True).
Proof.
  intros n vs Hv. begin. unfold function_with. go1. pose proof (st_len _ _ _ _ _ _ _ Sq). eapply do_bind; [st_ | apply Hv; lia |]. intros v q2 _ S2. go.
Qed.
Lemma p_values_fuel : forall m, (forall n, (2 * n + 1 <= m)%nat -> goes n 1 (cv_fuel m) (fun _ => True)) /\ (forall n, (2 * n + 2 <= m)%nat -> goes n 0 (values_fuel m) (fun _ => True)) /\
  (forall n, (2 * n + 2 <= m)%nat -> goes n 0 (args_fuel m) (fun _ => True)).
Proof.
  induction m as [| m (IH1 & IH2 & IH3)]; [split; [| split]; intros n L; lia |]. split; [| split]; intros n L; cbn [cv_fuel values_fuel args_fuel].
  - begin. go1; [go |]. go1; [| go1].
    + eapply do_goes; [st_ | eapply goes_in_state; apply p_block_with; intros i Li; apply IH2; lia | lia | auto].
    + eapply do_goes; [st_ | apply p_function_with; intros i Li; apply IH3; lia | lia | auto].
    + eapply do_goes; [st_ | apply p_cv_tokens | lia | auto].
  - begin. go1; [go |]. destruct (p_next_is_stop _ _ _ _ _ _ _ S0) as ([] & ->); [go |]. go1; [| go]. eapply do_bind; [st_ | apply IH1; lia |]. intros v q _ Sq. pose proof (st_len _ _ _ _ _ _ _ Sq). go1.
    eapply do_goes; [st_ | apply IH2; lia | lia | auto].
  - begin. go1; [go |]. go1; [go |]. eapply do_bind; [st_ | apply IH1; lia |]. intros v q _ Sq. pose proof (st_len _ _ _ _ _ _ _ Sq). go1.
    eapply do_goes; [st_ | apply IH3; lia | lia | auto].
Qed.
Lemma p_component_value : forall n, goes n 1 parse_component_value (fun _ => True).
Proof. intro n. unfold parse_component_value. apply (goes_fuel src f G H _ n 1 cv_fuel). intros i m _ M. apply p_values_fuel. lia. Qed.
Lemma p_component_values : forall n, goes n 0 parse_component_values (fun _ => True).
Proof. intro n. unfold parse_component_values. apply (goes_fuel src f G H _ n 0 values_fuel). intros i m _ M. apply p_values_fuel. lia. Qed.
End Values.
#[export] Hint Resolve p_component_value p_component_values : goes.

Section Declarations.
Variable src : text.
Context {mod_ : mode}.
Variable f : feature.
Variable G : cursor -> Prop.
Variable H : cursor -> Prop.
Hypothesis G_ok : forall c, kind_of c <> K_LeftCurly -> G c.
Hypothesis G_all : forall c, G c.
Hypothesis H_all : forall c, H c.
Notation goes := (goes src f G H).
Notation st := (st src f G H).
Notation rv := (rv src f G H).
Notation lost := (lost src f).
Notation seen := (seen src).
Notation whole := (whole src f).
Lemma p_bad_fuel : forall m n, (n < m)%nat -> goes n 0 (bad_fuel m) (fun _ => True).
Proof.
  induction m as [| m IH]; intros n L; [lia |]. cbn [bad_fuel]. begin. go1; [go |].
  assert (X : forall q j, st cs j q -> rv cs 0 (fun _ => True) (bind parse_component_value (fun v => pmap (cons v) (bad_fuel m)) q)).
  { intros q j Sq. go1. pose proof (st_len _ _ _ _ _ _ _ Sq0). go1. eapply do_goes; [st_ | apply IH; lia | lia | auto]. }
  go1; [go |]. go1; [| eapply X; st_]. go1; [go |]. go1. eapply X; st_.
Qed.
Lemma p_bad_declaration : forall n, goes n 0 parse_bad_declaration (fun _ => True).
Proof. intro n. unfold parse_bad_declaration. apply (goes_fuel src f G H _ n 0 bad_fuel). intros i m _ M. apply p_bad_fuel. lia. Qed.
Lemma p_important : forall n, goes n 2 parse_important (fun _ => True).
Proof. intro n. begin. unfold parse_important. go. Qed.
Lemma p_declaration_t : forall V n valid (value_p : cursor -> P V) QV, whole valid -> (forall i c, (i < n)%nat -> seen c -> kind_of c = K_Ident -> goes i 0 (value_p c) QV) -> goes n 2 (declaration_t valid value_p) (fun _ => True).
Proof.
  intros V n valid value_p QV W Hv. begin. unfold declaration_t. go1. destruct (st_stands _ _ _ _ _ _ _ Sq) as (cs' & S' & _). pose proof (W q cs' a S' ltac:(assumption)) as Nv. destruct (valid q a) as [[] |]; [| go | congruence].
  go1. pose proof (st_len _ _ _ _ _ _ _ Sq0). eapply do_bind; [st_ | apply Hv; [lia | assumption | assumption] |]. intros v q2 _ S2.
  eapply do_bind; [st_ | eapply (goes_if src f G H G_ok _ _ 2); [whole_ | apply p_important] |]. intros. go.
Qed.
End Declarations.
#[export] Hint Resolve p_bad_declaration : goes.
