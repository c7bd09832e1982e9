(* The logic of Goes.v where every token may be read: An+B, selectors. *)
From Coq Require Import ZifyBool ZifyNat ZifyN.
From Coq Require Import String.
From Coq Require Import List.
From Verif Require Import AstSheet SpecSheet SpecLex SpecTrace SpecParser SpecSyntax SpecTraits SpecFeatures SpecCursor SpecToken LexBase TokenProofs KindProofs LexFacts LexTrace CursorProofs CursorLex
  ParserProofs ParserProofs2 ParserProofs3 ParserProofs4 CompareProofs SyntaxProofs SyntaxTotal TraitsTotal RulesTotal FeatureProofs SelectorProofs3 Goes Goes2 Goes3 Goes4 Goes5.
Open Scope N_scope.
Open Scope list_scope.
Notation length := List.length.

Section Peekers.
Variable src : text.
Context {mod_ : mode}.
Variable f : feature.
Notation whole := (whole src f).
Lemma w_true : whole (fun _ _ => Some true).
Proof. intros p cs c _ _. discriminate. Qed.
Lemma w_css_int : whole peek_css_int.
Proof. intros p cs c _ _. discriminate. Qed.
Lemma w_tag : whole peek_tag.
Proof. apply whole_kind. Qed.
Lemma w_ns_tag : whole peek_ns_tag.
Proof. intros p cs c S Sc. unfold peek_ns_tag. pose proof (whole_delim src f 42 p cs c S Sc). destruct (peek_delim 42 p c) as [[] |]; [discriminate | apply (w_tag p cs c S Sc) | exact H]. Qed.
Lemma w_operator : whole peek_operator.
Proof. apply whole_any. repeat constructor; eauto with whole. Qed.
Lemma w_modifier : whole peek_modifier.
Proof. intros p cs c S Sc. unfold peek_modifier. destruct (tok_is _ _); [| discriminate]. destruct S as (-> & _). destruct (str_seen _ c Sc) as (w & ->). discriminate. Qed.
Lemma w_percent : whole peek_percent.
Proof. apply whole_dimension. Qed.
Lemma w_computed : whole peek_computed.
Proof. apply whole_set. constructor. Qed.
End Peekers.
#[export] Hint Resolve w_true w_css_int w_tag w_ns_tag w_operator w_modifier w_percent w_computed : whole.

Section Nths.
Variable src : text.
Context {mod_ : mode}.
Variable f : feature.
Variable G : cursor -> Prop.
Variable H : cursor -> Prop.
Hypothesis G_ok : forall c, kind_of c <> K_LeftCurly -> G c.
Hypothesis G_all : forall c, G c.
Hypothesis H_all : forall c, H c.
Notation goes := (goes src f G H).
Notation st := (st src f G H).
Notation rv := (rv src f G H).
Notation lost := (lost src f).
Notation seen := (seen src).
Notation whole := (whole src f).
Notation top := (fun _ => True).
Lemma p_any : forall n, goes n 0 Nth.parse_any (fun c => seen c /\ (ctok c = T_EOF \/ kind_of c <> K_Eof)).
Proof.
  intro n. begin. unfold Nth.parse_any, parse_single. destruct (peek_st _ _ _ _ (G_triv _ G_ok) _ _ _ (fun _ _ => Some true) S0 ltac:(whole_)) as (b & d & Pk & Pn & Kd & Sd & _). rewrite Pk. injection Kd as <-.
  apply (do_next src f G H G_ok G_all H_all _ cs 0 p _ _ (fun o => match o with None => None | Some (c, q) => Some (Ok c, q) end)); [st_ |]. intros c q _ _ Sc S1 _ E S2. eapply rv_ok; [exact S1 | lia | auto].
Qed.
Lemma p_any2 : forall n, goes n 0 Features.parse_any (fun c => seen c /\ (ctok c = T_EOF \/ kind_of c <> K_Eof)).
Proof. exact p_any. Qed.
Lemma a_css_int : allowed src G peek_css_int.
Proof. intros p c Sc T E. unfold peek_css_int in T. apply some_inj in T. apply andb_prop in T. destruct (tok_is_not_eof c _ (proj1 T) E ltac:(discriminate)) as (_ & K). auto. Qed.
Lemma p_nth_b_number : forall n a b l, goes n 0 (nth_b_number a b l) top.
Proof. intros n a b l. begin. unfold nth_b_number. go. Qed.
Lemma p_nth_b_sign : forall n a b l, goes n 0 (nth_b_sign a b l) top.
Proof. intros n a b l. begin. unfold nth_b_sign. pose proof p_nth_b_number. go. Qed.
Lemma p_nth_a : forall n c l, seen c -> goes n 0 (nth_a c l) top.
Proof.
  intros n c l Sc. begin. unfold nth_a. pose proof p_nth_b_sign. go1; [go |].
  assert (Wc : wordy (kind_of c)) by (unfold kind_of; destruct (tkind (ctok c)); cbn in B; try discriminate; constructor).
  go1; [go |]. go1. go1; [go |].
  set (x := if is_int (ctok c) then (f32_as_i32 (tvalue (ctok c)), a) else match a with 45 :: r => ((-1)%Z, r) | _ => (1%Z, a) end). destruct x as (a1 & [| ch rest]); [go |]. go1; [go |].
  destruct (parse_i32 rest); [go |]. destruct rest; go.
Qed.
End Nths.
#[export] Hint Transparent Selectors.word : goes.
#[export] Hint Resolve p_any p_any2 p_nth_b_sign p_nth_a : goes.

Section Selector.
Variable src : text.
Context {mod_ : mode}.
Variable f : feature.
Variable G : cursor -> Prop.
Variable H : cursor -> Prop.
Hypothesis G_ok : forall c, kind_of c <> K_LeftCurly -> G c.
Hypothesis G_all : forall c, G c.
Hypothesis H_all : forall c, H c.
Notation goes := (goes src f G H).
Notation st := (st src f G H).
Notation rv := (rv src f G H).
Notation lost := (lost src f).
Notation seen := (seen src).
Notation whole := (whole src f).
Notation top := (fun _ => True).
Lemma p_nth_anb : forall n c, seen c -> goes n 0 (nth_anb c) top.
Proof. intros n c Sc. begin. unfold nth_anb. go. Qed.
Lemma p_nth : forall n, goes n 0 parse_nth top.
Proof.
  intro n. begin. unfold parse_nth. pose proof p_nth_anb. go1; [| go]. unfold parse_css_int.
  go1. eapply do_goes; [st_ | apply g_single; [exact G_ok | whole_ | apply a_css_int; assumption] | lia | auto].
Qed.
Lemma p_class : forall n, goes n 2 parse_class top.
Proof. intro n. begin. unfold parse_class. go. Qed.
Lemma p_combinator : forall n, goes n 1 parse_combinator top.
Proof. intro n. begin. unfold parse_combinator. go. Qed.
Lemma p_prefix : forall n, goes n 1 parse_prefix top.
Proof. intro n. begin. unfold parse_prefix. go. Qed.
Lemma tag_total : forall cs0 j p c, st cs0 j p -> seen c -> kind_of c = K_Ident -> exists t, build_tag p c = Some t.
Proof.
  intros cs0 j p c S Sc K. destruct (lower_seen _ c Sc ltac:(rewrite K; constructor)) as (w & E). rewrite <- (st_src _ _ _ _ _ _ _ S) in E. destruct (SelectorProofs3.build_tag_spec p c w K E) as (t & X & _). eauto.
Qed.
End Selector.
#[export] Hint Resolve p_nth p_class p_combinator p_prefix : goes.
Ltac found := repeat match goal with GA : (forall c : cursor, ?G c), HA : (forall c : cursor, ?H c), X : Goes.lost ?s ?f ?cs ?j ?q |- context [rv ?s ?f ?G ?H] => apply (plain_st s f G H GA HA) in X end.
Ltac gp := repeat (progress (go1; found)).

Section Selector2.
Variable src : text.
Context {mod_ : mode}.
Variable f : feature.
Variable G : cursor -> Prop.
Variable H : cursor -> Prop.
Hypothesis G_ok : forall c, kind_of c <> K_LeftCurly -> G c.
Hypothesis G_all : forall c, G c.
Hypothesis H_all : forall c, H c.
Notation goes := (goes src f G H).
Notation st := (st src f G H).
Notation rv := (rv src f G H).
Notation lost := (lost src f).
Notation seen := (seen src).
Notation whole := (whole src f).
Notation top := (fun _ => True).
Lemma p_ns_tag : forall n, goes n 1 parse_ns_tag top.
Proof.
  intro n. unfold parse_ns_tag. apply goes_built; [exact (G_triv _ G_ok) | whole_ | |].
  - intros p c Sc T X. unfold peek_ns_tag in T. destruct (peek_delim 42 p c) as [[] |] eqn:E; [| | discriminate]; split; auto.
    + unfold peek_delim in E. apply some_inj in E. apply andb_prop in E. apply (tok_is_not_eof c _ (proj1 E) X). discriminate.
    + unfold peek_tag, peek_kind in T. apply some_inj in T. apply (tok_is_not_eof c _ T X). discriminate.
  - intros p q cs c Sq Sc T Ep Kn. unfold build_ns_tag. unfold peek_ns_tag in T. assert (W : peek_delim 42 q c = peek_delim 42 p c) by reflexivity. rewrite W. destruct (peek_delim 42 p c) as [[] |] eqn:E; [eauto | | discriminate].
    destruct (tag_total src f G H cs 0 q c) as (t & ->); [apply plain_st; [assumption | assumption | exists [], cs; auto] | exact Sc | | cbn [option_map]; eauto].
    unfold peek_tag, peek_kind in T. apply some_inj in T. exact (seen_kind src c _ Sc T ltac:(discriminate) Kn).
Qed.
Lemma p_namespace : forall n, goes n 1 parse_namespace top.
Proof.
  intro n. begin. unfold parse_namespace. pose proof p_ns_tag. go1; [gp |]. go1; [gp |]. go1. cbv zeta. gp.
Qed.
Lemma p_operator : forall n, goes n 1 parse_operator top.
Proof.
  intro n. begin. unfold parse_operator. go1.
  assert (T : forall k x y, whole k -> rv cs 1 (fun _ : attr_operator => True) x -> rv cs 1 (fun _ => True) y -> rv cs 1 top (match k p c with None => None | Some true => x | Some false => y end)).
  { intros k x y W X Y. destruct (st_stands _ _ _ _ _ _ _ S0) as (cs' & S' & _). pose proof (W p cs' c S' Sc). destruct (k p c) as [[] |]; [exact X | exact Y | congruence]. }
  cbv zeta. do 5 (apply T; [whole_ | go |]). go.
Qed.
Lemma p_attr_value : forall n, goes n 1 parse_attr_value top.
Proof.
  intro n. eapply goes_imp; [apply g_single; [exact G_ok | whole_ |] | lia | auto]. intros p c Sc T X. split; [| apply G_all]. cbn [any_peek] in T. unfold peek_kind in T.
  destruct (tok_is (ctok c) K_Ident) eqn:E1; [exact (proj2 (tok_is_not_eof c _ E1 X ltac:(discriminate))) |]. destruct (tok_is (ctok c) K_String) eqn:E2; [exact (proj2 (tok_is_not_eof c _ E2 X ltac:(discriminate))) | discriminate].
Qed.
Lemma p_modifier : forall n, goes n 1 (parse_built peek_modifier build_modifier) top.
Proof.
  intro n. apply goes_built; [exact (G_triv _ G_ok) | whole_ | |].
  - intros p c Sc T X. unfold peek_modifier in T. destruct (tok_is (ctok c) K_Ident) eqn:E; [| discriminate]. split; auto. apply (tok_is_not_eof c _ E X). discriminate.
  - intros p q cs c Sq Sc T Ep Kn. unfold build_modifier. destruct Sq as (-> & _). destruct (str_seen _ c Sc) as (w & ->). eauto.
Qed.
Lemma p_attribute_rest : forall n o x c, goes n 0 (parse_attribute_rest o x c) top.
Proof.
  intros n o x c. begin. unfold parse_attribute_rest. pose proof p_operator. pose proof p_attr_value. pose proof p_modifier. go1.
  assert (V : goes (length cs - (0 + 0)) 0 (match a with Some _ => pmap Some parse_attr_value | None => ret None end) top).
  { destruct a; [eapply goes_imp; [eapply g_pmap_known; apply p_attr_value | lia | auto] | apply goes_ret; auto]. }
  eapply do_bind; [st_ | exact V |]. intros v q2 _ S2.
  assert (M : goes (length cs - (0 + 0 + 0)) 0 (match v with Some _ => parse_if_peek peek_modifier (parse_built peek_modifier build_modifier) | None => ret None end) top).
  { destruct v; [eapply goes_imp; [eapply goes_if; [exact G_ok | whole_ | apply p_modifier] | lia | auto] | apply goes_ret; auto]. }
  eapply do_bind; [st_ | exact M |]. intros md q3 _ S3. go.
Qed.
Lemma p_attribute : forall n, goes n 2 parse_attribute top.
Proof. intro n. begin. unfold parse_attribute. pose proof p_attribute_rest. go1. go1. go1. cbv zeta. destruct a0; [go |]. gp. Qed.
Lemma p_pseudo_class : forall V n (m : list (text * V)), goes n 2 (parse_pseudo_class m) top.
Proof. intros V n m. begin. unfold parse_pseudo_class. gp. Qed.
Lemma p_pseudo_element : forall V n (m : list (text * V)), goes n 2 (parse_pseudo_element m) top.
Proof. intros V n m. begin. unfold parse_pseudo_element. gp. Qed.
Lemma p_or_try : forall A B n k (m : P A) (g : A -> B) e, goes n k m top -> goes n k e top -> goes n k (or_try m g e) top.
Proof.
  intros A B n k m g e Hm He. begin. unfold or_try. pose proof (goes_try _ _ _ _ _ _ _ _ _ Hm) as Ht. pattern (try_parse m p). eapply do_match; [st_ | eapply goes_less; [exact Ht | lia] | |].
  - intros a q Sq _. eapply rv_ok; [exact Sq | lia | auto].
  - intros x q X. apply (plain_st src f G H G_all H_all) in X. eapply do_goes; [st_ | eapply goes_less; [exact He | lia] | lia | auto].
Qed.
Lemma p_pseudo_class_ast : forall n, goes n 2 parse_pseudo_class_ast top.
Proof.
  intro n. begin. unfold parse_pseudo_class_ast. pose proof p_pseudo_class. gp. eapply do_goes; [st_ | repeat apply p_or_try; try apply p_pseudo_class; apply goes_fail_text; seen_ | lia | auto].
Qed.
Lemma p_pseudo_element_ast : forall n, goes n 2 parse_pseudo_element_ast top.
Proof.
  intro n. begin. unfold parse_pseudo_element_ast. pose proof p_pseudo_element. gp. all: try (destruct a0). all: gp. all: eapply do_goes; [st_ | repeat apply p_or_try; try apply p_pseudo_element; apply goes_fail_text; seen_ | lia | auto].
Qed.
End Selector2.
