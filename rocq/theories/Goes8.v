(* The logic of Goes.v where every token may be read: values, preludes, rules. *)
From Coq Require Import ZifyBool ZifyNat ZifyN.
From Coq Require Import String.
From Coq Require Import List.
From Verif Require Import AstSheet SpecSheet SpecLex SpecTrace SpecParser SpecSyntax SpecTraits SpecFeatures SpecCursor SpecToken LexBase TokenProofs KindProofs LexFacts LexTrace CursorProofs CursorLex
  ParserProofs ParserProofs2 ParserProofs3 ParserProofs4 CompareProofs SyntaxProofs SyntaxTotal TraitsTotal RulesTotal FeatureProofs Goes Goes2 Goes3 Goes4 Goes5 Goes6 Goes7.
Open Scope N_scope.
Open Scope list_scope.
Notation length := List.length.

#[export] Hint Resolve p_component_value p_component_values p_bad_declaration p_no_prelude : goes.

Section Values.
Variable src : text.
Context {mod_ : mode}.
Variable f : feature.
Variable G : cursor -> Prop.
Variable H : cursor -> Prop.
Hypothesis G_ok : forall c, kind_of c <> K_LeftCurly -> G c.
Hypothesis G_all : forall c, G c.
Hypothesis H_all : forall c, H c.
Notation goes := (goes src f G H).
Notation st := (st src f G H).
Notation rv := (rv src f G H).
Notation lost := (lost src f).
Notation seen := (seen src).
Notation whole := (whole src f).
Notation top := (fun _ => True).
Lemma st_plain : forall p cs, stands src f p cs -> st cs 0 p.
Proof. intros p cs S. apply plain_st; [assumption | assumption |]. exists [], cs. auto. Qed.
Lemma p_free_value : forall n, goes n 0 parse_free_value top.
Proof. intro n. unfold parse_free_value. known. Qed.
Lemma p_fallback : forall cs p q, st cs 0 p -> st cs 0 q -> rv cs 0 top (fallback_value (checkpoint p) q).
Proof. intros cs p q Sp Sq. unfold fallback_value. pose proof p_free_value. go. Qed.
Lemma p_value_ends : forall cs j p, st cs j p -> exists b, value_ends p = Some b.
Proof.
  intros cs j p S. unfold value_ends. destruct (p_at_end p); [eauto |]. destruct (peek_n_st _ _ _ _ (G_triv _ G_ok) _ _ _ 1 S ltac:(lia)) as (c & -> & _). destruct (tok_in _ _); [eauto |].
  destruct (peek_st _ _ _ _ (G_triv _ G_ok) _ _ _ (peek_delim 33) S ltac:(whole_)) as (b & d & E & _). eauto.
Qed.
Variable props : properties.
Hypothesis props_ok : Forall (fun x => sensible (snd x)) props.
Lemma p_style_value : forall n name, seen name -> goes n 0 (parse_style_value props name) top.
Proof.
  intros n name Sn. begin. unfold parse_style_value. pose proof p_free_value. go1; [go |]. go1. destruct a as [w |]; [go |]. go1; [go |]. cbv zeta.
  assert (Lk : exists o, (if tok_is (ctok name) K_Ident then look_up props q name else Some None) = Some o /\ forall m, o = Some m -> sensible m /\ wordy (kind_of name)).
  { destruct (tok_is (ctok name) K_Ident) eqn:TI; [| exists None; split; [reflexivity | discriminate]]. unfold look_up. rewrite (st_src _ _ _ _ _ _ _ Sq). destruct (lower_seen _ name Sn (tok_worded _ _ TI ltac:(constructor))) as (w & ->). eexists. split; [reflexivity |].
    intros m E. apply map_get_in in E. rewrite Forall_forall in props_ok. split; [exact (props_ok (w, m) E) | exact (tok_worded _ _ TI ltac:(constructor))]. }
  destruct Lk as (o & -> & Hm). pose proof (st_le _ _ _ _ cs 0 (0 + 0) q ltac:(lia) Sq) as S1. destruct o as [m |]; [| apply p_fallback; assumption]. destruct (Hm m eq_refl) as (Hm' & Wn). clear Hm. rename Hm' into Hm.
  destruct S1 as (u & cs' & Eu & _ & _ & S1 & _). destruct (Hm _ src f q cs' S1) as (r & q2 & used & rest & Em & Ec & S2). rewrite Em.
  assert (S3 : st cs 0 q2). { apply plain_st; [assumption | assumption |]. exists (u ++ used), rest. rewrite Eu, Ec, app_assoc. split; [reflexivity |]. split; [lia | exact S2]. }
  pose proof (p_fallback cs q q2 (st_le _ _ _ _ cs 0 (0 + 0) q ltac:(lia) Sq) S3) as Fb. destruct r as [l | e]; [| exact Fb]. destruct (p_value_ends _ _ _ S3) as ([] & ->); [| exact Fb]. go.
Qed.
Lemma p_property : forall n, goes n 2 (parse_property props) top.
Proof.
  intro n. unfold parse_property. eapply goes_imp; [eapply g_pmap_known; apply (p_declaration_t src f G H G_ok G_all H_all _ n _ _ top); [intros p cs c _ _; discriminate | intros i c Li Sc _; apply p_style_value; exact Sc] | lia | auto].
Qed.
Lemma p_feature : forall n k, goes n 1 (parse_feature k) top.
Proof.
  intros n k. destruct k; try (apply g_feature; [exact G_ok | exact Logic.I]). cbn [parse_feature]. unfold boolean_feature_t.
  eapply goes_imp; [eapply g_pmap_known; eapply (g_discrete src f G H G_ok _ n _ _ 0); intros i Li; begin; eapply do_goes; [st_ | apply p_any2; assumption | lia | auto] | lia | auto].
Qed.
Lemma p_hack : forall n, goes n 1 parse_hack top.
Proof. intro n. begin. unfold parse_hack. go1. go1. go1. go1. go1. eapply do_bind with (i := 0%nat) (Q1 := top); [st_ | begin; go | intros; go]. Qed.
Lemma p_media_feature : forall n, goes n 1 parse_media_feature top.
Proof.
  intro n. begin. unfold parse_media_feature. pose proof p_hack. assert (Nf : forall i x, goes i 1 (named_feature x) top) by (intros i x; unfold named_feature; eapply g_pmap_known; apply p_feature).
  go1. go1. go1. unfold match_media. go1.
  - gp.
  - cbv zeta. assert (Se : seen (if tok_is (ctok c0) K_Ident then c0 else c1)) by (destruct (tok_is (ctok c0) K_Ident); assumption). revert Se. generalize (if tok_is (ctok c0) K_Ident then c0 else c1). intros e Se. gp.
Qed.
Lemma p_media_condition : forall n, goes n 1 (condition_t parse_media_feature) top.
Proof. intro n. apply g_condition; [assumption |]. intros i _. apply p_media_feature. Qed.
Lemma w_media_type : whole peek_media_type.
Proof. intros p cs c S Sc. unfold peek_media_type. destruct (tok_is _ _) eqn:TI; [| discriminate]. destruct (look_seen _ _ _ (words NOT_MEDIA_TYPES) p cs c S Sc (tok_worded _ _ TI ltac:(constructor))) as (o & ->). discriminate. Qed.
Lemma p_take_media_type : forall n c, seen c -> goes n 0 (take_media_type c) top.
Proof.
  intros n c Sc. begin. unfold take_media_type. destruct (st_stands _ _ _ _ _ _ _ S0) as (cs' & S' & _). pose proof (w_media_type p cs' c S' Sc) as N. destruct (peek_media_type p c) as [[] |] eqn:Pm; [| go | congruence].
  assert (TI : tok_is (ctok c) K_Ident = true) by (unfold peek_media_type in Pm; destruct (tok_is (ctok c) K_Ident); [reflexivity | discriminate]).
  unfold build_media_type. destruct (look_seen _ _ _ (words MEDIA_TYPES) p cs' c S' Sc (tok_worded _ _ TI ltac:(constructor))) as (o & ->). cbn [option_map]. go.
Qed.
Lemma p_query_rest : forall n pre ty, goes n 0 (query_rest pre ty) top.
Proof.
  intros n pre ty. begin. unfold query_rest. pose proof p_media_condition. go1. destruct (tok_is (ctok c) K_Ident) eqn:TI; [| go]. go.
Qed.
Lemma p_media_query : forall n, goes n 1 parse_media_query top.
Proof.
  intro n. begin. unfold parse_media_query. pose proof p_media_condition. pose proof p_take_media_type. pose proof p_query_rest. go.
Qed.
Lemma p_media_queries : forall n, goes n 1 parse_media_queries top.
Proof. intro n. apply g_prelude_list; [exact G_ok |]. intros i _. apply p_media_query. Qed.
End Values.
