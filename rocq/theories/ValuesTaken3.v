(* Values without functions that are values of a definition are accepted: colours, images, and the names of types of one token. *)
From Coq Require Import ZifyBool ZifyNat ZifyN Permutation.
From Coq Require Import String.
From Coq Require Import List.
From Verif Require DimProofs.
From Verif Require Import AstSheet Values SpecSheet SpecLex SpecTrace SpecParser SpecSyntax SpecTraits SpecRules SpecFeatures SpecCursor SpecToken LexBase TokenProofs KindProofs LexFacts LexTrace CursorProofs CursorLex
  ParserProofs ParserProofs2 ParserProofs3 ParserProofs4 CompareProofs SyntaxProofs SyntaxTotal TraitsTotal RulesTotal FeatureProofs FaithProofs FaithTraits FaithRules Goes Goes2 Goes3 SheetTotal ValuesTotal Tells ValuesTold SpecSelectors SpecSelectorText SelectorProofs3 SelectorProofs9 SelectorGoes SpecConforms ValuesConform ValuesConform2 ValuesConform3 ValuesTaken ValuesTaken2.
Open Scope N_scope.
Open Scope list_scope.
Notation length := List.length.

Section Singles.
Variable src : text.
Context {mod_ : mode}.
Variable f : feature.
Notation stands := (stands src f).
Notation seen := (seen src).
Notation whole := (whole src f).
Notation good := (good src f).
Notation conforms := (conforms src true).
Notation here := (here src f).
Notation hits := (hits src f).
Notation quiet := (quiet src f).
Notation eats := (eats src f).
Notation plainly := (plainly src).
Notation single := (single src f).
Notation fonly := (fonly src).
Notation tok := (tok src).

Lemma here_peek_one : forall p g c rest, here p (g ++ c :: rest) -> gap g -> lasts c -> peek_n p 1 = Some c.
Proof.
  intros p g c rest Hh G L. destruct (here_next src f p g c rest Hh G L) as (q & _ & Pn & _). destruct Hh as ((S1 & S2 & A & _ & T) & _). destruct (peek_n_total p _ 1 ltac:(lia) A) as (d & Ed). pose proof (onto_peek_one src f p _ d (conj S1 (conj S2 (conj A T))) Ed) as X. rewrite Pn in X. injection X as <-. exact Ed.
Qed.
Lemma words_lower : forall l, forallb (fun w => text_eqb (lower_text w) w) l = true -> Forall (fun w => lower_text w = w) l.
Proof. intros l E. rewrite forallb_forall in E. apply Forall_forall. intros w I. apply text_eqb_spec. exact (E w I). Qed.
Lemma peeked_word : forall l p cs c, stands p cs -> lasts c -> peek_words l p c = Some true -> exists w, In w l /\ word_of src K_Ident w c.
Proof. intros l p cs c (S1 & _) (L & _) E. exact (means_words src K_Ident l p c S1 L E). Qed.
Lemma eats_color_ident : eats (fun c => exists w, In w COLOR_WORDS /\ word_of src K_Ident w c) parse_color_ident.
Proof.
  intros p g c rest Hh G L Pc (w & I & W). unfold parse_color_ident. rewrite (here_peek_one p g c rest Hh G L). pose proof (words_lower _ color_words_lower) as Fl.
  assert (Fa : forall l, incl l COLOR_WORDS -> Forall (fun w => lower_text w = w) l) by (intros l Il; apply Forall_forall; intros x Ix; rewrite Forall_forall in Fl; exact (Fl x (Il x Ix))).
  assert (F1 : Forall (fun w => lower_text w = w) COLOR_KEYWORDS) by (apply Fa; unfold COLOR_WORDS; apply incl_appl, incl_refl). assert (F2 : Forall (fun w => lower_text w = w) NAMED_COLORS) by (apply Fa; unfold COLOR_WORDS; apply incl_appr, incl_appl, incl_refl).
  assert (F3 : Forall (fun w => lower_text w = w) SYSTEM_COLORS) by (apply Fa; unfold COLOR_WORDS; apply incl_appr, incl_appr, incl_refl). clear Fa Fl.
  destruct (here_next src f p g c rest Hh G L) as (q & N & Pn & Hq & Sc). pose proof (proj1 Hh) as S.
  assert (Pk : forall l, exists b, peek_words l p c = Some b) by (intro l; pose proof (proj1 (solo_words src f l) p _ c S Sc) as X; destruct (peek_words l p c) as [b |]; [eauto | contradiction]).
  unfold bind. unfold parse_if_peek, peek at 1. rewrite Pn. destruct (Pk COLOR_KEYWORDS) as (b & Eb). rewrite Eb. destruct b.
  - destruct (eats_words src f COLOR_KEYWORDS F1 p g c rest Hh G L Pc (peeked_word _ p _ c S L Eb)) as (q' & E & Hq'). exists q'. unfold pmap at 1, bind. rewrite E. split; [reflexivity | exact Hq'].
  - unfold or_peek, peek. rewrite Pn. destruct (Pk NAMED_COLORS) as (b2 & Eb2). rewrite Eb2. destruct b2; [exact (eats_words src f NAMED_COLORS F2 p g c rest Hh G L Pc (peeked_word _ p _ c S L Eb2)) |].
    apply (eats_words src f SYSTEM_COLORS F3 p g c rest Hh G L Pc). exists w. split; [| exact W]. unfold COLOR_WORDS in I. apply in_app_or in I. destruct I as [I | I]; [unfold peek_words in Eb; rewrite (hits_words src f K_Ident _ F1 p _ c S Sc L Pc (ex_intro _ w (conj I W))) in Eb; discriminate |].
    apply in_app_or in I. destruct I as [I | I]; [unfold peek_words in Eb2; rewrite (hits_words src f K_Ident _ F2 p _ c S Sc L Pc (ex_intro _ w (conj I W))) in Eb2; discriminate | exact I].
Qed.
Definition color_token (c : cursor) : Prop := kind_of c = K_Hash \/ exists w, In w COLOR_WORDS /\ word_of src K_Ident w c.
Lemma eats_color : eats color_token parse_color.
Proof.
  intros p g c rest Hh G L Pc T. destruct (here_next src f p g c rest Hh G L) as (q & N & Pn & Hq & Sc). unfold parse_color, or_peek at 1, peek. rewrite Pn. unfold peek_kind at 1. destruct T as [K | T].
  - rewrite (tok_kind K_Hash c K) by discriminate. exact (eats_one src f _ _ (hits_kind src f K_Hash) p g c rest Hh G L Pc K).
  - assert (K : kind_of c = K_Ident) by (destruct T as (w & _ & W); apply W). rewrite (tok_not K_Hash c) by (rewrite K; discriminate). unfold or_peek at 1, peek. rewrite Pn. unfold peek_kind at 1. rewrite (tok_kind K_Ident c K) by discriminate. exact (eats_color_ident p g c rest Hh G L Pc T).
Qed.
Lemma color_one : forall cs, conforms (DType DColor) cs -> free cs -> exists c, cs = [c] /\ color_token c.
Proof.
  intros cs C F. destruct (inv_type src _ _ C) as [(c & _ & [] & _) | (name & d & En & Ed & Cd)]. cbn [type_name] in En. apply some_inj in En. subst name.
  assert (X : exists l, d = alt (ty_ "HashToken" :: kws COLOR_KEYWORDS :: kws NAMED_COLORS :: kws SYSTEM_COLORS :: l) /\ forall x, In x l -> exists w y, x = DFunction w y).
  { assert (Y : map_get DESCRIPTIONS (chars "Color") = map_get (map (fun x => (fst x, Some (snd x))) HAND_WRITTEN) (chars "Color")) by (vm_compute; reflexivity). rewrite Y in Ed. clear Y. unfold HAND_WRITTEN in Ed. cbn [map fst snd] in Ed.
    repeat (cbn [map_get] in Ed; match type of Ed with (if text_eqb (chars ?a) (chars ?b) then _ else _) = _ => let v := eval vm_compute in (text_eqb (chars a) (chars b)) in change (text_eqb (chars a) (chars b)) with v in Ed; cbv iota in Ed end). apply some_inj, some_inj in Ed. subst d.
    eexists. split; [reflexivity |]. intros x I. repeat (destruct I as [<- | I]; [unfold fn; eauto |]). destruct I. }
  destruct X as (l & -> & Fn). destruct (inv_alt src _ _ Cd) as (d & I & Cx). clear C Cd Ed.
  destruct I as [<- | [<- | [<- | [<- | I]]]].
  - destruct (special_token src (chars "HashToken") ltac:(vm_compute; reflexivity) _ Cx) as (c & -> & T). exists c. split; [reflexivity |]. left. cbn [token_of] in T. destruct T as [(_ & T) | T]; [exact T |]. repeat (destruct T as [(X & _) | T]; [vm_compute in X; discriminate X |]). destruct T as (X & _). vm_compute in X. discriminate X.
  - destruct (kws_one src _ _ Cx) as (c & -> & w & I & W). exists c. split; [reflexivity |]. right. exists w. split; [unfold COLOR_WORDS; apply in_or_app; auto | exact W].
  - destruct (kws_one src _ _ Cx) as (c & -> & w & I & W). exists c. split; [reflexivity |]. right. exists w. split; [unfold COLOR_WORDS; apply in_or_app; right; apply in_or_app; auto | exact W].
  - destruct (kws_one src _ _ Cx) as (c & -> & w & I & W). exists c. split; [reflexivity |]. right. exists w. split; [unfold COLOR_WORDS; apply in_or_app; right; apply in_or_app; auto | exact W].
  - destruct (Fn d I) as (w & y & ->). elim (head_function src _ _ (inv_fn src _ _ _ Cx) F Cx).
Qed.
Lemma single_color : single (DType DColor) peek_color parse_color.
Proof.
  assert (Y : forall c, tok (DType DColor) c -> color_token c) by (intros c (C & K); destruct (color_one _ C ltac:(apply Forall_cons; [exact K | apply Forall_nil])) as (c0 & E & T); injection E as <-; exact T).
  split; [intros cs C F; destruct (color_one cs C F) as (c & -> & _); eauto |]. split; [eapply eats_imp; [exact eats_color | exact Y] |]. split; [| exact (quiet_leaf src f DColor ltac:(discriminate))].
  intros p cs c S Sc L Pc T. unfold peek_color. cbn [any_peek]. unfold peek_kind. destruct (Y c T) as [K | (w & _ & K & _)].
  - rewrite (tok_kind K_Hash c K) by discriminate. reflexivity.
  - destruct (tok_is _ K_Hash); [reflexivity |]. destruct (tok_is _ K_Function); [reflexivity |]. rewrite (tok_kind K_Ident c K) by discriminate. reflexivity.
Qed.
Lemma image_one : forall cs, conforms (DType DImage) cs -> free cs -> exists c, cs = [c] /\ kind_of c = K_Url.
Proof.
  intros cs C F. destruct (inv_type src _ _ C) as [(c & _ & [] & _) | (name & d & En & Ed & Cd)]. cbn [type_name] in En. apply some_inj in En. subst name.
  assert (X : exists l, d = alt (ty_ "UrlToken" :: l) /\ forall x, In x l -> exists w y, x = DFunction w y).
  { assert (Y : map_get DESCRIPTIONS (chars "Image") = map_get (map (fun x => (fst x, Some (snd x))) HAND_WRITTEN) (chars "Image")) by (vm_compute; reflexivity). rewrite Y in Ed. clear Y. unfold HAND_WRITTEN in Ed. cbn [map fst snd] in Ed.
    repeat (cbn [map_get] in Ed; match type of Ed with (if text_eqb (chars ?a) (chars ?b) then _ else _) = _ => let v := eval vm_compute in (text_eqb (chars a) (chars b)) in change (text_eqb (chars a) (chars b)) with v in Ed; cbv iota in Ed end). apply some_inj, some_inj in Ed. subst d.
    eexists. split; [reflexivity |]. intros x I. repeat (destruct I as [<- | I]; [unfold fn; eauto |]). destruct I. }
  destruct X as (l & -> & Fn). destruct (inv_alt src _ _ Cd) as (d & I & Cx). clear C Cd Ed. destruct I as [<- | I]; [| destruct (Fn d I) as (w & y & ->); elim (head_function src _ _ (inv_fn src _ _ _ Cx) F Cx)].
  destruct (special_token src (chars "UrlToken") ltac:(vm_compute; reflexivity) _ Cx) as (c & -> & T). exists c. split; [reflexivity |]. cbn [token_of] in T. do 3 (destruct T as [(X & _) | T]; [vm_compute in X; discriminate X |]). destruct T as [(_ & T) | T]; [exact T |]. repeat (destruct T as [(X & _) | T]; [vm_compute in X; discriminate X |]). destruct T as (X & _). vm_compute in X. discriminate X.
Qed.
Lemma single_image : single (DType DImage) (ty_peek IMAGE) parse_image.
Proof.
  assert (Y : forall c, tok (DType DImage) c -> kind_of c = K_Url) by (intros c (C & K); destruct (image_one _ C ltac:(apply Forall_cons; [exact K | apply Forall_nil])) as (c0 & E & T); injection E as <-; exact T).
  split; [intros cs C F; destruct (image_one cs C F) as (c & -> & _); eauto |]. split; [| split; [| exact (quiet_leaf src f DImage ltac:(discriminate))]].
  - intros p g c rest Hh G L Pc T. destruct (here_next src f p g c rest Hh G L) as (q & N & Pn & Hq & Sc). unfold parse_image, or_peek at 1, peek. rewrite Pn. unfold peek_kind at 1. rewrite (tok_kind K_Url c (Y c T)) by discriminate. exact (eats_one src f _ _ (hits_kind src f K_Url) p g c rest Hh G L Pc (Y c T)).
  - intros p cs c S Sc L Pc T. cbn [ty_peek IMAGE any_peek]. unfold peek_kind. rewrite (tok_kind K_Url c (Y c T)) by discriminate. reflexivity.
Qed.
(* types that are functions *)
Lemma fonly_named : forall t w d', (exists name, type_name t = Some name /\ map_get DESCRIPTIONS name = Some (Some (DFunction w d'))) -> (forall c, ~ token_of src t c) -> forall cs, conforms (DType t) cs -> ~ free cs.
Proof.
  intros t w d' (name & En & Ed) Nt cs C F. destruct (inv_type src _ _ C) as [(c & _ & T & _) | (name' & d & En' & Ed' & Cd)]; [exact (Nt c T) |]. rewrite En in En'. injection En' as <-. rewrite Ed in Ed'. apply some_inj, some_inj in Ed'. subst d. exact (head_function src _ _ (inv_fn src _ _ _ Cd) F Cd).
Qed.
End Singles.
