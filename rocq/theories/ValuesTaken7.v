(* Values without functions that are values of a definition are accepted: from the tokens of a text. *)
From Coq Require Import ZifyBool ZifyNat ZifyN Permutation.
From Coq Require Import String.
From Coq Require Import List.
From Verif Require DimProofs.
From Verif Require Import AstSheet Values SpecSheet SpecLex SpecTrace SpecParser SpecSyntax SpecTraits SpecRules SpecFeatures SpecCursor SpecToken LexBase TokenProofs KindProofs LexFacts LexTrace CursorProofs CursorLex CursorFacts
  ParserProofs ParserProofs2 ParserProofs3 ParserProofs4 CompareProofs SyntaxProofs SyntaxTotal TraitsTotal RulesTotal FeatureProofs FaithProofs FaithTraits FaithRules Goes Goes2 Goes3 SheetTotal ValuesTotal Tells ValuesTold SpecSelectors SpecSelectorText SelectorProofs3 SelectorProofs9 SelectorGoes SpecConforms SpecAccepts ValuesConform ValuesConform2 ValuesConform3 ValuesTaken ValuesTaken2 ValuesTaken3 ValuesTaken4 ValuesTaken5 ValuesTaken6.
From Verif Require Import PropValues PropValues3.
Open Scope N_scope.
Open Scope list_scope.
Notation length := List.length.

Lemma ahead_lasting : forall x cs, ahead x cs -> Forall (fun c => kind_of c <> K_Eof) cs.
Proof. intros x cs A. induction A; [apply Forall_nil |]. apply Forall_cons; [assumption | assumption]. Qed.
Lemma bare_app : forall a b, bare (a ++ b) = bare a ++ bare b.
Proof. intros. apply filter_app. Qed.
Lemma bare_trivia : forall c, kind_of c <> K_Eof -> trivia_token c -> bare [c] = [].
Proof. intros c N [K | K]; unfold bare; cbn [filter]; rewrite (tok_kind _ c K) by (rewrite ?K; discriminate); [reflexivity | rewrite orb_true_r; reflexivity]. Qed.
Lemma bare_solid : forall c, kind_of c <> K_Eof -> ~ trivia_token c -> bare [c] = [c].
Proof. intros c N T. apply bare_one. split; [exact N |]. split; intro K; apply T; [left | right]; exact K. Qed.
Definition is_trivia_tok (c : cursor) : bool := kind_eqb (kind_of c) K_Whitespace || kind_eqb (kind_of c) K_Comment.
Lemma is_trivia_spec : forall c, is_trivia_tok c = true <-> trivia_token c.
Proof. intro c. unfold is_trivia_tok, trivia_token. rewrite orb_true_iff, !kind_eqb_eq. reflexivity. Qed.
Lemma lay : forall u, Forall (fun c => kind_of c <> K_Eof) u -> trimmed u -> exists gs, u = laid gs /\ toks gs = bare u /\ Forall (fun x => gap (fst x) /\ lasts (snd x)) gs.
Proof.
  assert (X : forall n u, (length u <= n)%nat -> Forall (fun c => kind_of c <> K_Eof) u -> trimmed u -> forall g, gap g -> Forall (fun c => kind_of c <> K_Eof) g -> u <> [] -> exists gs, g ++ u = laid gs /\ toks gs = bare u /\ Forall (fun x => gap (fst x) /\ lasts (snd x)) gs).
  { intro n. induction n as [| n IH]; intros u L F T g G Fg N; [destruct u; [contradiction | cbn [length] in L; lia] |]. destruct u as [| c u]; [contradiction |]. inversion F as [| ? ? Kc F']; subst. change (c :: u) with ([c] ++ u). rewrite bare_app.
    assert (T' : trimmed u) by (intros v d E; apply (T (c :: v) d); rewrite E; reflexivity). destruct (is_trivia_tok c) eqn:Tc.
    - apply is_trivia_spec in Tc. rewrite (bare_trivia c Kc Tc). assert (Nu : u <> []) by (intros ->; exact (T [] c eq_refl Tc)). destruct (IH u ltac:(cbn [length] in L; lia) F' T' (g ++ [c])) as (gs & E & Et & Fs); [apply Forall_app; split; [exact G | apply Forall_cons; [exact Tc | apply Forall_nil]] | apply Forall_app; split; [exact Fg | apply Forall_cons; [exact Kc | apply Forall_nil]] | exact Nu |].
      exists gs. rewrite app_assoc. auto.
    - assert (Sc : ~ trivia_token c) by (intro X; apply is_trivia_spec in X; congruence). rewrite (bare_solid c Kc Sc). assert (Lc : lasts c) by (split; [exact Kc |]; split; intro K; apply Sc; [left | right]; exact K).
      destruct u as [| d u].
      + exists [(g, c)]. unfold laid, toks. cbn [flat_map map fst snd bare filter app]. rewrite app_nil_r. split; [reflexivity |]. split; [reflexivity |]. apply Forall_cons; [split; assumption | apply Forall_nil].
      + destruct (IH (d :: u) ltac:(cbn [length] in *; lia) F' T' [] (Forall_nil _) (Forall_nil _) ltac:(discriminate)) as (gs & E & Et & Fs). exists ((g, c) :: gs). unfold laid, toks in *. cbn [flat_map map fst snd app] in *. rewrite <- E, Et. split; [rewrite <- app_assoc; reflexivity |]. split; [reflexivity |]. apply Forall_cons; [split; assumption | exact Fs]. }
  intros u F T. destruct u as [| c u]; [exists []; split; [reflexivity |]; split; [reflexivity | apply Forall_nil] |]. exact (X (length (c :: u)) (c :: u) (le_n _) F T [] (Forall_nil _) (Forall_nil _) ltac:(discriminate)).
Qed.
Lemma all_clear : forallb (fun r => match property_name (chars (fst r)), parse_def (chars (snd r)) with Some n, Some d => Bool.eqb (reached n) (clear_of (sg_at 4) d) | _, _ => true end) VALUE_TABLE = true.
Proof. vm_compute. reflexivity. Qed.
Definition names_of : list text := flat_map (fun r => match property_name (chars (fst r)) with Some n => [n] | None => [] end) VALUE_TABLE.
Lemma names_once : NoDup names_of.
Proof. apply distinct_spec. vm_compute. reflexivity. Qed.
Lemma one_definition : forall name r r', In r VALUE_TABLE -> In r' VALUE_TABLE -> property_name (chars (fst r)) = Some name -> property_name (chars (fst r')) = Some name -> r = r'.
Proof.
  pose proof names_once as U. unfold names_of in U. induction VALUE_TABLE as [| x l IH]; intros name r r' I I' E E'; [destruct I |]. cbn [flat_map] in U.
  assert (Y : forall z, In z l -> property_name (chars (fst z)) = Some name -> In name (flat_map (fun r => match property_name (chars (fst r)) with Some n => [n] | None => [] end) l)) by (intros z Iz Ez; apply in_flat_map; exists z; split; [exact Iz | rewrite Ez; left; reflexivity]).
  assert (U2 : NoDup (flat_map (fun r => match property_name (chars (fst r)) with Some n => [n] | None => [] end) l)) by (destruct (property_name (chars (fst x))); [cbn [app] in U; inversion U; assumption | exact U]).
  destruct I as [<- | I], I' as [<- | I']; [reflexivity | | | exact (IH U2 name r r' I I' E E')].
  - exfalso. rewrite E in U. cbn [app] in U. inversion U as [| ? ? Nn _]. exact (Nn (Y _ I' E')).
  - exfalso. rewrite E' in U. cbn [app] in U. inversion U as [| ? ? Nn _]. exact (Nn (Y _ I E)).
Qed.
Lemma value_taken {mod_ : mode} : forall name value_p s d src f, In (name, value_p) VALUES -> reached name = true -> defines name s -> css_def s = Some d -> taking src f d value_p.
Proof.
  intros name value_p s d src f I R (r' & Ir' & En' & ->) C. destruct (property_value name value_p I) as (r & d' & t & Ir & En & Pd & Cd & G & -> & _). assert (r = r') by exact (one_definition name r r' Ir Ir' En En'). subst r'. rewrite Cd in C. apply some_inj in C. subst d'.
  pose proof all_clear as X. rewrite forallb_forall in X. specialize (X r Ir). cbv beta in X. rewrite En, Pd, R in X. apply Bool.eqb_prop in X. symmetry in X.
  exact (generated_taking src f (value_ty 4) (sg_at 4) (value_single src f 4) (value_fonly src 4) (value_whole src f 4) d t X G).
Qed.
