(* The values that hdx's properties accept are values of their definitions. *)
From Coq Require Import ZifyBool ZifyNat ZifyN Permutation.
From Coq Require Import String.
From Coq Require Import List.
From Verif Require Import AstSheet Values SpecSheet SpecLex SpecTrace SpecParser SpecSyntax SpecTraits SpecRules SpecFeatures SpecCursor SpecToken LexBase TokenProofs KindProofs LexFacts LexTrace CursorProofs CursorLex CompareProofs SyntaxProofs SyntaxTotal TraitsTotal RulesTotal
  ParserProofs ParserProofs2 ParserProofs3 ParserProofs4 FeatureProofs FaithProofs FaithTraits FaithRules Goes Goes2 Goes3 SheetTotal ValuesTotal Tells Tells2 Tells3 ValuesTold SpecConforms ValuesConform ValuesConform2.
Open Scope N_scope.
Open Scope list_scope.
Notation length := List.length.

Fixpoint enforced_at (n : nat) (name : text) : bool :=
  match map_get NAMED_TYPES name with
  | Some _ => true
  | None => match n with O => true | S n => match map_get VALUE_DEFS name with Some (Some d) => enforced_def (enforced_at n) d | _ => true end end
  end.
Lemma same_readings : map (fun r => css_def (chars (snd r))) VALUE_TABLE = map (fun r => parse_def (chars (snd r))) VALUE_TABLE.
Proof. vm_compute. reflexivity. Qed.
Lemma all_plain : forallb (fun r => match parse_def (chars (snd r)) with Some d => plain_def d | None => true end) VALUE_TABLE = true.
Proof. vm_compute. reflexivity. Qed.
Lemma all_marked : forallb (fun r => match property_name (chars (fst r)) with Some n => Bool.eqb (enforced n) (enforced_at 5 (chars (fst r))) | None => true end) VALUE_TABLE = true.
Proof. vm_compute. reflexivity. Qed.
Lemma maps_agree : forall A B (f g : A -> B) l x, map f l = map g l -> In x l -> f x = g x.
Proof. intros A B f g l x. induction l as [| y l IH]; intros E I; [destruct I |]; cbn [map] in E; injection E as E1 E2; destruct I as [-> | I]; auto. Qed.
Lemma in_defs : forall name d, map_get VALUE_DEFS name = Some (Some d) -> exists w s, In (w, s) VALUE_TABLE /\ name = chars w /\ css_def (chars s) = Some d /\ parse_def (chars s) = Some d.
Proof.
  intros name d E. apply map_get_in in E. unfold VALUE_DEFS in E. apply in_map_iff in E. destruct E as ((w & s) & E & I). cbn [fst snd] in E. pose proof (f_equal fst E) as E1. pose proof (f_equal snd E) as E2. cbn [fst snd] in E1, E2.
  pose proof (maps_agree _ _ _ _ _ _ same_readings I) as X. cbn [snd] in X. exists w, s. split; [exact I |]. split; [symmetry; exact E1 |]. split; [rewrite X |]; exact E2.
Qed.
Lemma plain_row : forall r d, In r VALUE_TABLE -> parse_def (chars (snd r)) = Some d -> plain_def d = true.
Proof. intros r d I E. pose proof all_plain as X. rewrite forallb_forall in X. specialize (X r I). cbv beta in X. rewrite E in X. exact X. Qed.

Section Table.
Variable src : text.
Variable f : feature.
Variable strict : bool.
Lemma row_conforms : forall n, (forall w x, value_ty n w = Some x -> (strict = true -> enforced_at n w = true) -> rd src f strict (DType (DCustom w)) (ty_parse x)) ->
  forall r d t, In r VALUE_TABLE -> parse_def (chars (snd r)) = Some d -> generate leaf_ty (value_ty n) d = Some t -> (strict = true -> enforced_def (enforced_at n) d = true) -> rd src f strict d (ty_parse t).
Proof. intros n IH r d t I E G F. exact (generate_conforms src f strict (value_ty n) (enforced_at n) IH d t G (plain_row r d I E) F). Qed.
Lemma value_conforms : forall n name t, value_ty n name = Some t -> (strict = true -> enforced_at n name = true) -> rd src f strict (DType (DCustom name)) (ty_parse t).
Proof.
  intro n. induction n as [| n IH]; intros name t E F; cbn [value_ty] in E; cbn [enforced_at] in F; destruct (map_get NAMED_TYPES name) as [x |] eqn:En.
  - apply some_inj in E. subst x. pose proof (named_types_conform src f strict) as X. rewrite Forall_forall in X. exact (X _ (map_get_in _ _ _ _ En)).
  - discriminate.
  - apply some_inj in E. subst x. pose proof (named_types_conform src f strict) as X. rewrite Forall_forall in X. exact (X _ (map_get_in _ _ _ _ En)).
  - destruct (map_get VALUE_DEFS name) as [[d |] |] eqn:Ed; try discriminate. destruct (in_defs name d Ed) as (w & s & I & -> & C & Pd).
    eapply tells_imp; [exact (row_conforms n IH (w, s) d t I Pd E F) |]. intros l u K. cbv beta in K. apply (of_type src strict (DCustom (chars w)) (chars w) d); [reflexivity | right; exists w, s; auto | exact K].
Qed.
End Table.
