(* The logic of Goes.v: media features, their numbers, condition lists. *)
From Coq Require Import ZifyBool ZifyNat ZifyN.
From Coq Require Import List.
From Verif Require Import AstSheet SpecSheet SpecLex SpecTrace SpecParser SpecSyntax SpecTraits SpecFeatures SpecCursor SpecToken LexBase TokenProofs KindProofs LexFacts LexTrace CursorProofs CursorLex
  ParserProofs ParserProofs2 ParserProofs3 ParserProofs4 CompareProofs SyntaxProofs SyntaxTotal TraitsTotal RulesTotal FeatureProofs Goes Goes2.
Open Scope N_scope.
Open Scope list_scope.
#[export] Hint Resolve g_comparison : goes.

Section Fuel.
Variable src : text.
Context {mod_ : mode}.
Variable f : feature.
Variable G : cursor -> Prop.
Variable H : cursor -> Prop.
Notation goes := (goes src f G H).
Notation st := (st src f G H).
Notation rv := (rv src f G H).
Lemma st_len : forall cs j q, st cs j q -> (j <= length cs)%nat.
Proof. intros cs j q (u & c & -> & L & _). rewrite app_length. lia. Qed.
Lemma do_fuel : forall A cs0 k j p i (F : nat -> P A) (Q R : A -> Prop), st cs0 j p -> (forall n m, (n <= length cs0 - j)%nat -> (2 * n + 2 <= m)%nat -> goes n i (F m) Q) ->
  (k <= j + i)%nat -> (forall a, Q a -> R a) -> rv cs0 k R (F (sfuel p) p).
Proof.
  intros A cs0 k j p i F Q R S X K I. pose proof S as (u & cs & E & L & Fu & Sp & Z). pose proof (sfuel_enough p cs (stands_ahead _ _ _ _ Sp)) as Y.
  pose proof (X (length cs) (sfuel p) ltac:(rewrite E, app_length; lia) Y) as W. destruct (W p cs Sp Z (le_n _)) as (r & q & Er & V). exists r, q. split; [exact Er |]. destruct r as [a | e].
  - destruct V as ((u2 & c2 & E2 & L2 & F2 & S2 & Z2) & Qa). split; [| exact (I a Qa)]. exists (u ++ u2), c2. rewrite E, E2, <- app_assoc, app_length. split; [reflexivity |]. split; [lia |]. split; [apply Forall_app; auto | auto].
  - destruct V as (u2 & c2 & E2 & L2 & S2). exists (u ++ u2), c2. rewrite E, E2, <- app_assoc. split; [reflexivity |]. split; [lia | exact S2].
Qed.
Lemma goes_fuel : forall A n k (F : nat -> P A) Q, (forall i m, (i <= n)%nat -> (2 * i + 2 <= m)%nat -> goes i k (F m) Q) -> goes n k (fun p => F (sfuel p) p) Q.
Proof. intros A n k F Q X. apply goes_start. intros p cs S L. eapply (do_fuel _ _ _ _ _ k F Q); [exact S | | lia | auto]. intros i m I M. apply X; lia. Qed.
End Fuel.

Section Numbers.
Variable src : text.
Context {mod_ : mode}.
Variable f : feature.
Variable G : cursor -> Prop.
Variable H : cursor -> Prop.
Hypothesis G_ok : forall c, kind_of c <> K_LeftCurly -> G c.
Notation goes := (goes src f G H).
Notation seen := (seen src).
Lemma a_kind_is : forall c k, tok_is (ctok c) k = true -> ctok c = T_EOF \/ kind_of c <> K_Eof -> k <> K_Eof -> k <> K_LeftCurly -> kind_of c <> K_Eof /\ G c.
Proof. intros c k T E K N. destruct (tok_is_not_eof c k T E K) as (A & B). split; [exact B |]. apply G_ok. congruence. Qed.
Lemma a_length : allowed src G peek_length.
Proof.
  intros p c Sc E X. unfold peek_length in E. destruct (tok_is (ctok c) K_Number && f32_is_zero (tvalue (ctok c))) eqn:B.
  - apply andb_true_iff in B. destruct B as (B & _). apply (a_kind_is c K_Number B X); discriminate.
  - revert p c Sc E X B. assert (Y : allowed src G (any_peek (map (fun u => peek_dimension u (unit_str u)) LENGTH_UNITS))).
    { apply allowed_any. apply Forall_forall. intros k Ik. apply in_map_iff in Ik. destruct Ik as (u & <- & _). apply allowed_dimension. intros c K. apply G_ok. congruence. }
    intros p c Sc E X _. exact (Y p c Sc E X).
Qed.
Lemma a_int : allowed src G peek_int.
Proof. intros p c Sc E X. unfold peek_int in E. apply some_inj in E. apply andb_true_iff in E. apply (a_kind_is c K_Number (proj1 E) X); discriminate. Qed.
Lemma a_float : allowed src G peek_float.
Proof. intros p c Sc E X. unfold peek_float in E. apply some_inj in E. apply andb_true_iff in E. apply (a_kind_is c K_Number (proj1 E) X); discriminate. Qed.
Lemma a_dimension : forall u w, allowed src G (peek_dimension u w).
Proof. intros u w. apply allowed_dimension. intros c K. apply G_ok. congruence. Qed.
Lemma g_single : forall A n (k : peeker) (b : cursor -> A), whole src f k -> allowed src G k -> goes n 1 (parse_single k b) (fun a => exists c, a = b c /\ seen c /\ kind_of c <> K_Eof).
Proof. intros A n k b W Al. eapply goes_imp; [apply (goes_single _ _ _ _ (G_triv _ G_ok) _ n k b W Al) | lia |]. intros a (c & p & E & Sc & K & _). eauto. Qed.
End Numbers.
#[export] Hint Resolve a_length a_int a_float a_dimension g_single : goes.

Section Features.
Variable src : text.
Context {mod_ : mode}.
Variable f : feature.
Variable G : cursor -> Prop.
Variable H : cursor -> Prop.
Hypothesis G_ok : forall c, kind_of c <> K_LeftCurly -> G c.
Notation goes := (goes src f G H).
Notation st := (st src f G H).
Notation rv := (rv src f G H).
Lemma g_ratio : forall n, goes n 1 parse_ratio (fun _ => True).
Proof. intro n. begin. unfold parse_ratio. go. Qed.
Lemma g_number_type : forall n ty, goes n 1 (parse_number_type ty) (fun _ => True).
Proof. intros n ty. begin. destruct ty; cbn [parse_number_type]; [go | go | go |]. eapply do_goes; [st_ | apply g_ratio; assumption | lia | auto]. Qed.
Lemma g_discrete : forall V n name (value_p : P V) k, (forall i, (i < n)%nat -> goes i k value_p (fun _ => True)) -> goes n 3 (discrete_feature_t name value_p) (fun _ => True).
Proof.
  intros V n name value_p k Hv. begin. unfold discrete_feature_t. go. eapply do_bind; [st_ | apply Hv; pose proof (st_len _ _ _ _ _ _ _ Sq2); lia |]. intros a4 q4 _ Sq4. go.
Qed.
Lemma g_ranged : forall F V n peek_name (name_p : P F) legacy (value_p : P V) QF, whole src f peek_name -> (forall i, goes i 1 name_p QF) -> (forall i, goes i 1 value_p (fun _ => True)) ->
  goes n 3 (ranged_feature_t peek_name name_p legacy value_p) (fun _ => True).
Proof.
  intros F V n peek_name name_p legacy value_p QF W Hn Hv. begin. unfold ranged_feature_t.
  go1. go1. eapply do_bind; [st_ | apply (goes_if src f G H G_ok _ _ 1 _ _ QF W); apply Hn |]. intros o q1 _ S1. destruct o as [name |].
  - go1; [| destruct (legacy name)]; repeat first [go1 | eapply do_bind; [st_ | apply Hv | let a := fresh in intros a ? _ ?]].
  - repeat first [go1 | eapply do_bind; [st_ | first [apply Hv | apply Hn] | let a := fresh in intros a ? _ ?]].
Qed.
End Features.

Section Conditions.
Variable src : text.
Context {mod_ : mode}.
Variable f : feature.
Variable G : cursor -> Prop.
Variable H : cursor -> Prop.
Hypothesis G_ok : forall c, kind_of c <> K_LeftCurly -> G c.
Notation goes := (goes src f G H).
Notation st := (st src f G H).
Notation rv := (rv src f G H).
Lemma g_condition_loop : forall F (m : P F) N (Hm : forall n, (n <= N)%nat -> goes n 1 m (fun _ => True)) i n x kw, (n <= N)%nat -> (n < i)%nat -> goes n 1 (condition_loop m i x kw) (fun _ => True).
Proof.
  intros F m N Hm i. induction i as [| i IH]; intros n x kw L I; [lia |]. cbn [condition_loop]. begin. eapply do_bind; [st_ | apply Hm; lia |]. intros a q _ Sq. pose proof (st_len _ _ _ _ _ _ _ Sq) as Ln.
  go. all: eapply do_goes; [st_ | apply IH; lia | lia | auto].
Qed.
Lemma g_condition : forall F (m : P F) N, (forall n, (n <= N)%nat -> goes n 1 m (fun _ => True)) -> goes N 1 (condition_t m) (fun _ => True).
Proof.
  intros F m N Hm. begin. unfold condition_t. go1. go1. go1. destruct v. 1, 3: go. 1: go1; eapply do_goes; [st_ | apply Hm; lia | lia | auto].
  eapply do_bind; [st_ | apply Hm; lia |]. intros a q _ Sq. go1. destruct a0 as [[[] c2] |]; [| | | go].
  2: go1; eapply do_goes; [st_ | apply Hm; lia | lia | auto].
  all: cbv beta; apply rv_pmap; eapply (do_fuel src f G H _ _ _ _ _ 1 (fun n => condition_loop m n a _)); [st_ | intros n i L I; apply (g_condition_loop _ m N Hm i n); lia | lia | auto].
Qed.
Lemma g_prelude_loop : forall A (m : P A) stop N (Hm : forall n, (n <= N)%nat -> goes n 1 m (fun _ => True)) i n, (n <= N)%nat -> (n < i)%nat -> goes n 1 (prelude_loop stop m i) (fun _ => True).
Proof.
  intros A m stop N Hm i. induction i as [| i IH]; intros n L I; [lia |]. cbn [prelude_loop]. begin. eapply do_bind; [st_ | apply Hm; lia |]. intros a q _ Sq. pose proof (st_len _ _ _ _ _ _ _ Sq) as Ln.
  go. eapply do_goes; [st_ | apply IH; lia | lia | auto].
Qed.
Lemma g_prelude_list : forall A (m : P A) stop N, (forall n, (n <= N)%nat -> goes n 1 m (fun _ => True)) -> goes N 1 (prelude_list_t stop m) (fun _ => True).
Proof. intros A m stop N Hm. unfold prelude_list_t. apply (goes_fuel src f G H (list A) N 1 (fun i => prelude_loop stop m i)). intros i k Li Lk. apply (g_prelude_loop _ m stop N Hm); lia. Qed.
End Conditions.

Section Container.
Variable src : text.
Context {mod_ : mode}.
Variable f : feature.
Variable G : cursor -> Prop.
Variable H : cursor -> Prop.
Hypothesis G_ok : forall c, kind_of c <> K_LeftCurly -> G c.
Hypothesis H_ok : forall c, H c -> kind_of c <> K_Function.
Notation goes := (goes src f G H).
Notation st := (st src f G H).
Notation rv := (rv src f G H).
Lemma peeked_eof : forall cs0 j p d, st cs0 j p -> peek_next p = Some d -> ctok d = T_EOF \/ kind_of d <> K_Eof.
Proof. intros cs0 j p d S Pn. destruct (next_eof _ _ _ _ (G_triv _ G_ok) _ _ _ S) as (c & q & _ & Pc & _ & _ & _ & X & _). congruence. Qed.
Definition not_boolean (k : feature_kind) : Prop := match k with FBoolean _ => False | _ => True end.
Lemma g_feature : forall n k, not_boolean k -> goes n 1 (parse_feature k) (fun _ => True).
Proof.
  intros n k B. destruct k as [name vs | name | names legacy ty |]; cbn [parse_feature]; [| destruct B | |].
  - eapply goes_imp; [eapply g_pmap_known; eapply (g_discrete src f G H G_ok _ n _ _ 1); intros i Li; begin; go1; eapply do_goes; [st_ | known | lia | auto] | lia | auto].
  - eapply goes_imp; [eapply g_pmap_known; eapply (g_ranged src f G H G_ok _ _ n _ _ _ _ (word_of src K_Ident (words names))); [whole_ | intro i; known | intro i; apply g_number_type; assumption] | lia | auto].
  - begin. unfold parse_todo. go.
Qed.
Lemma container_features_plain : forall w x, In (w, x) CONTAINER_FEATURES -> not_boolean (snd x).
Proof. intros w x I. cbn in I. repeat destruct I as [I | I]; try (injection I as <- <-; exact Logic.I). destruct I. Qed.
Lemma g_container_feature : forall n, goes n 1 parse_container_feature (fun _ => True).
Proof.
  intro n. begin. unfold parse_container_feature. go1.
  - exfalso. pose proof (peeked_eof _ _ _ _ S0 Pn) as X. unfold peek_kind in Kd. apply some_inj in Kd. destruct (tok_is_not_eof d K_Function Kd X ltac:(discriminate)) as (K1 & K2). exact (H_ok d (Hd K2) K1).
  - go1. go1. go1. assert (Se : seen src (if tok_is (ctok c) K_Ident then c else if tok_is (ctok c0) K_Ident then c0 else c1)) by (destruct (tok_is (ctok c) K_Ident); [| destruct (tok_is (ctok c0) K_Ident)]; assumption).
    revert Se. generalize (if tok_is (ctok c) K_Ident then c else if tok_is (ctok c0) K_Ident then c0 else c1). intros e Se. go1; [| go]. go1. destruct v as (name & k). apply rv_pmap.
    eapply do_goes; [st_ | apply g_feature; exact (container_features_plain _ _ Iv) | lia | auto].
Qed.
Lemma g_container_condition : forall n, goes n 1 parse_container_condition (fun _ => True).
Proof.
  intro n. begin. unfold parse_container_condition. go1.
  assert (U : rv cs 1 (fun _ : container_condition => True) (pmap (fun x => ContainerCondition None (Some x)) (condition_t parse_container_feature) p)).
  { apply rv_pmap. eapply do_goes; [st_ | apply g_condition; [assumption | intros i _; apply g_container_feature] | lia | auto]. }
  destruct (tok_is (ctok c) K_Ident) eqn:TI; [| exact U]. go1; [exact U |]. go1. go1. eapply do_if; [eassumption | st_ | whole_ | | lia | auto].
  eapply do_goes; [st_ | apply g_condition; [assumption | intros i _; apply g_container_feature] | lia | auto].
Qed.
Lemma g_container_conditions : forall n, goes n 1 parse_container_conditions (fun _ => True).
Proof. intro n. apply g_prelude_list; [exact G_ok |]. intros i _. apply g_container_condition. Qed.
End Container.
