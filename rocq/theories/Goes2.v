(* The logic of Goes.v: combinators, tactics, and the media-feature traits. *)
From Coq Require Import ZifyBool ZifyNat ZifyN.
From Coq Require Import List.
From Verif Require Import AstSheet SpecSheet SpecLex SpecTrace SpecParser SpecSyntax SpecTraits SpecFeatures SpecCursor SpecToken LexBase TokenProofs KindProofs LexFacts LexTrace CursorProofs CursorLex
  ParserProofs ParserProofs2 ParserProofs3 ParserProofs4 CompareProofs SyntaxProofs SyntaxTotal TraitsTotal RulesTotal FeatureProofs Goes.
Open Scope N_scope.
Open Scope list_scope.

Create HintDb goes discriminated.
#[export] Hint Constants Opaque : goes.
Create HintDb whole discriminated.
#[export] Hint Constants Opaque : whole.

Section Combinators.
Variable src : text.
Context {mod_ : mode}.
Variable f : feature.
Variable G : cursor -> Prop.
Variable H : cursor -> Prop.
Hypothesis G_ok : forall c, kind_of c <> K_LeftCurly -> G c.
Notation goes := (goes src f G H).
Notation st := (st src f G H).
Notation lost := (lost src f).
Notation rv := (rv src f G H).
Notation seen := (seen src).
Notation whole := (whole src f).

Lemma G_triv : forall c, kind_of c = K_Whitespace \/ kind_of c = K_Comment -> G c.
Proof. intros c [E | E]; apply G_ok; rewrite E; discriminate. Qed.
Lemma do_bind : forall A B cs0 k j p i (m : P A) (g : A -> P B) Q1 (Q : B -> Prop), st cs0 j p -> goes (length cs0 - j) i m Q1 ->
  (forall a q, Q1 a -> st cs0 (j + i) q -> rv cs0 k Q (g a q)) -> rv cs0 k Q (bind m g p).
Proof. intros A B cs0 k j p i m g Q1 Q S Hm C. eapply rv_bind; [exact S | exact Hm | lia | exact C]. Qed.
Lemma do_goes : forall A cs0 k j p i (m : P A) (Q R : A -> Prop), st cs0 j p -> goes (length cs0 - j) i m Q -> (k <= j + i)%nat -> (forall a, Q a -> R a) -> rv cs0 k R (m p).
Proof. intros A cs0 k j p i m Q R S Hm K I. eapply rv_goes; [exact S | exact Hm | lia | exact K | exact I]. Qed.
Lemma do_call : forall A cs0 j p i (m : P A) Q, st cs0 j p -> goes (length cs0 - j) i m Q ->
  exists r q, m p = Some (r, q) /\ match r with Ok a => st cs0 (j + i) q /\ Q a | Err _ => lost cs0 j q end.
Proof. intros A cs0 j p i m Q S Hm. eapply call; [exact S | exact Hm | lia]. Qed.
Lemma do_match : forall A cs0 j p i (m : P A) Q (F : option (res A * parser) -> Prop), st cs0 j p -> goes (length cs0 - j) i m Q ->
  (forall a q, st cs0 (j + i) q -> Q a -> F (Some (Ok a, q))) -> (forall e q, lost cs0 j q -> F (Some (Err e, q))) -> F (m p).
Proof. intros A cs0 j p i m Q F S Hm H1 H2. destruct (do_call _ _ _ _ _ _ _ S Hm) as ([a | e] & q & -> & X); [apply H1; apply X | apply H2; exact X]. Qed.
Lemma do_ret : forall A cs0 k j p (a : A) (Q : A -> Prop), st cs0 j p -> (k <= j)%nat -> Q a -> rv cs0 k Q (ret a p).
Proof. intros A cs0 k j p a Q S K q. exact (rv_ok _ _ _ _ _ _ _ _ _ _ _ S K q). Qed.
Lemma do_fail : forall A cs0 k j p e (Q : A -> Prop), lost cs0 j p -> rv cs0 k Q (fail e p).
Proof. intros A cs0 k j p e Q S. exact (rv_err _ _ _ _ _ _ _ _ _ _ _ S). Qed.
Lemma do_or : forall A cs0 j k p c (m e : P A) (Q : A -> Prop), st cs0 j p -> whole c -> (forall d, peek_next p = Some d -> seen d -> c p d = Some true -> (kind_of d <> K_Eof -> H d) -> rv cs0 k Q (m p)) ->
  (forall d, peek_next p = Some d -> seen d -> c p d = Some false -> rv cs0 k Q (e p)) -> rv cs0 k Q (or_peek c m e p).
Proof.
  intros A cs0 j k p c m e Q S W H1 H2. destruct (peek_st _ _ _ _ G_triv _ _ _ c S W) as (b & d & Pk & Pn & Kd & Sd & Hd). unfold or_peek. rewrite Pk. destruct b; [exact (H1 d Pn Sd Kd Hd) | exact (H2 d Pn Sd Kd)].
Qed.
Lemma do_if : forall A cs0 j k p c (m : P A) (Q : option A -> Prop), st cs0 j p -> whole c -> (rv cs0 k (fun a => Q (Some a)) (m p)) -> (k <= j)%nat -> Q None -> rv cs0 k Q (parse_if_peek c m p).
Proof.
  intros A cs0 j k p c m Q S W H1 K q. destruct (peek_st _ _ _ _ G_triv _ _ _ c S W) as (b & d & Pk & Pn & Kd & Sd & _). unfold parse_if_peek. rewrite Pk. destruct b; [apply rv_pmap; exact H1 | exact (rv_ok _ _ _ _ _ _ _ _ _ _ _ S K q)].
Qed.
Lemma goes_if : forall A n i c (m : P A) Q, whole c -> goes n i m Q -> goes n 0 (parse_if_peek c m) (fun o => match o with Some a => Q a | None => True end).
Proof.
  intros A n i c m Q W Hm. apply goes_start. intros p cs S L. eapply do_if; [exact S | exact W | | lia | exact I].
  apply (rv_imp _ _ _ _ _ _ i 0 Q); [| lia | auto]. eapply rv_goes; [exact S | exact Hm | lia | lia | auto].
Qed.
Lemma goes_in_state : forall A n i s (m : P A) Q, goes n i m Q -> goes n i (in_state s m) Q.
Proof.
  intros A n i s m Q Hm. apply goes_start. intros p cs S L. unfold in_state. destruct (call _ _ _ _ _ _ _ (set_state p s) _ _ _ _ S Hm ltac:(lia)) as (r & q & E & X). rewrite E. destruct r as [a | e].
  - destruct X as (X & Y). exact (rv_ok _ _ _ _ _ _ _ _ _ _ _ (st_state _ _ _ _ _ _ q (pstate p) X) (le_n _) Y).
  - exact (rv_err _ _ _ _ _ _ _ _ _ _ _ (lost_state _ _ _ _ q (pstate p) X)).
Qed.
Lemma goes_in_stop : forall A n i s (m : P A) Q, goes n i m Q -> goes n i (in_stop s m) Q.
Proof.
  intros A n i s m Q Hm. apply goes_start. intros p cs S L. unfold in_stop. destruct (call _ _ _ _ _ _ _ (set_stop p s) _ _ _ _ S Hm ltac:(lia)) as (r & q & E & X). rewrite E. destruct r as [a | e].
  - destruct X as (X & Y). exact (rv_ok _ _ _ _ _ _ _ _ _ _ _ (st_stop _ _ _ _ _ _ q (pstop p) X) (le_n _) Y).
  - exact (rv_err _ _ _ _ _ _ _ _ _ _ _ (lost_stop _ _ _ _ q (pstop p) X)).
Qed.
Lemma goes_unskipped : forall A n i (m : P A) Q, goes n i m Q -> goes n i (unskipped m) Q.
Proof.
  intros A n i m Q Hm. apply goes_start. intros p cs S L. unfold unskipped. destruct (call _ _ _ _ _ _ _ (set_skip p KS_NONE) _ _ _ _ (st_skip _ _ _ _ _ _ _ _ none_trivia S) Hm ltac:(lia)) as (r & q & E & X). rewrite E. destruct r as [a | e].
  - destruct X as (X & Y). exact (rv_ok _ _ _ _ _ _ _ _ _ _ _ (st_skip _ _ _ _ _ _ _ _ (st_own _ _ _ _ _ _ _ S) X) (le_n _) Y).
  - exact (rv_err _ _ _ _ _ _ _ _ _ _ _ (lost_skip _ _ _ _ _ _ (st_own _ _ _ _ _ _ _ S) X)).
Qed.
Lemma goes_try : forall A n i (m : P A) Q, goes n i m Q -> goes n i (try_parse m) Q.
Proof.
  intros A n i m Q Hm. apply goes_start. intros p cs S L. unfold try_parse. destruct (call _ _ _ _ _ _ _ p _ _ _ _ S Hm ltac:(lia)) as (r & q & E & X). rewrite E. destruct r as [a | e].
  - destruct X as (X & Y). exact (rv_ok _ _ _ _ _ _ _ _ _ _ _ X (le_n _) Y).
  - exact (rv_err _ _ _ _ _ _ _ _ _ _ _ (st_lost _ _ _ _ _ _ _ (st_rewind _ _ _ _ _ _ _ _ _ _ S X))).
Qed.
Lemma goes_ret : forall A n (a : A) (Q : A -> Prop), Q a -> goes n 0 (ret a) Q.
Proof. intros A n a Q q. apply goes_start. intros p cs S L. exact (do_ret _ _ _ _ _ _ _ S (le_n _) q). Qed.
Lemma goes_fail : forall A n k e (Q : A -> Prop), goes n k (fail e) Q.
Proof. intros A n k e Q. apply goes_start. intros p cs S L. exact (do_fail _ _ _ _ _ _ _ (st_lost _ _ _ _ _ _ _ S)). Qed.
Lemma goes_fail_text : forall A n k code c (Q : A -> Prop), seen c -> goes n k (fail_text code c) Q.
Proof. intros A n k code c Q Sc. apply goes_start. intros p cs S L. unfold fail_text. rewrite (st_src _ _ _ _ _ _ _ S). destruct (str_seen _ c Sc) as (w & ->). exact (rv_err _ _ _ _ _ _ _ _ _ _ _ (st_lost _ _ _ _ _ _ _ S)). Qed.
Lemma goes_fail_lower : forall A n k code c (Q : A -> Prop), seen c -> wordy (kind_of c) -> goes n k (fail_lower code c) Q.
Proof. intros A n k code c Q Sc W. apply goes_start. intros p cs S L. unfold fail_lower. rewrite (st_src _ _ _ _ _ _ _ S). destruct (lower_seen _ c Sc W) as (w & ->). exact (rv_err _ _ _ _ _ _ _ _ _ _ _ (st_lost _ _ _ _ _ _ _ S)). Qed.
Lemma goes_str_lower : forall n c, seen c -> wordy (kind_of c) -> goes n 0 (p_str_lower c) (fun w => parse_str_lower c src = Some w).
Proof. intros n c Sc W. apply goes_start. intros p cs S L. unfold p_str_lower. rewrite (st_src _ _ _ _ _ _ _ S). destruct (lower_seen _ c Sc W) as (w & E). rewrite E. eapply rv_ok; [exact S | lia | reflexivity]. Qed.
Lemma goes_check_name : forall n c w, seen c -> wordy (kind_of c) -> goes n 0 (check_name c w) (fun _ => True).
Proof.
  intros n c w Sc W. apply goes_start. intros p cs S L. unfold check_name. rewrite (st_src _ _ _ _ _ _ _ S). destruct (eq_seen _ c w Sc W) as ([] & ->).
  - exact (rv_ok _ _ _ _ _ _ _ _ _ _ _ S (le_n _) I).
  - apply (do_goes _ _ _ _ _ 0 (fail_text E_EXPECTED_IDENT_OF c) (fun _ => True) _ S (goes_fail_text _ _ _ _ _ _ Sc)); auto.
Qed.
Lemma do_fail_text : forall A cs0 k j p code c (Q : A -> Prop), st cs0 j p -> seen c -> rv cs0 k Q (fail_text code c p).
Proof. intros A cs0 k j p code c Q S Sc. unfold fail_text. rewrite (st_src _ _ _ _ _ _ _ S). destruct (str_seen _ c Sc) as (w & ->). exact (rv_err _ _ _ _ _ _ _ _ _ _ _ (st_lost _ _ _ _ _ _ _ S)). Qed.
Lemma do_fail_lower : forall A cs0 k j p code c (Q : A -> Prop), st cs0 j p -> seen c -> wordy (kind_of c) -> rv cs0 k Q (fail_lower code c p).
Proof. intros A cs0 k j p code c Q S Sc W. unfold fail_lower. rewrite (st_src _ _ _ _ _ _ _ S). destruct (lower_seen _ c Sc W) as (w & ->). exact (rv_err _ _ _ _ _ _ _ _ _ _ _ (st_lost _ _ _ _ _ _ _ S)). Qed.
Lemma lost_peek : forall cs0 j p k, lost cs0 j p -> whole k -> exists b, peek k p = Some b.
Proof.
  intros cs0 j p k S W. destruct (lost_peek_next _ _ (fun _ => True) (fun _ => True) (fun _ _ => Logic.I) _ _ _ S) as (c & E & Sc). destruct (lost_stands _ _ _ _ _ S) as (cs & S' & _). pose proof (W p cs c S' Sc) as X. unfold peek. rewrite E. destruct (k p c) as [b |]; [eauto | congruence].
Qed.
Lemma st_look : forall cs0 j V (m : list (text * V)) p c, st cs0 j p -> seen c -> wordy (kind_of c) -> exists o, look_up m p c = Some o.
Proof. intros cs0 j V m p c S Sc W. destruct (st_stands _ _ _ _ _ _ _ S) as (cs & S' & _). exact (look_seen _ _ _ m p cs c S' Sc W). Qed.
Lemma st_peek_set : forall cs0 j V k (m : list (text * V)) p c, st cs0 j p -> seen c -> wordy k -> exists b, peek_set k m p c = Some b.
Proof. intros cs0 j V k m p c S Sc W. destruct (st_stands _ _ _ _ _ _ _ S) as (cs & S' & _). pose proof (whole_set _ _ _ k m W p cs c S' Sc). destruct (peek_set k m p c); [eauto | congruence]. Qed.
Lemma st_build_set : forall cs0 j V k (m : list (text * V)) p c, st cs0 j p -> peek_set k m p c = Some true -> exists v w, build_set m p c = Some (v, c) /\ parse_str_lower c src = Some w /\ In (w, v) m.
Proof.
  intros cs0 j V k m p c S E. destruct (st_stands _ _ _ _ _ _ _ S) as (cs & S' & _). destruct (build_seen _ _ _ k m p p cs c (st_src _ _ _ _ _ _ _ S) E S') as (v & w & B & L & X). exists v, w. auto.
Qed.
Lemma do_peek_n : forall cs0 j p i (F : option cursor -> Prop), st cs0 j p -> 1 <= i -> (forall c, peek_n p i = Some c -> seen c -> F (Some c)) -> F (peek_n p i).
Proof. intros cs0 j p i F S I X. destruct (peek_n_st _ _ _ _ G_triv _ _ _ _ S I) as (c & E & Sc). rewrite E. auto. Qed.
Lemma do_peek_next : forall cs0 j p (F : option cursor -> Prop), st cs0 j p -> (forall c, peek_next p = Some c -> seen c -> (kind_of c <> K_Eof -> H c) -> F (Some c)) -> F (peek_next p).
Proof. intros cs0 j p F S X. destruct (peek_next_st _ _ _ _ G_triv _ _ _ S) as (c & E & Sc & Hc). rewrite E. auto. Qed.
Lemma do_peek : forall cs0 j p k (F : option bool -> Prop), st cs0 j p -> whole k -> (forall b d, peek_next p = Some d -> k p d = Some b -> seen d -> (kind_of d <> K_Eof -> H d) -> F (Some b)) -> F (peek k p).
Proof. intros cs0 j p k F S W X. destruct (peek_st _ _ _ _ G_triv _ _ _ _ S W) as (b & c & E & Pn & Kc & Sc & Hc). rewrite E. eauto. Qed.
Lemma lost_do_peek_n : forall cs0 j p i (F : option cursor -> Prop), lost cs0 j p -> 1 <= i -> (forall c, peek_n p i = Some c -> seen c -> F (Some c)) -> F (peek_n p i).
Proof. intros cs0 j p i F S I X. destruct (lost_peek_n _ _ (fun _ => True) (fun _ => True) (fun _ _ => Logic.I) _ _ _ _ S I) as (c & E & Sc). rewrite E. auto. Qed.
Lemma lost_do_peek : forall cs0 j p k (F : option bool -> Prop), lost cs0 j p -> whole k -> (forall b, F (Some b)) -> F (peek k p).
Proof. intros cs0 j p k F S W X. destruct (lost_peek _ _ _ _ S W) as (b & E). rewrite E. auto. Qed.
Lemma do_eq : forall cs0 j p c w (F : option bool -> Prop), st cs0 j p -> seen c -> wordy (kind_of c) -> (forall b, eq_ignore_ascii_case c src w = Some b -> F (Some b)) -> F (eq_ignore_ascii_case c (lsrc (plex p)) w).
Proof. intros cs0 j p c w F S Sc W X. rewrite (st_src _ _ _ _ _ _ _ S). destruct (eq_seen _ c w Sc W) as (b & E). rewrite E. auto. Qed.
Lemma do_str : forall cs0 j p c (F : option text -> Prop), st cs0 j p -> seen c -> (forall b, parse_str c src = Some b -> F (Some b)) -> F (parse_str c (lsrc (plex p))).
Proof. intros cs0 j p c F S Sc X. rewrite (st_src _ _ _ _ _ _ _ S). destruct (str_seen _ c Sc) as (b & E). rewrite E. auto. Qed.
Lemma do_lower : forall cs0 j p c (F : option text -> Prop), st cs0 j p -> seen c -> wordy (kind_of c) -> (forall b, parse_str_lower c src = Some b -> F (Some b)) -> F (parse_str_lower c (lsrc (plex p))).
Proof. intros cs0 j p c F S Sc W X. rewrite (st_src _ _ _ _ _ _ _ S). destruct (lower_seen _ c Sc W) as (b & E). rewrite E. auto. Qed.
Lemma do_slice : forall cs0 j p c (F : option text -> Prop), st cs0 j p -> seen c -> (forall b, str_slice c src = Some b -> F (Some b)) -> F (str_slice c (lsrc (plex p))).
Proof. intros cs0 j p c F S Sc X. rewrite (st_src _ _ _ _ _ _ _ S). destruct (slice_seen _ c Sc) as (b & E). rewrite E. auto. Qed.
Lemma do_look : forall cs0 j V (m : list (text * V)) p c (F : option (option V) -> Prop), st cs0 j p -> seen c -> wordy (kind_of c) -> (forall o, look_up m p c = Some o -> F (Some o)) -> F (look_up m p c).
Proof. intros cs0 j V m p c F S Sc W X. destruct (st_look _ _ _ m _ _ S Sc W) as (o & E). rewrite E. auto. Qed.
Lemma do_peek_set : forall cs0 j V k (m : list (text * V)) p c (F : option bool -> Prop), st cs0 j p -> seen c -> wordy k -> (forall b, peek_set k m p c = Some b -> F (Some b)) -> F (peek_set k m p c).
Proof. intros cs0 j V k m p c F S Sc W X. destruct (st_peek_set _ _ _ k m _ _ S Sc W) as (o & E). rewrite E. auto. Qed.
Lemma do_build_set : forall cs0 j V k (m : list (text * V)) p c (F : option (V * cursor) -> Prop), st cs0 j p -> peek_set k m p c = Some true ->
  (forall v w, parse_str_lower c src = Some w -> In (w, v) m -> F (Some (v, c))) -> F (build_set m p c).
Proof. intros cs0 j V k m p c F S E X. destruct (st_build_set _ _ _ k m _ _ S E) as (v & w & B & Lw & Iv). rewrite B. eauto. Qed.
End Combinators.


Section Peekers.
Variable src : text.
Context {mod_ : mode}.
Variable f : feature.
Notation whole := (whole src f).
Let all (_ : cursor) : Prop := True.
Let all_ok (c : cursor) (_ : kind_of c = K_Whitespace \/ kind_of c = K_Comment) : all c := Logic.I.
Lemma w_double : forall a b, whole (peek_double a b).
Proof. exact (whole_double _ _ all all all_ok). Qed.
Lemma w_colon_colon : whole peek_colon_colon.
Proof. exact (whole_colon_colon _ _ all all all_ok). Qed.
Lemma w_important : whole peek_important.
Proof. exact (whole_important _ _ all all all_ok). Qed.
Lemma w_declaration : whole peek_declaration.
Proof. exact (whole_declaration _ _ all all all_ok). Qed.
Lemma w_pseudo_class : forall V (m : list (text * V)), whole (peek_pseudo_class m).
Proof. exact (whole_pseudo_class _ _ all all all_ok). Qed.
Lemma w_peek_n : forall p cs i, stands src f p cs -> 1 <= i -> exists c, peek_n p i = Some c /\ seen src c.
Proof. exact (peek_n_stands _ _ all all all_ok). Qed.
Lemma w_length : whole peek_length.
Proof.
  intros p cs c S Sc. unfold peek_length. destruct (tok_is (ctok c) K_Number && f32_is_zero (tvalue (ctok c))); [discriminate |]. revert p cs c S Sc. apply whole_any. apply Forall_forall. intros k Ik. apply in_map_iff in Ik. destruct Ik as (u & <- & _). apply whole_dimension.
Qed.
Lemma w_int : whole peek_int.
Proof. intros p cs c S Sc. discriminate. Qed.
Lemma w_float : whole peek_float.
Proof. intros p cs c S Sc. discriminate. Qed.
End Peekers.
Ltac word_ := solve [ constructor | assumption
  | match goal with E : kind_of ?c = _ |- wordy (kind_of ?c) => rewrite E; constructor end
  | match goal with T : tok_is (ctok ?c) _ = true |- wordy (kind_of ?c) => exact (tok_worded _ _ T ltac:(constructor)) end
  | match goal with T : peek_kind _ _ ?c = Some true |- wordy (kind_of ?c) => unfold peek_kind in T; apply some_inj in T; exact (tok_worded _ _ T ltac:(constructor)) end ].
#[export] Hint Extern 2 (SpecSheet.wordy _) => word_ : goes whole.
#[export] Hint Resolve whole_kind whole_kindset whole_delim whole_dashed whole_set w_double w_colon_colon w_important w_declaration whole_dimension whole_any w_pseudo_class w_length w_int w_float : whole.
#[export] Hint Extern 1 (Forall _ []) => apply Forall_nil : whole.
#[export] Hint Extern 1 (Forall _ (_ :: _)) => apply Forall_cons : whole.
#[export] Hint Extern 1 (_ <> _) => discriminate : goes.
#[export] Hint Extern 2 (whole _ _ _) => solve [eauto 6 with whole nocore] : goes.
#[export] Hint Extern 4 (SpecSheet.text_readable _ _ /\ _) => eassumption : goes.

Ltac triv_ := first [exact none_trivia | exact comments_trivia | exact whitespace_trivia | eapply st_own; eassumption | eapply lost_own; eassumption].
Ltac st_ := lazymatch goal with
  | |- st _ _ _ _ _ _ (set_state _ _) => first [eassumption | apply st_state; st_]
  | |- st _ _ _ _ _ _ (set_stop _ _) => first [eassumption | apply st_stop; st_]
  | |- st _ _ _ _ _ _ (set_skip _ _) => first [eassumption | apply st_skip; [triv_ | st_]]
  | |- st _ _ _ _ _ _ (rewind _ (checkpoint _)) => first [eassumption | eapply st_rewind; [st_ | lost_]]
  | |- st _ _ _ _ _ _ _ => eassumption
  end
with lost_ := lazymatch goal with
  | |- lost _ _ _ _ (set_state _ _) => first [eassumption | apply lost_state; lost_]
  | |- lost _ _ _ _ (set_stop _ _) => first [eassumption | apply lost_stop; lost_]
  | |- lost _ _ _ _ (set_skip _ _) => first [eassumption | apply lost_skip; [triv_ | lost_]]
  | |- lost _ _ _ _ (rewind _ (checkpoint _)) => eapply st_lost; st_
  | |- lost _ _ _ _ _ => first [eassumption | eapply st_lost; st_]
  end.
Ltac whole_ := solve [eauto 6 with whole nocore].
Ltac known := solve [eauto 8 with goes nocore].
Ltac post := cbv beta; first [exact Logic.I | eassumption | solve [eauto]].
Ltac tidy := repeat match goal with X : _ /\ _ |- _ => destruct X | X : exists _, _ |- _ => destruct X end.
Ltac clean := repeat match goal with X : (fun _ => _) _ |- _ => cbv beta in X | X : _ /\ _ |- _ => destruct X | X : exists _, _ |- _ => destruct X | X : True |- _ => clear X end.
Ltac src_ := match goal with S : st _ _ _ _ _ _ ?p |- context [lsrc (plex ?p)] => rewrite (st_src _ _ _ _ _ _ _ S) end.
Ltac seen_ := tidy; eassumption.
Ltac go1 :=
  lazymatch goal with
  | |- rv _ _ _ _ _ _ _ (Some (Ok _, _)) => eapply rv_ok; [st_ | lia | post]
  | |- rv _ _ _ _ _ _ _ (Some (Err _, _)) => eapply rv_err; lost_
  | |- rv _ _ _ _ _ _ _ (ret _ _) => eapply do_ret; [st_ | lia | post]
  | |- rv _ _ _ _ _ _ _ (fail _ _) => eapply do_fail; lost_
  | |- rv _ _ _ _ _ _ _ (fail_text _ _ _) => eapply do_fail_text; [st_ | seen_]
  | |- rv _ _ _ _ _ _ _ (fail_lower _ _ _) => eapply do_fail_lower; [st_ | seen_ | word_]
  | |- rv _ _ _ _ _ ?k _ (unexpected_peek ?p) => eapply do_goes with (i := k); [st_ | known | lia | intros; exact Logic.I]
  | |- rv _ _ _ _ _ ?k _ (unexpected_next ?p) => eapply do_goes with (i := k); [st_ | known | lia | intros; exact Logic.I]
  | |- rv _ _ _ _ _ _ _ (bind _ _ _) => eapply do_bind; [st_ | known | let a := fresh "a" in let q := fresh "q" in let Qa := fresh "Qa" in let Sq := fresh "Sq" in intros a q Qa Sq; clean]
  | |- rv _ _ _ _ _ _ _ (pmap _ _ _) => apply rv_pmap
  | |- rv _ _ _ _ _ _ _ (or_peek _ _ _ _) => eapply do_or; [eassumption | st_ | whole_ | let d := fresh "d" in let Pn := fresh "Pn" in let Sd := fresh "Sd" in let Kd := fresh "Kd" in let Hd := fresh "Hd" in intros d Pn Sd Kd Hd | let d := fresh "d" in let Pn := fresh "Pn" in let Sd := fresh "Sd" in let Kd := fresh "Kd" in intros d Pn Sd Kd]
  | |- rv _ _ _ _ _ _ _ (match peek_n ?p ?i with _ => _ end) => pattern (peek_n p i);
      let c := fresh "c" in let E := fresh "Pn" in let Sc := fresh "Sc" in
      first [eapply do_peek_n; [st_ | lia | intros c E Sc; cbv beta iota zeta] | eapply lost_do_peek_n; [lost_ | lia | intros c E Sc; cbv beta iota zeta]]
  | |- rv _ _ _ _ _ _ _ (match peek_next ?p with _ => _ end) => pattern (peek_next p);
      let c := fresh "c" in let E := fresh "Pn" in let Sc := fresh "Sc" in let Hc := fresh "Hc" in
      eapply do_peek_next; [eassumption | st_ | intros c E Sc Hc; cbv beta iota zeta]
  | |- rv _ _ _ _ _ _ _ (match peek ?k ?p with _ => _ end) => pattern (peek k p);
      let b := fresh "b" in let d := fresh "d" in let Pn := fresh "Pn" in let Kd := fresh "Kd" in let Sd := fresh "Sd" in let Hd := fresh "Hd" in
      first [eapply do_peek; [eassumption | st_ | whole_ | intros b d Pn Kd Sd Hd; cbv beta iota zeta; destruct b] | eapply lost_do_peek; [lost_ | whole_ | intros b; cbv beta iota zeta; destruct b]]
  | |- rv _ _ _ _ _ _ _ (match tchar ?t with _ => _ end) => let E := fresh "E" in destruct (tchar t) eqn:E
  | |- rv _ _ _ _ _ _ _ (match eq_ignore_ascii_case ?c (lsrc (plex ?p)) ?w with _ => _ end) => pattern (eq_ignore_ascii_case c (lsrc (plex p)) w);
      let b := fresh "b" in let E := fresh "Eq" in eapply do_eq; [st_ | seen_ | tidy; word_ | intros b E; cbv beta iota zeta; destruct b]
  | |- rv _ _ _ _ _ _ _ (match parse_str ?c (lsrc (plex ?p)) with _ => _ end) => pattern (parse_str c (lsrc (plex p)));
      let b := fresh "w" in let E := fresh "Ew" in eapply do_str; [st_ | seen_ | intros b E; cbv beta iota zeta]
  | |- rv _ _ _ _ _ _ _ (match parse_str_lower ?c (lsrc (plex ?p)) with _ => _ end) => pattern (parse_str_lower c (lsrc (plex p)));
      let b := fresh "w" in let E := fresh "Ew" in eapply do_lower; [st_ | seen_ | tidy; word_ | intros b E; cbv beta iota zeta]
  | |- rv _ _ _ _ _ _ _ (match str_slice ?c (lsrc (plex ?p)) with _ => _ end) => pattern (str_slice c (lsrc (plex p)));
      let b := fresh "w" in let E := fresh "Ew" in eapply do_slice; [st_ | seen_ | intros b E; cbv beta iota zeta]
  | |- rv _ _ _ _ _ _ _ (match look_up ?m ?p ?c with _ => _ end) => pattern (look_up m p c);
      let o := fresh "o" in let E := fresh "El" in eapply do_look; [st_ | seen_ | tidy; word_ | intros o E; cbv beta iota zeta; destruct o]
  | |- rv _ _ _ _ _ _ _ (match peek_set ?k ?m ?p ?c with _ => _ end) => pattern (peek_set k m p c);
      let b := fresh "b" in let E := fresh "Es" in eapply do_peek_set; [st_ | seen_ | tidy; word_ | intros b E; cbv beta iota zeta; destruct b]
  | E : peek_set _ ?m ?p ?c = Some true |- rv _ _ _ _ _ _ _ (match build_set ?m ?p ?c with _ => _ end) => pattern (build_set m p c);
      let v := fresh "v" in let w := fresh "w" in let Lw := fresh "Lw" in let Iv := fresh "Iv" in
      eapply do_build_set; [st_ | exact E | intros v w Lw Iv; cbv beta iota zeta]
  | |- rv _ _ _ _ _ _ _ ((fun _ => _) _) => cbv beta
  | |- rv _ _ _ _ _ _ _ ((match ?x with _ => _ end) _) => let B := fresh "B" in destruct x eqn:B
  | |- rv _ _ _ _ _ _ _ (match ?x with _ => _ end) =>
      lazymatch type of x with
      | bool => let B := fresh "B" in destruct x eqn:B
      | option (res _ * _) =>
          lazymatch x with
          | ?m ?p =>
            let q := fresh "q" in let X := fresh "X" in let Sq := fresh "Sq" in let Qa := fresh "Qa" in let a := fresh "a" in let e := fresh "e" in
            pattern x; eapply do_match; [st_ | known | intros a q Sq Qa; cbv beta iota zeta; clean | intros e q X; cbv beta iota zeta]
          end
      | _ => destruct x
      end
  | |- rv _ _ _ _ _ _ _ (_ _) => eapply do_goes; [st_ | known | lia | intros; post]
  end.
Ltac go := repeat (progress go1).
Ltac begin := apply goes_start; let p := fresh "p" in let cs := fresh "cs" in let S0 := fresh "S0" in let L0 := fresh "L0" in intros p cs S0 L0.

Section Features.
Variable src : text.
Context {mod_ : mode}.
Variable f : feature.
Variable G : cursor -> Prop.
Variable H : cursor -> Prop.
Hypothesis G_ok : forall c, kind_of c <> K_LeftCurly -> G c.
Notation goes := (goes src f G H).
Notation st := (st src f G H).
Notation rv := (rv src f G H).
Notation seen := (seen src).
Notation whole := (whole src f).

Lemma g_kind : forall n k, k <> K_Eof -> k <> K_LeftCurly -> goes n 1 (parse_kind k) (fun c => seen c /\ kind_of c = k).
Proof. intros n k N1 N2. apply goes_kind; [exact (G_triv _ G_ok) | exact N1 |]. intros c K. apply G_ok. congruence. Qed.
Lemma g_delim : forall n ch, goes n 1 (parse_delim ch) (fun c => seen c /\ kind_of c = K_Delim).
Proof. intros n ch. apply goes_delim; [exact (G_triv _ G_ok) |]. intros c K. apply G_ok. congruence. Qed.
Lemma g_dashed : forall n, goes n 1 parse_dashed_ident (fun c => seen c /\ kind_of c = K_Ident).
Proof. intros n. apply goes_dashed; [exact (G_triv _ G_ok) |]. intros c K. apply G_ok. congruence. Qed.
Lemma g_set : forall V n k (m : list (text * V)), wordy k -> k <> K_Eof -> k <> K_LeftCurly -> goes n 1 (parse_set k m) (word_of src k m).
Proof. intros V n k m Wk N1 N2. apply goes_set; [exact (G_triv _ G_ok) | exact Wk | exact N1 |]. intros c K. apply G_ok. congruence. Qed.
Lemma g_if_kind : forall n k, k <> K_Eof -> k <> K_LeftCurly -> goes n 0 (if_kind k) (fun o => match o with Some c => seen c /\ kind_of c = k | None => True end).
Proof. intros n k N1 N2. apply (goes_if _ _ _ _ G_ok _ _ 1); [apply whole_kind | apply (g_kind n k N1 N2)]. Qed.
Lemma g_pmap_known : forall A B n k (g : A -> B) (m : P A) (Q : A -> Prop), goes n k m Q -> goes n k (pmap g m) (fun _ => True).
Proof. intros A B n k g m Q Hm. eapply goes_imp; [exact (goes_pmap _ _ _ _ _ _ _ _ g m Q Hm) | lia | auto]. Qed.
End Features.
#[export] Hint Resolve g_kind g_delim g_dashed g_set g_if_kind goes_fail_text goes_fail_lower goes_str_lower goes_check_name goes_fail goes_if goes_in_state goes_in_stop goes_unskipped goes_try : goes.
#[export] Hint Resolve g_pmap_known | 3 : goes.

Section Features2.
Variable src : text.
Context {mod_ : mode}.
Variable f : feature.
Variable G : cursor -> Prop.
Variable H : cursor -> Prop.
Hypothesis G_ok : forall c, kind_of c <> K_LeftCurly -> G c.
Notation goes := (goes src f G H).
Notation st := (st src f G H).
Notation rv := (rv src f G H).
Notation seen := (seen src).
Notation whole := (whole src f).
Lemma g_double : forall n a b, goes n 2 (parse_double a b) (fun _ => True).
Proof. intros n a b. begin. unfold parse_double. go. Qed.
Lemma g_colon_colon : forall n, goes n 2 parse_colon_colon (fun _ => True).
Proof. intros n. begin. unfold parse_colon_colon. go. Qed.
End Features2.
#[export] Hint Resolve g_double g_colon_colon : goes.
Section Features3.
Variable src : text.
Context {mod_ : mode}.
Variable f : feature.
Variable G : cursor -> Prop.
Variable H : cursor -> Prop.
Hypothesis G_ok : forall c, kind_of c <> K_LeftCurly -> G c.
Notation goes := (goes src f G H).
Notation st := (st src f G H).
Notation rv := (rv src f G H).
Notation seen := (seen src).
Notation whole := (whole src f).
Lemma g_comparison : forall n, goes n 1 parse_comparison (fun _ => True).
Proof. intros n. begin. unfold parse_comparison. go. Qed.
End Features3.
