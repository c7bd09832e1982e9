(* A Hoare logic for what the nodes of a tree are: a parser that stands somewhere in the tokens [all] of the text gives results with [Q].
   What was read for a result is not followed (Tells.v does that); a result may say of itself where in [all] it is. *)
From Coq Require Import ZifyBool ZifyNat ZifyN.
From Coq Require Import String.
From Coq Require Import List.
From Verif Require Import AstSheet SpecSheet SpecLex SpecTrace SpecParser SpecSyntax SpecTraits SpecRules SpecFeatures SpecSelectors SpecCursor SpecToken LexBase TokenProofs KindProofs LexFacts LexTrace CursorProofs CursorLex
  ParserProofs ParserProofs2 ParserProofs3 ParserProofs4 CompareProofs SyntaxProofs SyntaxTotal TraitsTotal RulesTotal FeatureProofs FaithProofs FaithTraits FaithRules SelectorProofs3 SelectorProofs4 SelectorProofs9 Goes
  Tells Tells2 Tells3 Tells4 Shows.
From Verif Require SelectorGoes.
Open Scope N_scope.
Open Scope list_scope.

Section Logic.
Variable src : text.
Variable f : feature.
Variable all : list cursor.
Notation tells := (tells src f).
Notation onto := (onto src f).

Definition here (p : parser) : Prop := exists pre cs, all = pre ++ cs /\ onto p cs.
Definition sv {A} (Q : A -> Prop) (o : option (res A * parser)) : Prop := forall r q, o = Some (r, q) -> here q /\ forall a, r = Ok a -> Q a.
Definition says {A} (m : P A) (Q : A -> Prop) : Prop := forall p, here p -> sv Q (m p).

Lemma here_src : forall p, here p -> lsrc (plex p) = src.
Proof. intros p (pre & cs & _ & (A & _)). exact A. Qed.
Lemma here_state : forall p s, here p -> here (set_state p s).
Proof. intros p s X. exact X. Qed.
Lemma here_stop : forall p s, here p -> here (set_stop p s).
Proof. intros p s X. exact X. Qed.
Lemma here_skip : forall p s, only_trivia s -> here p -> here (set_skip p s).
Proof. intros p s T (pre & cs & E & O). exists pre, cs. split; [exact E | exact (onto_skip src f _ _ _ T O)]. Qed.
Lemma here_own : forall p, here p -> only_trivia (pskip p).
Proof. intros p (pre & cs & _ & O). exact (onto_own src f _ _ O). Qed.
Lemma here_back : forall p q, here p -> here q -> here (rewind q (checkpoint p)).
Proof. intros p q (pre & cs & E & O) (pre' & cs' & _ & O'). exists pre, cs. split; [exact E | exact (onto_back src f _ _ _ _ O O')]. Qed.

Lemma sv_none : forall A (Q : A -> Prop), sv Q None.
Proof. intros A Q r q E. discriminate. Qed.
Lemma sv_ok : forall A (Q : A -> Prop) a q, here q -> Q a -> sv Q (Some (Ok a, q)).
Proof. intros A Q a q H Qa r q' E. injection E as <- <-. split; [exact H |]. intros a' E. injection E as <-. exact Qa. Qed.
Lemma sv_err : forall A (Q : A -> Prop) e q, here q -> sv Q (Some (Err e, q)).
Proof. intros A Q e q H r q' E. injection E as <- <-. split; [exact H |]. intros a' E. discriminate. Qed.
Lemma sv_imp : forall A (Q Q' : A -> Prop) o, sv Q o -> (forall a, Q a -> Q' a) -> sv Q' o.
Proof. intros A Q Q' o S I r q E. destruct (S r q E) as (H & Qa). auto. Qed.
Lemma says_imp : forall A (m : P A) (Q Q' : A -> Prop), says m Q -> (forall a, Q a -> Q' a) -> says m Q'.
Proof. intros A m Q Q' S I p H. exact (sv_imp _ _ _ _ (S p H) I). Qed.
Lemma sv_call : forall A B (m : P A) Q1 p (Q : B -> Prop) (g : res A -> parser -> option (res B * parser)), here p -> says m Q1 ->
  (forall a q, here q -> Q1 a -> sv Q (g (Ok a) q)) -> (forall e q, here q -> sv Q (g (Err e) q)) -> sv Q (match m p with None => None | Some (r, q) => g r q end).
Proof.
  intros A B m Q1 p Q g H S X Y. destruct (m p) as [[[a | e] q] |] eqn:E; [| | apply sv_none]; destruct (S p H _ _ E) as (H' & Qa); [exact (X a q H' (Qa a eq_refl)) | exact (Y e q H')].
Qed.
Lemma sv_bind : forall A B (m : P A) (g : A -> P B) Q1 (Q : B -> Prop) p, here p -> says m Q1 -> (forall a q, here q -> Q1 a -> sv Q (g a q)) -> sv Q (bind m g p).
Proof. intros A B m g Q1 Q p H S X. unfold bind. destruct (m p) as [[[a | e] q] |] eqn:E; [| | apply sv_none]; destruct (S p H _ _ E) as (H' & Qa); [auto | apply sv_err; exact H']. Qed.
Lemma says_bind : forall A B (m : P A) (g : A -> P B) Q1 (Q : B -> Prop), says m Q1 -> (forall a, Q1 a -> says (g a) Q) -> says (bind m g) Q.
Proof. intros A B m g Q1 Q S X p H. eapply sv_bind; [exact H | exact S |]. intros a q Hq Qa. exact (X a Qa q Hq). Qed.
Lemma sv_pmap : forall A B (h : A -> B) (m : P A) (Q : B -> Prop) p, sv (fun a => Q (h a)) (m p) -> sv Q (pmap h m p).
Proof. intros A B h m Q p S r q E. unfold pmap, bind, ret in E. destruct (m p) as [[[a | e] q1] |]; [| | discriminate]; injection E as <- <-; destruct (S _ _ eq_refl) as (H & Qa); (split; [exact H |]); intros b E; [injection E as <-; auto | discriminate]. Qed.
Lemma says_pmap : forall A B (h : A -> B) (m : P A) (Q : B -> Prop), says m (fun a => Q (h a)) -> says (pmap h m) Q.
Proof. intros A B h m Q S p H. apply sv_pmap. exact (S p H). Qed.
Lemma says_ret : forall A (a : A) (Q : A -> Prop), Q a -> says (ret a) Q.
Proof. intros A a Q Qa p H. apply sv_ok; assumption. Qed.
Lemma says_fail : forall A e (Q : A -> Prop), says (fail e) Q.
Proof. intros A e Q p H. apply sv_err. exact H. Qed.
Lemma says_none : forall A (Q : A -> Prop), says (fun _ => None) Q.
Proof. intros A Q p H. apply sv_none. Qed.
Lemma says_fail_text : forall A c d (Q : A -> Prop), says (@fail_text A c d) Q.
Proof. intros A c d Q p H. unfold fail_text. destruct (parse_str _ _); [apply sv_err; exact H | apply sv_none]. Qed.
Lemma says_or_peek : forall A k (m e : P A) (Q : A -> Prop), says m Q -> says e Q -> says (or_peek k m e) Q.
Proof. intros A k m e Q S T p H. unfold or_peek. destruct (peek k p) as [[] |]; [exact (S p H) | exact (T p H) | apply sv_none]. Qed.
Lemma says_if_peek : forall A k (m : P A) (Q : A -> Prop), says m Q -> says (parse_if_peek k m) (fun o => match o with Some a => Q a | None => True end).
Proof. intros A k m Q S p H. unfold parse_if_peek. destruct (peek k p) as [[] |]; [apply sv_pmap; exact (S p H) | apply sv_ok; [exact H | exact Logic.I] | apply sv_none]. Qed.
Lemma says_in_state : forall A s (m : P A) Q, says m Q -> says (in_state s m) Q.
Proof. intros A s m Q S p H r q E. unfold in_state in E. destruct (m (set_state p s)) as [[r1 q1] |] eqn:Em; [| discriminate]. injection E as <- <-. destruct (S (set_state p s) H _ _ Em) as (H' & Qa). auto. Qed.
Lemma says_in_stop : forall A s (m : P A) Q, says m Q -> says (in_stop s m) Q.
Proof. intros A s m Q S p H r q E. unfold in_stop in E. destruct (m (set_stop p s)) as [[r1 q1] |] eqn:Em; [| discriminate]. injection E as <- <-. destruct (S (set_stop p s) H _ _ Em) as (H' & Qa). auto. Qed.
Lemma says_unskipped : forall A (m : P A) Q, says m Q -> says (unskipped m) Q.
Proof.
  intros A m Q S p H r q E. unfold unskipped in E. destruct (m (set_skip p KS_NONE)) as [[r1 q1] |] eqn:Em; [| discriminate]. injection E as <- <-.
  destruct (S _ (here_skip _ _ none_trivia H) _ _ Em) as (H' & Qa). split; [exact (here_skip _ _ (here_own _ H) H') | exact Qa].
Qed.
Lemma says_try : forall A (m : P A) Q, says m Q -> says (try_parse m) Q.
Proof. intros A m Q S p H. unfold try_parse. destruct (m p) as [[[a | e] q] |] eqn:E; [| | apply sv_none]; destruct (S p H _ _ E) as (H' & Qa); [apply sv_ok; auto | apply sv_err; exact (here_back _ _ H H')]. Qed.
Lemma says_opt_ok : forall A (m : P A) Q, says m Q -> says (opt_ok m) (fun o => match o with Some a => Q a | None => True end).
Proof. intros A m Q S p H. unfold opt_ok. destruct (m p) as [[[a | e] q] |] eqn:E; [| | apply sv_none]; destruct (S p H _ _ E) as (H' & Qa); apply sv_ok; auto. Qed.
Lemma says_fun : forall A (m : parser -> P A) Q, (forall p0, says (m p0) Q) -> says (fun p => m p p) Q.
Proof. intros A m Q S p H. exact (S p p H). Qed.
Lemma says_or_try : forall A B (m : P A) (g : A -> B) (e : P B) Q1 (Q : B -> Prop), says m Q1 -> (forall a, Q1 a -> Q (g a)) -> says e Q -> says (or_try m g e) Q.
Proof.
  intros A B m g e Q1 Q S I T p H. unfold or_try. pose proof (says_try _ m Q1 S p H) as X. destruct (try_parse m p) as [[[a | x] q] |] eqn:E; [| | apply sv_none]; destruct (X _ _ eq_refl) as (H' & Qa); [apply sv_ok; auto | exact (T q H')].
Qed.
(* from the other logic, with the place of what was read *)
Lemma says_tells : forall A (m : P A) K (Q : A -> Prop), tells m K -> (forall a u pre rest, all = pre ++ u ++ rest -> K a u -> Q a) -> says m Q.
Proof.
  intros A m K Q T I p (pre & cs & E & O) r q Em. destruct (T p cs O r q Em) as (u & rest & E0 & O' & Ka). subst cs. split.
  - exists (pre ++ u), rest. rewrite <- app_assoc. auto.
  - intros a Ea. exact (I a u pre rest E (Ka a Ea)).
Qed.
Lemma says_of : forall A (m : P A) K (Q : A -> Prop), tells m K -> (forall a u, K a u -> Q a) -> says m Q.
Proof. intros A m K Q T I. eapply says_tells; [exact T |]. intros a u pre rest _ Ka. exact (I a u Ka). Qed.
Lemma here_next : forall p c q, here p -> next p = Some (c, q) -> here q.
Proof. intros p c q (pre & cs & E & O) N. destruct (next_onto src f p cs c q O N) as (u & rest & -> & O' & _). exists (pre ++ u), rest. rewrite <- app_assoc. auto. Qed.
Lemma here_trivia : forall p q, here p -> consume_trivia p = Some q -> here q.
Proof. intros p q (pre & cs & E & O) N. destruct (trivia_onto src f p cs q O N) as (u & rest & -> & O' & _). exists (pre ++ u), rest. rewrite <- app_assoc. auto. Qed.

(* ---- tokens ---- *)
Lemma y_kind : forall k, k <> K_Eof -> says (parse_kind k) (fun c => kind_of c = k).
Proof. intros k N. eapply says_of; [exact (tells_kind src f k N) |]. intros c u K. apply K. Qed.
Lemma y_delim : forall ch, says (parse_delim ch) (is_delim ch).
Proof. intros ch. eapply says_of; [exact (tells_delim src f ch) |]. intros c u K. apply K. Qed.
Lemma y_set : forall V k (m : list (text * V)), k <> K_Eof -> says (parse_set k m) (fun x => is_word k m src (fst x) (snd x)).
Proof. intros V k m N. eapply says_of; [exact (tells_set src f V k m N) |]. intros x u K. apply K. Qed.
Lemma y_dashed : says parse_dashed_ident (fun c => kind_of c = K_Ident /\ is_dashed_ident (ctok c) = true).
Proof. eapply says_of; [exact (tells_dashed src f) |]. intros c u K. apply K. Qed.
Lemma y_whitespace : says parse_whitespace (fun c => kind_of c = K_Whitespace).
Proof. eapply says_of; [exact (tells_whitespace src f) |]. intros c u K. apply K. Qed.
Lemma y_any : says Features.parse_any (fun _ => True).
Proof. eapply says_of; [exact (tells_any src f) |]. intros; exact Logic.I. Qed.
Lemma y_if_kind : forall k, k <> K_Eof -> says (if_kind k) (opt_kind k).
Proof. intros k N. eapply says_imp; [exact (says_if_peek _ _ _ _ (y_kind k N)) |]. intros [c |] X; exact X. Qed.
Lemma y_if_whitespace : says if_whitespace (fun _ => True).
Proof. eapply says_imp; [exact (says_if_peek _ _ _ _ y_whitespace) |]. intros; exact Logic.I. Qed.
Lemma y_single : forall k, Tells.solid k -> says (parse_single k (fun c => c)) (fun c => kind_of c <> K_Eof /\ exists p, k p c = Some true /\ lsrc (plex p) = src).
Proof. intros k S. eapply says_of; [exact (tells_single src f cursor k (fun c => c) S) |]. intros a u (c & p & -> & _ & N & X). eauto. Qed.
Lemma y_built : forall A k (build : parser -> cursor -> option A), Tells.solid k -> says (parse_built k build) (fun a => exists c p q, kind_of c <> K_Eof /\ k p c = Some true /\ lsrc (plex p) = src /\ build q c = Some a /\ lsrc (plex q) = src).
Proof.
  intros A k build So p H. pose proof (here_src p H) as Hs. unfold parse_built. destruct (peek k p) as [b |] eqn:Pk; [| apply sv_none]. destruct (next p) as [[c q] |] eqn:N; [| apply sv_none]. pose proof (here_next p c q H N) as Hq. destruct H as (pre & cs & E & O).
  destruct (next_onto src f p cs c q O N) as (u & rest & _ & _ & _ & Pn & X). unfold peek in Pk. rewrite Pn in Pk. destruct b; [| apply sv_err; exact Hq]. destruct (build q c) as [a |] eqn:B; [| apply sv_none]. apply sv_ok; [exact Hq |].
  destruct X as [(X & _) | (X & _)]; [exfalso; apply (So p (coff c)); rewrite <- Pk; destruct c as [o t]; simpl in X; subst t; reflexivity |]. exists c, p, q. pose proof (here_src q Hq). auto.
Qed.
Lemma y_check : forall c name, says (check_name c name) (fun _ => eq_ignore_ascii_case c src name = Some true).
Proof.
  intros c name p H. unfold check_name. rewrite (here_src p H). destruct (eq_ignore_ascii_case c src name) as [[] |] eqn:E; [apply sv_ok; [exact H | reflexivity] | apply says_fail_text; exact H | apply sv_none].
Qed.
End Logic.
