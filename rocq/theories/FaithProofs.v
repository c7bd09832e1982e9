(* What declarations, blocks, rules and stylesheets emit is what was read. *)
From Coq Require Import ZifyBool ZifyNat ZifyN Permutation.
From Verif Require Import Traits Syntax SpecLex SpecTrace SpecParser SpecSyntax SpecTraits SpecRules SpecToken LexBase TokenProofs KindProofs LexFacts LexTrace
  ParserProofs ParserProofs2 ParserProofs3 ParserProofs4 CompareProofs SyntaxProofs SyntaxTotal TraitsTotal.
Open Scope N_scope.
Open Scope list_scope.

(* ---- emits ---- *)
Lemma emits_weak : forall b cs out, emits false cs out -> emits b cs out.
Proof. intros [] cs out (k & d & o & M & F & R & ->); exists k, d, out; auto. Qed.
Lemma emits_true : forall b cs out, emits b cs out -> emits true cs out.
Proof. intros [] cs out H; [exact H | now apply emits_weak]. Qed.
Lemma emits_or : forall b b' cs out, emits b cs out -> emits (b || b') cs out.
Proof. intros [] [] cs out H; cbn; auto. now apply emits_weak. Qed.
Lemma emits_or_r : forall b b' cs out, emits b' cs out -> emits (b || b') cs out.
Proof. intros b b' cs out H. rewrite orb_comm. now apply emits_or. Qed.
Lemma emits_app : forall b b' cs out cs' out', emits b cs out -> emits b' cs' out' -> emits (b || b') (cs ++ cs') (out ++ out').
Proof.
  intros b b' cs out cs' out' H H'. apply (emits_or _ b') in H. apply (emits_or_r b) in H'. destruct H as (k & d & o & M & F & R & E). destruct H' as (k' & d' & o' & M' & F' & R' & E').
  exists (k ++ k'), (d ++ d'), (o ++ o'). split; [now apply merged_app |]. split; [apply Forall_app; auto |]. split; [now apply F2_app |].
  destruct (b || b'); [now apply Permutation_app | congruence].
Qed.
Lemma emits_perm : forall b cs out out', emits b cs out -> Permutation out out' -> emits true cs out'.
Proof. intros b cs out out' H Pm. apply emits_true in H. destruct H as (k & d & o & M & F & R & E). exists k, d, o. repeat split; auto. now transitivity out. Qed.
Lemma emits_nil : emits false [] [].
Proof. exists [], [], []. repeat split; constructor. Qed.
Lemma emits_dropped : forall cs, Forall droppable cs -> emits false cs [].
Proof. intros cs F. exists [], cs, []. split; [apply merged_right |]. repeat split; auto. Qed.
Lemma trivia_droppable : forall p c, pskip p = KS_TRIVIA -> in_kinds (pskip p) c -> droppable c.
Proof. intros p c E H. unfold in_kinds in H. rewrite E in H. unfold KS_TRIVIA in H. apply kindset_new_spec in H. unfold droppable, kind_of. cbn in H |- *. tauto. Qed.

(* ---- reads ---- *)
Lemma same_mode_refl : forall p, same_mode p p.
Proof. repeat split. Qed.
Lemma same_mode_trans : forall p q r, same_mode p q -> same_mode q r -> same_mode p r.
Proof. unfold same_mode. intros p q r (A1 & A2 & A3 & A4 & A5) (B1 & B2 & B3 & B4 & B5). repeat split; congruence. Qed.
Lemma settings_mode : forall p q, same_settings p q -> same_mode p q.
Proof. unfold same_settings, same_mode. tauto. Qed.
Lemma reads_refl : forall p cs, ahead (plex p) cs -> reads false p p [].
Proof. intros p cs A. exists [], cs. split; [exact A |]. split; [exact A |]. split; [apply same_mode_refl | apply emits_nil]. Qed.
Lemma reads_trans : forall b b' p q r x y, reads b p q x -> reads b' q r y -> reads (b || b') p r (x ++ y).
Proof.
  intros b b' p q r x y (cs & rest & A1 & A2 & S & E) (cs' & rest' & A1' & A2' & S' & E'). rewrite (ahead_det _ _ A1' _ A2) in A1. exists (cs ++ cs'), rest'. rewrite <- app_assoc.
  split; [exact A1 |]. split; [exact A2' |]. split; [now apply (same_mode_trans p q) | now apply emits_app].
Qed.
Lemma reads_moved : forall b p q out, reads b p q out -> moved 0 p q.
Proof. intros b p q out (cs & rest & A1 & A2 & S & E). exists cs, rest. split; [exact A1 |]. split; [exact A2 |]. split; [lia | exact S]. Qed.
Lemma moved_normal : forall k p q, moved k p q -> normal p -> normal q.
Proof. intros k p q M [N _]. split; [| exact (moved_right _ _ _ M)]. destruct (moved_mode _ _ _ M) as (_ & E & _). congruence. Qed.
Lemma reads_normal : forall b p q out, reads b p q out -> normal p -> normal q.
Proof. intros b p q out R. exact (moved_normal _ _ _ (reads_moved _ _ _ _ R)). Qed.
Lemma normal_skips : forall p, normal p -> skips_comments p.
Proof. intros p [E _]. unfold skips_comments. rewrite E. split; reflexivity. Qed.
Lemma reads_took : forall p q used, pskip p = KS_TRIVIA -> took p q used -> reads false p q used.
Proof.
  intros p q used E (cs & new & rest & A1 & A2 & T & M & F & S). exists cs, rest. split; [exact A1 |]. split; [exact A2 |]. split; [exact (settings_mode _ _ S) |].
  exists used, new, used. split; [exact M |]. split; [eapply Forall_impl; [| exact F]; intros c; exact (trivia_droppable p c E) |]. split; [| reflexivity].
  clear. induction used; constructor; auto. apply re_emitted_refl.
Qed.
Lemma reads_re : forall p q b used out, reads b p q used -> Forall2 re_emitted used out -> reads b p q out.
Proof.
  assert (Tr : forall a b c, re_emitted a b -> re_emitted b c -> re_emitted a c).
  { intros a b c [-> | (E & K)]; [auto |]. intros [-> | (E' & K')]; right; [auto |]. split; [congruence | exact K]. }
  assert (TrF : forall x y z, Forall2 re_emitted x y -> Forall2 re_emitted y z -> Forall2 re_emitted x z).
  { intros x y z H. revert z. induction H; intros z H'; inversion H'; subst; constructor; eauto. }
  assert (Pm : forall x y, Permutation x y -> forall z, Forall2 re_emitted y z -> exists w, Permutation w z /\ Forall2 re_emitted x w).
  { intros x y H. induction H as [| a x y H IH | a c x | x y z H1 IH1 H2 IH2]; intros w F.
    - inversion F; subst. exists []. split; constructor.
    - inversion F; subst. destruct (IH _ H4) as (w & P1 & F1). eexists (_ :: w). split; [now constructor | now constructor].
    - inversion F as [| ? ? ? ? R1 F1]; subst. inversion F1; subst. eexists (_ :: _ :: _). split; [apply perm_swap | repeat (constructor; eauto)].
    - destruct (IH2 _ F) as (w2 & P2 & F2). destruct (IH1 _ F2) as (w1 & P1 & F1). exists w1. split; [now transitivity w2 | exact F1]. }
  intros p q b used out (cs & rest & A1 & A2 & S & (k & d & o & M & F & R & E)) H. exists cs, rest. split; [exact A1 |]. split; [exact A2 |]. split; [exact S |].
  destruct b.
  - destruct (Pm _ _ E _ H) as (w & P1 & F1). exists k, d, w. repeat split; auto. exact (TrF _ _ _ R F1).
  - subst o. exists k, d, out. repeat split; auto. exact (TrF _ _ _ R H).
Qed.
Lemma reads_state : forall b p q s out, reads b (set_state p s) q out -> reads b p (set_state q (pstate p)) out.
Proof. intros b p q s out (cs & rest & A1 & A2 & (S1 & S2 & S3 & S4 & S5) & E). exists cs, rest. split; [exact A1 |]. split; [exact A2 |]. split; [repeat split; auto | exact E]. Qed.
Lemma reads_stop : forall b p q s out, reads b (set_stop p s) q out -> reads b p (set_stop q (pstop p)) out.
Proof. intros b p q s out (cs & rest & A1 & A2 & (S1 & S2 & S3 & S4 & S5) & E). exists cs, rest. split; [exact A1 |]. split; [exact A2 |]. split; [repeat split; auto | exact E]. Qed.
Lemma reads_drop : forall p q c, reads false p q [c] -> droppable c -> reads false p q [].
Proof.
  intros p q c (cs & rest & A1 & A2 & S & (k & d & o & M & F & R & ->)) D. exists cs, rest. split; [exact A1 |]. split; [exact A2 |]. split; [exact S |].
  inversion R as [| a b k0 o0 Rc R0]; subst. inversion R0; subst. assert (Da : droppable a).
  { destruct Rc as [-> | (E & K)]; [exact D |]. unfold droppable, kind_of in D |- *. now rewrite <- E. }
  apply emits_dropped. clear - M F Da. revert M F. remember [a] as l eqn:El. intros M. revert El. induction M as [| x l d cs M IH | x l d cs M IH]; intros El F; [discriminate | |].
  - injection El as -> ->. constructor; [exact Da |]. clear - M F. revert F. remember (@nil cursor) as l eqn:El. revert El. induction M; intros El F; [constructor | discriminate |]. inversion F; subst. constructor; auto.
  - inversion F; subst. constructor; auto.
Qed.

(* ---- results ---- *)
Definition says {A} (m : P A) (p : parser) (K : A -> bool -> list cursor -> Prop) : Prop :=
  forall r q, m p = Some (r, q) -> match r with Ok a => exists b out, reads b p q out /\ K a b out | Err _ => moved 0 p q end.
Definition exactly {A} (em : A -> list cursor) (mx : A -> bool) : A -> bool -> list cursor -> Prop := fun a b out => b = mx a /\ out = em a.
Lemma says_faithful : forall A (m : P A) em mx, (forall p, normal p -> says m p (exactly em mx)) -> faithful m em mx.
Proof. intros A m em mx H p r q N E. specialize (H p N r q E). destruct r as [a |]; [| exact H]. destruct H as (b & out & R & -> & ->). exact R. Qed.
Lemma faithful_says : forall A (m : P A) em mx p, faithful m em mx -> normal p -> says m p (exactly em mx).
Proof. intros A m em mx p H N r q E. specialize (H p r q N E). destruct r as [a |]; [| exact H]. exists (mx a), (em a). repeat split; auto. Qed.
Lemma says_weaken : forall A (m : P A) p (K K' : A -> bool -> list cursor -> Prop), says m p K -> (forall a b out, K a b out -> K' a b out) -> says m p K'.
Proof. intros A m p K K' H W r q E. specialize (H r q E). destruct r; [| exact H]. destruct H as (b & out & R & HK). eauto 6. Qed.
Lemma says_ret : forall A (a : A) p (K : A -> bool -> list cursor -> Prop), normal p -> K a false [] -> says (ret a) p K.
Proof. intros A a p K [_ (cs & Ah)] H r q E. injection E as <- <-. exists false, []. split; [exact (reads_refl p cs Ah) | exact H]. Qed.
Lemma says_err : forall A (m : P A) p e K, normal p -> m p = Some (Err e, p) -> says m p K.
Proof. intros A m p e K [_ (cs & Ah)] H r q E. rewrite H in E. injection E as <- <-. exact (moved_refl p cs Ah). Qed.
Lemma says_bind : forall A B (m : P A) (f : A -> P B) p (K : A -> bool -> list cursor -> Prop) (K' : B -> bool -> list cursor -> Prop), normal p -> says m p K ->
  (forall a b out q, m p = Some (Ok a, q) -> normal q -> K a b out -> says (f a) q (fun a' b' out' => K' a' (b || b') (out ++ out'))) -> says (bind m f) p K'.
Proof.
  intros A B m f p K K' N H Hf r q E. unfold bind in E. destruct (m p) as [[[a | e] p1] |] eqn:Em; [| |discriminate].
  - destruct (H (Ok a) p1 Em) as (b & out & R & HK). specialize (Hf a b out p1 eq_refl (reads_normal _ _ _ _ R N) HK r q E). destruct r as [a' | e].
    + destruct Hf as (b' & out' & R' & HK'). eexists _, _. split; [exact (reads_trans _ _ _ _ _ _ _ R R') | exact HK'].
    + exact (moved_trans0 _ _ _ (reads_moved _ _ _ _ R) Hf).
  - injection E as <- <-. exact (H (Err e) p1 Em).
Qed.
Lemma says_pmap : forall A B (g : A -> B) (m : P A) p (K : B -> bool -> list cursor -> Prop), normal p -> says m p (fun a b out => K (g a) b out) -> says (pmap g m) p K.
Proof.
  intros A B g m p K N H. unfold pmap. apply (says_bind _ _ _ _ p _ _ N H). intros a b out q _ Nq HK. apply says_ret; [exact Nq |]. now rewrite orb_false_r, app_nil_r.
Qed.
Lemma says_or_peek : forall A k (m e : P A) p K, (peek k p = Some true -> says m p K) -> (peek k p = Some false -> says e p K) -> says (or_peek k m e) p K.
Proof. intros A k m e p K H1 H2 r q E. unfold or_peek in E. destruct (peek k p) as [[] |]; [exact (H1 eq_refl r q E) | exact (H2 eq_refl r q E) | discriminate]. Qed.
Lemma says_in_state : forall A s (m : P A) p K, says m (set_state p s) K -> says (in_state s m) p K.
Proof.
  intros A s m p K H r q E. unfold in_state in E. destruct (m (set_state p s)) as [[r1 q1] |] eqn:E1; [| discriminate]. injection E as <- <-. specialize (H _ _ E1).
  destruct r1; [| exact (moved_in_state _ _ _ _ H)]. destruct H as (b & out & R & HK). exists b, out. split; [exact (reads_state _ _ _ _ _ R) | exact HK].
Qed.
Lemma says_in_stop : forall A s (m : P A) p K, says m (set_stop p s) K -> says (in_stop s m) p K.
Proof.
  intros A s m p K H r q E. unfold in_stop in E. destruct (m (set_stop p s)) as [[r1 q1] |] eqn:E1; [| discriminate]. injection E as <- <-. specialize (H _ _ E1).
  destruct r1; [| exact (moved_in_stop _ _ _ _ H)]. destruct H as (b & out & R & HK). exists b, out. split; [exact (reads_stop _ _ _ _ _ R) | exact HK].
Qed.
Lemma okay_err : forall A (m : P A) p e q, okay m p -> m p = Some (Err e, q) -> moved 0 p q.
Proof. intros A m p e q (r & q' & E & M) H. congruence. Qed.
Lemma says_kind : forall k p, k <> K_Eof -> normal p -> says (parse_kind k) p (fun c b out => b = false /\ out = [c] /\ kind_of c = k).
Proof.
  intros k p N [Sk (cs & A)] r q E. destruct r as [c | e]; [| exact (okay_err _ _ _ _ _ (okay_kind k p cs A) E)]. destruct (parse_kind_inv k p cs c q N A E) as (T & K).
  exists false, [c]. split; [exact (reads_took p q _ Sk T) | auto].
Qed.
Lemma says_if_peek : forall A k (m : P A) p (K : option A -> bool -> list cursor -> Prop), normal p -> K None false [] -> (peek k p = Some true -> says m p (fun a b out => K (Some a) b out)) -> says (parse_if_peek k m) p K.
Proof.
  intros A k m p K N H0 H. unfold parse_if_peek. intros r q E. destruct (peek k p) as [[] |] eqn:Pk; [| | discriminate].
  - exact (says_pmap _ _ Some m p K N (H eq_refl) r q E).
  - injection E as <- <-. destruct N as [_ (cs & A')]. exists false, []. split; [exact (reads_refl p cs A') | exact H0].
Qed.
Lemma says_if_kind : forall k p, k <> K_Eof -> normal p -> says (if_kind k) p (fun o b out => b = false /\ out = opt_cursor o /\ forall c, o = Some c -> kind_of c = k).
Proof.
  intros k p N Np. unfold if_kind. apply says_if_peek; [exact Np | repeat split; intros; discriminate |]. intros _. eapply says_weaken; [exact (says_kind k p N Np) |].
  intros c b out (-> & -> & K). repeat split. intros c' Q. congruence.
Qed.
(* the same, the token being dropped *)
Lemma says_drop_kind : forall k p, k <> K_Eof -> In k [K_Whitespace; K_Comment; K_Semicolon; K_CdcOrCdo] -> normal p -> says (if_kind k) p (fun o b out => b = false /\ out = []).
Proof.
  intros k p N I Np r q E. pose proof (says_if_kind k p N Np r q E) as H. destruct r as [o |]; [| exact H]. destruct H as (b & out & R & -> & -> & Ho). exists false, []. split; [| auto].
  destruct o as [c |]; [| exact R]. apply (reads_drop _ _ c R). unfold droppable. now rewrite (Ho c eq_refl).
Qed.
Lemma says_drop_whitespace : forall p, normal p -> says if_whitespace p (fun o b out => b = false /\ out = []).
Proof.
  intros p Np r q E. destruct r as [o |].
  - destruct Np as [Sk (cs & A)]. pose proof (if_whitespace_inv p cs o q (normal_skips p (conj Sk (ex_intro _ cs A))) A E) as H. exists false, []. split; [| auto]. destruct o as [c |].
    + destruct H as (T & K). apply (reads_drop _ _ c (reads_took _ _ _ Sk T)). unfold droppable. rewrite K. now left.
    + destruct H as (-> & _). exact (reads_refl p cs A).
  - destruct Np as [_ (cs & A)]. exact (okay_err _ _ _ _ _ (okay_if_whitespace p cs A) E).
Qed.
Lemma says_opt_semicolon : forall p, normal p -> says (opt_ok (if_kind K_Semicolon)) p (fun o b out => b = false /\ out = []).
Proof.
  intros p Np r q E. unfold opt_ok in E. destruct (if_kind K_Semicolon p) as [[[o | e] q1] |] eqn:E1; [| | discriminate].
  - injection E as <- <-. exact (says_drop_kind K_Semicolon p ltac:(discriminate) ltac:(cbn; tauto) Np _ _ E1).
  - exfalso. unfold if_kind, parse_if_peek in E1. destruct (peek (peek_kind K_Semicolon) p) as [[] |] eqn:Pk; [| discriminate | discriminate].
    unfold pmap, bind in E1. destruct (parse_kind K_Semicolon p) as [[[c | e'] q'] |] eqn:E2; [discriminate | | discriminate]. exact (peek_then_parse _ _ _ _ _ _ Pk E2).
Qed.
Lemma says_try : forall A (m : P A) p K, normal p -> says m p K -> forall r q, try_parse m p = Some (r, q) ->
  match r with Ok a => exists b out, reads b p q out /\ K a b out | Err _ => moved 0 p q /\ forall cs, ahead (plex p) cs -> ahead (plex q) cs end.
Proof.
  intros A m p K N H r q E. unfold try_parse in E. destruct (m p) as [[[a | e] p1] |] eqn:E1; [| | discriminate]; injection E as <- <-; specialize (H _ _ E1).
  - exact H.
  - destruct N as [_ (cs & Ah)]. destruct (moved_rewind _ _ _ cs H Ah) as (M & A'). split; [exact M |]. intros cs' A2. exact (proj2 (moved_rewind _ _ _ cs' H A2)).
Qed.
(* q has the tokens of p ahead: reading nothing *)
Lemma reads_back : forall p q, moved 0 p q -> (forall cs, ahead (plex p) cs -> ahead (plex q) cs) -> reads false p q [].
Proof.
  intros p q M H. destruct (moved_left _ _ _ M) as (cs & A). exists [], cs. split; [exact A |]. split; [exact (H cs A) |]. split; [exact (moved_mode _ _ _ M) | apply emits_nil].
Qed.
