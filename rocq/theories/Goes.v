(* A logic for "returns and only moves forwards" that does not depend on what the parser skips. *)
From Coq Require Import ZifyBool ZifyNat ZifyN.
From Coq Require Import List.
From Verif Require Import AstSheet SpecSheet SpecLex SpecTrace SpecParser SpecSyntax SpecTraits SpecFeatures SpecCursor SpecToken LexBase TokenProofs KindProofs LexFacts LexTrace CursorProofs CursorLex
  ParserProofs ParserProofs2 ParserProofs3 ParserProofs4 CompareProofs SyntaxProofs SyntaxTotal TraitsTotal RulesTotal FeatureProofs.
Open Scope N_scope.
Open Scope list_scope.

Section Logic.
Variable src : text.
Context {mod_ : mode}.
Variable f : feature.
(* [G]: the tokens a successful parse may read; [H]: what the next token is, as long as only such tokens were read *)
Variable G : cursor -> Prop.
Variable H : cursor -> Prop.
Hypothesis G_trivia : forall c, kind_of c = K_Whitespace \/ kind_of c = K_Comment -> G c.

Definition zone (cs : list cursor) : Prop := forall pre c rest, cs = pre ++ c :: rest -> Forall G pre -> H c.
Definition lost (cs0 : list cursor) (j : nat) (q : parser) : Prop := exists used cs, cs0 = used ++ cs /\ (j <= length used)%nat /\ stands src f q cs.
Definition st (cs0 : list cursor) (j : nat) (q : parser) : Prop :=
  exists used cs, cs0 = used ++ cs /\ (j <= length used)%nat /\ Forall G used /\ stands src f q cs /\ zone cs.
Definition rv {A} (cs0 : list cursor) (k : nat) (Q : A -> Prop) (o : option (res A * parser)) : Prop :=
  exists r q, o = Some (r, q) /\ match r with Ok a => st cs0 k q /\ Q a | Err _ => lost cs0 0 q end.
Definition goes {A} (n k : nat) (m : P A) (Q : A -> Prop) : Prop := forall p cs, stands src f p cs -> zone cs -> (length cs <= n)%nat -> rv cs k Q (m p).
Definition seen (c : cursor) : Prop := text_readable src c /\ (strict = true -> ~ unfinished src c).
Definition whole (k : peeker) : Prop := forall p cs c, stands src f p cs -> seen c -> k p c <> None.

Lemma zone_app : forall a b, zone (a ++ b) -> Forall G a -> zone b.
Proof. intros a b Z F pre c rest E Fp. apply (Z (a ++ pre) c rest); [rewrite E, app_assoc; reflexivity | apply Forall_app; auto]. Qed.
Lemma st_lost : forall cs j q, st cs j q -> lost cs j q.
Proof. intros cs j q (u & c & E & L & _ & S & _). exists u, c. auto. Qed.
Lemma lost_le : forall cs i j q, (i <= j)%nat -> lost cs j q -> lost cs i q.
Proof. intros cs i j q I (u & c & E & L & S). exists u, c. split; [exact E |]. split; [lia | exact S]. Qed.
Lemma st_le : forall cs i j q, (i <= j)%nat -> st cs j q -> st cs i q.
Proof. intros cs i j q I (u & c & E & L & S). exists u, c. split; [exact E |]. split; [lia | exact S]. Qed.
Lemma st_start : forall p cs, stands src f p cs -> zone cs -> st cs 0 p.
Proof. intros p cs S Z. exists [], cs. auto. Qed.
Lemma st_stands : forall cs j p, st cs j p -> exists cs', stands src f p cs' /\ (length cs' + j <= length cs)%nat /\ zone cs'.
Proof. intros cs j p (u & c & E & L & _ & S & Z). exists c. rewrite E, app_length. split; [exact S | split; [lia | exact Z]]. Qed.
Lemma lost_stands : forall cs j p, lost cs j p -> exists cs', stands src f p cs' /\ (length cs' + j <= length cs)%nat.
Proof. intros cs j p (u & c & E & L & S). exists c. rewrite E, app_length. split; [exact S | lia]. Qed.
Lemma st_src : forall cs j p, st cs j p -> lsrc (plex p) = src.
Proof. intros cs j p (u & c & _ & _ & _ & S & _). apply S. Qed.

(* settings *)
Lemma kinds_in : forall l k, kindset_contains (kindset_new l) k = true -> In k l.
Proof. intros l k E. now apply kindset_new_spec. Qed.
Definition only_trivia (s : kindset) : Prop := forall k, kindset_contains s k = true -> k = K_Whitespace \/ k = K_Comment.
Lemma none_trivia : only_trivia KS_NONE.
Proof. intros k E. apply kinds_in in E. destruct E. Qed.
Lemma comments_trivia : only_trivia KS_COMMENTS.
Proof. intros k E. apply kinds_in in E. cbn in E. intuition. Qed.
Lemma whitespace_trivia : only_trivia KS_WHITESPACE.
Proof. intros k E. apply kinds_in in E. cbn in E. intuition. Qed.
Lemma stands_skip : forall p cs s, only_trivia s -> stands src f p cs -> stands src f (set_skip p s) cs.
Proof. intros p cs s T (A & B & C & D & E). unfold stands. cbn [plex set_skip pskip]. auto. Qed.
Lemma st_skip : forall cs j p s, only_trivia s -> st cs j p -> st cs j (set_skip p s).
Proof. intros cs j p s T (u & c & E & L & F & S & Z). exists u, c. split; [exact E |]. split; [exact L |]. split; [exact F |]. split; [exact (stands_skip _ _ _ T S) | exact Z]. Qed.
Lemma lost_skip : forall cs j p s, only_trivia s -> lost cs j p -> lost cs j (set_skip p s).
Proof. intros cs j p s T (u & c & E & L & S). exists u, c. split; [exact E |]. split; [exact L |]. exact (stands_skip _ _ _ T S). Qed.
Lemma st_own : forall cs j p, st cs j p -> only_trivia (pskip p).
Proof. intros cs j p (u & c & E & L & F & S & Z). exact (proj2 (proj2 (proj2 (proj2 S)))). Qed.
Lemma lost_own : forall cs j p, lost cs j p -> only_trivia (pskip p).
Proof. intros cs j p (u & c & E & L & S). exact (proj2 (proj2 (proj2 (proj2 S)))). Qed.
Lemma st_state : forall cs j p s, st cs j p -> st cs j (set_state p s).
Proof. intros cs j p s X. exact X. Qed.
Lemma st_stop : forall cs j p s, st cs j p -> st cs j (set_stop p s).
Proof. intros cs j p s X. exact X. Qed.
Lemma lost_state : forall cs j p s, lost cs j p -> lost cs j (set_state p s).
Proof. intros cs j p s X. exact X. Qed.
Lemma lost_stop : forall cs j p s, lost cs j p -> lost cs j (set_stop p s).
Proof. intros cs j p s X. exact X. Qed.
Lemma stands_rewind : forall p cs q cs', stands src f p cs -> stands src f q cs' -> stands src f (rewind q (checkpoint p)) cs.
Proof.
  intros p cs q cs' (A & B & C & D & E) (A' & B' & C' & D' & E').
  assert (C2 : ahead (plex (rewind q (checkpoint p))) cs).
  { unfold rewind, lexer_rewind, lexer_checkpoint; cbn. rewrite A', B', <- A, <- B. now destruct (plex p). }
  unfold stands. unfold rewind, lexer_rewind in *. cbn in *. auto.
Qed.
Lemma st_rewind : forall cs0 j p cs1 i q, st cs0 j p -> lost cs1 i q -> st cs0 j (rewind q (checkpoint p)).
Proof. intros cs0 j p cs1 i q (u & c & E & L & F & S & Z) (u' & c' & _ & _ & S'). exists u, c. pose proof (stands_rewind p c q c' S S'). auto. Qed.

(* results *)
Lemma rv_ok : forall A cs k j (Q : A -> Prop) a q, st cs j q -> (k <= j)%nat -> Q a -> rv cs k Q (Some (Ok a, q)).
Proof. intros A cs k j Q a q S L q'. exists (Ok a), q. split; [reflexivity |]. split; [exact (st_le _ _ _ _ L S) | exact q']. Qed.
Lemma rv_err : forall A cs k j (Q : A -> Prop) e q, lost cs j q -> rv cs k Q (Some (Err e, q)).
Proof. intros A cs k j Q e q S. exists (Err e), q. split; [reflexivity |]. apply (lost_le cs 0 j); [lia | exact S]. Qed.
Lemma rv_imp : forall A cs k k' (Q R : A -> Prop) o, rv cs k Q o -> (k' <= k)%nat -> (forall a, Q a -> R a) -> rv cs k' R o.
Proof. intros A cs k k' Q R o (r & q & E & X) L I. exists r, q. split; [exact E |]. destruct r; [| exact X]. destruct X as (S & q'). split; [exact (st_le _ _ _ _ L S) | auto]. Qed.
Lemma call : forall A cs0 j p n i (m : P A) Q, st cs0 j p -> goes n i m Q -> (length cs0 <= n + j)%nat ->
  exists r q, m p = Some (r, q) /\ match r with Ok a => st cs0 (j + i) q /\ Q a | Err _ => lost cs0 j q end.
Proof.
  intros A cs0 j p n i m Q (u & c & E & L & F & S & Z) Hm Len.
  assert (Lc : (length c <= n)%nat) by (rewrite E, app_length in Len; lia).
  destruct (Hm p c S Z Lc) as (r & q & Em & X). exists r, q. split; [exact Em |]. destruct r as [a | e].
  - destruct X as ((u' & c' & E' & L' & F' & S' & Z') & q'). split; [| exact q']. exists (u ++ u'), c'. rewrite E, E', app_assoc, app_length.
    split; [reflexivity |]. split; [lia |]. split; [apply Forall_app; auto |]. auto.
  - destruct X as (u' & c' & E' & L' & S'). exists (u ++ u'), c'. rewrite E, E', app_assoc, app_length. split; [reflexivity |]. split; [lia | exact S'].
Qed.
Lemma rv_goes : forall A cs0 k j p n i (m : P A) (Q R : A -> Prop), st cs0 j p -> goes n i m Q -> (length cs0 <= n + j)%nat -> (k <= j + i)%nat -> (forall a, Q a -> R a) -> rv cs0 k R (m p).
Proof.
  intros A cs0 k j p n i m Q R S Hm L K I. destruct (call _ _ _ _ _ _ _ _ S Hm L) as (r & q & E & X). rewrite E. destruct r as [a | e].
  - destruct X as (S' & q'). apply (rv_ok _ _ _ (j + i)); auto.
  - exact (rv_err _ _ _ _ _ _ _ X).
Qed.
Lemma rv_bind : forall A B cs0 k j p n i (m : P A) (g : A -> P B) Q1 (Q : B -> Prop), st cs0 j p -> goes n i m Q1 -> (length cs0 <= n + j)%nat ->
  (forall a q, Q1 a -> st cs0 (j + i) q -> rv cs0 k Q (g a q)) -> rv cs0 k Q (bind m g p).
Proof.
  intros A B cs0 k j p n i m g Q1 Q S Hm L C. destruct (call _ _ _ _ _ _ _ _ S Hm L) as (r & q & E & X). unfold bind. rewrite E. destruct r as [a | e].
  - destruct X as (S' & q'). auto.
  - exact (rv_err _ _ _ _ _ _ _ X).
Qed.
Lemma rv_pmap : forall A B (g : A -> B) (m : P A) cs0 k p (Q : B -> Prop), rv cs0 k (fun a => Q (g a)) (m p) -> rv cs0 k Q (pmap g m p).
Proof. intros A B g m cs0 k p Q (r & q & E & X). unfold rv, pmap, bind, ret. rewrite E. destruct r as [a | e]; eexists _, _; (split; [reflexivity | exact X]). Qed.
Lemma goes_imp : forall A n k k' (m : P A) (Q R : A -> Prop), goes n k m Q -> (k' <= k)%nat -> (forall a, Q a -> R a) -> goes n k' m R.
Proof. intros A n k k' m Q R Hm L I p cs S Z Len. exact (rv_imp _ _ _ _ _ _ _ (Hm p cs S Z Len) L I). Qed.
Lemma goes_less : forall A n n' k (m : P A) (Q : A -> Prop), goes n k m Q -> (n' <= n)%nat -> goes n' k m Q.
Proof. intros A n n' k m Q Hm L p cs S Z Len. apply (Hm p cs S Z). lia. Qed.
Lemma goes_pmap : forall A B n k (g : A -> B) (m : P A) (Q : A -> Prop), goes n k m Q -> goes n k (pmap g m) (fun b => exists a, b = g a /\ Q a).
Proof. intros A B n k g m Q Hm p cs S Z L. apply rv_pmap. eapply rv_imp; [exact (Hm p cs S Z L) | lia |]. cbv beta. eauto. Qed.
Lemma goes_start : forall A n k (m : P A) Q, (forall p cs, st cs 0 p -> (length cs <= n)%nat -> rv cs k Q (m p)) -> goes n k m Q.
Proof. intros A n k m Q Hm p cs S Z L. apply Hm; [exact (st_start p cs S Z) | exact L]. Qed.

(* tokens *)
Lemma eof_seen : forall p, lsrc (plex p) = src -> seen (eof_cursor p).
Proof.
  intros p E. unfold eof_cursor. rewrite E. set (c := Cursor (blen src) T_EOF).
  assert (Ec : cend c = blen src) by (unfold cend; cbn [coff ctok c]; destruct (_ =? _); [reflexivity | change (tlen T_EOF) with 0; lia]).
  assert (Et : text_end c = Some (blen src)) by (unfold text_end; rewrite Ec; change (trailing_len (ctok c)) with 0; rewrite N.sub_0_r; destruct (blen src <? 0) eqn:X; [lia | reflexivity]).
  assert (Es : text_start c = blen src) by (unfold text_start; change (leading_len (ctok c)) with 0; cbn [coff c]; lia).
  assert (Sl : slice src (blen src) (blen src) = Some []).
  { pose proof (layout_slice src [] [] [] []) as X. cbn [app blen] in X. rewrite !app_nil_r in X. rewrite !N.add_0_r in X. exact X. }
  split.
  - unfold text_readable, eq_ignore_ascii_case, parse_str_lower, parse_str, str_slice, span_contents, cspan. cbn [span_new sstart send]. rewrite Ec, Et, Es, ?Sl. cbn [coff c]. rewrite ?Sl.
    change (contains_escape_chars (ctok c)) with false. change (is_lower_case (ctok c)) with false. cbn [negb].
    split; [intro W; exfalso; change (kind_of c) with K_Eof in W; inversion W | split; [discriminate | split; [discriminate | discriminate]]].
  - intros _ (K & _); discriminate K.
Qed.
Lemma in_seen : forall p cs c, stands src f p cs -> In c cs -> seen c.
Proof. intros p cs c (_ & _ & _ & (F & _) & _) I. rewrite Forall_forall in F. exact (F c I). Qed.
Lemma stands_ahead : forall p cs, stands src f p cs -> ahead (plex p) cs.
Proof. intros p cs S. apply S. Qed.
Lemma skipped_G : forall p cs sk, stands src f p cs -> Forall (in_kinds (pskip p)) sk -> Forall G sk.
Proof. intros p cs sk (_ & _ & _ & _ & T) F. eapply Forall_impl; [| exact F]. intros c I. apply G_trivia. apply T. exact I. Qed.
Lemma supported_app : forall a b, supported src (a ++ b) -> supported src b.
Proof.
  intros a b (F & C). split; [apply Forall_app in F; apply F |]. intros X. destruct (C X) as (C1 & C2). split.
  - intros b1 at_ b2 c aft E. apply (C1 (a ++ b1) at_ b2 c aft). now rewrite E, <- app_assoc.
  - intros b1 at_ aft E. apply (C2 (a ++ b1) at_ aft). now rewrite E, <- app_assoc.
Qed.
Lemma peek_n_st : forall cs0 j p i, st cs0 j p -> 1 <= i -> exists c, peek_n p i = Some c /\ seen c.
Proof.
  intros cs0 j p i (u & c & E & L & F & S & Z) I. pose proof (stands_ahead _ _ S) as A. eexists. split; [exact (peek_n_spec p c i A I) |].
  destruct (nth_kept p c (N.to_nat i - 1)) as [-> | X]; [apply eof_seen; apply S | exact (in_seen p c _ S X)].
Qed.
Lemma peek_next_st : forall cs0 j p, st cs0 j p -> exists c, peek_next p = Some c /\ seen c /\ (kind_of c <> K_Eof -> H c).
Proof.
  intros cs0 j p (u & cs & E & L & F & S & Z). pose proof (stands_ahead _ _ S) as A. destruct (peeked p cs A) as (c & sk & rest & Ec & Fs & _ & Hc & Pn & _).
  exists c. split; [exact Pn |]. destruct rest as [| d rest]; cbn [hd_or_eof] in Hc; subst c.
  - split; [apply (eof_seen p); apply S | intro N; now elim N].
  - split; [apply (in_seen p cs _ S); rewrite Ec; apply in_or_app; right; now left |]. intros _. apply (Z sk d rest Ec). exact (skipped_G p cs sk S Fs).
Qed.
Lemma lost_peek_n : forall cs0 j p i, lost cs0 j p -> 1 <= i -> exists c, peek_n p i = Some c /\ seen c.
Proof.
  intros cs0 j p i (u & c & E & L & S) I. pose proof (stands_ahead _ _ S) as A. eexists. split; [exact (peek_n_spec p c i A I) |].
  destruct (nth_kept p c (N.to_nat i - 1)) as [-> | X]; [apply eof_seen; apply S | exact (in_seen p c _ S X)].
Qed.
Lemma lost_peek_next : forall cs0 j p, lost cs0 j p -> exists c, peek_next p = Some c /\ seen c.
Proof.
  intros cs0 j p (u & cs & E & L & S). pose proof (stands_ahead _ _ S) as A. destruct (peeked p cs A) as (c & sk & rest & Ec & Fs & _ & Hc & Pn & _).
  exists c. split; [exact Pn |]. destruct rest as [| d rest]; cbn [hd_or_eof] in Hc; subst c.
  - apply (eof_seen p); apply S.
  - apply (in_seen p cs _ S); rewrite Ec; apply in_or_app; right; now left.
Qed.
Lemma peek_st : forall cs0 j p k, st cs0 j p -> whole k -> exists b c, peek k p = Some b /\ peek_next p = Some c /\ k p c = Some b /\ seen c /\ (kind_of c <> K_Eof -> H c).
Proof.
  intros cs0 j p k S W. destruct (peek_next_st _ _ _ S) as (c & E & Sc & Hc). destruct (st_stands _ _ _ S) as (cs & S' & _). pose proof (W p cs c S' Sc) as N. unfold peek. rewrite E.
  destruct (k p c) as [b |] eqn:Ek; [| congruence]. exists b, c. auto.
Qed.
Lemma next_st : forall cs0 j p, st cs0 j p -> exists c q, next p = Some (c, q) /\ peek_next p = Some c /\ seen c /\ lost cs0 j q /\ pskip q = pskip p /\
  (kind_of c <> K_Eof -> G c -> st cs0 (j + 1) q).
Proof.
  intros cs0 j p S0. pose proof S0 as (u & cs & E & L & F & S & Z). pose proof (stands_ahead _ _ S) as A. destruct (next_total p cs A) as (c & q & sk & rest & N & Ec & Fs & St & Hc & _ & A' & Se).
  destruct (peeked p cs A) as (c' & sk' & rest' & Ec' & Fs' & St' & Hc' & Pn & _).
  assert (X : rest' = rest /\ sk' = sk).
  { assert (Y : kept (pskip p) cs = kept (pskip p) cs) by reflexivity. clear -Ec Ec' Fs Fs' St St'. rewrite Ec in Ec'. clear Ec. revert sk' Fs' Ec'. induction Fs as [| a sk Ha Fs IH]; intros sk' Fs' E.
    - destruct Fs' as [| b sk' Hb Fs']; [auto |]. cbn [app] in E. subst rest. cbn in St. contradiction.
    - destruct Fs' as [| b sk' Hb Fs']; cbn [app] in E; [subst rest'; cbn in St'; contradiction |]. injection E as -> E. destruct (IH sk' Fs' E) as (-> & ->). auto. }
  destruct X as (-> & ->). rewrite <- Hc in Hc'. subst c'. destruct Se as (_ & _ & Sk & _ & S1 & S2). destruct S as (S3 & S4 & S5 & S6 & S7).
  assert (Sup : supported src (tl rest)).
  { destruct rest as [| d rest]; [apply (supported_app cs []); now rewrite app_nil_r |]. apply (supported_app (sk ++ [d])). rewrite <- app_assoc. cbn [app tl]. now rewrite <- Ec. }
  assert (Sq : stands src f q (tl rest)).
  { unfold stands. rewrite S1, S2, Sk. auto. }
  exists c, q. split; [exact N |]. split; [exact Pn |]. split.
  { destruct rest as [| d rest]; cbn [hd_or_eof] in Hc; subst c; [apply (eof_seen p); exact S3 |]. destruct S6 as (S6 & _). rewrite Forall_forall in S6. refine (S6 d _). rewrite Ec. apply in_or_app. right. now left. }
  split. { exists (u ++ sk ++ firstn 1 rest), (tl rest). rewrite E, Ec, !app_length. split; [destruct rest; cbn [firstn tl app]; rewrite ?app_nil_r, <- ?app_assoc; reflexivity |]. split; [lia | exact Sq]. }
  split; [exact Sk |].
  intros K Gc. destruct rest as [| d rest]; [subst c; now elim K |]. cbn [hd_or_eof] in Hc. subst d. cbn [tl] in *.
  assert (Fk : Forall G sk) by (eapply Forall_impl; [| exact Fs]; intros d I; apply G_trivia, S7; exact I).
  assert (Fn : Forall G (sk ++ [c])) by (apply Forall_app; auto).
  exists (u ++ sk ++ [c]), rest. rewrite E, Ec, !app_length. split; [rewrite <- !app_assoc; reflexivity |]. split; [cbn [length]; lia |]. split; [apply Forall_app; auto |]. split; [exact Sq |].
  apply (zone_app (sk ++ [c])); [| exact Fn]. rewrite <- app_assoc. cbn [app]. now rewrite <- Ec.
Qed.

(* peekers *)
Lemma whole_kind : forall k, whole (peek_kind k).
Proof. intros k p cs c _ _. discriminate. Qed.
Lemma whole_kindset : forall k, whole (peek_kindset k).
Proof. intros k p cs c _ _. discriminate. Qed.
Lemma whole_delim : forall k, whole (peek_delim k).
Proof. intros k p cs c _ _. discriminate. Qed.
Lemma whole_dashed : whole peek_dashed_ident.
Proof. intros p cs c _ _. discriminate. Qed.
Lemma tok_worded : forall c k, tok_is (ctok c) k = true -> wordy k -> wordy (kind_of c).
Proof. intros c k T W. unfold tok_is in T. apply N.eqb_eq in T. unfold kind_of, tkind. rewrite T. destruct k; exact W. Qed.
Lemma lower_seen : forall c, seen c -> wordy (kind_of c) -> exists w, parse_str_lower c src = Some w.
Proof. intros c ((X & _) & _) W. destruct (X W) as (_ & X'). clear X. destruct (parse_str_lower c src) as [w |]; [exists w; reflexivity | elim X'; reflexivity]. Qed.
Lemma str_seen : forall c, seen c -> exists w, parse_str c src = Some w.
Proof. intros c ((_ & X & _) & _). destruct (parse_str c src) as [w |]; [now exists w | now elim X]. Qed.
Lemma slice_seen : forall c, seen c -> exists w, str_slice c src = Some w.
Proof. intros c ((_ & _ & X & _) & _). destruct (str_slice c src) as [w |]; [now exists w | now elim X]. Qed.
Lemma eq_seen : forall c w, seen c -> wordy (kind_of c) -> exists b, eq_ignore_ascii_case c src w = Some b.
Proof. intros c w ((X & _) & _) W. destruct (X W) as (X' & _). clear X. specialize (X' w). destruct (eq_ignore_ascii_case c src w) as [b |]; [exists b; reflexivity | elim X'; reflexivity]. Qed.
Lemma look_seen : forall V (m : list (text * V)) p cs c, stands src f p cs -> seen c -> wordy (kind_of c) -> exists o, look_up m p c = Some o.
Proof. intros V m p cs c (E & _) S W. unfold look_up. rewrite E. destruct (lower_seen c S W) as (w & ->). eauto. Qed.
Lemma whole_set : forall V k (m : list (text * V)), wordy k -> whole (peek_set k m).
Proof. intros V k m W p cs c S Sc. unfold peek_set. destruct (tok_is (ctok c) k) eqn:T; [| discriminate]. destruct (look_seen V m p cs c S Sc (tok_worded _ _ T W)) as (o & ->). discriminate. Qed.
Lemma peek_n_stands : forall p cs i, stands src f p cs -> 1 <= i -> exists c, peek_n p i = Some c /\ seen c.
Proof. intros p cs i S I. apply (lost_peek_n cs 0 p i); [exists [], cs; auto | exact I]. Qed.
Lemma whole_double : forall a b, whole (peek_double a b).
Proof. intros a b p cs c S _. unfold peek_double. destruct (tok_is_char _ _); [| discriminate]. destruct (peek_n_stands p cs 2 S ltac:(lia)) as (d & -> & _). discriminate. Qed.
Lemma whole_colon_colon : whole peek_colon_colon.
Proof. intros p cs c S _. unfold peek_colon_colon. destruct (tok_is _ _); [| discriminate]. destruct (peek_n_stands p cs 2 S ltac:(lia)) as (d & -> & _). discriminate. Qed.
Lemma whole_important : whole peek_important.
Proof.
  intros p cs c S _. unfold peek_important. destruct (_ && _); [| discriminate]. destruct (peek_n_stands p cs 2 S ltac:(lia)) as (d & -> & Sd). destruct (tok_is _ _) eqn:T; [| discriminate].
  destruct (eq_seen d IMPORTANT Sd (tok_worded _ _ T ltac:(constructor))) as (b & E). destruct S as (-> & _). congruence.
Qed.
Lemma whole_declaration : whole peek_declaration.
Proof. intros p cs c S _. unfold peek_declaration. destruct (tok_is _ _); [| discriminate]. destruct (peek_n_stands p cs 2 S ltac:(lia)) as (d & -> & Sd). discriminate. Qed.
Lemma whole_dimension : forall u w, whole (peek_dimension u w).
Proof. intros u w p cs c S Sc. unfold peek_dimension. destruct (tok_is _ _) eqn:T; [| discriminate]. destruct (unit_eqb _ _); [discriminate |]. destruct (eq_seen c w Sc (tok_worded _ _ T ltac:(constructor))) as (b & E). destruct S as (-> & _). congruence. Qed.
Lemma whole_any : forall l, Forall whole l -> whole (any_peek l).
Proof. intros l F. induction F as [| k l Wk F IH]; intros p cs c S Sc; [discriminate |]. cbn [any_peek]. pose proof (Wk p cs c S Sc). destruct (k p c) as [[] |]; [discriminate | exact (IH p cs c S Sc) | exact H0]. Qed.
Lemma whole_pseudo_class : forall V (m : list (text * V)), whole (peek_pseudo_class m).
Proof. intros V m p cs c S Sc. unfold peek_pseudo_class. destruct (peek_n_stands p cs 2 S ltac:(lia)) as (d & -> & Sd). destruct (tok_is _ _); [refine (whole_set _ _ _ _ p cs d S Sd); constructor | discriminate]. Qed.
Lemma whole_whitespace : forall cs0 j p, lost cs0 j p -> exists b, peek peek_whitespace p = Some b.
Proof. intros cs0 j p (u & cs & _ & _ & S). pose proof (peek_whitespace_total p cs (stands_ahead _ _ S)). destruct (peek peek_whitespace p); [eauto | congruence]. Qed.

(* single tokens *)
Lemma seen_kind : forall c k, seen c -> tok_is (ctok c) k = true -> k <> K_Eof -> kind_of c <> K_Eof -> kind_of c = k.
Proof. intros c k _ T _ N. apply tok_is_kind; [apply wf_of_kind; exact N | exact T]. Qed.
Lemma tok_is_not_eof : forall c k, tok_is (ctok c) k = true -> ctok c = T_EOF \/ kind_of c <> K_Eof -> k <> K_Eof -> kind_of c = k /\ kind_of c <> K_Eof.
Proof.
  intros c k T [E | N] K.
  - exfalso. rewrite E in T. rewrite tok_is_eof in T by exact K. discriminate.
  - split; [apply tok_is_kind; [apply wf_of_kind; exact N | exact T] | exact N].
Qed.
Lemma next_eof : forall cs0 j p, st cs0 j p -> exists c q, next p = Some (c, q) /\ peek_next p = Some c /\ seen c /\ lost cs0 j q /\ pskip q = pskip p /\
  (ctok c = T_EOF \/ kind_of c <> K_Eof) /\ (kind_of c <> K_Eof -> G c -> st cs0 (j + 1) q).
Proof.
  intros cs0 j p S. destruct (next_st _ _ _ S) as (c & q & N & Pn & Sc & L & Sk & X). exists c, q. repeat (split; [assumption |]). split; [| exact X].
  destruct S as (u & cs & _ & _ & _ & S & _). destruct (peeked p cs (stands_ahead _ _ S)) as (c' & sk & rest & Ec & _ & _ & Hc & Pn' & _). rewrite Pn in Pn'. injection Pn' as <-.
  destruct rest as [| d rest]; cbn [hd_or_eof] in Hc; subst c; [now left | right]. apply (ahead_kind _ _ (stands_ahead _ _ S)). rewrite Ec. apply in_or_app. right. now left.
Qed.
(* [k] accepts no end of file, and only tokens that may be read *)
Definition allowed (k : peeker) : Prop := forall p c, seen c -> k p c = Some true -> ctok c = T_EOF \/ kind_of c <> K_Eof -> kind_of c <> K_Eof /\ G c.
Lemma allowed_kind : forall k, k <> K_Eof -> (forall c, kind_of c = k -> G c) -> allowed (peek_kind k).
Proof. intros k N Hk p c S T X. unfold peek_kind in T. apply some_inj in T. destruct (tok_is_not_eof c k T X N) as (E & E'). auto. Qed.
Lemma allowed_delim : forall k, (forall c, kind_of c = K_Delim -> G c) -> allowed (peek_delim k).
Proof. intros k Hk p c S T X. unfold peek_delim in T. apply some_inj in T. apply andb_prop in T. destruct (tok_is_not_eof c K_Delim (proj1 T) X ltac:(discriminate)) as (E & E'). auto. Qed.
Lemma allowed_dashed : (forall c, kind_of c = K_Ident -> G c) -> allowed peek_dashed_ident.
Proof. intros Hk p c S T X. unfold peek_dashed_ident in T. apply some_inj in T. apply andb_prop in T. destruct (tok_is_not_eof c K_Ident (proj1 T) X ltac:(discriminate)) as (E & E'). auto. Qed.
Lemma allowed_set : forall V k (m : list (text * V)), k <> K_Eof -> (forall c, kind_of c = k -> G c) -> allowed (peek_set k m).
Proof. intros V k m N Hk p c S T X. unfold peek_set in T. destruct (tok_is (ctok c) k) eqn:E; [| discriminate]. destruct (tok_is_not_eof c k E X N) as (E1 & E2). auto. Qed.
Lemma allowed_dimension : forall u w, (forall c, kind_of c = K_Dimension -> G c) -> allowed (peek_dimension u w).
Proof. intros u w Hk p c S T X. unfold peek_dimension in T. destruct (tok_is (ctok c) K_Dimension) eqn:E; [| discriminate]. destruct (tok_is_not_eof c _ E X ltac:(discriminate)) as (E1 & E2). auto. Qed.
Lemma allowed_any : forall l, Forall allowed l -> allowed (any_peek l).
Proof. intros l F. induction F as [| k l Wk F IH]; intros p c S T X; [discriminate |]. cbn [any_peek] in T. destruct (k p c) as [[] |] eqn:E; [exact (Wk p c S E X) | exact (IH p c S T X) | discriminate]. Qed.
Lemma goes_built : forall A n (k : peeker) (build : parser -> cursor -> option A) (R : A -> Prop), whole k -> allowed k ->
  (forall p q cs c, stands src f q cs -> seen c -> k p c = Some true -> lsrc (plex p) = src -> kind_of c <> K_Eof -> exists a, build q c = Some a /\ R a) -> goes n 1 (parse_built k build) R.
Proof.
  intros A n k build R W Al B. apply goes_start. intros p cs S _. unfold parse_built. destruct (peek_st _ _ _ k S W) as (b & c & Pk & Pn & Kc & Sc & _). rewrite Pk.
  destruct (next_eof _ _ _ S) as (c' & q & N & Pn' & _ & L & _ & X & Y). rewrite N. rewrite Pn in Pn'. injection Pn' as <-. destruct b.
  - destruct (Al p c Sc Kc X) as (E & Gc). specialize (Y E Gc). destruct (st_stands _ _ _ Y) as (cs' & Sq & _). destruct (B p q cs' c Sq Sc Kc (st_src _ _ _ S) E) as (a & -> & Ra). exact (rv_ok _ _ _ _ _ _ _ Y (le_n _) Ra).
  - exact (rv_err _ _ _ _ _ _ _ L).
Qed.
Lemma goes_single : forall A n (k : peeker) (b : cursor -> A), whole k -> allowed k -> goes n 1 (parse_single k b) (fun a => exists c p, a = b c /\ seen c /\ kind_of c <> K_Eof /\ k p c = Some true /\ lsrc (plex p) = src).
Proof.
  intros A n k b W Al. apply (goes_built A n k (fun _ c => Some (b c))); [exact W | exact Al |]. intros p q cs c _ Sc Kc Ep Kn. eexists. split; [reflexivity |]. exists c, p. auto.
Qed.
Lemma goes_kind : forall n k, k <> K_Eof -> (forall c, kind_of c = k -> G c) -> goes n 1 (parse_kind k) (fun c => seen c /\ kind_of c = k).
Proof.
  intros n k N Hk. eapply goes_imp; [apply goes_single; [apply whole_kind | exact (allowed_kind k N Hk)] | lia |]. intros c (d & p & -> & Sc & Nc & T & _). split; [exact Sc |].
  unfold peek_kind in T. apply some_inj in T. exact (seen_kind d k Sc T N Nc).
Qed.
Lemma goes_delim : forall n ch, (forall c, kind_of c = K_Delim -> G c) -> goes n 1 (parse_delim ch) (fun c => seen c /\ kind_of c = K_Delim).
Proof.
  intros n k Hk. eapply goes_imp; [apply goes_single; [apply whole_delim | exact (allowed_delim k Hk)] | lia |]. intros c (d & p & -> & Sc & Nc & T & _). split; [exact Sc |].
  unfold peek_delim in T. apply some_inj in T. apply andb_prop in T. exact (seen_kind d _ Sc (proj1 T) ltac:(discriminate) Nc).
Qed.
Lemma goes_dashed : forall n, (forall c, kind_of c = K_Ident -> G c) -> goes n 1 parse_dashed_ident (fun c => seen c /\ kind_of c = K_Ident).
Proof.
  intros n Hk. eapply goes_imp; [apply goes_single; [apply whole_dashed | exact (allowed_dashed Hk)] | lia |]. intros c (d & p & -> & Sc & Nc & T & _). split; [exact Sc |].
  unfold peek_dashed_ident in T. apply some_inj in T. apply andb_prop in T. exact (seen_kind d _ Sc (proj1 T) ltac:(discriminate) Nc).
Qed.
Lemma map_get_in : forall V (m : list (text * V)) w v, map_get m w = Some v -> In (w, v) m.
Proof. intros V m w v. induction m as [| (k, x) m IH]; cbn [map_get]; [discriminate |]. destruct (text_eqb k w) eqn:E; [intros [= ->]; left; apply text_eqb_spec in E; now subst | right; auto]. Qed.
Definition word_of {V} (k : kind) (m : list (text * V)) (x : V * cursor) : Prop := seen (snd x) /\ kind_of (snd x) = k /\ exists w, parse_str_lower (snd x) src = Some w /\ In (w, fst x) m.
Lemma peeked_set : forall V k (m : list (text * V)) p c, lsrc (plex p) = src -> peek_set k m p c = Some true -> tok_is (ctok c) k = true /\ exists w v, parse_str_lower c src = Some w /\ map_get m w = Some v.
Proof.
  intros V k m p c E T. unfold peek_set in T. destruct (tok_is (ctok c) k); [| discriminate]. split; [reflexivity |]. unfold look_up in T. rewrite E in T. destruct (parse_str_lower c src) as [w |]; [| discriminate].
  destruct (map_get m w) as [v |] eqn:Em; [| discriminate]. eauto.
Qed.
Lemma build_seen : forall V k (m : list (text * V)) p q cs c, lsrc (plex p) = src -> peek_set k m p c = Some true -> stands src f q cs -> exists v w, build_set m q c = Some (v, c) /\ parse_str_lower c src = Some w /\ In (w, v) m.
Proof.
  intros V k m p q cs c E T S. destruct (peeked_set _ _ _ _ _ E T) as (_ & w & v & El & Em). exists v, w. unfold build_set, look_up. destruct S as (-> & _). rewrite El, Em. auto using map_get_in.
Qed.
Lemma goes_set : forall V n k (m : list (text * V)), wordy k -> k <> K_Eof -> (forall c, kind_of c = k -> G c) -> goes n 1 (parse_set k m) (word_of k m).
Proof.
  intros V n k m Wk N Hk. change (parse_set k m) with (parse_built (peek_set k m) (build_set m)). apply goes_built; [apply whole_set; exact Wk | exact (allowed_set V k m N Hk) |].
  intros p q cs c Sq Sc T Ep Kn. destruct (build_seen _ _ _ _ _ _ _ Ep T Sq) as (v & w & B & L & I). exists (v, c). split; [exact B |]. split; [exact Sc |]. split; [| exists w; auto].
  exact (seen_kind c k Sc (proj1 (peeked_set _ _ _ _ _ Ep T)) N Kn).
Qed.
End Logic.
