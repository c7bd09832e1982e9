From Coq Require Import ZifyBool ZifyNat ZifyN.
From Coq Require Import List.
From Verif Require Import Features SpecLex SpecTrace SpecParser SpecSyntax SpecTraits SpecFeatures SpecToken LexBase TokenProofs KindProofs LexFacts LexTrace
  ParserProofs ParserProofs2 ParserProofs3 ParserProofs4 CompareProofs SyntaxProofs SyntaxTotal TraitsTotal CursorProofs FeatureProofs FeatureProofs2 FeatureProofs3.
Open Scope N_scope.
Open Scope list_scope.

(* ---- every run returns ---- *)
Lemma runs_le : forall A (m : P A) j k n, (j <= k)%nat -> well_behaving k n m -> well_behaving j n m.
Proof. intros A m j k n L H p cs U A' Ln. exact (run_weaken _ _ j k p L (H p cs U A' Ln)). Qed.
Lemma runs_fewer : forall A (m : P A) k n n', (n' <= n)%nat -> well_behaving k n m -> well_behaving k n' m.
Proof. intros A m k n n' L H p cs U A' Ln. apply (H p cs U A'). lia. Qed.
Lemma runs_bind : forall A B (m : P A) (f : A -> P B) j k n, well_behaving j n m -> (forall a, well_behaving (k - j) (n - j) (f a)) -> well_behaving k n (bind m f).
Proof.
  intros A B m f j k n Hm Hf p cs U A' L. apply (run_bind _ _ _ _ j); [exact (Hm p cs U A' L) |]. intros a q _ M. destruct (moved_usable_len _ _ _ cs M U A') as (Uq & cs1 & A1 & L1).
  apply (Hf a q cs1 Uq A1). lia.
Qed.
Lemma runs_ret : forall A (a : A) n, well_behaving 0 n (ret a).
Proof. intros A a n p cs _ A' _. exact (run_ret _ _ p cs A'). Qed.
Lemma runs_kind : forall k n, k <> K_Eof -> well_behaving 1 n (parse_kind k).
Proof. intros k n N p cs _ A' _. exact (run_kind k p cs N A'). Qed.
Lemma runs_or : forall A c (m e : P A) k n, peeks n c -> well_behaving k n m -> well_behaving k n e -> well_behaving k n (or_peek c m e).
Proof. intros A c m e k n Hc Hm He p cs U A' L. apply run_or_peek; [exact (Hc p cs U A' L) | intros _; exact (Hm p cs U A' L) | intros _; exact (He p cs U A' L)]. Qed.
Lemma runs_if : forall A c (m : P A) k n, peeks n c -> well_behaving k n m -> well_behaving 0 n (parse_if_peek c m).
Proof. intros A c m k n Hc Hm p cs U A' L. apply (run_if_peek _ _ _ p cs A'); [exact (Hc p cs U A' L) |]. intros _. apply (run_weaken _ _ 0 k); [lia |]. exact (Hm p cs U A' L). Qed.
Lemma runs_pmap : forall A B (g : A -> B) m k n, well_behaving k n m -> well_behaving k n (pmap g m).
Proof. intros A B g m k n H p cs U A' L. apply run_pmap. exact (H p cs U A' L). Qed.
Lemma peeks_of_kind : forall k n, peeks n (peek_kind k).
Proof. intros k n p cs _ A' _. exact (peek_kind_total k p cs A'). Qed.
Lemma runs_any : forall n, well_behaving 0 n parse_any.
Proof. intros n p cs U A' L. apply run_okay. apply (okay_single _ _ _ p cs A'). apply (peek_total_of _ p cs A'). discriminate. Qed.
Lemma runs_double : forall a b n, well_behaving 2 n (parse_double a b).
Proof.
  intros a b n p cs U A' L. unfold parse_double. apply (run_bind _ _ _ _ 1); [exact (run_kind K_Delim p cs ltac:(discriminate) A') |]. intros c q _ M. destruct (moved_right _ _ _ M) as (cs1 & A1).
  destruct (negb (tok_is_char (ctok c) a)); [exact (run_fail _ _ _ q cs1 A1) |]. destruct (unskipped_runs K_Delim q cs1 ltac:(discriminate) A1) as (r & q1 & E & M1). unfold unskipped in E. unfold well_run.
  destruct (parse_kind K_Delim (set_skip q KS_NONE)) as [[r' q2] |]; [| discriminate]. injection E as -> <-. cbv zeta. destruct r as [d | e]; [| eexists _, _; split; [reflexivity | exact M1]].
  destruct (negb (tok_is_char (ctok d) b)); eexists _, _; (split; [reflexivity |]); [exact (moved_weaken _ _ _ M1) | exact M1].
Qed.
Lemma runs_delim : forall a n, well_behaving 1 n (parse_delim a).
Proof.
  intros a n p cs U A' L. destruct (okay_single cursor (peek_delim a) (fun c => c) p cs A') as (r & q & E & M); [apply (peek_total_of _ p cs A'); discriminate |]. fold (parse_delim a) in E.
  exists r, q. split; [exact E |]. destruct r as [c | e]; [| exact M]. exact (moved_took _ _ _ (proj2 (parse_delim_inv a p cs c q A' E))).
Qed.
Lemma peeks_double : forall a b p cs, ahead (plex p) cs -> peek (peek_double a b) p <> None.
Proof. intros a b p cs A'. apply (peek_total_of _ p cs A'). intros c. unfold peek_double. destruct (tok_is_char _ _); [| discriminate]. destruct (peek_n_total p cs 2 ltac:(lia) A') as (d & ->). discriminate. Qed.
Theorem comparison_runs : forall n, well_behaving 1 n parse_comparison.
Proof.
  intros n p cs U A' L. unfold well_run, parse_comparison. destruct (peek_next_total p cs A') as (c & ->). pose proof (moved_refl p cs A') as M0.
  assert (D : forall X (m : P X) (g : X -> comparison_t) j, (1 <= j)%nat -> well_behaving j n m -> well_run 1 (pmap g m) p).
  { intros X m g j Lj H. apply run_pmap. apply (run_weaken _ _ 1 j); [exact Lj |]. exact (H p cs U A' L). }
  destruct (tchar (ctok c)) as [ch |]; [| eexists _, p; split; [reflexivity | exact M0]].
  destruct (ch =? 61); [exact (D _ _ _ 1%nat ltac:(lia) (runs_delim _ n)) |]. destruct (ch =? 62).
  { pose proof (peeks_double 62 61 p cs A') as Np. destruct (peek (peek_double 62 61) p) as [[] |]; [| | congruence]; [exact (D _ _ _ 2%nat ltac:(lia) (runs_double _ _ n)) | exact (D _ _ _ 1%nat ltac:(lia) (runs_delim _ n))]. }
  destruct (ch =? 60).
  { pose proof (peeks_double 60 61 p cs A') as Np. destruct (peek (peek_double 60 61) p) as [[] |]; [| | congruence]; [exact (D _ _ _ 2%nat ltac:(lia) (runs_double _ _ n)) | exact (D _ _ _ 1%nat ltac:(lia) (runs_delim _ n))]. }
  eexists _, p. split; [reflexivity | exact M0].
Qed.

Lemma run_fail_text : forall A code c p cs k, usable p -> ahead (plex p) cs -> (exists t, parse_str c (lsrc (plex p)) = Some t) -> well_run k (@fail_text A code c) p.
Proof. intros A code c p cs k U A' (t & E). unfold well_run, fail_text. rewrite E. eexists _, p. split; [reflexivity | exact (moved_refl p cs A')]. Qed.
Lemma taken_readable : forall p q cs c, usable p -> ahead (plex p) cs -> took p q [c] -> is_name (kind_of c) ->
  (forall w, exists b, eq_ignore_ascii_case c (lsrc (plex q)) w = Some b) /\ exists t, parse_str c (lsrc (plex q)) = Some t.
Proof. intros p q cs c (_ & Nr) A' T K. rewrite (took_src _ _ _ T). destruct (Nr cs c A' (took_in p q cs c A' T) K) as (E & V & _). auto. Qed.
Theorem discrete_runs : forall V name (value_p : P V) n, (forall m, (m < n)%nat -> well_behaving 0 m value_p) -> well_behaving 3 n (discrete_feature_t name value_p).
Proof.
  intros V name value_p n Hv p cs U A' L. unfold discrete_feature_t. apply (run_bind _ _ _ _ 1); [exact (run_kind K_LeftParen p cs ltac:(discriminate) A') |]. intros open p1 _ M1.
  destruct (moved_usable_len _ _ _ cs M1 U A') as (U1 & cs1 & A1 & L1).
  apply (run_bind _ _ _ _ 1); [exact (run_kind K_Ident p1 cs1 ltac:(discriminate) A1) |]. intros ident p2 E2 M2. destruct (moved_usable_len _ _ _ cs1 M2 U1 A1) as (U2 & cs2 & A2 & L2).
  destruct (parse_kind_inv K_Ident p1 cs1 ident p2 ltac:(discriminate) A1 E2) as (T2 & K2). destruct (taken_readable p1 p2 cs1 ident U1 A1 T2) as (Eq & St); [rewrite K2; now left |].
  apply (run_bind _ _ _ _ 0).
  - destruct (Eq name) as (b & Eb). unfold well_run, check_name. rewrite Eb. destruct b; [eexists _, p2; split; [reflexivity | exact (moved_refl p2 cs2 A2)] | exact (run_fail_text _ _ _ p2 cs2 0 U2 A2 St)].
  - intros u p3 _ M3. destruct (moved_usable_len _ _ _ cs2 M3 U2 A2) as (U3 & cs3 & A3 & L3). change (3 - 1 - 1 - 0)%nat with 1%nat.
    assert (W : well_behaving 1 (length cs3) (or_peek (peek_kind K_Colon)
      (bind (parse_kind K_Colon) (fun colon => bind value_p (fun value => bind (parse_kind K_RightParen) (fun close => ret (Features.Plain open ident (Some (colon, value)) close)))))
      (bind (parse_kind K_RightParen) (fun close => ret (Features.Plain open ident None close))))).
    { apply runs_or; [apply peeks_of_kind | |].
      - apply (runs_bind _ _ _ _ 1); [apply runs_kind; discriminate |]. intro colon. apply (runs_bind _ _ _ _ 0); [apply Hv; lia |]. intro v. apply (runs_le _ _ 0 1); [lia |].
        apply (runs_bind _ _ _ _ 1); [apply runs_kind; discriminate |]. intro. apply runs_ret.
      - apply (runs_bind _ _ _ _ 1); [apply runs_kind; discriminate |]. intro. apply runs_ret. }
    apply (W p3 cs3 U3 A3). lia.
Qed.
Theorem boolean_runs : forall name n, well_behaving 3 n (boolean_feature_t name).
Proof. intros name n. apply discrete_runs. intros m _. apply runs_any. Qed.

Theorem ranged_runs : forall F V peek_name (name_p : P F) legacy (value_p : P V) n,
  (forall m, (m < n)%nat -> peeks m peek_name /\ well_behaving 0 m name_p /\ well_behaving 0 m value_p) ->
  (* where the name is peeked, it is a token whose text can be read *)
  (forall p c cs, usable p -> ahead (plex p) cs -> peek_next p = Some c -> peek peek_name p = Some true -> is_name (kind_of c)) ->
  well_behaving 2 n (ranged_feature_t peek_name name_p legacy value_p).
Proof.
  intros F V peek_name name_p legacy value_p n H Hn p cs U A' L. unfold ranged_feature_t. apply (run_bind _ _ _ _ 1); [exact (run_kind K_LeftParen p cs ltac:(discriminate) A') |]. intros open p1 _ M1.
  destruct (moved_usable_len _ _ _ cs M1 U A') as (U1 & cs1 & A1 & L1). destruct (H (length cs1) ltac:(lia)) as (Hp & Hnm & Hv). change (2 - 1)%nat with 1%nat.
  unfold well_run. destruct (peek_next_total p1 cs1 A1) as (c & Ec). rewrite Ec.
  apply (run_bind _ _ _ _ 0); [exact (runs_if _ _ _ 0 _ Hp Hnm p1 cs1 U1 A1 (le_n _)) |]. intros o p2 E2 M2. destruct (moved_usable_len _ _ _ cs1 M2 U1 A1) as (U2 & cs2 & A2 & L2).
  assert (V2 : forall m, (m <= length cs1)%nat -> well_behaving 0 m value_p) by (intros m Lm; exact (runs_fewer _ _ _ _ _ Lm Hv)).
  assert (N2 : forall m, (m <= length cs1)%nat -> well_behaving 0 m name_p) by (intros m Lm; exact (runs_fewer _ _ _ _ _ Lm Hnm)).
  assert (Close : forall X (g : cursor -> X) m, well_behaving 1 m (bind (parse_kind K_RightParen) (fun close => ret (g close)))).
  { intros X g m. apply (runs_bind _ _ _ _ 1); [apply runs_kind; discriminate |]. intro. apply runs_ret. }
  change (1 - 0)%nat with 1%nat. destruct o as [name |].
  - assert (W : well_behaving 1 (length cs2) (bind (parse_kind K_Colon) (fun colon => bind value_p (fun value => bind (parse_kind K_RightParen) (fun close => ret (RLegacy open name colon value close)))))).
    { apply (runs_bind _ _ _ _ 1); [apply runs_kind; discriminate |]. intro colon. apply (runs_bind _ _ _ _ 0); [apply V2; lia |]. intro v. apply (runs_le _ _ 0 1); [lia |]. apply Close. }
    apply run_or_peek; [exact (peek_kind_total _ p2 cs2 A2) | intros _; exact (W p2 cs2 U2 A2 (le_n _)) |]. intros _. destruct (legacy name).
    + apply (run_fail_text _ _ _ p2 cs2 1 U2 A2). assert (Pk : peek peek_name p1 = Some true).
      { unfold parse_if_peek in E2. destruct (peek peek_name p1) as [[] |]; [reflexivity | discriminate | discriminate]. }
      pose proof (Hn p1 c cs1 U1 A1 Ec Pk) as K. destruct M2 as (u & r & _ & _ & _ & (_ & _ & _ & Es & _)). rewrite Es. assert (I : In c cs1).
      { destruct (skip_split (pskip p1) cs1) as (sk & r' & -> & F' & St). rewrite (peek_next_spec p1 sk r' A1 F' St) in Ec. injection Ec as <-. apply in_or_app. right. destruct r' as [| d r']; [| now left].
        exfalso. cbn in K. unfold is_name, kind_of in K. cbn in K. intuition discriminate. }
      exact (proj1 (proj2 (proj2 U1 cs1 c A1 I K))).
    + assert (W2 : well_behaving 1 (length cs2) (bind parse_comparison (fun cmp => bind value_p (fun value => bind (parse_kind K_RightParen) (fun close => ret (RLeft open name cmp value close)))))).
      { apply (runs_bind _ _ _ _ 1); [apply comparison_runs |]. intro cmp. apply (runs_bind _ _ _ _ 0); [apply V2; lia |]. intro v. apply (runs_le _ _ 0 1); [lia |]. apply Close. }
      exact (W2 p2 cs2 U2 A2 (le_n _)).
  - apply (run_bind _ _ _ _ 0); [exact (V2 (length cs2) ltac:(lia) p2 cs2 U2 A2 (le_n _)) |]. intros lv p3 _ M3. destruct (moved_usable_len _ _ _ cs2 M3 U2 A2) as (U3 & cs3 & A3 & L3).
    apply (run_bind _ _ _ _ 1); [exact (comparison_runs _ p3 cs3 U3 A3 (le_n _)) |]. intros lc p4 _ M4. destruct (moved_usable_len _ _ _ cs3 M4 U3 A3) as (U4 & cs4 & A4 & L4).
    change (1 - 0 - 1)%nat with 0%nat. unfold well_run. destruct (peek_next_total p4 cs4 A4) as (c4 & ->).
    apply (run_bind _ _ _ _ 0); [exact (N2 (length cs4) ltac:(lia) p4 cs4 U4 A4 (le_n _)) |]. intros name p5 _ M5. destruct (moved_usable_len _ _ _ cs4 M5 U4 A4) as (U5 & cs5 & A5 & L5).
    destruct (legacy name); [exact (run_fail _ _ _ p5 cs5 A5) |].
    assert (W : well_behaving 0 (length cs5) (or_peek (peek_kind K_Delim) (bind parse_comparison (fun rcmp => bind value_p (fun rv => bind (parse_kind K_RightParen) (fun close => ret (RRange open lv lc name rcmp rv close)))))
      (bind (parse_kind K_RightParen) (fun close => ret (RRight open lv lc name close))))).
    { apply runs_or; [apply peeks_of_kind | | apply (runs_le _ _ 0 1); [lia | apply Close]]. apply (runs_le _ _ 0 1); [lia |].
      apply (runs_bind _ _ _ _ 1); [apply comparison_runs |]. intro cmp. apply (runs_bind _ _ _ _ 0); [apply V2; lia |]. intro v. apply (runs_le _ _ 0 1); [lia |]. apply Close. }
    exact (W p5 cs5 U5 A5 (le_n _)).
Qed.
