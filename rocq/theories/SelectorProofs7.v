(* Selectors: An+B, languages, parts, and the functional pseudo-classes and pseudo-elements. *)
From Coq Require Import ZifyBool ZifyNat ZifyN.
From Coq Require Import List.
From Verif Require Import Selectors SpecLex SpecTrace SpecParser SpecSyntax SpecTraits SpecFeatures SpecSelectors SpecCursor SpecToken LexBase TokenProofs KindProofs LexFacts LexTrace CursorProofs
  ParserProofs ParserProofs2 ParserProofs3 ParserProofs4 CompareProofs SyntaxProofs SyntaxTotal TraitsTotal RulesTotal FeatureProofs FeatureProofs2 FeatureProofs3 FeatureProofs4 FeatureProofs5 FeatureProofs6 SelectorProofs SelectorProofs2 SelectorProofs3 SelectorProofs4 SelectorProofs5 SelectorProofs6.
Open Scope N_scope.
Open Scope list_scope.

(* ---- An+B ---- *)
Lemma peek_any_kind : forall k p, ready p -> peek (peek_kind k) p <> None.
Proof. intros k p R. destruct (ready_ahead p R) as (cs & A). exact (peek_kind_total k p cs A). Qed.
Lemma peek_any_delim : forall k p, ready p -> peek (peek_delim k) p <> None.
Proof. intros k p R. destruct (ready_ahead p R) as (cs & A). exact (peek_delim_total k p cs A). Qed.
Definition anb_post (cursors : list cursor) (p : parser) (x : nth_t) (q : parser) : Prop := exists a b used, x = NthAnb a b (cursors ++ used) /\ spent p q used /\ ready q.
Lemma b_number_wp : forall a s cursors p, ready p -> wp (nth_b_number a s cursors) p (anb_post cursors p).
Proof.
  intros a s cursors p R. unfold wp, nth_b_number. pose proof (peek_any_kind K_Number p R) as N. destruct (peek (peek_kind K_Number) p) as [[] |]; [| | congruence].
  - apply wp_bind. apply kind_wp; [discriminate | exact R |]. intros c q K T Rq. destruct (is_float _); [exact I |]. destruct (_ && _); [exact I |]. apply wp_ret. eexists _, _, [c]. auto.
  - destruct (ready_ahead p R) as (cs & A). exists a, 0%Z, []. rewrite app_nil_r. split; [reflexivity |]. split; [exact (spent_refl p cs A) | exact R].
Qed.
Lemma anb_step : forall p q c cursors x r, spent p q [c] -> anb_post (cursors ++ [c]) q x r -> anb_post cursors p x r.
Proof. intros p q c cursors x r T (a & b & used & -> & T2 & R). exists a, b, (c :: used). rewrite <- app_assoc. split; [reflexivity |]. split; [exact (spent_cons _ _ _ _ _ T T2) | exact R]. Qed.
Lemma b_sign_wp : forall a s cursors p, ready p -> wp (nth_b_sign a s cursors) p (anb_post cursors p).
Proof.
  intros a s cursors p R. unfold wp, nth_b_sign. destruct (s =? 0)%Z; [| apply b_number_wp; exact R]. pose proof (peek_any_delim 43 p R) as N. destruct (peek (peek_delim 43) p) as [[] |]; [| | congruence].
  - apply wp_bind. apply delim_wp; [exact R |]. intros c q D T Rq. eapply wp_imp; [apply b_number_wp; exact Rq |]. intros x r. exact (anb_step p q c cursors x r T).
  - pose proof (peek_any_delim 45 p R) as N'. destruct (peek (peek_delim 45) p) as [[] |]; [| apply b_number_wp; exact R | congruence].
    apply wp_bind. apply delim_wp; [exact R |]. intros c q D T Rq. eapply wp_imp; [apply b_number_wp; exact Rq |]. intros x r. exact (anb_step p q c cursors x r T).
Qed.
Lemma nth_a_wp : forall c cursors p, ready p -> (kind_of c = K_Number \/ kind_of c = K_Dimension \/ kind_of c = K_Ident -> exists v, parse_str_lower c (lsrc (plex p)) = Some v) ->
  wp (nth_a c cursors) p (anb_post cursors p).
Proof.
  intros c cursors p R Rd. unfold nth_a. destruct (negb _) eqn:K; [exact I |]. destruct (is_float _); [exact I |].
  destruct Rd as (v & E). { apply negb_false_iff in K. unfold kind_of. destruct (tkind (ctok c)); try discriminate; auto. }
  apply wp_bind. unfold wp at 1, p_str_lower. rewrite E. destruct (text_eqb _ _); [apply b_sign_wp; exact R |].
  destruct (if is_int (ctok c) then _ else _) as (a & [| ch rest]); [exact I |]. clear K. destruct (negb ((ch =? 110) || (ch =? 78))); [exact I |]. destruct (parse_i32 rest) as [b |].
  - apply wp_ret. destruct (ready_ahead p R) as (cs & A). exists a, b, []. rewrite app_nil_r. split; [reflexivity |]. split; [exact (spent_refl p cs A) | exact R].
  - destruct rest; [apply b_sign_wp; exact R | exact I].
Qed.
Lemma readable_in : forall p cs c, ready p -> ahead (plex p) cs -> In c cs -> kind_of c = K_Number \/ kind_of c = K_Dimension \/ kind_of c = K_Ident -> exists v, parse_str_lower c (lsrc (plex p)) = Some v.
Proof.
  intros p cs c (U & Sg) A Ic [K | [K | K]]; [apply (Sg cs c A Ic); auto | apply (Sg cs c A Ic); auto |]. destruct U as (_ & (_ & NR) & _). destruct (NR cs c A Ic) as (_ & _ & H); [rewrite K; now left | exact H].
Qed.
(* [Any] takes the end of the file too *)
Lemma any_run : forall p cs, ahead (plex p) cs -> exists c q, Nth.parse_any p = Some (Ok c, q) /\ moved 0 p q /\ ((c = eof_cursor p /\ ahead (plex q) []) \/ In c cs /\ took p q [c] /\ peek_next p = Some c).
Proof.
  intros p cs A. unfold Nth.parse_any, parse_single, peek. destruct (skip_split (pskip p) cs) as (sk & rest & -> & F & St). rewrite (peek_next_spec p sk rest A F St).
  destruct (next_spec p sk rest A F St) as (q & N & _ & A' & _). rewrite N. eexists _, _. split; [reflexivity |]. split; [exact (moved_next p _ _ q A N) |].
  destruct rest as [| d rest]; [left; split; [reflexivity | exact A'] |]. right. split; [apply mid_in |]. split; [| reflexivity]. destruct (next_token p sk d rest A F St) as (q' & N' & T & _). cbn [hd_or_eof] in N. rewrite N in N'. injection N' as <-. exact T.
Qed.
Lemma nth_anb_wp : forall p0 p c, ready p0 -> spent p0 p [c] -> wp (nth_anb c) p (fun x q => exists a b r, x = NthAnb a b (c :: r) /\ spent p0 q (c :: r) /\ ready q).
Proof.
  intros p0 p c R0 T. pose proof (ready_spent _ _ _ R0 T) as R. destruct (ready_ahead p R) as (cs & A). destruct (ready_ahead p0 R0) as (cs0 & A0). unfold wp, nth_anb.
  assert (Ic : In c cs0). { destruct T as (u & new & rest & B & _ & M & _). rewrite (ahead_det _ _ B _ A0). apply in_or_app. left.
    assert (G : forall (x y z : list cursor), merged x y z -> forall d, In d x -> In d z) by (intros x y z HM; induction HM; cbn; intuition). apply (G _ _ _ M). now left. }
  destruct (tok_is_char (ctok c) 43).
  - destruct (any_run (set_skip p KS_NONE) cs A) as (c2 & q & -> & M & O). assert (Mq : moved 0 p (set_skip q (pskip p))) by (apply moved_in_skip with (s := KS_NONE); exact M).
    destruct O as [(-> & _) | (I2 & T2 & _)].
    + unfold nth_a. cbn. exact I.
    + apply raw_spent in T2. pose proof (ready_spent _ _ _ R T2) as R2. pose proof (spent_cons _ _ _ _ _ T T2) as T12.
      eapply wp_imp; [apply nth_a_wp; [exact R2 |]; rewrite (spent_src _ _ _ T2); exact (readable_in p cs c2 R A I2) |]. cbv beta. intros x q' (a & b & used & -> & T3 & R3). exists a, b, (c2 :: used). split; [reflexivity |].
      split; [exact (spent_trans _ _ _ _ _ T12 T3) | exact R3].
  - eapply wp_imp; [apply nth_a_wp; [exact R |]; rewrite (spent_src _ _ _ T); exact (readable_in p0 cs0 c R0 A0 Ic) |]. cbv beta. intros x q' (a & b & used & -> & T3 & R3). exists a, b, used. split; [reflexivity |].
    split; [exact (spent_trans _ _ _ _ _ T T3) | exact R3].
Qed.
Lemma nth_wp : forall p (Q : nth_t -> parser -> Prop), ready p -> (forall x q, nth_phrase (lsrc (plex p)) x -> spent p q (nth_cursors x) -> ready q -> Q x q) -> wp parse_nth p Q.
Proof.
  intros p Q R H. destruct (ready_ahead p R) as (cs & A). unfold wp, parse_nth.
  assert (Anb : forall q c, spent p q [c] -> wp (nth_anb c) q Q).
  { intros q c T. eapply wp_imp; [exact (nth_anb_wp p q c R T) |]. cbv beta. intros x r (a & b & u & -> & T2 & R2). apply H; [| exact T2 | exact R2]. exists c, u. reflexivity. }
  pose proof (peek_any_kind K_Number p R) as N. destruct (peek (peek_kind K_Number) p) as [[] |] eqn:P1; [| | congruence].
  { apply wp_pmap. destruct (single_run peek_css_int p cs A) as (r & q & E & M & O); [discriminate | discriminate |]. unfold wp, parse_css_int. rewrite E. destruct r as [c | e]; [| exact I].
    destruct (O c eq_refl) as (T & _ & K & Ic). apply took_spent in T. apply some_inj, andb_true_iff in K. destruct K as (K1 & K2). apply H; [| exact T | exact (ready_spent _ _ _ R T)].
    split; [exact (proj2 (tok_is_in p cs c K_Number A (or_intror Ic) ltac:(discriminate) K1)) | exact K2]. }
  pose proof (peek_any_kind K_Ident p R) as N2. destruct (peek (peek_kind K_Ident) p) as [[] |] eqn:P2; [| | congruence].
  - apply wp_bind. eapply kind_wp_at; [discriminate | exact R | exact A |]. intros c q sk rest K T Rq -> F A' Pk. destruct (readable_in p _ c R A (mid_in _ _ _ _)) as (v & Ev); [auto |].
    apply wp_bind. unfold wp at 1, p_str_lower. rewrite (spent_src _ _ _ T), Ev. destruct (text_eqb v _) eqn:E1.
    { apply wp_ret, H; [| exact T | exact Rq]. apply text_eqb_spec in E1. subst v. split; [exact K | exact Ev]. }
    clear E1. destruct (text_eqb v _) eqn:E2.
    { apply wp_ret, H; [| exact T | exact Rq]. apply text_eqb_spec in E2. subst v. split; [exact K | exact Ev]. }
    now apply Anb.
  - destruct (any_run p cs A) as (c & q & E & M & O). apply wp_bind. unfold wp at 1. rewrite E. destruct O as [(-> & _) | (Ic & T & _)].
    + exact I.
    + apply Anb. now apply took_spent.
Qed.

(* ---- languages and parts ---- *)
Lemma spent_shorter : forall p q l cs, spent p q l -> (1 <= length l)%nat -> ahead (plex p) cs -> exists cs', ahead (plex q) cs' /\ (length cs' < length cs)%nat.
Proof. intros p q l cs T L A. destruct (spent_len _ _ _ _ T A) as (cs' & A' & Le). exists cs'. split; [exact A' | lia]. Qed.
Lemma lang_loop_wp : forall n p cs, ready p -> ahead (plex p) cs -> (length cs < n)%nat ->
  wp (lang_loop n) p (fun l q => l <> [] /\ Forall (fun s => (kind_of (fst s) = K_Ident \/ kind_of (fst s) = K_String) /\ opt_kind K_Comma (snd s)) l /\ spent p q (flat_map (fun s => with_comma [fst s] (snd s)) l) /\ ready q).
Proof.
  induction n as [| n IH]; intros p cs R A L; [lia |]. cbn [lang_loop]. apply wp_bind. unfold parse_lang_value. apply wp_bind.
  assert (V : wp (or_peek (peek_kind K_Ident) (parse_kind K_Ident) (parse_kind K_String)) p (fun c q => (kind_of c = K_Ident \/ kind_of c = K_String) /\ spent p q [c] /\ ready q)).
  { apply wp_or; [exact (peek_any_kind _ p R) | |]; intros _; apply kind_wp; try discriminate; try exact R; intros c q K T Rq; auto. }
  eapply wp_imp; [exact V |]. cbv beta. intros c q (K & T & Rq). apply wp_pmap. apply if_kind_wp; [discriminate | exact Rq |]. intros o q2 Ko T2 R2 _.
  pose proof (spent_cons _ _ _ _ _ T T2) as T12. destruct (spent_shorter _ _ _ cs T12 ltac:(cbn [length]; lia) A) as (cs2 & A2 & L2).
  apply wp_or; [exact (peek_any_kind _ q2 R2) | |]; intros _.
  - apply wp_ret. split; [discriminate |]. split; [constructor; [exact (conj K Ko) | constructor] |]. split; [| exact R2]. cbn [flat_map fst snd]. rewrite app_nil_r. exact T12.
  - apply wp_pmap. eapply wp_imp; [apply (IH q2 cs2 R2 A2); lia |]. cbv beta. intros l q3 (_ & F & T3 & R3). split; [discriminate |]. split; [constructor; auto |]. split; [| exact R3].
    exact (spent_trans _ _ _ _ _ T12 T3).
Qed.
Lemma part_loop_wp : forall n p cs, ready p -> ahead (plex p) cs -> (length cs < n)%nat -> wp (part_loop n) p (fun l q => Forall (fun c => kind_of c = K_Ident) l /\ spent p q l /\ ready q).
Proof.
  induction n as [| n IH]; intros p cs R A L; [lia |]. cbn [part_loop]. apply wp_or; [exact (peek_any_kind _ p R) | |]; intros _.
  - apply wp_ret. split; [constructor |]. split; [exact (spent_refl p cs A) | exact R].
  - apply wp_bind. apply kind_wp; [discriminate | exact R |]. intros c q K T Rq. destruct (spent_shorter _ _ _ cs T (le_n _) A) as (cs2 & A2 & L2). apply wp_pmap. eapply wp_imp; [apply (IH q cs2 Rq A2); lia |].
    cbv beta. intros l q2 (F & T2 & R2). split; [now constructor |]. split; [exact (spent_cons _ _ _ _ _ T T2) | exact R2].
Qed.
