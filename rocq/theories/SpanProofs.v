From Coq Require Import ZifyBool ZifyNat ZifyN.
From Verif Require Import Chars Lexer Span SpecSpan LexBase.
Open Scope N_scope.
Open Scope list_scope.
Ltac Zify.zify_post_hook ::= Z.div_mod_to_equations.

Lemma contains_spec : forall s t, span_contains s t = true <-> within t s.
Proof. intros s t. unfold span_contains, within. lia. Qed.
Lemma contains_positions : forall s t, sstart t < send t -> (span_contains s t = true <-> forall o, in_span t o -> in_span s o).
Proof.
  intros s t Ht. rewrite contains_spec. unfold within, in_span. split; [intros; lia |]. intro H. split.
  - specialize (H (sstart t) ltac:(lia)). lia.
  - specialize (H (send t - 1) ltac:(lia)). lia.
Qed.
Lemma contains_refl : forall s, span_contains s s = true.
Proof. intros. unfold span_contains. lia. Qed.
Lemma contains_trans : forall a b c, span_contains a b = true -> span_contains b c = true -> span_contains a c = true.
Proof. intros a b c. unfold span_contains. lia. Qed.
Lemma contains_antisym : forall a b, span_contains a b = true -> span_contains b a = true -> a = b.
Proof. intros [a a'] [b b']. unfold span_contains. cbn [sstart send]. intros. f_equal; lia. Qed.
Lemma add_lub : forall a b c, span_contains c (span_add a b) = true <-> span_contains c a = true /\ span_contains c b = true.
Proof.
  intros a b c. unfold span_contains, span_add. cbn [sstart send].
  destruct (sstart a <? sstart b) eqn:E1, (send b <? send a) eqn:E2; lia.
Qed.
Lemma add_ok : forall a b, span_ok a -> span_ok b -> span_ok (span_add a b).
Proof. intros a b. unfold span_ok, span_add. cbn [sstart send]. destruct (sstart a <? sstart b) eqn:E1, (send b <? send a) eqn:E2; lia. Qed.
Lemma add_left : forall a b, span_contains (span_add a b) a = true.
Proof. intros a b. exact (proj1 (proj1 (add_lub a b (span_add a b)) (contains_refl _))). Qed.
Lemma add_right : forall a b, span_contains (span_add a b) b = true.
Proof. intros a b. exact (proj2 (proj1 (add_lub a b (span_add a b)) (contains_refl _))). Qed.
Lemma add_comm : forall a b, span_add a b = span_add b a.
Proof. intros a b. apply contains_antisym; apply add_lub; split; first [apply add_left | apply add_right]. Qed.
Lemma add_assoc : forall a b c, span_add a (span_add b c) = span_add (span_add a b) c.
Proof.
  intros a b c. pose proof (proj1 (add_lub a (span_add b c) _) (contains_refl _)) as (A & B). apply add_lub in B.
  pose proof (proj1 (add_lub (span_add a b) c _) (contains_refl _)) as (C & D). apply add_lub in C.
  apply contains_antisym; repeat (apply add_lub; split); tauto.
Qed.
Lemma add_idem : forall a, span_add a a = a.
Proof. intros a. apply contains_antisym; [apply add_left | apply add_lub; split; apply contains_refl]. Qed.
Lemma len_spec : forall s, span_ok s -> exists n, span_len s = Some n /\ sstart s + n = send s /\ (span_is_empty s = true <-> n = 0) /\ (span_is_empty s = true <-> forall o, ~ in_span s o).
Proof.
  intros s H. unfold span_len, span_ok, span_is_empty, in_span in *. destruct (send s <? sstart s) eqn:E; [lia |]. eexists. split; [reflexivity |]. split; [lia |]. split; [lia |].
  split; [intros; lia |]. intro Q. specialize (Q (sstart s)). lia.
Qed.
Lemma with_end_spec : forall s e, sstart s <= e -> sstart (with_end s e) = sstart s /\ send (with_end s e) = e /\ span_ok (with_end s e).
Proof. intros. unfold with_end, span_ok. cbn. auto. Qed.
Lemma cursor_span_spec : forall o t, o <> DUMMY_OFFSET -> cspan (Cursor o t) = as_span o t /\ cend (Cursor o t) = o + tlen t /\ span_len (cspan (Cursor o t)) = Some (tlen t).
Proof.
  intros o t H. unfold cspan, as_span, cend, span_new, span_len. cbn [coff ctok sstart send]. replace (o =? DUMMY_OFFSET) with false by lia.
  split; [reflexivity |]. split; [reflexivity |]. destruct (o + tlen t <? o) eqn:E; [lia |]. f_equal. lia.
Qed.
Lemma cursor_span_text : forall pre p r t, tlen t = blen p -> blen pre <> DUMMY_OFFSET -> str_slice (Cursor (blen pre) t) (pre ++ p ++ r) = Some p.
Proof.
  intros pre p r t L D. unfold str_slice, span_contents. rewrite (proj1 (cursor_span_spec _ _ D)). unfold as_span, span_new. cbn [sstart send]. rewrite L.
  apply slice_app.
Qed.
Lemma dummy_span : forall t, span_len (cspan (Cursor DUMMY_OFFSET t)) = Some 0 /\ cspan (Cursor DUMMY_OFFSET t) = SPAN_DUMMY.
Proof. intro t. split; reflexivity. Qed.

(* the column reached after reading p from column col *)
Fixpoint col_after (p : text) (col : N) : N := match p with [] => col | c :: p => col_after p (if c =? 10 then 0 else col + 1) end.
Lemma col_after_nonl : forall q col, ~ In 10 q -> col_after q col = col + N.of_nat (length q).
Proof. intro q. induction q as [| c q IH]; intros col H; cbn [col_after length]; [lia |]. cbn [In] in H. replace (c =? 10) with false by lia. rewrite IH by tauto. lia. Qed.
Lemma col_after_app : forall p q col, col_after (p ++ q) col = col_after q (col_after p col).
Proof. intro p. induction p as [| c p IH]; intros q col; [reflexivity |]. apply IH. Qed.
Lemma col_after_last : forall p q, last_line p q -> col_after p 0 = N.of_nat (length q).
Proof.
  intros p q ([-> | (a & ->)] & H); [now rewrite col_after_nonl |]. rewrite col_after_app. cbn [col_after]. change (10 =? 10) with true. cbv iota. rewrite col_after_nonl by auto. lia.
Qed.
Lemma blen0 : forall p, blen p = 0 -> p = [].
Proof. intros [| c p] H; [reflexivity |]. cbn [blen] in H. unfold len_utf8 in H. destruct (c <? 128), (c <? 2048), (c <? 65536); lia. Qed.
Lemma line_col_spec : forall p r line col, line_col_loop (p ++ r) (blen p) line col = Some (line + count_newlines p, col_after p col).
Proof.
  intro p. induction p as [| c p IH]; intros r line col.
  - destruct r; unfold count_newlines; cbn [app blen line_col_loop count_occ col_after]; [|change (0 =? 0) with true; cbv iota]; do 2 f_equal; lia.
  - cbn [app line_col_loop]. destruct (blen (c :: p) =? 0) eqn:E; [apply N.eqb_eq in E; apply blen0 in E; discriminate |].
    cbn [blen]. unfold LF. cbn [col_after]. unfold count_newlines. cbn [count_occ]. destruct (c =? 10) eqn:Q.
    + destruct (N.eq_dec c 10); [| lia]. destruct (len_utf8 c + blen p <? len_utf8 c) eqn:E2; [lia |]. replace (len_utf8 c + blen p - len_utf8 c) with (blen p) by lia.
      rewrite IH. unfold count_newlines. do 2 f_equal. lia.
    + destruct (N.eq_dec c 10); [lia |]. destruct (len_utf8 c + blen p <? len_utf8 c) eqn:E2; [lia |]. replace (len_utf8 c + blen p - len_utf8 c) with (blen p) by lia.
      rewrite IH. reflexivity.
Qed.
Lemma last_line_exists : forall p, exists q, last_line p q.
Proof.
  intro p. induction p as [| c p (q & [-> | (a & ->)] & H)].
  - exists []. split; [now left | intros []].
  - destruct (N.eq_dec c 10) as [-> | Hc].
    + exists q. split; [right; now exists [] | exact H].
    + exists (c :: q). split; [now left |]. intros [E | I]; [congruence | contradiction].
  - exists q. split; [right; now exists (c :: a) | exact H].
Qed.
Lemma line_and_column_spec : forall p r q e, last_line p q -> line_and_column (Span (blen p) e) (p ++ r) = Some (count_newlines p, N.of_nat (length q)).
Proof. intros p r q e H. unfold line_and_column. cbn [sstart]. rewrite line_col_spec, (col_after_last _ _ H). do 2 f_equal. Qed.
