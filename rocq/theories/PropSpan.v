(* Theorems for C24 (spans) and C25 (line and column). *)
From Coq Require Import String.
From Verif Require Import Lexer Span SpecSpan SpecTrace SpanProofs.
Open Scope N_scope.
Open Scope list_scope.

(* ---- C24 ---- *)
Theorem C24_contains_is_inclusion_of_positions : forall s t, sstart t < send t -> (span_contains s t = true <-> forall o, in_span t o -> in_span s o).
Proof. exact contains_positions. Qed.
Print Assumptions C24_contains_is_inclusion_of_positions.
Theorem C24_contains_is_a_partial_order : (forall a, span_contains a a = true) /\
  (forall a b c, span_contains a b = true -> span_contains b c = true -> span_contains a c = true) /\
  (forall a b, span_contains a b = true -> span_contains b a = true -> a = b).
Proof. exact (conj contains_refl (conj contains_trans contains_antisym)). Qed.
Print Assumptions C24_contains_is_a_partial_order.
(* the sum is the least span containing both *)
Theorem C24_sum_is_least_upper_bound : forall a b, within a (span_add a b) /\ within b (span_add a b) /\ (forall c, within a c -> within b c -> within (span_add a b) c) /\
  (span_ok a -> span_ok b -> span_ok (span_add a b)).
Proof.
  intros a b. split; [apply contains_spec, add_left |]. split; [apply contains_spec, add_right |]. split; [| apply add_ok].
  intros c A B. apply contains_spec. apply add_lub. split; now apply contains_spec.
Qed.
Print Assumptions C24_sum_is_least_upper_bound.
Theorem C24_sum_laws : (forall a b, span_add a b = span_add b a) /\ (forall a b c, span_add a (span_add b c) = span_add (span_add a b) c) /\ (forall a, span_add a a = a).
Proof. exact (conj add_comm (conj add_assoc add_idem)). Qed.
Print Assumptions C24_sum_laws.
Theorem C24_len_and_is_empty : forall s, span_ok s -> exists n, span_len s = Some n /\ sstart s + n = send s /\ (span_is_empty s = true <-> n = 0) /\
  (span_is_empty s = true <-> forall o, ~ in_span s o).
Proof. exact len_spec. Qed.
Print Assumptions C24_len_and_is_empty.
Theorem C24_with_end : forall s e, sstart s <= e -> sstart (with_end s e) = sstart s /\ send (with_end s e) = e /\ span_ok (with_end s e).
Proof. exact with_end_spec. Qed.
Print Assumptions C24_with_end.
Theorem C24_cursor_spans : forall o t, o <> DUMMY_OFFSET -> cspan (Cursor o t) = as_span o t /\ cend (Cursor o t) = o + tlen t /\ span_len (cspan (Cursor o t)) = Some (tlen t).
Proof. exact cursor_span_spec. Qed.
Print Assumptions C24_cursor_spans.
Theorem C24_cursor_text : forall pre p r t, tlen t = blen p -> blen pre <> DUMMY_OFFSET -> str_slice (Cursor (blen pre) t) (pre ++ p ++ r) = Some p.
Proof. exact cursor_span_text. Qed.
Print Assumptions C24_cursor_text.
(* a dummy span is not neutral for +: it makes the sum reach to the end of the offset space *)
Theorem C24_dummy_is_not_neutral_refuted : exists s, span_ok s /\ span_add s SPAN_DUMMY <> s /\ send (span_add s SPAN_DUMMY) = DUMMY_OFFSET.
Proof. exists (Span 2 5). split; [discriminate |]. split; [discriminate | reflexivity]. Qed.
Print Assumptions C24_dummy_is_not_neutral_refuted.
Example C24_case : span_add (Span 2 5) (Span 4 9) = Span 2 9 /\ span_contains (Span 2 9) (Span 4 9) = true /\ span_contains (Span 2 5) (Span 4 9) = false.
Proof. repeat split. Qed.

(* ---- C25 ---- *)
Theorem C25_line_and_column : forall p r q e, last_line p q -> line_and_column (Span (blen p) e) (p ++ r) = Some (count_newlines p, N.of_nat (List.length q)).
Proof. exact line_and_column_spec. Qed.
Print Assumptions C25_line_and_column.
Theorem C25_last_line_exists : forall p, exists q, last_line p q.
Proof. exact last_line_exists. Qed.
Print Assumptions C25_last_line_exists.
(* inside a character the running offset underflows: panic in debug builds, wrap-around in release *)
Theorem C25_inside_a_character_refuted : exists src s, src = [233; 97] /\ sstart s = 1 /\ line_and_column s src = None.
Proof. exists [233; 97], (Span 1 2). repeat split. Qed.
Print Assumptions C25_inside_a_character_refuted.
Example C25_case : let p := [97; 10; 233; 98] in last_line p [233; 98] /\ line_and_column (Span (blen p) 9) (p ++ chars "xyz") = Some (1, 2).
Proof. split; [split; [right; exists [97]; reflexivity | cbn; intuition discriminate] | reflexivity]. Qed.
