(* Specification of spans and of line/column, independent of span.rs. *)
From Verif Require Import Chars Span.
Open Scope N_scope.
Open Scope list_scope.

(* a byte position lies in a span *)
Definition in_span (s : span) (o : N) : Prop := sstart s <= o < send s.
Definition span_ok (s : span) : Prop := sstart s <= send s.
Definition within (t s : span) : Prop := sstart s <= sstart t /\ send t <= send s.
(* number of newline characters of a text; its last line *)
Definition count_newlines (p : text) : N := N.of_nat (count_occ N.eq_dec p 10).
Definition last_line (p q : text) : Prop := (p = q \/ exists a, p = a ++ 10 :: q) /\ ~ In 10 q.
