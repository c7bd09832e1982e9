(* What a trait asks of the implementor's own parsers, stated for parsers with at most n tokens ahead: a recursive
   implementor may use the trait's method on fewer tokens. *)
From Verif Require Import Traits SpecParser SpecSyntax.
Open Scope N_scope.
Open Scope list_scope.

(* the text of the names ahead can be read *)
Definition is_name (k : kind) : Prop := In k [K_Ident; K_Function; K_AtKeyword; K_Hash].
Definition names_readable (p : parser) : Prop := forall cs c, ahead (plex p) cs -> In c cs -> is_name (kind_of c) ->
  (forall w, exists b, eq_ignore_ascii_case c (lsrc (plex p)) w = Some b) /\ (exists v, parse_str c (lsrc (plex p)) = Some v) /\ (exists v, parse_str_lower c (lsrc (plex p)) = Some v).
(* a parser in its normal state *)
Definition usable (p : parser) : Prop := skips_comments p /\ names_readable p.

(* [m] returns, moves forwards only and puts the parser's settings back; if it succeeds it has consumed at least k tokens *)
Definition well_run {A} (k : nat) (m : P A) (p : parser) : Prop :=
  exists r q, m p = Some (r, q) /\ moved (match r with Ok _ => k | Err _ => 0 end) p q.
Definition well_behaving {A} (k n : nat) (m : P A) : Prop := forall p cs, usable p -> ahead (plex p) cs -> (length cs <= n)%nat -> well_run k m p.
(* a Peek implementation returns *)
Definition peeks (n : nat) (k : peeker) : Prop := forall p cs, usable p -> ahead (plex p) cs -> (length cs <= n)%nat -> peek k p <> None.
